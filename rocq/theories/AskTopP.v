(** transform and transmute of maps, whatever the client's code answers. *)
From Coq Require Import NArith Arith List Bool Lia ZifyBool ZifyN ZifyNat Permutation.
From Verif Require Import Base Words WordsP Flag FlagP Bia BiaP Node Spec SpecP Inv NodeP InsertP Api ApiP Trans Transform Profile Eff EffP EffTP EffApi EffOrdP
  Ask SpecAsk AskP AskHashP AskT SpecAskT JoinP LoopP TransformP AskTP AskTTP AskMP.
Import ListNotations.
Open Scope N_scope.

(** * Loose and placed maps are shaped ones *)
Section Loose.
Context {E : Env} {K V : Type}.

Definition any (d p : N) (es : list (K * V)) : Prop := True.
Definition useful (d p : N) : Prop := usable d.

Lemma loose_shaped d n : loose d n -> forall p, shaped any useful d p n.
Proof.
  intros H. induction H as [d s|d l Hl|d bits values x HU Hok Hne Hx Hch IH]; intros p.
  - constructor. exact I.
  - constructor; [assumption|exact I].
  - constructor; try assumption. intros i c Hg. apply IH. eapply getv_in. eassumption.
Qed.
Lemma shaped_loose d p n : shaped any useful d p n -> loose d n.
Proof.
  intros H. induction H as [d p s _|d p l Hl _|d p bits values x HU Hok Hne Hx Hch IH]; [constructor|constructor; assumption|].
  constructor; try assumption. intros c Hc. destruct (in_values_get _ _ _ _ Hok Hc) as (i & _ & Hg). eapply IH. eassumption.
Qed.

Context {KK : Key K}.
Definition alike (d p : N) (es : list (K * V)) : Prop := exists h, (forall e, In e es -> hash (ecls e) = h) /\ pre d h = p.
Definition within (d p : N) : Prop := off d < hbits /\ p < 2 ^ off d.

Lemma placed_shaped d p n : placed d p n -> shaped alike within d p n.
Proof.
  intros H. induction H as [d p s Hs|d p l h H1 H2 H3|d p bits values x Ho Hp Hok Hne Hx Hch IH].
  - constructor. exists (hashk (s_key s)). split; [|assumption]. intros e [<-|[]]. reflexivity.
  - constructor; [assumption|]. exists h. auto.
  - constructor; try assumption. split; assumption.
Qed.
Lemma shaped_placed d p n : shaped alike within d p n -> placed d p n.
Proof.
  intros H. induction H as [d p s (h & H1 & H2)|d p l Hl (h & H1 & H2)|d p bits values x [Ho Hp] Hok Hne Hx Hch IH].
  - constructor. rewrite <- H2. f_equal. apply (H1 (s_key s, s_value s)). left. reflexivity.
  - econstructor; eassumption.
  - constructor; assumption.
Qed.
Lemma alike_up d p i l : within d p -> alike (d + 1) (p + i * 2 ^ off d) l -> alike d p l.
Proof. intros [_ Hp] (h & H1 & H2). exists h. split; [assumption|]. apply (pre_idx d h p i Hp H2). Qed.

Lemma within_0 : within 0 0.
Proof. unfold within, off, hbits. pose proof (max_ones_ge hw). cbn. lia. Qed.
Lemma usable_0 : usable 0.
Proof. apply placed_usable, within_0. Qed.

(** The order of the calls. *)
Lemma back_perm (n : mnode K V) : Permutation (back n) (m_visit n).
Proof.
  induction n as [bits values x IH|l|s] using mnode_ind'; cbn [back m_visit bvalues]; [|symmetry; apply Permutation_rev|reflexivity].
  induction IH as [|c cs Hc _ IH]; [reflexivity|]. cbn [map concat]. apply Permutation_app; assumption.
Qed.

Lemma back_backwards (n : mnode K V) : forall d p, placed d p n -> back n = backwards (m_visit n).
Proof.
  induction n as [bits values x IH|l|s] using mnode_ind'; intros d p H.
  - rewrite Forall_forall in IH. inversion H as [| |? ? ? ? ? Ho Hp Hok Hne Hx Hch]; subst.
    rewrite (back_C _ _ _ Hok), (visit_C _ _ _ _ Hok), backwards_slots; [|apply range_nodup|].
    + apply flat_map_ext_in. intros i _. destruct (getv bits values i) as [c|] eqn:Hg; [|reflexivity].
      cbn [oback ovisit]. eapply IH; [eapply getv_in; eassumption|apply Hch; eassumption].
    + intros i j a b Hij Ha Hb Hh.
      destruct (getv bits values i) as [c|] eqn:Hi; [|destruct Ha]. destruct (getv bits values j) as [c'|] eqn:Hj; [|destruct Hb].
      cbn [ovisit] in Ha, Hb. pose proof (placed_keys _ _ _ (Hch _ _ Hi) a Ha) as H1. pose proof (placed_keys _ _ _ (Hch _ _ Hj) b Hb) as H2.
      apply (pre_idx d _ p i Hp) in H1. apply (pre_idx d _ p j Hp) in H2. apply Hij. destruct H1 as [_ <-], H2 as [_ <-]. rewrite Hh. reflexivity.
  - inversion H as [|? ? ? h H1 H2 H3|]; subst. cbn [back m_visit]. unfold backwards. rewrite (runs_back_same h) by exact H2. rewrite app_nil_r. reflexivity.
  - reflexivity.
Qed.

End Loose.

(** * transform *)
Section Prims.
Context {K V T R : Type}.
Notation A := (treply K V T R).
Context (good : event (A := A) -> Prop).

Lemma prim_ask (q : tcalls K V R) : prim good op_asked (PAsk (A := A) q PRet) (match q with TOp x => [x] | _ => [] end) (fun y e => e = answer q y).
Proof.
  intros tr o He _. destruct He as [(a & t & -> & -> & ->)|[-> ->]]; cbn [flat_map]; rewrite app_nil_r.
  - split; [reflexivity|]. exists (answer q a). auto.
  - split; [reflexivity|]. exists q. left. reflexivity.
Qed.
Lemma prim_weak {Y} (p : prog A Y) es (it it' : Y -> event (A := A) -> Prop) : (forall y e, good e -> it y e -> it' y e) -> prim good op_asked p es it -> prim good op_asked p es it'.
Proof.
  intros H Hp tr o He Hg. destruct (Hp tr o He Hg) as [H1 H2]. split; [assumption|]. destruct o; try assumption.
  destruct H2 as (e & -> & Hi). exists e. split; [reflexivity|]. apply H; [|assumption]. inversion Hg. assumption.
Qed.
End Prims.

Section Transform.
Context {E : Env} {K V R : Type}.
Notation A := (treply K V (vres V R) R).
Notation trace := (list (event (A := A))).
Implicit Types tr t : trace.

Section Any.
Context (good : event (A := A) -> Prop) (leaf : N -> N -> list (K * V) -> Prop) (deep : N -> N -> Prop).
Context (Hleaf : forall d p es is outs t, leaf d p es -> map fst is = es -> Forall2 (vbecomes t) is outs -> Forall good t -> leaf d p (concat outs)).
Context (Hup : forall d p i l, deep d p -> leaf (d + 1) (p + i * 2 ^ off d) l -> leaf d p l).
Context (Hnew : deep 0 0).

Lemma vmono t t' (i : (K * V) * vres V R) out : (forall e, In e t -> In e t') -> vbecomes t i out -> vbecomes t' i out.
Proof.
  intros H. destruct i as [[k v] [r|w r|r]]; cbn; [|intros (k' & H1 & ->); eexists; split; [apply H; eassumption|reflexivity]|auto].
  intros [->|(k' & v' & H1 & H2 & ->)]; [left; reflexivity|right]. exists k', v'. split; [apply H; exact H1|]. split; [apply H; exact H2|reflexivity].
Qed.

Lemma new_shaped {K' V'} (leaf' : N -> N -> list (K' * V') -> Prop) : shaped leaf' deep 0 0 map_new.
Proof. constructor; [exact Hnew|apply okv_nil|auto|reflexivity|]. intros i c. rewrite getv_nil. discriminate. Qed.

Lemma ask_transform_shaped st (m : trie K V) : shaped leaf deep 0 0 m ->
  gs good (ask_transform st TwClosure m) (ends op_asked (back m) (fun tr y =>
    match y with (m', r, o) =>
      shaped leaf deep 0 0 m' /\ (o = Self -> m' = m) /\
      exists is outs, settled see vred vcost tr is r /\ map fst is = map_visit m /\ Forall2 (vbecomes tr) is outs /\ map_visit m' = concat outs /\
        o = (if forallb kept is then Self else Other) /\ (o = Self -> clones see tr = [])
    end)).
Proof.
  intros Hm. unfold ask_transform. rewrite <- (app_nil_r (back m)). cbn [tw_op]. eapply ends_bind.
  - eapply (am_transform_ends good see op_asked inl inr (fun e k k' => e = answer (A := A) (TKey k) k') (fun e v v' => e = answer (A := A) (TValue v) v') vbecomes leaf deep);
      [| | | | | | | | | |exact Hleaf|exact Hup|exact Hm].
    + eapply prim_weak; [|apply (prim_ask good TDefault)]. intros y e _ ->. reflexivity.
    + intros a b. eapply prim_weak; [|apply (prim_ask good (TReduce a b))]. intros y e _ ->. reflexivity.
    + intros k. eapply prim_weak; [|apply (prim_ask good (TKey k))]. intros y e _ ->. split; reflexivity.
    + intros v. eapply prim_weak; [|apply (prim_ask good (TValue v))]. intros y e _ ->. split; reflexivity.
    + intros x. eapply prim_weak; [|apply (prim_ask good (TOp x))]. intros y e _ ->. reflexivity.
    + exact vmono.
    + intros t x r. left. reflexivity.
    + intros t k v r k' v' e e' H1 -> H2 ->. right. exists k', v'. auto.
    + intros t k v w r k' e H1 ->. exists k'. auto.
    + intros t x r. reflexivity.
  - intros t y Ht [(is & outs & D1 & D2 & D3 & D4 & D5 & D6) Hsh]. apply ends_ret. rewrite app_nil_r.
    destruct y as [r|n]; cbn [tout tred tu] in *.
    + split; [apply Hsh; reflexivity|]. split; [reflexivity|]. exists is, outs. cbn [ovisit] in D4. rewrite <- D5. auto 10.
    + destruct n as [c r|l r|s r|r]; cbn [nres_trie nnode nred ovisit] in *;
        (split; [first [apply Hsh; reflexivity|apply new_shaped]|]; split; [discriminate|]; exists is, outs; rewrite <- D5; split; [exact D1|]; split; [exact D2|]; split; [exact D3|]; split; [exact D4|]; split; [reflexivity|discriminate]).
Qed.
End Any.

Lemma loose_transform st (m : trie K V) : loose 0 m ->
  gs (fun _ => True) (ask_transform st TwClosure m) (ends op_asked (back m) (fun tr y =>
    match y with (m', r, o) =>
      loose 0 m' /\ (o = Self -> m' = m) /\
      exists is outs, settled see vred vcost tr is r /\ map fst is = map_visit m /\ Forall2 (vbecomes tr) is outs /\ map_visit m' = concat outs /\
        o = (if forallb kept is then Self else Other) /\ (o = Self -> clones see tr = [])
    end)).
Proof.
  intros Hm. eapply ends_weak; [apply (ask_transform_shaped (fun _ => True) any useful); [intros; exact I|intros; exact I|apply usable_0|apply loose_shaped; assumption]|].
  intros t [[m' r] o] _ [H1 H2]. split; [eapply shaped_loose; exact H1|exact H2].
Qed.

Lemma placed_transform {KK : Key K} st (m : trie K V) m' r o tr : placed 0 0 m -> exec (ask_transform st TwClosure m) tr (Ret (m', r, o)) ->
  Forall clone_steady tr -> placed 0 0 m'.
Proof.
  intros Hm He HS. apply shaped_placed.
  refine (_ (ask_transform_shaped clone_steady alike within _ alike_up _ st m (placed_shaped _ _ _ Hm) tr _ He HS)).
  - intros (rest & _ & _ & H1 & _). exact H1.
  - intros d p es is outs t (h & H1 & H2) <- HF Hg. exists h. split; [|assumption]. intros e Hin. apply in_concat in Hin. destruct Hin as (out & Hout & Hin).
    rewrite Forall_forall in Hg.
    assert (Hk : forall k k', key_clone (T := vres V R) (R := R) (V := V) t k k' -> hashk k' = hashk k) by (intros k k' Hk; exact (Hg _ Hk)).
    assert (Hi : exists i, In i is /\ vbecomes t i out).
    { clear - HF Hout. induction HF as [|i o is outs Ho _ IH]; [destruct Hout|]. destruct Hout as [<-|Hout]; [exists i; split; [left; reflexivity|assumption]|].
      destruct (IH Hout) as (j & Hj & Hb). exists j. split; [right; assumption|assumption]. }
    destruct Hi as (i & Hi & Hb). specialize (H1 (fst i) (in_map fst _ _ Hi)). rewrite <- H1. destruct i as [[k v] [s|w s|s]]; cbn in Hb.
    + destruct Hb as [->|(k' & v' & Hk' & _ & ->)]; destruct Hin as [<-|[]]; [reflexivity|exact (Hk _ _ Hk')].
    + destruct Hb as (k' & Hk' & ->). destruct Hin as [<-|[]]. exact (Hk _ _ Hk').
    + subst out. destruct Hin.
  - apply within_0.
Qed.

Lemma ask_transform_const st (m : trie K V) w tr o : exec (ask_transform st w m) tr o ->
  match w with
  | TwClosure => True
  | TwUnchanged r => tr = [] /\ o = Ret (m, r, Self)
  | TwRemoved r => tr = [] /\ o = Ret (map_new, r, Other)
  end.
Proof.
  destruct w as [|r|r]; [auto| |]; destruct m as [[bits values x]|l|s]; try (destruct l; intros [-> ->]; auto); intros [-> ->]; auto.
Qed.

End Transform.

(** * transmute *)
Section Transmute.
Context {E : Env} {K V S X R : Type}.
Notation A := (treply K V (kres S X R) R).
Notation trace := (list (event (A := A))).
Implicit Types tr t : trace.

Section Any.
Context (good : event (A := A) -> Prop) (leafK : N -> N -> list (K * V) -> Prop) (leafS : N -> N -> list (S * X) -> Prop) (deep : N -> N -> Prop).
Context (Hleaf : forall d p es (is : list ((K * V) * kres S X R)) outs t, leafK d p es -> map fst is = es -> Forall2 (mbecomes see t) is outs -> Forall good t -> leafS d p (concat outs)).
Context (Hup : forall d p i l, deep d p -> leafS (d + 1) (p + i * 2 ^ off d) l -> leafS d p l).
Context (Hnew : deep 0 0).

Lemma ask_transmute_shaped (m : trie K V) : shaped leafK deep 0 0 m ->
  gs good (ask_transmute MwClosure m) (ends op_asked (back m) (fun tr y =>
    match y with (m', r) =>
      shaped leafS deep 0 0 m' /\
      exists is, settled see kred kcost tr is r /\ map fst is = map_visit m /\ map_visit m' = flat_map kbecomes is
    end)).
Proof.
  intros Hm. unfold ask_transmute. rewrite <- (app_nil_r (back m)). cbn [mw_op]. eapply ends_bind.
  - eapply (am_transmute_ends good see op_asked leafK leafS deep); [| | |exact Hleaf|exact Hup|exact Hm].
    + eapply prim_weak; [|apply (prim_ask good TDefault)]. intros y e _ ->. reflexivity.
    + intros a b. eapply prim_weak; [|apply (prim_ask good (TReduce a b))]. intros y e _ ->. reflexivity.
    + intros x. eapply prim_weak; [|apply (prim_ask good (TOp x))]. intros y e _ ->. reflexivity.
  - intros t n Ht [(is & outs & D1 & D2 & D3 & D4 & _) Hsh]. apply ends_ret. rewrite app_nil_r.
    assert (Ho : concat outs = flat_map kbecomes is).
    { clear - D3. induction D3 as [|i out is outs Hi _ IH]; [reflexivity|]. cbn. destruct Hi as [-> _]. rewrite IH. reflexivity. }
    rewrite Ho in D4. destruct n as [c r|l r|s r|r]; cbn [nres_trie nnode nred ovisit] in *;
      (split; [first [apply Hsh; reflexivity|apply new_shaped; exact Hnew]|]; exists is; auto).
Qed.
End Any.

Lemma loose_transmute (m : trie K V) : loose 0 m ->
  gs (fun _ => True) (ask_transmute (S := S) (X := X) (R := R) MwClosure m) (ends op_asked (back m) (fun tr y =>
    match y with (m', r) =>
      loose 0 m' /\
      exists is, settled see kred kcost tr is r /\ map fst is = map_visit m /\ map_visit m' = flat_map kbecomes is
    end)).
Proof.
  intros Hm. eapply ends_weak; [apply (ask_transmute_shaped (fun _ => True) any any useful); [intros; exact I|intros; exact I|apply usable_0|apply loose_shaped; assumption]|].
  intros t [m' r] _ [H1 H2]. split; [eapply shaped_loose; exact H1|exact H2].
Qed.

Lemma placed_transmute {KK : Key K} {KS : Key S} (m : trie K V) (m' : trie S X) r tr : placed 0 0 m -> exec (ask_transmute MwClosure m) tr (Ret (m', r)) ->
  Forall answer_steady tr -> placed 0 0 m'.
Proof.
  intros Hm He HS. apply shaped_placed.
  refine (_ (ask_transmute_shaped answer_steady alike alike within _ alike_up _ m (placed_shaped _ _ _ Hm) tr _ He HS)).
  - intros (rest & _ & _ & H1 & _). exact H1.
  - intros d p es is outs t (h & H1 & H2) <- HF Hg. exists h. split; [|assumption]. intros e Hin. apply in_concat in Hin. destruct Hin as (out & Hout & Hin).
    rewrite Forall_forall in Hg.
    assert (Hi : exists i, In i is /\ mbecomes see t i out).
    { clear - HF Hout. induction HF as [|i o is outs Ho _ IH]; [destruct Hout|]. destruct Hout as [<-|Hout]; [exists i; split; [left; reflexivity|assumption]|].
      destruct (IH Hout) as (j & Hj & Hb). exists j. split; [right; assumption|assumption]. }
    destruct Hi as (i & Hi & [-> (ev & Hev & Hs)]). specialize (H1 (fst i) (in_map fst _ _ Hi)). rewrite <- H1. specialize (Hg _ Hev).
    destruct ev as [[x|a b| |k|v] [a'|]]; try discriminate. injection Hs as <-. destruct a' as [k v s|s]; cbn in Hin; [|destruct Hin].
    destruct Hin as [<-|[]]. exact Hg.
  - apply within_0.
Qed.

Lemma ask_transmute_const (m : trie K V) w tr o : exec (ask_transmute (S := S) (X := X) w m) tr o ->
  match w with MwClosure => True | MwRemoved r => tr = [] /\ o = Ret (map_new, r) end.
Proof. destruct w as [|r]; [auto|]; destruct m as [[bits values x]|l|s]; try (destruct l; intros [-> ->]; auto); intros [-> ->]; auto. Qed.

End Transmute.
