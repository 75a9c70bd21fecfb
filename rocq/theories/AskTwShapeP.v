(** transform_with_transformed, whatever the client's code answers and whatever the two
    maps hold: what it returns is a map, and where its entries lie. *)
From Coq Require Import NArith Arith List Bool Lia ZifyBool ZifyN ZifyNat Permutation.
From Verif Require Import Base Words WordsP Flag FlagP Bia BiaP Node Inv InsertP Api Trans Transform Joint JointT Profile Eff EffP EffTP EffApi EffJ Ask AskP AskHashP AskT SpecAsk SpecAskT JoinP JointLeafP JointTLeafP LoopP TransformP
  PermP AskTP AskTTP AskJ AskJP AskJOneP AskJLeafP AskJMLeafP AskJTravP AskJTreeP AskTw AskTwTravP.
Import ListNotations.
Open Scope N_scope.

(** What [p] returns is [P]; it panics only if [bad], and diverges only if [stuck]. *)
Section Yields.
Context {Q : Type} {A : Q -> Type} (good : event (A := A) -> Prop) (bad stuck : Prop).
Definition ends {Y} (P : Y -> Prop) (o : outcome Y) : Prop := match o with Ret y => P y | Panic => bad | Diverge => stuck end.
Definition yields {Y} (p : prog A Y) (P : Y -> Prop) : Prop := forall tr o, exec p tr o -> Forall good tr -> ends P o.
Definition quiet {Y} (p : prog A Y) : Prop := yields p (fun _ => True).
Lemma y_ret {Y} (y : Y) (P : Y -> Prop) : P y -> yields (PRet y) P.
Proof. intros H tr o [-> ->] _. exact H. Qed.
Lemma y_panic {Y} (P : Y -> Prop) : bad -> yields PPanic P.
Proof. intros H tr o [_ ->] _. exact H. Qed.
Lemma y_bind {Y Z} (p : prog A Y) (k : Y -> prog A Z) P G : yields p P -> (forall y, P y -> yields (k y) G) -> yields (pbind p k) G.
Proof.
  intros H1 H2 tr z He Hg. apply exec_bind in He. destruct He as [(t1 & t2 & y & -> & He1 & He2)|[[He ->]|[He ->]]]; [|exact (H1 _ _ He Hg)..].
  apply Forall_app in Hg. destruct Hg as [G1 G2]. exact (H2 y (H1 _ _ He1 G1) _ _ He2 G2).
Qed.
Lemma y_skip {Y Z} (p : prog A Y) (k : Y -> prog A Z) G : quiet p -> (forall y, yields (k y) G) -> yields (pbind p k) G.
Proof. intros H0 H. apply (y_bind p k (fun _ => True)); auto. Qed.
Lemma y_lift {Y} (o : outcome Y) (P : Y -> Prop) : ends P o -> yields (lift o) P.
Proof. intros H tr o' He _. apply exec_lift in He. destruct He as [_ ->]. exact H. Qed.
Lemma y_lifts {Y Z} (o : outcome Y) (k : Y -> prog A Z) G : ends (fun y => yields (k y) G) o -> yields (pbind (lift o) k) G.
Proof. intros H. eapply (y_bind _ _ (fun y => yields (k y) G)); [apply y_lift; exact H|auto]. Qed.
Lemma y_weak {Y} (p : prog A Y) (P P' : Y -> Prop) : yields p P -> (forall y, P y -> P' y) -> yields p P'.
Proof. intros H H' tr o He Hg. specialize (H _ _ He Hg). destruct o as [y| |]; [apply H'|..]; exact H. Qed.
Lemma y_quiet {Y} (p : prog A Y) P : yields p P -> quiet p.
Proof. intros H. eapply y_weak; [exact H|auto]. Qed.
End Yields.

(** Where entries lie; [tells h w] is that [w] was answered for a key of [h]. *)
Record ground {E : Env} (bad : Prop) (K V : Type) : Type := Ground {
  g_key : N -> K -> Prop;
  g_val : V -> Prop;
  g_tells : N -> word -> Prop;
  g_lies : N -> N -> N -> Prop;
  g_deep : N -> N -> Prop;
  g_up : forall d p i h, g_deep d p -> g_lies (d + 1) (p + i * 2 ^ off d) h -> g_lies d p h;
  g_route : forall d p h w, g_deep d p -> g_tells h w -> g_lies d p h ->
    exists f i, flag_new_at_depth (proj1_sig w) d = Ret (Some f) /\ fl_flag f = 2 ^ i /\ i < max_ones fw /\ g_lies (d + 1) (p + i * 2 ^ off d) h;
  g_apart : forall d p h h' w w', g_tells h w -> g_tells h' w' -> g_lies d p h -> g_lies d p h' -> same_hash w w' = false ->
    match aflags w w' d with
    | Ret (lf, rf) => forall a b, hleaf (fun h e => g_key h (fst e) /\ g_val (snd e)) h a -> hleaf (fun h e => g_key h (fst e) /\ g_val (snd e)) h' b ->
        match cnode_lift a lf b rf with
        | Ret c => shaped (leaf_of (fun h e => g_key h (fst e) /\ g_val (snd e)) g_lies) g_deep d p (MC c)
        | Panic => bad
        | Diverge => False
        end
    | Panic => bad
    | Diverge => False
    end;
  g_moved : forall h x h' x', g_tells h x -> g_tells h' x' -> proj1_sig x = proj1_sig x' -> forall k, g_key h k -> g_key h' k
}.
Arguments g_key {E bad K V}.
Arguments g_val {E bad K V}.
Arguments g_tells {E bad K V}.
Arguments g_lies {E bad K V}.
Arguments g_deep {E bad K V}.
Arguments g_up {E bad K V}.
Arguments g_route {E bad K V}.
Arguments g_apart {E bad K V}.
Arguments g_moved {E bad K V}.

(** A value a closure answered is one. *)
Definition newv {V R} (val : V -> Prop) (o : vres V R) : Prop := match o with VTransformed v _ => val v | _ => True end.
Definition newb {V R} (val : V -> Prop) (o : bres V R) : Prop := match o with BTransformed v _ => val v | _ => True end.

(** The client's code on this ground. *)
Record ttground {E : Env} {Q : Type} {A : Q -> Type} {K V R : Type} (good : event (A := A) -> Prop) (bad stuck : Prop) (g : ground bad K V) (def : prog A R) (red : R -> R -> prog A R) (ck : K -> prog A K) (cv : V -> prog A V) (ky : keyed A K K)
  (both : ejoint A (K * V) V R) (lop rop : etransform A (K * V) V R) : Prop := {
  tg_def : quiet good bad stuck def;
  tg_red : forall x y, quiet good bad stuck (red x y);
  tg_eq : forall x y, quiet good bad stuck (ky_eq ky x y);
  tg_eq' : forall x y, quiet good bad stuck (ky_eq' ky x y);
  tg_ck : forall k, yields good bad stuck (ck k) (fun k' => forall h, g_key g h k -> g_key g h k');
  tg_cv : forall v, yields good bad stuck (cv v) (fun v' => g_val g v -> g_val g v');
  tg_hash : forall k, yields good bad stuck (ky_hash ky k) (fun x => forall h, g_key g h k -> g_tells g h x);
  tg_hash' : forall k, yields good bad stuck (ky_hash' ky k) (fun x => forall h, g_key g h k -> g_tells g h x);
  tg_both : forall x y, yields good bad stuck (ejcall both x y) (newb (g_val g));
  tg_left : forall x, yields good bad stuck (etcall lop x) (newv (g_val g));
  tg_right : forall x, yields good bad stuck (etcall rop x) (newv (g_val g))
}.
Arguments tg_def {E Q A K V R good bad stuck g def red ck cv ky both lop rop}.
Arguments tg_red {E Q A K V R good bad stuck g def red ck cv ky both lop rop}.
Arguments tg_eq {E Q A K V R good bad stuck g def red ck cv ky both lop rop}.
Arguments tg_eq' {E Q A K V R good bad stuck g def red ck cv ky both lop rop}.
Arguments tg_ck {E Q A K V R good bad stuck g def red ck cv ky both lop rop}.
Arguments tg_cv {E Q A K V R good bad stuck g def red ck cv ky both lop rop}.
Arguments tg_hash {E Q A K V R good bad stuck g def red ck cv ky both lop rop}.
Arguments tg_hash' {E Q A K V R good bad stuck g def red ck cv ky both lop rop}.
Arguments tg_both {E Q A K V R good bad stuck g def red ck cv ky both lop rop}.
Arguments tg_left {E Q A K V R good bad stuck g def red ck cv ky both lop rop}.
Arguments tg_right {E Q A K V R good bad stuck g def red ck cv ky both lop rop}.

Lemma tg_flip {E : Env} {Q : Type} {A : Q -> Type} {K V R : Type} {good : event (A := A) -> Prop} {bad stuck : Prop} {g : ground bad K V} {def red ck cv ky} {both : ejoint A (K * V) V R} {lop rop} :
  ttground good bad stuck g def red ck cv ky both lop rop -> ttground good bad stuck g def red ck cv (ky_flip ky) (ejflip both) rop lop.
Proof.
  intros [D1 D2 D3 D4 H1 H2 H3 H4 H5 H6 H7]. constructor; try assumption. intros x y. destruct both as [f []| | | |]; cbn [ejflip negb ejcall] in *; try exact (H5 y x); try exact (H5 x y).
  - specialize (H5 y x). intros tr o He Hg. destruct o as [o| |].
    + specialize (H5 tr (Ret (bres_flip o))). assert (HN : ends bad stuck (newb (g_val g)) (Ret (bres_flip o))); [apply H5; [|exact Hg]|destruct o; exact HN].
      apply exec_bind. left. exists tr, []. eexists. split; [rewrite app_nil_r; reflexivity|]. split; [exact He|]. cbn. auto.
    + apply (H5 tr Panic); [|exact Hg]. apply exec_bind. right. left. auto.
    + apply (H5 tr Diverge); [|exact Hg]. apply exec_bind. right. right. auto.
  - eapply y_bind; [exact (H5 y x)|]. intros o Ho. apply y_ret. destruct o; exact Ho.
Qed.

Section Shape.
Context {E : Env} {Q : Type} {A : Q -> Type} {K V R : Type} (good : event (A := A) -> Prop) {bad : Prop} (stuck : Prop) (g : ground bad K V).
Notation yields := (yields good bad stuck).
Notation quiet := (quiet good bad stuck).
Definition has (h : N) (e : K * V) : Prop := g_key g h (fst e) /\ g_val g (snd e).
Notation hleaf := (hleaf has).
Notation shaped := (shaped (leaf_of has (g_lies g)) (g_deep g)).
Context (def : prog A R) (red : R -> R -> prog A R) (ck : K -> prog A K) (cv : V -> prog A V).

Definition ngood (h : N) (n : nres K V R) : Prop := forall m, nnode n = Some m -> hleaf h m.
Definition tgood (h : N) (t : tres K V R) : Prop := match t with TN n => ngood h n | _ => True end.
Definition jgood (h : N) (t : jres K V R) : Prop := match t with JN n => ngood h n | _ => True end.

Lemma ng_cons h k v n z : ngood h n -> has h (k, v) -> ngood h (n_cons k v n z).
Proof.
  intros H Hk m. destruct n as [c r|l r|s r|r]; cbn; intros [= <-].
  - destruct (H _ eq_refl) as [H1 H2]. split; [|constructor; assumption]. cbn in *. split; [reflexivity|assumption].
  - destruct (H _ eq_refl) as [H1 H2]. split; [reflexivity|]. constructor; assumption.
  - split; [exact I|]. repeat constructor; apply Hk.
Qed.
Lemma ng_with h n z : ngood h n -> ngood h (n_with n z).
Proof. intros H m Hm. apply H. destruct n; exact Hm. Qed.
Lemma ng_new h k v nx z : has h (k, v) -> hleaf h (next_mnode nx) -> ngood h (NRL (l_new k v nx) z).
Proof.
  intros Hk [H1 H2] m [= <-]. destruct nx as [l|s]; (split; [|constructor; assumption]); cbn in *; [split; [reflexivity|assumption]|reflexivity].
Qed.
Lemma ng_next h nx z : hleaf h (next_mnode nx) -> ngood h (next_nres nx z).
Proof. intros H m. destruct nx; intros [= <-]; exact H. Qed.
Lemma ng_one h k v z : has h (k, v) -> ngood h (NRS (SN k v) z).
Proof. intros H m [= <-]. split; [exact I|]. repeat constructor; apply H. Qed.
Lemma ng_zero h z : ngood h (NRZ z).
Proof. intros m [=]. Qed.
Lemma hl_next h l : hleaf h (ML l) -> has h (l_key l, l_value l) /\ hleaf h (next_mnode (l_next l)).
Proof.
  intros [H1 H2]. destruct l as [k v n z|k v s z]; cbn in *; inversion H2 as [|? ? Hk Hn]; subst; (split; [exact Hk|]).
  - split; [apply H1|exact Hn].
  - split; [exact I|exact Hn].
Qed.
Lemma hl_s h s : hleaf h (MS s) <-> has h (s_key s, s_value s).
Proof. split; [intros [_ H]; inversion H; subst; assumption|]. intros H. split; [exact I|]. repeat constructor; apply H. Qed.

Context (Hred : forall x y, quiet (red x y)) (Hck : forall k, yields (ck k) (fun k' => forall h, g_key g h k -> g_key g h k')) (Hcv : forall v, yields (cv v) (fun v' => g_val g v -> g_val g v')).

(** One call of the client's code after the other. *)
Ltac clones :=
  repeat match goal with
  | |- AskTwShapeP.yields _ _ _ (pbind (ck _) _) _ => eapply y_bind; [apply Hck|]; let H := fresh "Hk" in intros ? H
  | |- AskTwShapeP.yields _ _ _ (pbind (cv _) _) _ => eapply y_bind; [apply Hcv|]; let H := fresh "Hv" in intros ? H
  | |- AskTwShapeP.yields _ _ _ (pbind (red _ _) _) _ => apply y_skip; [apply Hred|]; intros ?
  end; try apply y_ret.
Ltac entry := split; cbn [fst snd] in *; solve [assumption | auto | match goal with H : has _ _ |- _ => destruct H; cbn [fst snd] in *; auto end].

Lemma as_transform_y op (Hop : forall x, yields (etcall op x) (newv (g_val g))) h s : has h (s_key s, s_value s) -> yields (as_transform ck op s) (tgood h).
Proof.
  intros Hs. unfold as_transform. eapply y_bind; [apply Hop|]. intros [r|v r|r] Ho; cbn [newv] in Ho; clones; cbn [tgood]; auto using ng_zero.
  apply ng_one. entry.
Qed.
Lemma al_result_y h l o t : hleaf h (ML l) -> newv (g_val g) o -> tgood h t -> yields (al_transform_result red ck cv l o t) (tgood h).
Proof.
  intros Hl Ho Ht. destruct (hl_next h l Hl) as [He Hn].
  destruct o as [r|v r|r]; cbn [newv] in Ho; destruct t as [rr|[c rr|n rr|s rr|rr]]; cbn [al_transform_result tgood] in *; clones; cbn [tgood];
    auto using ng_zero; try (apply ng_one; entry); try (apply (ng_new h); [entry|solve [assumption|apply Ht; reflexivity]]); try exact (ng_with h _ _ Ht).
  - destruct (l_next l); cbn; intros m [= <-]; exact Hn.
Qed.
Lemma al_transform_y op (Hop : forall x, yields (etcall op x) (newv (g_val g))) h l : hleaf h (ML l) -> yields (al_transform red ck cv op l) (tgood h).
Proof.
  induction l as [k v n IH z|k v s z]; intros Hl; pose proof (hl_next h _ Hl) as [He Hn]; destruct op as [f|r|r]; cbn [al_transform l_key l_value l_next next_mnode] in *;
    try (apply y_ret; cbn; auto using ng_zero).
  - eapply y_bind; [apply IH, Hn|]. intros t Ht. eapply y_bind; [apply Hop|]. intros o Ho. apply al_result_y; assumption.
  - eapply y_bind; [apply (as_transform_y (EGeneric f) Hop h s); apply hl_s, Hn|]. intros t Ht. eapply y_bind; [apply Hop|]. intros o Ho. apply al_result_y; assumption.
Qed.
Lemma an_transform_y op (Hop : forall x, yields (etcall op x) (newv (g_val g))) h nx : hleaf h (next_mnode nx) -> yields (an_transform red ck cv op nx) (tgood h).
Proof. destruct nx; cbn [an_transform next_mnode]; intros H; [apply al_transform_y; assumption|apply as_transform_y; [assumption|apply hl_s, H]]. Qed.

(** * The loops *)
Section Loop.
Context (d p : N) (Hd : g_deep g d p).
Definition sinv (lo i : N) (a : acc K V R) : Prop :=
  okv i (a_bits a) (a_values a) /\ (forall j, j < lo -> N.testbit (a_bits a) j = false) /\
  a_size a = lenN (concat (map m_visit (a_values a))) /\
  (forall j c, getv (a_bits a) (a_values a) j = Some c -> shaped (d + 1) (p + j * 2 ^ off d) c).

Lemma sinv_flags lo i a ul ur : sinv lo i a -> sinv lo i (Acc (a_size a) (a_bits a) (a_values a) ul ur (a_red a)).
Proof. intros H. exact H. Qed.
Lemma sinv_skip lo i a : sinv lo i a -> sinv lo (i + 1) a.
Proof. intros (H1 & H2 & H3 & H4). split; [apply (okv_mono i); [lia|assumption]|]. auto. Qed.

Lemma apush_y lo i a c r : lo <= i -> i < max_ones fw -> sinv lo i a -> shaped (d + 1) (p + i * 2 ^ off d) c ->
  yields (apush red a i c (m_size c) r) (sinv lo (i + 1)).
Proof.
  intros Hlo Hi (H1 & H2 & H3 & H4) Hc. unfold apush. rewrite nth_bit_ok by assumption. cbn [unwrap_ok lift pbind].
  assert (Hb : N.testbit (a_bits a) i = false) by (apply (okv_testbit_ge i _ (a_values a)); [exact H1|lia]).
  rewrite bit_insert_pow2, Hb. cbn [unwrap_ok lift pbind]. apply y_skip; [apply Hred|]. intros r'. apply y_ret.
  split; [|split; [|split]]; cbn [a_bits a_values a_size].
  - replace (i + 1) with (N.succ i) by lia. apply okv_push. assumption.
  - intros j Hj. rewrite N.lor_spec, H2 by assumption. rewrite N.pow2_bits_eqb. destruct (N.eqb_spec i j); [lia|reflexivity].
  - rewrite map_app, concat_app, lenN_app, H3. cbn [map concat]. rewrite app_nil_r, (shaped_size _ _ _ _ _ Hc). reflexivity.
  - intros j c' Hg. rewrite (getv_push i _ _ c j H1) in Hg. destruct (N.eqb_spec i j) as [<-|]; [injection Hg as <-; exact Hc|auto].
Qed.
Lemma apush_new_y lo i a n : lo <= i -> i < max_ones fw -> sinv lo i a -> (forall m, nnode n = Some m -> shaped (d + 1) (p + i * 2 ^ off d) m) ->
  yields (apush_new red a i n) (sinv lo (i + 1)).
Proof.
  intros Hlo Hi HI Hn. destruct n as [c r|l r|s r|r]; cbn [apush_new nnode] in *.
  - apply (apush_y lo i a (MC c) r); auto.
  - apply (apush_y lo i a (ML l) r); auto.
  - apply (apush_y lo i a (MS s) r); auto.
  - apply y_skip; [apply Hred|]. intros r'. apply y_ret. apply sinv_skip. exact HI.
Qed.

Section Step.
Context (Hdef : quiet def).
Context (step : acc K V R -> N -> prog A (acc K V R)).
Context (Hstep : forall lo i a, lo <= i -> i < max_ones fw -> sinv lo i a -> yields (step a i) (sinv lo (i + 1))).

Lemma eloop_y n : forall lo i a, lo <= i -> i + N.of_nat n <= max_ones fw -> sinv lo i a ->
  yields (eloop step (range i (i + N.of_nat n)) a) (sinv lo (i + N.of_nat n)).
Proof.
  induction n as [|n IH]; intros lo i a Hlo Hi HI.
  - rewrite N.add_0_r, range_nil. apply y_ret. exact HI.
  - replace (i + N.of_nat (Datatypes.S n)) with (N.succ i + N.of_nat n) by lia. rewrite range_cons by lia. cbn [eloop].
    eapply y_bind; [apply (Hstep lo i a); auto; lia|]. intros a' HI'. replace (i + 1) with (N.succ i) in HI' by lia. apply IH; [lia|lia|exact HI'].
Qed.
Lemma aloop_y lo hi : lo <= hi -> hi <= max_ones fw -> yields (aloop def step (range lo hi)) (sinv lo hi).
Proof.
  intros H1 H2. unfold aloop. apply y_skip; [exact Hdef|]. intros r.
  pose proof (eloop_y (N.to_nat (hi - lo)) lo lo (acc0 r) ltac:(lia) ltac:(lia)) as H.
  replace (lo + N.of_nat (N.to_nat (hi - lo))) with hi in H by lia. apply H.
  split; [apply okv_nil|]. split; [intros; apply N.bits_0|]. split; [reflexivity|]. intros j c. cbn [acc0 a_bits a_values]. rewrite getv_nil. discriminate.
Qed.
Lemma arun_y st : yields (arun_loop def red st step) (sinv 0 (max_ones fw)).
Proof.
  destruct st; cbn [arun_loop]; [apply aloop_y; lia|]. unfold ahalves. fold half. pose proof half_le as Hh.
  eapply y_bind; [apply aloop_y; lia|]. intros l (L1 & L2 & L3 & L4).
  eapply y_bind; [apply aloop_y; lia|]. intros r (R1 & R2 & R3 & R4).
  assert (Hland : N.land (a_bits l) (a_bits r) = 0) by exact (disjoint_land half (a_bits l) (a_values l) (a_bits r) (a_values r) L1 R2).
  apply y_lifts. unfold bit_merge. rewrite Hland. cbn [N.eqb unwrap_ok ends]. apply y_skip; [apply Hred|]. intros x. apply y_ret.
  split; [|split; [|split]]; cbn [a_bits a_values a_size a_red].
  - eapply okv_merge; eassumption.
  - intros j Hj. lia.
  - rewrite map_app, concat_app, lenN_app, L3, R3. reflexivity.
  - intros j c Hg. rewrite (getv_merge half (max_ones fw)) in Hg by assumption. destruct (j <? half); auto.
Qed.
End Step.

Lemma finish_y a : sinv 0 (max_ones fw) a -> exists n, finish a = Ret n /\ forall m, nnode n = Some m -> shaped d p m.
Proof.
  intros (H1 & _ & H3 & H4). unfold finish.
  assert (Hbig : a_values a <> [] -> exists n, (let* b := unwrap_ok (new_bia (a_bits a) (a_values a) (a_size a)) in Ret (NRC b (a_red a))) = Ret n /\
    forall m, nnode n = Some m -> shaped d p m).
  { intros Hne. rewrite (new_bia_ok fw) by assumption. cbn [unwrap_ok bind]. eexists. split; [reflexivity|]. intros m [= <-]. constructor; auto. }
  assert (Hone : forall n, a_values a = [n] -> match n with MC _ => True | _ => shaped d p n end).
  { intros x Hx. destruct (in_values_get _ _ _ x H1) as (j & _ & Hj); [rewrite Hx; left; reflexivity|].
    specialize (H4 j x Hj). assert (Hup : forall l, leaf_of has (g_lies g) (d + 1) (p + j * 2 ^ off d) l -> leaf_of has (g_lies g) d p l).
    { intros l' (h & G1 & G2). exists h. split; [assumption|]. eapply (g_up g); eassumption. }
    inversion H4; subst; [constructor; auto|constructor; auto|exact Logic.I]. }
  destruct (a_values a) as [|n0 vs] eqn:Hv; [eexists; split; [reflexivity|]; intros m [=]|].
  destruct n0 as [c|l0|s0]; destruct vs as [|n1 vs]; try (apply Hbig; discriminate); (eexists; split; [reflexivity|]); intros m [= <-]; exact (Hone _ eq_refl).
Qed.
End Loop.

Lemma hl_shaped d p h m : hleaf h m -> g_lies g d p h -> shaped d p m.
Proof. intros [H1 H2] H. apply leafy_shaped; [exact H1|]. exists h. auto. Qed.

Definition tshape (d p : N) (t : tres K V R) : Prop := match t with TN n => forall m, nnode n = Some m -> shaped d p m | _ => True end.
Definition jshape (d p : N) (t : jres K V R) : Prop := match t with JN n => forall m, nnode n = Some m -> shaped d p m | _ => True end.
Lemma t_shape d p h t : tgood h t -> g_lies g d p h -> tshape d p t.
Proof. destruct t as [|n]; cbn; [auto|]. intros H Hl m Hm. eapply hl_shaped; [apply H, Hm|exact Hl]. Qed.
Lemma j_shape d p h t : jgood h t -> g_lies g d p h -> jshape d p t.
Proof. destruct t as [| | |n]; cbn; auto. intros H Hl m Hm. eapply hl_shaped; [apply H, Hm|exact Hl]. Qed.
Lemma j_flip d p t : jshape d p t -> jshape d p (jres_flip t).
Proof. destruct t; auto. Qed.

Lemma am_transform_y (Hdef : quiet def) op (Hop : forall x, yields (etcall op x) (newv (g_val g))) st n : forall d p, shaped d p n -> yields (am_transform def red ck cv st op n) (tshape d p).
Proof.
  induction n as [bits values x IH|l|s] using mnode_ind'; intros d p Hs.
  - rewrite Forall_forall in IH. inversion Hs as [| |? ? ? ? ? Hd Hok Hne Hx Hch]; subst.
    assert (Hrun : yields (arun_loop def red st (ac_transform_step red (BIA bits (map (fun c => (c, am_transform def red ck cv st op c)) values) (lenN (concat (map m_visit values)))))) (sinv d p 0 (max_ones fw))).
    { apply arun_y; [exact Hdef|]. intros lo i a Hlo Hi HI. unfold ac_transform_step. rewrite bat_bit_index_slot by assumption. cbn [lift pbind].
      destruct (getv bits values i) as [c|] eqn:Hg; [|apply y_ret, sinv_skip, HI].
      eapply y_bind; [exact (IH c (getv_in _ _ _ _ Hg) _ _ (Hch i c Hg))|]. intros [r|n] Ht; cbn [tshape] in Ht.
      - apply apush_y; auto.
      - eapply y_bind; [apply apush_new_y; [exact Hlo|exact Hi|exact HI|exact Ht]|]. intros a' Ha. apply y_ret. destruct a'. exact Ha. }
    destruct op as [f|r|r]; cbn [am_transform] in *.
    + eapply y_bind; [exact Hrun|]. intros a HI. apply y_lift. destruct (a_ul a); [exact Logic.I|].
      destruct (finish_y d p Hd a HI) as (n & -> & Hn). exact Hn.
    + apply y_ret. exact Logic.I.
    + apply y_ret. intros m [=].
  - inversion Hs as [|? ? ? Hl (h & H1 & H2)|]; subst. eapply y_weak; [apply (al_transform_y op Hop h l); split; assumption|]. intros t Ht. eapply t_shape; eassumption.
  - inversion Hs as [? ? ? (h & H1 & H2)| |]; subst. eapply y_weak; [apply (as_transform_y op Hop h s); inversion H1; assumption|]. intros t Ht. eapply t_shape; eassumption.
Qed.
End Shape.

Section Pair.
Context {E : Env} {Q : Type} {A : Q -> Type} {K V R : Type} (good : event (A := A) -> Prop) {bad : Prop} (stuck : Prop) (g : ground bad K V).
Notation yields := (yields good bad stuck).
Notation quiet := (quiet good bad stuck).
Notation has := (has g).
Notation hleaf := (hleaf has).
Notation shaped := (shaped (leaf_of has (g_lies g)) (g_deep g)).
Notation ngood := (ngood (R := R) g).
Notation jgood := (jgood (R := R) g).
Notation jshape := (jshape (R := R) g).
Context {def : prog A R} {red : R -> R -> prog A R} {ck : K -> prog A K} {cv : V -> prog A V} {ky : keyed A K K} {both : ejoint A (K * V) V R} {lop rop : etransform A (K * V) V R}.
Context (laws : ttground good bad stuck g def red ck cv ky both lop rop).
Hint Resolve ng_zero ng_with : shape.

Ltac clones :=
  repeat match goal with
  | |- AskTwShapeP.yields _ _ _ (pbind (ck _) _) _ => eapply y_bind; [apply (tg_ck laws)|]; let H := fresh "Hk" in intros ? H
  | |- AskTwShapeP.yields _ _ _ (pbind (cv _) _) _ => eapply y_bind; [apply (tg_cv laws)|]; let H := fresh "Hv" in intros ? H
  | |- AskTwShapeP.yields _ _ _ (pbind (red _ _) _) _ => apply y_skip; [apply (tg_red laws)|]; intros ?
  end; try apply y_ret.
Ltac entry := split; cbn [fst snd newb newv] in *; solve [assumption | auto | match goal with H : AskTwShapeP.has _ _ _ |- _ => destruct H; cbn [fst snd] in *; solve [auto] end].

Lemma tout_good h m (t : tres K V R) a : hleaf h m -> tgood g h t -> tout m t = Some a -> hleaf h a.
Proof. destruct t as [r|n]; cbn; intros H1 H2 H3; [injection H3 as <-; exact H1|exact (H2 _ H3)]. Qed.

Lemma att_apart_y d p h h' this right w w' : hleaf h (next_mnode this) -> hleaf h' (next_mnode right) -> g_tells g h w -> g_tells g h' w' -> g_lies g d p h -> g_lies g d p h' ->
  same_hash w w' = false -> yields (att_apart red ck cv lop rop this right w w' d) (jshape d p).
Proof.
  intros Ht Hr T1 T2 L1 L2 Hs. unfold att_apart.
  eapply y_bind; [apply (an_transform_y good stuck g red ck cv (tg_red laws) (tg_ck laws) (tg_cv laws) lop (tg_left laws) h this Ht)|]. intros l Hl.
  eapply y_bind; [apply (an_transform_y good stuck g red ck cv (tg_red laws) (tg_ck laws) (tg_cv laws) rop (tg_right laws) h' right Hr)|]. intros r Hrr.
  apply y_lifts. pose proof (g_apart g d p h h' w w' T1 T2 L1 L2 Hs) as HA. destruct (aflags w w' d) as [[lf rf]| |]; cbn [ends]; [|exact HA|destruct HA].
  destruct (tout (next_mnode this) l) as [a|] eqn:Ha; [destruct (tout (next_mnode right) r) as [b|] eqn:Hb|].
  - eapply (y_bind _ _ _ _ _ (fun n => forall m, nnode n = Some m -> shaped d p m)).
    + unfold apair. apply y_lifts. specialize (HA a b (tout_good _ _ _ _ Ht Hl Ha) (tout_good _ _ _ _ Hr Hrr Hb)).
      destruct (cnode_lift a lf b rf) as [c| |]; cbn [ends]; [|exact HA|destruct HA]. apply y_skip; [apply (tg_red laws)|]. intros z. apply y_ret. intros m [= <-]. exact HA.
    + intros n Hn. apply y_ret. exact Hn.
  - apply y_skip; [apply (tg_red laws)|]. intros z. apply y_ret. destruct l as [|n]; [exact Logic.I|]. cbn. apply (j_shape g d p h (JN _)); [apply ng_with; exact Hl|exact L1].
  - apply y_skip; [apply (tg_red laws)|]. intros z. apply y_ret. destruct r as [|n]; [exact Logic.I|]. cbn. apply (j_shape g d p h' (JN _)); [apply ng_with; exact Hrr|exact L2].
Qed.

Lemma att_s_impl_y h this right : has h (s_key this, s_value this) -> has h (s_key right, s_value right) -> yields (att_s_impl red ck cv ky both lop rop this right) (jgood h).
Proof.
  intros Ht Hr. pose proof (proj2 (hl_s g h this) Ht) as Ht'. pose proof (proj2 (hl_s g h right) Hr) as Hr'. unfold att_s_impl. apply y_skip; [apply (tg_eq laws)|]. intros [|].
  - eapply y_bind; [apply (tg_both laws)|]. intros [r|r|r|v r|r] Ho; clones; cbn; auto with shape. apply ng_one. entry.
  - eapply y_bind; [apply (tg_left laws)|]. intros l Hl. eapply y_bind; [apply (tg_right laws)|]. intros r Hrr.
    destruct l as [lr|lv lr|lr], r as [rr|rv rr|rr]; cbn [newv] in *; clones; cbn; auto with shape; try (apply ng_one; entry);
      apply (ng_new g h _ _ (NS _)); try assumption; try entry. apply hl_s. cbn. entry.
Qed.

Lemma att_that_y h that : bad -> (forall e, that = Some e -> has h e) -> yields (att_that ck cv that) (has h).
Proof.
  intros HB H. unfold att_that. apply y_lifts. destruct that as [e|]; [|exact HB]. cbn [unwrap ends]. specialize (H e eq_refl). clones. entry.
Qed.
Lemma att_two_y h this that x y : bad -> hleaf h (ML this) -> (forall e, that = Some e -> has h e) -> yields (att_two red ck cv this that x y) (jgood h).
Proof.
  intros HB Ht Hs. destruct (hl_next g h this Ht) as [He _]. unfold att_two. clones. eapply y_bind; [apply (att_that_y h _ HB), Hs|]. intros e Hy. clones.
  cbn. apply (ng_new g h _ _ (NS _)); [entry|]. apply hl_s. exact Hy.
Qed.

Lemma ajj_y h this o that next : bad -> hleaf h (ML this) -> newb (g_val g) o -> (forall e, that = Some e -> has h e) -> jgood h next -> yields (ajj red ck cv this o that next) (jgood h).
Proof.
  intros HB Ht Ho Hs Hn. destruct (hl_next g h this Ht) as [He Hx].
  destruct o as [r|r|r|v r|r]; destruct next as [rr|rr|rr|n]; cbn [ajj newb] in *; try (apply att_two_y; assumption); clones; cbn [AskTwShapeP.jgood]; auto with shape;
    try (apply ng_cons; [exact Hn|entry]); try (apply ng_new; [entry|assumption]); try (apply ng_next; assumption).
  - eapply y_bind; [apply (att_that_y h _ HB), Hs|]. intros e Hy. clones. cbn. apply ng_new; [exact Hy|assumption].
  - destruct n; try (eapply y_bind; [apply (att_that_y h _ HB), Hs|]; intros e Hy); clones; cbn [AskTwShapeP.jgood]; auto; (apply ng_cons; [exact Hn|exact Hy]).
  - eapply y_bind; [apply (att_that_y h _ HB), Hs|]. intros e Hy. clones. cbn. apply ng_one. exact Hy.
Qed.

Lemma ajt_y h this o that next : hleaf h (ML this) -> newb (g_val g) o -> has h (s_key that, s_value that) -> tgood g h next -> yields (ajt red ck cv this o that next) (jgood h).
Proof.
  intros Ht Ho Hs Hn. destruct (hl_next g h this Ht) as [He Hx].
  destruct o as [r|r|r|v r|r]; destruct next as [rr|n]; cbn [ajt newb tgood] in *; clones; cbn [AskTwShapeP.jgood]; auto with shape;
    try (apply ng_cons; [exact Hn|entry]); try (apply ng_new; [entry|assumption]); try (apply ng_next; assumption).
  destruct n; clones; cbn [AskTwShapeP.jgood]; auto; (apply ng_cons; [exact Hn|entry]).
Qed.

Lemma atj_y h this o that next : hleaf h (ML this) -> newv (g_val g) o -> has h (s_key that, s_value that) -> jgood h next -> yields (atj red ck cv this o that next) (jgood h).
Proof.
  intros Ht Ho Hs Hn. destruct (hl_next g h this Ht) as [He Hx]. pose proof (proj2 (hl_s g h that) Hs) as Hs'.
  destruct o as [r|v r|r]; destruct next as [rr|rr|rr|n]; cbn [atj newv] in *; clones; cbn [AskTwShapeP.jgood]; auto with shape;
    try (apply ng_cons; [exact Hn|entry]); try (apply ng_new; [entry|assumption]); try (apply ng_next; assumption).
Qed.

Lemma aposition_y (f : K * V -> prog A bool) l : (forall e, quiet (f e)) -> quiet (aposition f l).
Proof.
  intros H. induction l as [|e l IH]; cbn [aposition]; [apply y_ret; exact Logic.I|]. apply y_skip; [apply H|]. intros [|]; [apply y_ret; exact Logic.I|].
  apply y_skip; [exact IH|]. intros o. apply y_ret. exact Logic.I.
Qed.
Lemma atake_y h (f : K -> prog A bool) rights : (forall k, quiet (f k)) -> Forall (has h) rights ->
  yields (atake_key f rights) (fun o => match o with Some (e, rest) => has h e /\ Forall (has h) rest | None => True end).
Proof.
  intros Hf H. unfold atake_key. apply y_skip; [apply aposition_y; intros e; apply Hf|]. intros o. apply y_ret. destruct o as [i|]; [|exact Logic.I]. destruct (swap_remove i rights) as [[e rest]|] eqn:Hr; [|exact Logic.I].
  apply swap_remove_perm in Hr. eapply Permutation_Forall in H; [|exact Hr]. inversion H; auto.
Qed.

Lemma att_l_impl_y h this : bad -> forall rights, hleaf h (ML this) -> Forall (has h) rights ->
  yields (att_l_impl red ck cv ky both lop rop this rights) (fun y => jgood h (fst y) /\ Forall (has h) (snd y)).
Proof.
  intros HB. induction this as [k v n IH z|k v s z]; intros rights Ht Hr; pose proof (hl_next g h _ Ht) as [He Hx]; cbn [att_l_impl l_next next_mnode] in *.
  - eapply (y_bind _ _ _ _ _ (fun y => jgood h (fst (fst y)) /\ Forall (has h) (snd (fst y)) /\ snd y = None)).
    { eapply y_bind; [apply IH; assumption|]. intros [t rs] [H1 H2]. apply y_ret. auto. }
    intros [[next rs] that] (H1 & H2 & H3). cbn [fst snd] in *. subst that. eapply y_bind; [apply (atake_y h _ rs (tg_eq laws _) H2)|]. intros o Ho.
    eapply (y_bind _ _ _ _ _ (fun y => newb (g_val g) (fst y) /\ Forall (has h) (snd y))).
    + destruct o as [[e rs']|].
      * eapply y_bind; [apply (tg_both laws)|]. intros b Hb. apply y_ret. split; [exact Hb|apply Ho].
      * eapply y_bind; [apply (tg_left laws)|]. intros b Hb. apply y_ret. split; [destruct b; exact Hb|exact H2].
    + intros [b rs'] [G1 G2]. eapply y_bind; [apply (ajj_y h (LNL k v n z) b None next HB Ht G1); [discriminate|exact H1]|]. intros t Htt. apply y_ret. auto.
  - eapply (y_bind _ _ _ _ _ (fun y => jgood h (fst (fst y)) /\ Forall (has h) (snd (fst y)) /\ forall e, snd y = Some e -> has h e)).
    { eapply y_bind; [apply (atake_y h _ rights (tg_eq laws _) Hr)|]. intros [[e rs]|] Ho.
      - destruct Ho as [He' Hrs]. clones. eapply y_bind; [apply (att_s_impl_y h s (SN y y0)); [apply hl_s, Hx|entry]|]. intros t Htt. apply y_ret.
        cbn. split; [exact Htt|]. split; [exact Hrs|]. intros e' [= <-]. exact He'.
      - eapply y_bind; [apply (as_transform_y good stuck g ck (tg_ck laws) lop (tg_left laws) h s); apply hl_s, Hx|]. intros t Htt. apply y_ret. cbn.
        split; [destruct t; exact Htt|]. split; [exact Hr|discriminate]. }
    intros [[next rs] that] (H1 & H2 & H3). cbn [fst snd] in *. eapply y_bind; [apply (atake_y h _ rs (tg_eq laws _) H2)|]. intros o Ho.
    eapply (y_bind _ _ _ _ _ (fun y => newb (g_val g) (fst y) /\ Forall (has h) (snd y))).
    + destruct o as [[e rs']|].
      * eapply y_bind; [apply (tg_both laws)|]. intros b Hb. apply y_ret. split; [exact Hb|apply Ho].
      * eapply y_bind; [apply (tg_left laws)|]. intros b Hb. apply y_ret. split; [destruct b; exact Hb|exact H2].
    + intros [b rs'] [G1 G2]. eapply y_bind; [apply (ajj_y h (LNS k v s z) b that next HB Ht G1 H3 H1)|]. intros t Htt. apply y_ret. auto.
Qed.

Lemma att_rest_y h this rights : bad -> hleaf h (ML this) -> Forall (has h) rights -> forall next, jgood h next -> yields (att_rest red ck cv rop this rights next) (jgood h).
Proof.
  intros HB Ht. induction rights as [|e rights IH]; intros Hr next Hn; cbn [att_rest]; [apply y_ret, Hn|]. inversion Hr as [|? ? He Hr']; subst.
  eapply y_bind; [apply (tg_right laws)|]. intros o Ho. eapply (y_bind _ _ _ _ _ (jgood h)); [|intros y Hy; apply IH; assumption].
  destruct e as [k v]. destruct o as [r|w r|r]; destruct next as [rr|rr|rr|n]; cbn [newv AskTwShapeP.jgood] in *; try (apply y_panic; exact HB); clones; cbn [AskTwShapeP.jgood]; auto with shape;
    try (apply ng_cons; [exact Hn|entry]); try (apply (ng_new g h _ _ (NL _)); [entry|assumption]).
Qed.

Lemma att_ls_impl_y h this right : hleaf h (ML this) -> has h (s_key right, s_value right) -> yields (att_ls_impl red ck cv ky both lop rop this right) (jgood h).
Proof.
  intros Ht Hr. induction this as [k v n IH z|k v s z]; pose proof (hl_next g h _ Ht) as [He Hx]; cbn [att_ls_impl l_next next_mnode] in *; (apply y_skip; [apply (tg_eq laws)|]; intros [|]).
  - eapply y_bind; [apply (an_transform_y good stuck g red ck cv (tg_red laws) (tg_ck laws) (tg_cv laws) lop (tg_left laws) h (NL n) Hx)|]. intros t Htt.
    eapply y_bind; [apply (tg_both laws)|]. intros o Ho. apply ajt_y; assumption.
  - eapply y_bind; [apply IH; assumption|]. intros t Htt. eapply y_bind; [apply (tg_left laws)|]. intros o Ho. apply atj_y; assumption.
  - eapply y_bind; [apply (an_transform_y good stuck g red ck cv (tg_red laws) (tg_ck laws) (tg_cv laws) lop (tg_left laws) h (NS s) Hx)|]. intros t Htt.
    eapply y_bind; [apply (tg_both laws)|]. intros o Ho. apply ajt_y; assumption.
  - eapply y_bind; [apply (att_s_impl_y h s right); [apply hl_s, Hx|exact Hr]|]. intros t Htt. eapply y_bind; [apply (tg_left laws)|]. intros o Ho. apply atj_y; assumption.
Qed.

(** Both hashes first. *)
Lemma hashes_y {Y} d p (P : Y -> Prop) h h' k v k' v' (same : prog A Y) (apart : word -> word -> prog A Y) : has h (k, v) -> has h' (k', v') ->
  ((forall e, has h' e -> has h e) -> yields same P) ->
  (forall w w', g_tells g h w -> g_tells g h' w' -> same_hash w w' = false -> yields (apart w w') P) ->
  g_lies g d p h -> g_lies g d p h' ->
  yields (let+ w := ky_hash ky k in let+ w' := ky_hash' ky k' in if same_hash w w' then same else apart w w') P.
Proof.
  intros Hk Hk' H1 H2 _ _. eapply y_bind; [apply (tg_hash laws)|]. intros w Hw. eapply y_bind; [apply (tg_hash' laws)|]. intros w' Hw'.
  specialize (Hw h (proj1 Hk)). specialize (Hw' h' (proj1 Hk')). destruct (same_hash w w') eqn:Hs; [|apply H2; assumption].
  apply H1. intros e [G1 G2]. split; [|exact G2]. eapply (g_moved g h' w' h w); [exact Hw'|exact Hw| |exact G1]. unfold same_hash in Hs. apply N.eqb_eq in Hs. congruence.
Qed.

Lemma att_lnode_y d p h h' this right : bad -> ((exists l, l_next right = NL l) -> stuck) -> hleaf h (ML this) -> hleaf h' (ML right) -> g_lies g d p h -> g_lies g d p h' ->
  yields (att_lnode red ck cv ky both lop rop this right d) (jshape d p).
Proof.
  intros HB HS Ht Hr L1 L2. unfold att_lnode. eapply (hashes_y d p _ h h'); try exact (proj1 (hl_next g _ _ Ht)); try exact (proj1 (hl_next g _ _ Hr)); try assumption.
  - intros Hm. assert (Hall : Forall (has h) (l_visit right)) by (eapply Forall_impl; [exact Hm|apply Hr]).
    apply y_lifts. rewrite rights_ok. destruct (l_next right) as [l|s]; cbn [ends]; [apply HS; eauto|].
    eapply y_bind; [apply (att_l_impl_y h this HB _ Ht Hall)|].
    intros [next rs'] [H1 H2]. eapply y_weak; [apply (att_rest_y h this rs' HB Ht H2 next H1)|]. intros y Hy. eapply j_shape; eassumption.
  - intros w w' T1 T2 Hs. apply (att_apart_y d p h h' (NL this) (NL right)); assumption.
Qed.
Lemma att_lsnode_y d p h h' this right : hleaf h (ML this) -> has h' (s_key right, s_value right) -> g_lies g d p h -> g_lies g d p h' ->
  yields (att_lsnode red ck cv ky both lop rop this right d) (jshape d p).
Proof.
  intros Ht Hr L1 L2. unfold att_lsnode. eapply (hashes_y d p _ h h'); try exact (proj1 (hl_next g _ _ Ht)); try exact Hr; try assumption.
  - intros Hm. eapply y_weak; [apply (att_ls_impl_y h this right Ht), Hm, Hr|]. intros y Hy. eapply j_shape; eassumption.
  - intros w w' T1 T2 Hs. apply (att_apart_y d p h h' (NL this) (NS right)); try assumption. apply hl_s, Hr.
Qed.
Lemma att_snode_y d p h h' this right : has h (s_key this, s_value this) -> has h' (s_key right, s_value right) -> g_lies g d p h -> g_lies g d p h' ->
  yields (att_snode red ck cv ky both lop rop this right d) (jshape d p).
Proof.
  intros Ht Hr L1 L2. unfold att_snode. eapply (hashes_y d p _ h h'); try exact Ht; try exact Hr; try assumption.
  - intros Hm. eapply y_weak; [apply (att_s_impl_y h this right Ht), Hm, Hr|]. intros y Hy. eapply j_shape; eassumption.
  - intros w w' T1 T2 Hs. apply (att_apart_y d p h h' (NS this) (NS right)); try assumption; apply hl_s; assumption.
Qed.
End Pair.

(** What is bad and stuck with these two nodes: collision lists on both sides. *)
Definition pairs {E : Env} (bad stuck : Prop) {K V} (n r : mnode K V) : Prop :=
  2 <= longest n -> 2 <= longest r -> bad /\ (3 <= longest n \/ 3 <= longest r -> stuck).
Lemma pairs_flip {E : Env} {bad stuck : Prop} {K V} {n r : mnode K V} : pairs bad stuck n r -> pairs bad stuck r n.
Proof. unfold pairs. intros H H1 H2. destruct (H H2 H1) as [G1 G2]. tauto. Qed.
Lemma pairs_child {E : Env} {bad stuck : Prop} {K V} bits (values : list (mnode K V)) x c r : pairs bad stuck (MC (BIA bits values x)) r -> In c values -> pairs bad stuck c r.
Proof. unfold pairs. intros H Hc H1 H2. pose proof (longest_child bits values x c Hc). destruct H as [G1 G2]; [lia|lia|]. split; [exact G1|]. intros [H3|H3]; apply G2; [left|right]; lia. Qed.
Lemma list_two {E : Env} {K V} (l : lnode K V) : 2 <= longest (ML l).
Proof. destruct l as [? ? [] ?|]; cbn [longest l_visit]; unfold lenN; cbn [length s_visit]; lia. Qed.
Lemma list_three {E : Env} {K V} (l : lnode K V) : (exists l', l_next l = NL l') -> 3 <= longest (ML l).
Proof. intros [l' H]. destruct l as [k v n z|]; [|discriminate H]. pose proof (list_two n) as H2. cbn [longest l_visit] in *. unfold lenN in *. cbn [length]. lia. Qed.

(** * Two branches, and a branch and a leaf *)
Section Family.
Context {E : Env} {Q : Type} {A : Q -> Type} {K V R : Type} (good : event (A := A) -> Prop) {bad : Prop} (stuck : Prop) (g : ground bad K V).
Notation yields := (yields good bad stuck).
Notation quiet := (quiet good bad stuck).
Notation has := (has g).
Notation hleaf := (hleaf has).
Notation shaped := (shaped (leaf_of has (g_lies g)) (g_deep g)).
Notation jshape := (jshape (R := R) g).
Notation sinv := (sinv (R := R) g).
Context {def : prog A R} {red : R -> R -> prog A R} {ck : K -> prog A K} {cv : V -> prog A V} {ky : keyed A K K} {both : ejoint A (K * V) V R} {lop rop : etransform A (K * V) V R}.
Context (laws : ttground good bad stuck g def red ck cv ky both lop rop).

Lemma att_leaf_y d p this right : leafy (next_mnode this) -> leafy (next_mnode right) ->
  leaf_of has (g_lies g) d p (m_visit (next_mnode this)) -> leaf_of has (g_lies g) d p (m_visit (next_mnode right)) ->
  pairs bad stuck (next_mnode this) (next_mnode right) -> yields (att_leaf red ck cv ky both lop rop this right d) (jshape d p).
Proof.
  intros H1 H2 (h & G1 & L1) (h' & G2 & L2) HP. destruct this as [l|s], right as [r|r]; cbn [att_leaf next_mnode] in *.
  - destruct (HP (list_two l) (list_two r)) as [HB HS]. apply (att_lnode_y good stuck g laws d p h h'); try assumption; [intros HL; apply HS; right; apply list_three, HL|split; assumption..].
  - apply (att_lsnode_y good stuck g laws d p h h'); try assumption; [split; assumption|]. inversion G2; assumption.
  - eapply y_bind; [apply (att_lsnode_y good stuck g (tg_flip laws) d p h' h); try assumption; [split; assumption|]; inversion G1; assumption|].
    intros y Hy. apply y_ret. apply j_flip. exact Hy.
  - apply (att_snode_y good stuck g laws d p h h'); try assumption; [inversion G1|inversion G2]; assumption.
Qed.

Definition is_left (y : jres K V R) : Prop := match y with JL _ | JLR _ => True | _ => False end.
Lemma att_add_y d p lo i a ol or y : lo <= i -> i < max_ones fw -> sinv d p lo i a ->
  (is_left y -> exists l, ol = Some l /\ shaped (d + 1) (p + i * 2 ^ off d) l) -> (is_right y -> exists r, or = Some r /\ shaped (d + 1) (p + i * 2 ^ off d) r) ->
  jshape (d + 1) (p + i * 2 ^ off d) y -> yields (att_add red a i ol or y) (sinv d p lo (i + 1)).
Proof.
  intros Hlo Hi HI Hl Hr Hy. destruct y as [r|r|r|n]; cbn [att_add is_right is_left AskTwShapeP.jshape] in *.
  - destruct (Hl Logic.I) as (l & -> & H). cbn [unwrap lift pbind]. apply apush_y; auto. apply (tg_red laws).
  - destruct (Hl Logic.I) as (l & -> & H). cbn [unwrap lift pbind]. eapply (y_bind _ _ _ _ _ (sinv d p lo (i + 1))); [apply apush_y; auto; apply (tg_red laws)|]. intros a' Ha. apply y_ret. destruct a'. exact Ha.
  - destruct (Hr Logic.I) as (l & -> & H). cbn [unwrap lift pbind]. eapply (y_bind _ _ _ _ _ (sinv d p lo (i + 1))); [apply apush_y; auto; apply (tg_red laws)|]. intros a' Ha. apply y_ret. destruct a'. exact Ha.
  - eapply y_bind; [apply apush_new_y; [apply (tg_red laws)|exact Hlo|exact Hi|exact HI|exact Hy]|]. intros a' Ha. apply y_ret. destruct a'. exact Ha.
Qed.

Lemma att_lone_y st d p n : shaped d p n -> yields (att_lone def red ck cv st lop n) (fun y => jshape d p y /\ ~ is_right y).
Proof.
  intros H. unfold att_lone. eapply y_bind; [apply (am_transform_y good stuck g def red ck cv (tg_red laws) (tg_ck laws) (tg_cv laws) (tg_def laws) lop (tg_left laws) st n d p H)|].
  intros [r|t] Ht; apply y_ret; (split; [exact Ht|cbn; tauto]).
Qed.
Lemma att_rone_y st d p n : shaped d p n -> yields (att_rone def red ck cv st rop n) (fun y => jshape d p y /\ ~ is_left y).
Proof.
  intros H. unfold att_rone. eapply y_bind; [apply (am_transform_y good stuck g def red ck cv (tg_red laws) (tg_ck laws) (tg_cv laws) (tg_def laws) rop (tg_right laws) st n d p H)|].
  intros [r|t] Ht; apply y_ret; (split; [exact Ht|cbn; tauto]).
Qed.
Lemma tt_done_y d p a : g_deep g d p -> sinv d p 0 (max_ones fw) a -> ends bad stuck (jshape d p) (tt_done a).
Proof.
  intros Hd HI. unfold tt_done. destruct (finish_y g d p Hd a HI) as (n & -> & Hn). destruct (a_ul a), (a_ur a); cbn; try exact Logic.I. exact Hn.
Qed.

Lemma att_tree_leaf_y st right n : leafy (next_mnode right) -> forall d p, shaped d p n -> leaf_of has (g_lies g) d p (m_visit (next_mnode right)) -> pairs bad stuck n (next_mnode right) ->
  yields (att_tree_leaf def red ck cv ky st both lop rop right n d) (jshape d p).
Proof.
  intros Hr. unfold att_tree_leaf. induction n as [bits values x IH|l|s] using mnode_ind'; intros d p Hs Hlf HP; cbn [am_leaf].
  - rewrite Forall_forall in IH. inversion Hs as [| |? ? ? ? ? Hd Hok Hne Hx Hch]; subst.
    pose proof Hlf as (h & Hh & Hl). destruct (next_first right _ Hh) as [v0 Hv0].
    eapply y_bind; [apply (tg_hash' laws)|]. intros wd T0. specialize (T0 h (proj1 Hv0)).
    destruct (g_route g _ _ _ _ Hd T0 Hl) as (fl & j & Hf & Hfl & Hj & Hlies). rewrite Hf. cbn [bind unwrap lift]. cbn [pbind]. rewrite Hfl.
    eapply y_bind; [|intros a HI; apply y_lift; exact (tt_done_y d p a Hd HI)].
    apply aloop_y with (red := red); [apply (tg_red laws)|apply (tg_def laws)| |lia|lia]. intros lo i a Hlo Hi HI. unfold acl_step. rewrite bat_bit_index_slot by assumption. rewrite nth_bit_ok by assumption. cbn [unwrap_ok lift pbind].
    assert (Hbit : (2 ^ j =? 2 ^ i) = (i =? j)).
    { destruct (N.eqb_spec i j) as [->|Hij]; [apply N.eqb_refl|]. apply N.eqb_neq. intros H. apply N.pow_inj_r in H; lia. }
    rewrite Hbit. assert (Hrs : i = j -> shaped (d + 1) (p + i * 2 ^ off d) (next_mnode right)).
    { intros ->. apply leafy_shaped; [assumption|]. exists h. auto. }
    destruct (getv bits values i) as [c|] eqn:Hg; destruct (N.eqb_spec i j) as [Hij|Hij].
    + eapply y_bind; [apply (IH c (getv_in _ _ _ _ Hg) (d + 1) (p + i * 2 ^ off d) (Hch _ _ Hg)); [exists h; subst; auto|eapply pairs_child; [exact HP|eapply getv_in; exact Hg]]|].
      intros y Hy. apply att_add_y; try assumption; [intros _; exists c; split; [reflexivity|exact (Hch _ _ Hg)]|intros _; eexists; split; [reflexivity|auto]].
    + eapply y_bind; [exact (att_lone_y st _ _ c (Hch _ _ Hg))|]. intros y [Hy HN]. apply att_add_y; try assumption; [intros _; exists c; split; [reflexivity|exact (Hch _ _ Hg)]|intros HR; contradiction].
    + eapply y_bind; [exact (att_rone_y st _ _ _ (Hrs Hij))|]. intros y [Hy HN]. apply att_add_y; try assumption; [intros HL; contradiction|intros _; eexists; split; [reflexivity|auto]].
    + apply y_ret, sinv_skip, HI.
  - inversion Hs as [|? ? ? Hll Hlf'|]; subst. apply (att_leaf_y d p (NL l) right); assumption.
  - inversion Hs as [? ? ? Hlf'| |]; subst. apply (att_leaf_y d p (NS s) right); try assumption. exact Logic.I.
Qed.
End Family.

Section Joint.
Context {E : Env} {Q : Type} {A : Q -> Type} {K V R : Type} (good : event (A := A) -> Prop) {bad : Prop} (stuck : Prop) (g : ground bad K V).
Notation yields := (yields good bad stuck).
Notation quiet := (quiet good bad stuck).
Notation has := (has g).
Notation shaped := (shaped (leaf_of has (g_lies g)) (g_deep g)).
Notation jshape := (jshape (R := R) g).
Context {def : prog A R} {red : R -> R -> prog A R} {ck : K -> prog A K} {cv : V -> prog A V} {ky : keyed A K K} {both : ejoint A (K * V) V R} {lop rop : etransform A (K * V) V R}.
Context (laws : ttground good bad stuck g def red ck cv ky both lop rop).

Lemma att_leaf_tree_y st d p this r : leafy (next_mnode this) -> shaped d p r -> leaf_of has (g_lies g) d p (m_visit (next_mnode this)) -> pairs bad stuck (next_mnode this) r ->
  yields (att_leaf_tree def red ck cv ky st both lop rop this r d) (jshape d p).
Proof.
  intros Hl Hs Hlf HP. unfold att_leaf_tree. eapply y_bind; [apply (att_tree_leaf_y good stuck g (tg_flip laws) st this r Hl d p Hs Hlf (pairs_flip HP))|].
  intros y Hy. apply y_ret, j_flip, Hy.
Qed.

Lemma am_tt_y st n : forall r d p, shaped d p n -> shaped d p r -> pairs bad stuck n r -> yields (am_tt def red ck cv ky st both lop rop n r d) (jshape d p).
Proof.
  unfold am_tt. induction n as [bits values x IH|l|s] using mnode_ind'; intros r d p Hs Hr HP; cbn [atw_joint].
  - destruct r as [[rbits rvalues rx]|rl|rs].
    + rewrite Forall_forall in IH. inversion Hs as [| |? ? ? ? ? Hd Hok Hne Hx Hch]; subst. inversion Hr as [| |? ? ? ? ? Hd' Hok' Hne' Hx' Hch']; subst.
      destruct (att_short both lop rop) as [t|] eqn:Hsh.
      * apply y_ret. unfold att_short in Hsh. destruct both, lop, rop; try discriminate Hsh; injection Hsh as <-; try exact Logic.I. intros m [=].
      * eapply y_bind; [|intros a HI; apply y_lift; exact (tt_done_y stuck g d p a Hd HI)].
        apply arun_y; [apply (tg_red laws)|apply (tg_def laws)|]. intros lo i a Hlo Hi HI. unfold acc_step. rewrite bat_bit_index_slot by assumption. rewrite bat_slot by assumption. cbn [lift pbind].
        destruct (getv bits values i) as [c|] eqn:Hg; destruct (getv rbits rvalues i) as [c'|] eqn:Hg'.
        -- eapply y_bind; [apply (IH c (getv_in _ _ _ _ Hg) c' (d + 1) (p + i * 2 ^ off d) (Hch _ _ Hg) (Hch' _ _ Hg'));
             eapply pairs_child; [eapply pairs_flip, pairs_child; [eapply pairs_flip; exact HP|eapply getv_in; exact Hg']|eapply getv_in; exact Hg]|].
           intros y Hy. apply (att_add_y good stuck g laws); try assumption; [intros _; exists c; split; [reflexivity|exact (Hch _ _ Hg)]|intros _; exists c'; split; [reflexivity|exact (Hch' _ _ Hg')]].
        -- eapply y_bind; [exact (att_lone_y good stuck g laws st _ _ c (Hch _ _ Hg))|]. intros y [Hy HN]. apply (att_add_y good stuck g laws); try assumption; [intros _; exists c; split; [reflexivity|exact (Hch _ _ Hg)]|intros HR; contradiction].
        -- eapply y_bind; [exact (att_rone_y good stuck g laws st _ _ c' (Hch' _ _ Hg'))|]. intros y [Hy HN]. apply (att_add_y good stuck g laws); try assumption; [intros HL; contradiction|intros _; exists c'; split; [reflexivity|exact (Hch' _ _ Hg')]].
        -- apply y_ret, sinv_skip, HI.
    + inversion Hr as [|? ? ? Hrl Hrf|]; subst. apply (att_tree_leaf_y good stuck g laws st (NL rl)); assumption.
    + inversion Hr as [? ? ? Hrf| |]; subst. apply (att_tree_leaf_y good stuck g laws st (NS rs)); try assumption. exact Logic.I.
  - inversion Hs as [|? ? ? Hll Hlf|]; subst. destruct r as [rb|rl|rs].
    + apply (att_leaf_tree_y st d p (NL l)); assumption.
    + inversion Hr as [|? ? ? Hrl Hrf|]; subst. apply (att_leaf_y good stuck g laws d p (NL l) (NL rl)); assumption.
    + inversion Hr as [? ? ? Hrf| |]; subst. apply (att_leaf_y good stuck g laws d p (NL l) (NS rs)); try assumption. exact Logic.I.
  - inversion Hs as [? ? ? Hlf| |]; subst. destruct r as [rb|rl|rs].
    + apply (att_leaf_tree_y st d p (NS s)); try assumption. exact Logic.I.
    + inversion Hr as [|? ? ? Hrl Hrf|]; subst. apply (att_leaf_y good stuck g laws d p (NS s) (NL rl)); try assumption. exact Logic.I.
    + inversion Hr as [? ? ? Hrf| |]; subst. apply (att_leaf_y good stuck g laws d p (NS s) (NS rs)); try assumption; exact Logic.I.
Qed.
End Joint.
