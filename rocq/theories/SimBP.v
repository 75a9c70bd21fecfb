(** C66: what the run with closures says about the run with constants. *)
From Coq Require Import NArith Arith List Bool Lia Permutation.
From Verif Require Import Base Words Flag Bia BiaP Node Inv Api Reach Trans Transform Joint Eff EffP EffTP EffApi EffMapP Ask SpecAsk AskP AskHashP AskT SpecAskT AskTP AskTTP AskMP AskTopP AskJ SpecAskJ AskJTopP AskJPlaceP AskJLooseP Misuse AskApiP AskJSumP SpecConst SimP SimLP SimJP SimTP SimAP.
Import ListNotations.
Open Scope N_scope.

Lemma filter_perm {T} (f : T -> bool) l l' : Permutation l l' -> Permutation (filter f l) (filter f l').
Proof.
  intros H. induction H as [|x l l' H IH|x y l|l l' l'' H IH H' IH']; cbn [filter]; [constructor|destruct (f x); [constructor|]; assumption| |etransitivity; eassumption].
  destruct (f x), (f y); try reflexivity. apply perm_swap.
Qed.

Section Read.
Context {E : Env} {KL VL KR VR K V TB TL TR R : Type}.
Notation A := (jreply KL VL KR VR K V TB TL TR R).
Notation event := (event (A := A)).
Context (bb bl br : bool) (sb : option TB -> Prop) (sl : option TL -> Prop) (sr : option TR -> Prop).
Notation keep := (jkeep (KL := KL) (VL := VL) (KR := KR) (VR := VR) (K := K) (V := V) (R := R) bb bl br).
Notation soft := (jsoft (KL := KL) (VL := VL) (KR := KR) (VR := VR) (K := K) (V := V) (R := R)).
Notation fair := (jfair (KL := KL) (VL := VL) (KR := KR) (VR := VR) (K := K) (V := V) (R := R) sb sl sr).
Notation same := (same keep soft fair).

Lemma same_in tr tr1 (e : event) : same tr tr1 -> In e tr1 -> keep (asked e) = true -> In e tr.
Proof.
  intros (H & _) Hi Hk. assert (In e (calls_kept keep tr1)) as Hi' by (apply filter_In; auto). rewrite H in Hi'. apply filter_In in Hi'. tauto.
Qed.
Lemma same_fair tr tr1 (e : event) : same tr tr1 -> In e tr1 -> fair e.
Proof. intros (_ & _ & H & _). rewrite Forall_forall in H. apply H. Qed.
Lemma flat_kept {T} (f : event -> list T) tr : (forall e, keep (asked e) = false -> f e = []) -> flat_map f (calls_kept keep tr) = flat_map f tr.
Proof.
  intros H. induction tr as [|e tr IH]; [reflexivity|]. unfold calls_kept in *. cbn [filter flat_map]. destruct (keep (asked e)) eqn:He; cbn [flat_map]; rewrite IH; [reflexivity|].
  rewrite (H e He). reflexivity.
Qed.
Lemma same_clones (tr tr1 : list event) : same tr tr1 -> clones jsee tr1 = clones jsee tr.
Proof.
  intros (H & _). unfold clones. assert (forall e : event, keep (asked e) = false -> match jsee e with ItClone c => [c] | _ => [] end = []) as Hn.
  { intros [q a]. destruct q; cbn; try discriminate; intros _; destruct a; reflexivity. }
  rewrite <- (flat_kept _ tr Hn), <- (flat_kept _ tr1 Hn), H. reflexivity.
Qed.
Lemma told_kept tr : Forall (fun e : event => keep (asked e) || soft (asked e) = true) tr -> jtold_all (calls_kept keep tr) = jtold_all tr.
Proof.
  intros H. unfold jtold_all. induction H as [|e tr He H IH]; [reflexivity|]. unfold calls_kept in *. cbn [filter flat_map].
  destruct (keep (asked e)) eqn:Hk; cbn [flat_map]; rewrite IH; [reflexivity|]. cbn in He. unfold jtold. destruct (asked e); cbn in He; try discriminate; reflexivity.
Qed.
Lemma told_ops (tr : list event) : unbroken tr -> jtold_all tr = flat_map item_told (ops jsee tr).
Proof.
  intros H. induction tr as [|e tr IH]; [reflexivity|]. unfold jtold_all, ops in *. cbn [flat_map]. rewrite flat_map_app, <- IH; [|intros q Hq; apply (H q); right; exact Hq].
  f_equal. destruct e as [q [a|]]; [|destruct (H q); left; reflexivity]. destruct q; reflexivity.
Qed.
Lemma ops_kept (tr : list event) : filter (item_called bb bl br) (ops jsee tr) = ops jsee (calls_kept keep tr).
Proof.
  induction tr as [|e tr IH]; [reflexivity|]. unfold ops, calls_kept in *. cbn [flat_map filter]. rewrite filter_app, IH.
  destruct e as [q [a|]]; destruct q; cbn; try reflexivity; [destruct bb|destruct bl|destruct br|destruct bb|destruct bl|destruct br]; reflexivity.
Qed.
Lemma same_told (tr tr1 : list event) : same tr tr1 -> unbroken tr1 -> jtold_all tr = flat_map item_told (filter (item_called bb bl br) (ops jsee tr1)).
Proof.
  intros (H & H0 & _) HU. rewrite ops_kept, <- told_ops; [|intros q Hq; apply filter_In in Hq; destruct Hq as [Hq _]; apply (HU q Hq)].
  rewrite <- (told_kept tr H0), H. reflexivity.
Qed.
Lemma same_told_rest tr tr1 : same tr tr1 -> exists rest, Permutation (jtold_all tr ++ rest) (jtold_all tr1).
Proof.
  intros (H & H0 & _). exists (jtold_all (filter (fun e => negb (keep (asked e))) tr1)). rewrite <- (told_kept tr H0), <- H. clear.
  unfold jtold_all, calls_kept. induction tr1 as [|e l IH]; [reflexivity|]. cbn [filter flat_map]. destruct (keep (asked e)); cbn [negb flat_map].
  - rewrite <- app_assoc. apply Permutation_app_head. exact IH.
  - etransitivity; [apply Permutation_app_swap_app|]. apply Permutation_app_head. exact IH.
Qed.
Lemma same_broke tr tr1 : same tr tr1 -> jpanicked tr1 -> jpanicked tr.
Proof. intros (_ & _ & _ & H & _). exact H. Qed.
Lemma same_differ tr tr1 : same tr tr1 -> hashes_differ tr1 -> hashes_differ tr.
Proof.
  intros H (h & h' & H1 & H2 & H3). exists h, h'. split; [|split; [|exact H3]].
  - destruct H1 as [[k Hk]|[k Hk]]; [left|right]; exists k; eapply same_in; try eassumption; reflexivity.
  - destruct H2 as [[k Hk]|[k Hk]]; [left|right]; exists k; eapply same_in; try eassumption; reflexivity.
Qed.
Lemma same_key_clone (tr tr1 : list event) k k' : same tr tr1 -> jkey_clone tr1 k k' -> jkey_clone tr k k'.
Proof. intros H Hk. eapply same_in; try eassumption; reflexivity. Qed.
Lemma same_value_clone (tr tr1 : list event) k k' : same tr tr1 -> jvalue_clone tr1 k k' -> jvalue_clone tr k k'.
Proof. intros H Hk. eapply same_in; try eassumption; reflexivity. Qed.
Lemma same_equal (tr tr1 : list event) k k' : same tr tr1 -> said_equal tr1 k k' -> said_equal tr k k'.
Proof. intros H [Hk|Hk]; [left|right]; (eapply same_in; try eassumption; reflexivity). Qed.

(** The ways: [cb], [cl], [cr] as in [item_from]. *)
Lemma same_from (cb : TB -> Prop -> Prop) (cl : TL -> Prop -> Prop) (cr : TR -> Prop -> Prop) tr tr1 i : same tr tr1 -> called tr1 i ->
  (forall o (P : Prop), sb (Some o) -> (bb = true -> P) -> cb o P) -> (forall o (P : Prop), sl (Some o) -> (bl = true -> P) -> cl o P) -> (forall o (P : Prop), sr (Some o) -> (br = true -> P) -> cr o P) ->
  item_from cb cl cr tr i.
Proof.
  intros H Hi Hb Hl Hr. destruct i as [x y o|x o|y o]; cbn in *.
  - destruct Hi as [Hi Hs]. split; [|eapply same_equal; eassumption]. apply Hb; [exact (same_fair _ _ _ H Hi)|]. intros Hk. eapply same_in; try eassumption.
  - apply Hl; [exact (same_fair _ _ _ H Hi)|]. intros Hk. eapply same_in; try eassumption.
  - apply Hr; [exact (same_fair _ _ _ H Hi)|]. intros Hk. eapply same_in; try eassumption.
Qed.
End Read.

Lemma tw_from_fair {V R} (w : tway R) (o : vres V R) (P : Prop) : tw_fair w (Some o) -> (tw_closure w = true -> P) -> tw_from w o P.
Proof. destruct w; cbn; auto. Qed.
Lemma mw_from_fair {S X R} (w : mway R) (o : kres S X R) (P : Prop) : mw_fair w (Some o) -> (mw_closure w = true -> P) -> mw_from w o P.
Proof. destruct w; cbn; auto. Qed.

Lemma jbecomes_in {E : Env} {KL VL KR VR K V TB TL TR R} (tr tr1 : list (event (A := jreply KL VL KR VR K V TB TL TR R))) x (o : vres V R) out :
  (forall k k', jkey_clone tr1 k k' -> jkey_clone tr k k') -> (forall k k', jvalue_clone tr1 k k' -> jvalue_clone tr k k') -> jbecomes tr1 x o out -> jbecomes tr x o out.
Proof.
  intros Hk Hv. destruct o; cbn; [|intros (k & H1 & H2)|auto].
  - intros [H|(k & v & H1 & H2 & H3)]; [auto|right]. exists k, v. auto.
  - exists k. auto.
Qed.

Section Results.
Context {E : Env} {K V L W R : Type}.

Theorem const_tm_run (m : trie K V) (right : trie L W) st (wb wl : tway R) (wr : mway R) tr (o : outcome (trie K V * R * origin)) :
  misused m -> misused right -> exec (ask_tm st wb wl wr m right) tr o ->
  exists tr1 o1, exec (ask_tm st TwClosure TwClosure MwClosure m right) tr1 o1 /\
    same (jkeep (tw_closure wb) (tw_closure wl) (mw_closure wr)) jsoft (jfair (tw_fair wb) (tw_fair wl) (mw_fair wr)) tr tr1 /\ orel same_map o o1.
Proof. intros Hm Hr. exact (ask_tm_sim st wb wl wr m right (misused_loose m Hm) (misused_loose right Hr) tr o). Qed.

Theorem const_tm (m : trie K V) (right : trie L W) st (wb wl : tway R) (wr : mway R) tr (o : outcome (trie K V * R * origin)) :
  misused m -> misused right -> exec (ask_tm st wb wl wr m right) tr o ->
  match o with
  | Ret (m', r, og) => misused m' /\ (og = Self -> m' = m) /\ 
      exists is outs, Permutation (flat_map item_told is) (map inl (map_visit m) ++ map inr (map_visit right)) /\
        Permutation (jtold_all tr) (flat_map item_told (filter (item_called (tw_closure wb) (tw_closure wl) (mw_closure wr)) is)) /\
        (exists rest, Permutation (clones jsee tr ++ rest) (flat_map tm_cost is)) /\
        Forall2 (tm_goes wb wl wr tr) is outs /\ Permutation (map_visit m') (concat outs)
  | Panic => (jpanicked tr \/ hashes_differ tr) /\ exists rest, Permutation (jtold_all tr ++ rest) (map inl (map_visit m) ++ map inr (map_visit right))
  | Diverge => (3 <= longest right) /\ exists rest, Permutation (jtold_all tr ++ rest) (map inl (map_visit m) ++ map inr (map_visit right))
  end.
Proof.
  intros Hm Hr He. destruct (const_tm_run m right st wb wl wr tr o Hm Hr He) as (tr1 & o1 & He1 & Hs & Ho).
  pose proof (misused_tm m right st tr1 o1 Hm Hr He1) as H.
  assert (forall rest1, Permutation (jtold_all tr1 ++ rest1) (map inl (map_visit m) ++ map inr (map_visit right)) -> exists rest, Permutation (jtold_all tr ++ rest) (map inl (map_visit m) ++ map inr (map_visit right))) as Hrest.
  { intros rest1 H1. destruct (same_told_rest _ _ _ _ _ _ tr tr1 Hs) as [x Hx]. exists (x ++ rest1). rewrite app_assoc, Hx. exact H1. }
  destruct o as [[[m' r] og]| |], o1 as [[[m1 r1] og1]| |]; try contradiction.
  - destruct Ho as [Hm' Hog]. cbn in Hm', Hog. subst m1 og1. destruct H as (H1 & H2 & is & outs & (H3 & _ & _ & H4) & H5 & H6).
    assert (unbroken tr1) as HU. { destruct (unbroken_or tr1) as [HU|HU]; [exact HU|]. destruct (exec_stops _ _ _ He1 HU) as (? & ? & ? & ? & ?). discriminate. }
    split; [exact (mis_tm K V L W R m right st tr1 m' r1 og Hm Hr He1)|]. split; [exact H2|]. exists is, outs. split; [|split; [|split; [|split; [|exact H6]]]].
    + rewrite <- H1, (told_ops tr1 HU). apply Permutation_flat_map. symmetry. exact H3.
    + rewrite (same_told _ _ _ _ _ _ tr tr1 Hs HU). apply Permutation_flat_map, filter_perm, H3.
    + rewrite <- (same_clones _ _ _ _ _ _ tr tr1 Hs). exact H4.
    + clear - H5 Hs. induction H5 as [|i out is outs Hi H5 IH]; constructor; [|exact IH]. destruct Hi as [Hi Hj]. split.
      * eapply same_from; [exact Hs|exact Hi|intros; first [apply tw_from_fair|apply mw_from_fair]; assumption..].
      * destruct i; first [exact Hj|eapply jbecomes_in; [intros; eapply same_key_clone; eassumption|intros; eapply same_value_clone; eassumption|exact Hj]].
  - destruct H as [H (rest & H1)]. split; [|eapply Hrest; eassumption]. destruct H as [H|H]; [left; eapply same_broke|right; eapply same_differ]; eassumption.
  - destruct H as [H (rest & H1)]. split; [exact H|eapply Hrest; eassumption].
Qed.

Theorem const_tm_ends (m : trie K V) (right : trie L W) st (wb wl : tway R) (wr : mway R) tr (o : outcome (trie K V * R * origin)) :
  misused m -> misused right -> exec (ask_tm st wb wl wr m right) tr o -> longest right < 3 ->
  (unbroken tr /\ exists x, o = Ret x) \/ (unbroken tr /\ hashes_differ tr /\ o = Panic) \/ (exists tr' q, tr = tr' ++ [broke q] /\ unbroken tr' /\ o = Panic).
Proof.
  intros Hm Hr He HA. destruct (unbroken_or tr) as [HU|HU]; [|right; right; exact (exec_stops _ _ _ He HU)].
  apply const_tm in He; [|assumption..]. destruct o as [x| |]; [left; eauto| |exfalso; lia].
  right; left. split; [exact HU|]. split; [|reflexivity]. destruct He as [[[q Hq]|H] _]; [destruct (HU q Hq)|exact H].
Qed.

Theorem const_tm_steady {KK : Key K} {KL : Key L} (m : trie K V) (right : trie L W) st (wb wl : tway R) (wr : mway R) tr (o : outcome (trie K V * R * origin)) :
  unequal m -> unequal right -> Forall tm_steady tr -> exec (ask_tm st wb wl wr m right) tr o ->
  match o with Ret (m', r, og) => unequal m' | Panic => jpanicked tr | Diverge => 3 <= longest right end.
Proof.
  intros Hm Hr Ht He. destruct (const_tm_run m right st wb wl wr tr o (unequal_misused _ Hm) (unequal_misused _ Hr) He) as (tr1 & o1 & He1 & Hs & Ho).
  assert (Forall tm_steady tr1) as Ht1.
  { rewrite Forall_forall in Ht |- *. intros e Hi. destruct (jkeep (tw_closure wb) (tw_closure wl) (mw_closure wr) (asked e)) eqn:Hk; [apply Ht; eapply same_in; eassumption|].
    pose proof (same_fair _ _ _ _ _ _ _ _ e Hs Hi) as Hf. clear - Hk Hf. destruct e as [q [a|]]; destruct q; cbn in Hk, Hf |- *; try discriminate; auto;
      repeat match goal with w : tway R |- _ => destruct w | w : mway R |- _ => destruct w end; cbn in *; try discriminate; try subst a; repeat split; cbn; auto. }
  pose proof (unequal_tm m right st tr1 o1 Hm Hr Ht1 He1) as H.
  destruct o as [[[m' r] og]| |], o1 as [[[m1 r1] og1]| |]; try contradiction; [|eapply same_broke; eassumption|exact H].
  destruct Ho as [Ho _]. cbn in Ho. subst m1. exact H.
Qed.

Theorem const_mt_run (m : trie K V) (right : trie L W) st (wb : tway R) (wl : mway R) (wr : tway R) tr (o : outcome (trie L W * R * origin)) :
  misused m -> misused right -> exec (ask_mt st wb wl wr m right) tr o ->
  exists tr1 o1, exec (ask_mt st TwClosure MwClosure TwClosure m right) tr1 o1 /\
    same (jkeep (tw_closure wb) (mw_closure wl) (tw_closure wr)) jsoft (jfair (tw_fair wb) (mw_fair wl) (tw_fair wr)) tr tr1 /\ orel same_map o o1.
Proof. intros Hm Hr. exact (ask_mt_sim st wb wl wr m right (misused_loose m Hm) (misused_loose right Hr) tr o). Qed.

Theorem const_mt (m : trie K V) (right : trie L W) st (wb : tway R) (wl : mway R) (wr : tway R) tr (o : outcome (trie L W * R * origin)) :
  misused m -> misused right -> exec (ask_mt st wb wl wr m right) tr o ->
  match o with
  | Ret (m', r, og) => misused m' /\ (og = Right -> m' = right) /\ 
      exists is outs, Permutation (flat_map item_told is) (map inl (map_visit m) ++ map inr (map_visit right)) /\
        Permutation (jtold_all tr) (flat_map item_told (filter (item_called (tw_closure wb) (mw_closure wl) (tw_closure wr)) is)) /\
        (exists rest, Permutation (clones jsee tr ++ rest) (flat_map mt_cost is)) /\
        Forall2 (mt_goes wb wl wr tr) is outs /\ Permutation (map_visit m') (concat outs)
  | Panic => (jpanicked tr \/ hashes_differ tr) /\ exists rest, Permutation (jtold_all tr ++ rest) (map inl (map_visit m) ++ map inr (map_visit right))
  | Diverge => (3 <= longest m) /\ exists rest, Permutation (jtold_all tr ++ rest) (map inl (map_visit m) ++ map inr (map_visit right))
  end.
Proof.
  intros Hm Hr He. destruct (const_mt_run m right st wb wl wr tr o Hm Hr He) as (tr1 & o1 & He1 & Hs & Ho).
  pose proof (misused_mt m right st tr1 o1 Hm Hr He1) as H.
  assert (forall rest1, Permutation (jtold_all tr1 ++ rest1) (map inl (map_visit m) ++ map inr (map_visit right)) -> exists rest, Permutation (jtold_all tr ++ rest) (map inl (map_visit m) ++ map inr (map_visit right))) as Hrest.
  { intros rest1 H1. destruct (same_told_rest _ _ _ _ _ _ tr tr1 Hs) as [x Hx]. exists (x ++ rest1). rewrite app_assoc, Hx. exact H1. }
  destruct o as [[[m' r] og]| |], o1 as [[[m1 r1] og1]| |]; try contradiction.
  - destruct Ho as [Hm' Hog]. cbn in Hm', Hog. subst m1 og1. destruct H as (H1 & H2 & is & outs & (H3 & _ & _ & H4) & H5 & H6).
    assert (unbroken tr1) as HU. { destruct (unbroken_or tr1) as [HU|HU]; [exact HU|]. destruct (exec_stops _ _ _ He1 HU) as (? & ? & ? & ? & ?). discriminate. }
    split; [exact (mis_mt K V L W R m right st tr1 m' r1 og Hm Hr He1)|]. split; [exact H2|]. exists is, outs. split; [|split; [|split; [|split; [|exact H6]]]].
    + rewrite <- H1, (told_ops tr1 HU). apply Permutation_flat_map. symmetry. exact H3.
    + rewrite (same_told _ _ _ _ _ _ tr tr1 Hs HU). apply Permutation_flat_map, filter_perm, H3.
    + rewrite <- (same_clones _ _ _ _ _ _ tr tr1 Hs). exact H4.
    + clear - H5 Hs. induction H5 as [|i out is outs Hi H5 IH]; constructor; [|exact IH]. destruct Hi as [Hi Hj]. split.
      * eapply same_from; [exact Hs|exact Hi|intros; first [apply tw_from_fair|apply mw_from_fair]; assumption..].
      * destruct i; first [exact Hj|eapply jbecomes_in; [intros; eapply same_key_clone; eassumption|intros; eapply same_value_clone; eassumption|exact Hj]].
  - destruct H as [H (rest & H1)]. split; [|eapply Hrest; eassumption]. destruct H as [H|H]; [left; eapply same_broke|right; eapply same_differ]; eassumption.
  - destruct H as [H (rest & H1)]. split; [exact H|eapply Hrest; eassumption].
Qed.

Theorem const_mt_ends (m : trie K V) (right : trie L W) st (wb : tway R) (wl : mway R) (wr : tway R) tr (o : outcome (trie L W * R * origin)) :
  misused m -> misused right -> exec (ask_mt st wb wl wr m right) tr o -> longest m < 3 ->
  (unbroken tr /\ exists x, o = Ret x) \/ (unbroken tr /\ hashes_differ tr /\ o = Panic) \/ (exists tr' q, tr = tr' ++ [broke q] /\ unbroken tr' /\ o = Panic).
Proof.
  intros Hm Hr He HA. destruct (unbroken_or tr) as [HU|HU]; [|right; right; exact (exec_stops _ _ _ He HU)].
  apply const_mt in He; [|assumption..]. destruct o as [x| |]; [left; eauto| |exfalso; lia].
  right; left. split; [exact HU|]. split; [|reflexivity]. destruct He as [[[q Hq]|H] _]; [destruct (HU q Hq)|exact H].
Qed.

Theorem const_mt_steady {KK : Key K} {KL : Key L} (m : trie K V) (right : trie L W) st (wb : tway R) (wl : mway R) (wr : tway R) tr (o : outcome (trie L W * R * origin)) :
  unequal m -> unequal right -> Forall mt_steady tr -> exec (ask_mt st wb wl wr m right) tr o ->
  match o with Ret (m', r, og) => unequal m' | Panic => jpanicked tr | Diverge => 3 <= longest m end.
Proof.
  intros Hm Hr Ht He. destruct (const_mt_run m right st wb wl wr tr o (unequal_misused _ Hm) (unequal_misused _ Hr) He) as (tr1 & o1 & He1 & Hs & Ho).
  assert (Forall mt_steady tr1) as Ht1.
  { rewrite Forall_forall in Ht |- *. intros e Hi. destruct (jkeep (tw_closure wb) (mw_closure wl) (tw_closure wr) (asked e)) eqn:Hk; [apply Ht; eapply same_in; eassumption|].
    pose proof (same_fair _ _ _ _ _ _ _ _ e Hs Hi) as Hf. clear - Hk Hf. destruct e as [q [a|]]; destruct q; cbn in Hk, Hf |- *; try discriminate; auto;
      repeat match goal with w : tway R |- _ => destruct w | w : mway R |- _ => destruct w end; cbn in *; try discriminate; try subst a; repeat split; cbn; auto. }
  pose proof (unequal_mt m right st tr1 o1 Hm Hr Ht1 He1) as H.
  destruct o as [[[m' r] og]| |], o1 as [[[m1 r1] og1]| |]; try contradiction; [|eapply same_broke; eassumption|exact H].
  destruct Ho as [Ho _]. cbn in Ho. subst m1. exact H.
Qed.

Theorem const_mm_run {S X} (m : trie K V) (right : trie L W) (wb wl wr : mway R) tr (o : outcome (trie S X * R)) :
  misused m -> misused right -> exec (ask_mm wb wl wr m right) tr o ->
  exists tr1 o1, exec (ask_mm MwClosure MwClosure MwClosure m right) tr1 o1 /\
    same (jkeep (mw_closure wb) (mw_closure wl) (mw_closure wr)) jsoft (jfair (mw_fair wb) (mw_fair wl) (mw_fair wr)) tr tr1 /\ orel same_made o o1.
Proof. intros Hm Hr. exact (ask_mm_sim wb wl wr m right (misused_loose m Hm) (misused_loose right Hr) tr o). Qed.

Theorem const_mm {S X} (m : trie K V) (right : trie L W) (wb wl wr : mway R) tr (o : outcome (trie S X * R)) :
  misused m -> misused right -> exec (ask_mm wb wl wr m right) tr o ->
  match o with
  | Ret (m', r) => misused m' /\ 
      exists is outs, Permutation (flat_map item_told is) (map inl (map_visit m) ++ map inr (map_visit right)) /\
        Permutation (jtold_all tr) (flat_map item_told (filter (item_called (mw_closure wb) (mw_closure wl) (mw_closure wr)) is)) /\
        (exists rest, Permutation (clones jsee tr ++ rest) (flat_map mm_cost is)) /\
        Forall2 (mm_goes wb wl wr tr) is outs /\ Permutation (map_visit m') (concat outs)
  | Panic => (jpanicked tr \/ hashes_differ tr) /\ exists rest, Permutation (jtold_all tr ++ rest) (map inl (map_visit m) ++ map inr (map_visit right))
  | Diverge => (3 <= longest m \/ 3 <= longest right) /\ exists rest, Permutation (jtold_all tr ++ rest) (map inl (map_visit m) ++ map inr (map_visit right))
  end.
Proof.
  intros Hm Hr He. destruct (const_mm_run m right wb wl wr tr o Hm Hr He) as (tr1 & o1 & He1 & Hs & Ho).
  pose proof (misused_mm m right tr1 o1 Hm Hr He1) as H.
  assert (forall rest1, Permutation (jtold_all tr1 ++ rest1) (map inl (map_visit m) ++ map inr (map_visit right)) -> exists rest, Permutation (jtold_all tr ++ rest) (map inl (map_visit m) ++ map inr (map_visit right))) as Hrest.
  { intros rest1 H1. destruct (same_told_rest _ _ _ _ _ _ tr tr1 Hs) as [x Hx]. exists (x ++ rest1). rewrite app_assoc, Hx. exact H1. }
  destruct o as [[m' r]| |], o1 as [[m1 r1]| |]; try contradiction.
  - cbn in Ho. red in Ho. cbn in Ho. subst m1. destruct H as (H1 & is & outs & (H3 & _ & _ & H4) & H5 & H6).
    assert (unbroken tr1) as HU. { destruct (unbroken_or tr1) as [HU|HU]; [exact HU|]. destruct (exec_stops _ _ _ He1 HU) as (? & ? & ? & ? & ?). discriminate. }
    split; [exact (mis_mm K V L W S X R m right tr1 m' r1 Hm Hr He1)|]. exists is, outs. split; [|split; [|split; [|split; [|exact H6]]]].
    + rewrite <- H1, (told_ops tr1 HU). apply Permutation_flat_map. symmetry. exact H3.
    + rewrite (same_told _ _ _ _ _ _ tr tr1 Hs HU). apply Permutation_flat_map, filter_perm, H3.
    + rewrite <- (same_clones _ _ _ _ _ _ tr tr1 Hs). exact H4.
    + clear - H5 Hs. induction H5 as [|i out is outs Hi H5 IH]; constructor; [|exact IH]. destruct Hi as [Hi Hj]. split.
      * eapply same_from; [exact Hs|exact Hi|intros; first [apply tw_from_fair|apply mw_from_fair]; assumption..].
      * exact Hj.
  - destruct H as [H (rest & H1)]. split; [|eapply Hrest; eassumption]. destruct H as [H|H]; [left; eapply same_broke|right; eapply same_differ]; eassumption.
  - destruct H as [H (rest & H1)]. split; [exact H|eapply Hrest; eassumption].
Qed.

Theorem const_mm_ends {S X} (m : trie K V) (right : trie L W) (wb wl wr : mway R) tr (o : outcome (trie S X * R)) :
  misused m -> misused right -> exec (ask_mm wb wl wr m right) tr o -> longest m < 3 -> longest right < 3 ->
  (unbroken tr /\ exists x, o = Ret x) \/ (unbroken tr /\ hashes_differ tr /\ o = Panic) \/ (exists tr' q, tr = tr' ++ [broke q] /\ unbroken tr' /\ o = Panic).
Proof.
  intros Hm Hr He HA HB. destruct (unbroken_or tr) as [HU|HU]; [|right; right; exact (exec_stops _ _ _ He HU)].
  apply const_mm in He; [|assumption..]. destruct o as [x| |]; [left; eauto| |exfalso; lia].
  right; left. split; [exact HU|]. split; [|reflexivity]. destruct He as [[[q Hq]|H] _]; [destruct (HU q Hq)|exact H].
Qed.

Theorem const_mm_steady {KK : Key K} {KL : Key L} {S X} {KS : Key S} (m : trie K V) (right : trie L W) (wb wl wr : mway R) tr (o : outcome (trie S X * R)) :
  unequal m -> unequal right -> Forall mm_steady tr -> exec (ask_mm wb wl wr m right) tr o ->
  match o with Ret (m', r) => unequal m' | Panic => jpanicked tr | Diverge => 3 <= longest m \/ 3 <= longest right end.
Proof.
  intros Hm Hr Ht He. destruct (const_mm_run m right wb wl wr tr o (unequal_misused _ Hm) (unequal_misused _ Hr) He) as (tr1 & o1 & He1 & Hs & Ho).
  assert (Forall mm_steady tr1) as Ht1.
  { rewrite Forall_forall in Ht |- *. intros e Hi. destruct (jkeep (mw_closure wb) (mw_closure wl) (mw_closure wr) (asked e)) eqn:Hk; [apply Ht; eapply same_in; eassumption|].
    pose proof (same_fair _ _ _ _ _ _ _ _ e Hs Hi) as Hf. clear - Hk Hf. destruct e as [q [a|]]; destruct q; cbn in Hk, Hf |- *; try discriminate; auto;
      repeat match goal with w : tway R |- _ => destruct w | w : mway R |- _ => destruct w end; cbn in *; try discriminate; try subst a; repeat split; cbn; auto. }
  pose proof (unequal_mm m right tr1 o1 Hm Hr Ht1 He1) as H.
  destruct o as [[m' r]| |], o1 as [[m1 r1]| |]; try contradiction; [|eapply same_broke; eassumption|exact H].
  red in Ho; red in Ho. cbn in Ho. subst m1. exact H.
Qed.

End Results.
