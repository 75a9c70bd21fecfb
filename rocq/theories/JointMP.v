(** transform_with_transmuted, transmute_with_transformed and
    transmute_with_transmuted merge two tries key by key. *)
From Coq Require Import NArith Arith List Bool Lia ZifyBool ZifyN ZifyNat Permutation.
From Verif Require Import Base Words WordsP Flag FlagP Bia BiaP Node Spec SpecP Inv NodeP InsertP TrieP Api ApiP
  Trans Transform LoopP SpecT TransformP Joint SpecJ JoinP JointP.
Import ListNotations.
Open Scope N_scope.

(** * Items: what becomes of one key, with its reduction *)
Section Items.
Context {E : Env} {K V L W S X R : Type} {KK : Key K} {KL : Key L} {KS : Key S}.
Context (rdef : R) (rd : R -> R -> R).

Definition vitem {K V} (o : vres V R) (e : K * V) : option (K * V) * R := (t_to o e, t_red o).
Definition kitem {S X} (o : kres S X R) : option (S * X) * R := (m_to o, m_red o).

Context (bi : K * V -> L * W -> option (S * X) * R) (li : K * V -> option (S * X) * R) (ri : L * W -> option (S * X) * R).

(** New entries have the class of the key they come from. *)
Definition jkeeps (ln : list (K * V)) (lr : list (L * W)) : Prop :=
  forall c x, joined (fun e e' o => o = fst (bi e e')) (fun e => fst (li e)) (fun e' => fst (ri e'))
    (lookup c ln) (lookup c lr) (Some x) -> ecls x = c.

Definition fspec (g : Prop) (lo hi : nat -> nat -> Prop) : @jspec K V L W S X R :=
  {| sB := fun e e' o => o = fst (bi e e'); sL := fun e => fst (li e); sR := fun e' => fst (ri e');
     rB := fun e e' => snd (bi e e'); rL := fun e => snd (li e); rR := fun e' => snd (ri e');
     gen := g; dom := jkeeps; lo := lo; hi := hi |}.

Definition items (ln : list (K * V)) (lr : list (L * W)) : list (option (S * X) * R) :=
  merge (fun e e' => [bi e e']) (fun e => [li e]) (fun e' => [ri e']) ln lr.

Definition ents {S X} (q : list (option (S * X) * R)) : list (S * X) := flat_map (fun x => olist (fst x)) q.

(** A leaf, a collision list or nothing, with its reduction, made of items. *)
Definition yield {S X} (g : Prop) (o : option (mnode S X)) (r : R) (q : list (option (S * X) * R)) : Prop :=
  Permutation (ovisit o) (ents q) /\
  (comm_monoid rdef rd -> g -> r = msum rdef rd (map snd q)) /\
  match o with Some n => leaf_ok n | None => True end.

Lemma y_perm {S' X'} g (o : option (mnode S' X')) r q q' : Permutation q q' -> yield g o r q -> yield g o r q'.
Proof.
  intros HP (H1 & H2 & H3). split; [|split; [|assumption]].
  - rewrite H1. apply flat_map_perm. assumption.
  - intros HC Hg. rewrite (H2 HC Hg). destruct HC as [HM HC]. apply (msum_perm _ _ HM _ _ HC). apply Permutation_map. assumption.
Qed.

Lemma merge_flat {A B} (h : A -> list B) fB fL fR (ln : list (K * V)) (lr : list (L * W)) :
  flat_map h (merge fB fL fR ln lr) = merge (fun e e' => flat_map h (fB e e')) (fun e => flat_map h (fL e)) (fun e' => flat_map h (fR e')) ln lr.
Proof.
  unfold merge. rewrite flat_map_app, !flat_map_flat_map. f_equal. rewrite !flat_map_concat_map. f_equal. apply map_ext.
  intros e. destruct (lookup (ecls e) lr); reflexivity.
Qed.

Lemma items_ents ln lr : ents (items ln lr) =
  merge (fun e e' => olist (fst (bi e e'))) (fun e => olist (fst (li e))) (fun e' => olist (fst (ri e'))) ln lr.
Proof.
  unfold ents, items. rewrite merge_flat. unfold merge. f_equal.
  - rewrite !flat_map_concat_map. f_equal. apply map_ext. intros e. destruct (lookup (ecls e) lr); cbn; apply app_nil_r.
  - rewrite !flat_map_concat_map. f_equal. apply map_ext. intros e. cbn. apply app_nil_r.
Qed.

Lemma items_reds g lo hi ln lr : map snd (items ln lr) = reds (fspec g lo hi) ln lr.
Proof.
  unfold items, reds. assert (H : forall A B (f : A -> B) l, map f l = flat_map (fun a => [f a]) l).
  { intros A B f l. induction l; cbn; congruence. }
  rewrite H, merge_flat. reflexivity.
Qed.

Lemma jkeeps_keeping ln lr : jkeeps ln lr ->
  keeping (fun e e' => olist (fst (bi e e'))) (fun e => olist (fst (li e))) (fun e' => olist (fst (ri e'))) ln lr.
Proof.
  intros H c. specialize (H c). unfold made, joined in *.
  destruct (lookup c ln) as [e|], (lookup c lr) as [e'|]; [| | |left; reflexivity].
  - destruct (fst (bi e e')) as [x|]; [right; exists x; split; [reflexivity|apply H; reflexivity]|left; reflexivity].
  - destruct (fst (li e)) as [x|]; [right; exists x; split; [reflexivity|apply H; reflexivity]|left; reflexivity].
  - destruct (fst (ri e')) as [x|]; [right; exists x; split; [reflexivity|apply H; reflexivity]|left; reflexivity].
Qed.

Lemma items_merged g lo hi ln lr out : uniq ln -> uniq lr -> jkeeps ln lr -> Permutation out (ents (items ln lr)) ->
  uniq out /\ merged (fspec g lo hi) ln lr out /\
  forall h, (forall e, In e ln -> hash (ecls e) = h) -> (forall e, In e lr -> hash (ecls e) = h) ->
    forall x, In x out -> hash (ecls x) = h.
Proof.
  intros Hl Hr HK HP. apply jkeeps_keeping in HK. rewrite items_ents in HP.
  assert (HU := merge_uniq _ _ _ _ _ Hl Hr HK).
  assert (HUo : uniq out) by (eapply uniq_perm; [symmetry; exact HP|exact HU]).
  split; [assumption|]. split.
  - intros c. rewrite (lookup_perm _ _ c HUo HP). rewrite (merge_lookup _ _ _ _ _ c Hl Hr HK).
    unfold joined, made. cbn [fspec sB sL sR]. destruct (lookup c ln) as [e|], (lookup c lr) as [e'|];
      [destruct (fst (bi e e'))|destruct (fst (li e))|destruct (fst (ri e'))|]; reflexivity.
  - intros h Hhl Hhr x Hx. apply (Permutation_in _ HP) in Hx. apply (merge_in _ _ _ _ _ _ Hl Hr HK) in Hx.
    unfold made in Hx. destruct (lookup (ecls x) ln) as [e|] eqn:He.
    + apply lookup_in in He. destruct He as [He <-]. auto.
    + destruct (lookup (ecls x) lr) as [e|] eqn:He'; [|discriminate]. apply lookup_in in He'. destruct He' as [He' <-]. auto.
Qed.

Lemma yield_good g lo hi d h ln lr o r : uniq ln -> uniq lr ->
  (forall e, In e ln -> hash (ecls e) = h) -> (forall e, In e lr -> hash (ecls e) = h) -> jkeeps ln lr ->
  yield g o r (items ln lr) ->
  owf d (pre d h) o /\ merged (fspec g lo hi) ln lr (ovisit o) /\
  (comm_monoid rdef rd -> g -> r = msum rdef rd (reds (fspec g lo hi) ln lr)).
Proof.
  intros Hl Hr Hhl Hhr HK (H1 & H2 & H3).
  destruct (items_merged g lo hi ln lr _ Hl Hr HK H1) as (HU & HM & HH). split; [|split; [assumption|]].
  - intros n ->. cbn [ovisit] in *. eapply leaf_ok_wf; [assumption|assumption| |reflexivity]. apply HH; assumption.
  - intros HC Hg. rewrite (H2 HC Hg). f_equal. apply items_reds.
Qed.

Lemma jkeeps_part ln lr ln' lr' : part ln lr ln' lr' -> jkeeps ln lr -> jkeeps ln' lr'.
Proof.
  intros HP H c x Hj. specialize (HP c). apply (H c x).
  destruct (lookup c ln') as [e|] eqn:H1.
  - destruct HP as [<- <-]; [left; congruence|]. assumption.
  - destruct (lookup c lr') as [e'|] eqn:H2; [|discriminate Hj].
    destruct HP as [<- <-]; [right; congruence|]. assumption.
Qed.

Lemma fspec_ok (g : Prop) (lo hi : nat -> nat -> Prop) : (forall a b, lo a b -> a <> O /\ b <> O) -> (forall a b, hi a b -> a <> O /\ b <> O) ->
  spec_ok (fspec g lo hi).
Proof. intros H1 H2. constructor; [intros ln lr ln' lr' HP; apply jkeeps_part, hpart_part, HP|assumption|assumption]. Qed.

(** One side only. *)
Lemma items_left ln : items ln [] = map li ln.
Proof. unfold items. rewrite merge_nil_r. induction ln; cbn; congruence. Qed.
Lemma items_right lr : items [] lr = map ri lr.
Proof. unfold items. rewrite merge_nil_l. induction lr; cbn; congruence. Qed.

(** Two sides without common keys. *)
Lemma items_disj ln lr : disj ln lr -> Permutation (items ln lr) (map li ln ++ map ri lr).
Proof.
  intros H. rewrite <- (app_nil_r ln) at 1. change lr with ([] ++ lr) at 1.
  unfold items. rewrite merge_app.
  - fold (items ln []). fold (items [] lr). rewrite items_left, items_right. reflexivity.
  - assumption.
  - intros e e' [].
Qed.

End Items.

Lemma ents_app {S X R} (q q' : list (option (S * X) * R)) : ents (q ++ q') = ents q ++ ents q'.
Proof. apply flat_map_app. Qed.

(** * Combining results in collision lists *)
Section Combine.
Context {E : Env} {K V R : Type} {KK : Key K}.
Context (rdef : R) (rd : R -> R -> R).
Notation yield := (yield rdef rd).

Definition nx_ok (nx : lnext K V) : Prop := match nx with NL l => lok l | NS _ => True end.

Lemma lok_eta (l : lnode K V) : lok l -> l = l_new (l_key l) (l_value l) (l_next l) /\ nx_ok (l_next l).
Proof. destruct l; cbn; [intros [-> H]; auto|intros ->; auto]. Qed.

Lemma msum_cons (r : R) l : msum rdef rd (r :: l) = rd r (msum rdef rd l).
Proof. reflexivity. Qed.

Lemma y_add g (o o' : option (mnode K V)) r r' q x : yield g o r q ->
  Permutation (ovisit o') (olist (fst x) ++ ovisit o) -> r' = rd (snd x) r ->
  match o' with Some n => leaf_ok n | None => True end -> yield g o' r' (x :: q).
Proof.
  intros (H1 & H2 & H3) HP -> HL. split; [|split; [|assumption]].
  - rewrite HP. cbn [ents flat_map]. apply Permutation_app_head. assumption.
  - intros HC Hg. cbn [map]. rewrite msum_cons. f_equal. auto.
Qed.

Lemma y_result g k v nx res (t : tres K V R) q : nx_ok nx ->
  yield g (tout (next_mnode nx) t) (tred t) q ->
  let r := l_transform_result rd (l_new k v nx) res t in
  yield g (tout (ML (l_new k v nx)) r) (tred r) (vitem res (k, v) :: q).
Proof.
  intros Hnx Hy. cbn zeta.
  assert (Hk : l_key (l_new k v nx) = k) by (destruct nx; reflexivity).
  assert (Hw : l_value (l_new k v nx) = v) by (destruct nx; reflexivity).
  assert (Hn : l_next (l_new k v nx) = nx) by (destruct nx; reflexivity).
  pose proof Hy as (_ & _ & Hl).
  unfold l_transform_result. rewrite Hk, Hw, Hn.
  destruct res as [r|w r|r]; destruct t as [r2|[c r2|l2 r2|s2 r2|r2]]; try (cbn in Hl; contradiction);
    try (destruct nx; cbn [nx_ok] in Hnx); eapply (y_add _ _ _ _ _ _ _ Hy);
    cbn [tout tred nnode nred ovisit m_visit vitem fst snd t_to t_red olist app next_mnode] in *; rewrite ?l_visit_next;
    cbn [next_mnode m_visit];
    try reflexivity; cbn [leaf_ok]; try apply lok_new; auto.
Qed.

Lemma y_mresult g res (t : nres K V R) q : yield g (nnode t) (nred t) q ->
  let r := l_transmute_result rd res t in yield g (nnode r) (nred r) (kitem res :: q).
Proof.
  intros Hy. cbn zeta. pose proof Hy as (_ & _ & Hl).
  destruct res as [k v r|r]; destruct t as [c r2|l2 r2|s2 r2|r2]; try (cbn in Hl; contradiction);
    eapply (y_add _ _ _ _ _ _ _ Hy); cbn [l_transmute_result nnode nred ovisit m_visit kitem fst snd m_to m_red olist app leaf_ok] in *;
    rewrite ?l_visit_next; cbn [next_mnode m_visit]; try reflexivity; try apply lok_new; auto.
Qed.

Lemma y_ncons g k v r (n : nres K V R) q : yield g (nnode n) (nred n) q ->
  yield g (nnode (n_cons k v n (rd r (nred n)))) (nred (n_cons k v n (rd r (nred n)))) ((Some (k, v), r) :: q).
Proof.
  intros Hy. pose proof Hy as (_ & _ & Hl).
  destruct n as [c r2|l2 r2|s2 r2|r2]; try (cbn in Hl; contradiction);
    eapply (y_add _ _ _ _ _ _ _ Hy); cbn [n_cons nnode nred ovisit m_visit fst snd olist app leaf_ok] in *;
    rewrite ?l_visit_next; cbn [next_mnode m_visit]; try reflexivity; try apply lok_new; auto.
Qed.

Lemma y_nwith g r (n : nres K V R) q : yield g (nnode n) (nred n) q ->
  yield g (nnode (n_with n (rd r (nred n)))) (nred (n_with n (rd r (nred n)))) ((None, r) :: q).
Proof.
  intros Hy. pose proof Hy as (_ & _ & Hl).
  destruct n as [c r2|l2 r2|s2 r2|r2]; try (cbn in Hl; contradiction);
    eapply (y_add _ _ _ _ _ _ _ Hy); cbn [n_with nnode nred ovisit fst snd olist app leaf_ok] in *; auto.
Qed.

Lemma y_tcons g that k v r (t : tres K V R) q x : nx_ok that -> yield g (tout (next_mnode that) t) (tred t) q ->
  yield g (tout x (t_cons that k v t (rd r (tred t)))) (tred (t_cons that k v t (rd r (tred t)))) ((Some (k, v), r) :: q).
Proof.
  intros Hnx Hy. destruct t as [r2|n].
  - eapply (y_add _ _ _ _ _ _ _ Hy); cbn [t_cons tout tred nnode nred ovisit m_visit fst snd olist app leaf_ok];
      [rewrite l_visit_next; reflexivity|reflexivity|apply lok_new; assumption].
  - apply y_ncons. exact Hy.
Qed.

Lemma y_twith g r (t : tres K V R) q x : yield g (tout x t) (tred t) q ->
  yield g (tout x (t_with t (rd r (tred t)))) (tred (t_with t (rd r (tred t)))) ((None, r) :: q).
Proof.
  intros Hy. destruct t as [r2|n].
  - eapply (y_add _ _ _ _ _ _ _ Hy); cbn [t_with tout tred]; [reflexivity|reflexivity|]. apply Hy.
  - apply y_nwith. exact Hy.
Qed.

(** ** One side *)

Lemma t_to_entry (o : vres V R) (e : K * V) : t_entry o e = olist (t_to o e).
Proof. destruct o; reflexivity. Qed.

Lemma ents_t (op : transform_op (K * V) V R) l : ents (map (fun e => vitem (tcall op e) e) l) = t_map op l.
Proof. unfold ents, t_map. induction l as [|e l IH]; cbn [map flat_map]; [reflexivity|]. rewrite IH, t_to_entry. reflexivity. Qed.

Lemma t_map_const (r : R) (l : list (K * V)) : t_map (TUnchanged r) l = l.
Proof. unfold t_map. induction l; cbn in *; congruence. Qed.
Lemma t_map_none (r : R) (l : list (K * V)) : t_map (TRemoved r) l = [].
Proof. unfold t_map. induction l; cbn in *; congruence. Qed.

Lemma y_transform op (n : lnext K V) : nx_ok n ->
  yield (t_generic op) (tout (next_mnode n) (n_transform rd op n)) (tred (n_transform rd op n))
    (map (fun e => vitem (tcall op e) e) (m_visit (next_mnode n))).
Proof.
  intros Hn. unfold yield. rewrite ents_t.
  destruct n as [l|s]; cbn [n_transform next_mnode nx_ok] in *.
  - destruct op as [f|r|r].
    + destruct (l_transform_ok rdef rd f l Hn) as [(H1 & H2 & H3) H4]. split; [rewrite H1; reflexivity|]. split; [|assumption].
      intros [HM _] _. rewrite (H3 HM), map_map. reflexivity.
    + destruct l; cbn [l_transform tout]; (split; [rewrite t_map_const; reflexivity|split; [intros _ []|exact Hn]]).
    + destruct l; cbn [l_transform tout nnode]; (split; [rewrite t_map_none; reflexivity|split; [intros _ []|exact I]]).
  - destruct (s_transform_ok rdef rd op s) as [(H1 & H2 & H3) H4]. split; [rewrite H1; reflexivity|]. split; [|assumption].
    intros [HM _] _. rewrite (H3 HM), map_map. reflexivity.
Qed.

Lemma m_transform_any st op d p (n : mnode K V) : wf d p n ->
  exists t, m_transform rdef rd st op n = Ret t /\ ovisit (tout n t) = t_map op (m_visit n) /\
    (monoid rdef rd -> t_generic op -> tred t = msum rdef rd (map (fun e => t_red (tcall op e)) (m_visit n))) /\
    owf d p (tout n t).
Proof.
  intros HW. destruct op as [f|r|r].
  - destruct (m_transform_ok rdef rd st f d p n HW) as (t & H1 & (H2 & _ & H3) & H4). exists t. auto.
  - assert (Ht : m_transform rdef rd st (TUnchanged r) n = Ret (TU r)) by (destruct n as [[]|[]|]; reflexivity).
    exists (TU r). split; [assumption|]. split; [cbn [tout ovisit]; rewrite t_map_const; reflexivity|]. split; [intros _ []|].
    intros n' [= <-]. assumption.
  - assert (Ht : m_transform rdef rd st (TRemoved r) n = Ret (TN (NRZ r))) by (destruct n as [[]|[]|]; reflexivity).
    exists (TN (NRZ r)). split; [assumption|]. split; [cbn [tout nnode ovisit]; rewrite t_map_none; reflexivity|]. split; [intros _ []|].
    intros n' [=].
Qed.

End Combine.

Section CombineM.
Context {E : Env} {K V S X R : Type} {KK : Key K} {KS : Key S}.
Context (rdef : R) (rd : R -> R -> R).

Lemma ents_m (op : transmute_op (K * V) S X R) l : ents (map (fun e => kitem (mcall op e)) l) = m_map (mcall op) l.
Proof.
  unfold ents, m_map. induction l as [|e l IH]; cbn [map flat_map]; [reflexivity|]. rewrite IH. f_equal.
  destruct (mcall op e); reflexivity.
Qed.

Lemma m_map_none (r : R) (l : list (K * V)) : m_map (mcall (MRemoved (S := S) (X := X) r)) l = [].
Proof. unfold m_map. induction l; cbn in *; congruence. Qed.

Lemma y_transmute (op : transmute_op (K * V) S X R) (n : lnext K V) : nx_ok n ->
  yield rdef rd (m_generic op) (nnode (n_transmute rd op n)) (nred (n_transmute rd op n))
    (map (fun e => kitem (mcall op e)) (m_visit (next_mnode n))).
Proof.
  intros Hn. unfold yield. rewrite ents_m.
  destruct n as [l|s]; cbn [n_transmute next_mnode nx_ok] in *.
  - destruct op as [f|r].
    + destruct (l_transmute_ok rdef rd f l Hn) as [(H1 & H3) H4]. split; [rewrite H1; reflexivity|]. split; [|assumption].
      intros [HM _] _. rewrite (H3 HM), map_map. reflexivity.
    + destruct l; cbn [l_transmute nnode]; (split; [rewrite m_map_none; reflexivity|split; [intros _ []|exact I]]).
  - destruct op as [f|r].
    + destruct (s_transmute_ok rdef rd f s) as [(H1 & H3) H4]. split; [rewrite H1; reflexivity|]. split; [|assumption].
      intros [HM _] _. rewrite (H3 HM), map_map. reflexivity.
    + cbn. split; [reflexivity|]. split; [intros _ []|exact I].
Qed.

Lemma m_transmute_any (op : transmute_op (K * V) S X R) d p (n : mnode K V) : wf d p n -> m_keeps (mcall op) (m_visit n) ->
  exists t, m_transmute rdef rd op n = Ret t /\ ovisit (nnode t) = m_map (mcall op) (m_visit n) /\
    (monoid rdef rd -> m_generic op -> nred t = msum rdef rd (map (fun e => m_red (mcall op e)) (m_visit n))) /\
    owf d p (nnode t).
Proof.
  intros HW HK. destruct op as [f|r].
  - destruct (m_transmute_ok rdef rd f d p n HW HK) as (t & H1 & (H2 & H3) & H4). exists t. auto.
  - assert (Ht : m_transmute rdef rd (MRemoved (S := S) (X := X) r) n = Ret (NRZ r)) by (destruct n as [[]|[]|]; reflexivity).
    exists (NRZ r). split; [assumption|]. split; [cbn [nnode ovisit]; rewrite m_map_none; reflexivity|]. split; [intros _ []|].
    intros n' [=].
Qed.

End CombineM.
