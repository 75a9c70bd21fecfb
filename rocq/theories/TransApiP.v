(** transform and transmute on well-formed maps. *)
From Coq Require Import NArith Arith List Bool Lia ZifyBool ZifyN ZifyNat Permutation.
From Verif Require Import Base Words WordsP Flag FlagP Bia BiaP Node Spec SpecP Inv NodeP InsertP TrieP Api ApiP
  Trans Transform LoopP SpecT TransformP.
Import ListNotations.
Open Scope N_scope.

Lemma nres_trie_visit {K V R} (n : nres K V R) : map_visit (fst (nres_trie n)) = ovisit (nnode n) /\ snd (nres_trie n) = nred n.
Proof. destruct n; split; reflexivity. Qed.

Lemma nres_trie_wf {E : Env} {K V R} {KK : Key K} (n : nres K V R) :
  (forall n', nnode n = Some n' -> wf 0 0 n') -> mwf (fst (nres_trie n)).
Proof. intros H. destruct n; cbn; try (apply H; reflexivity). apply mwf_new. Qed.

Section TransApi.
Context {E : Env} {K V R : Type} {KK : Key K}.
Context (rdef : R) (rd : R -> R -> R).

Lemma t_map_all_unchanged (op : transform_op (K * V) V R) l :
  forallb (fun e => t_unchanged (tcall op e)) l = true -> t_map op l = l.
Proof.
  unfold t_map. induction l as [|e l IH]; [reflexivity|]. cbn [forallb flat_map]. intros H. apply andb_prop in H.
  destruct H as [He Hl]. rewrite IH by assumption. destruct (tcall op e); try discriminate. reflexivity.
Qed.

Lemma map_transform_ok st (op : transform_op (K * V) V R) (m : trie K V) : mwf m ->
  exists m' r o, map_transform rdef rd st op m = Ret (m', r, o) /\ mwf m' /\
    map_visit m' = t_map op (map_visit m) /\
    (o = Self -> m' = m) /\
    (forallb (fun e => t_unchanged (tcall op e)) (map_visit m) = true ->
       o = Self \/ (exists x, op = TRemoved x) /\ map_visit m = []) /\
    (forall f, op = TGeneric f -> monoid rdef rd -> r = msum rdef rd (map (fun e => t_red (f e)) (map_visit m))).
Proof.
  intros HW. unfold map_transform. destruct op as [f|x|x].
  - destruct (m_transform_ok rdef rd st f 0 0 m HW) as (t & Ht & (H1 & H2 & H3) & H4). rewrite Ht. cbn [bind].
    destruct t as [r|n]; cbn [tout tu tred] in *.
    + exists m, r, Self. split; [reflexivity|]. split; [assumption|]. split; [exact H1|]. split; [reflexivity|].
      split; [left; reflexivity|]. intros f0 [= ->] HM. apply H3. assumption.
    + exists (fst (nres_trie n)), (snd (nres_trie n)), Other. destruct (nres_trie_visit n) as [Hv Hr].
      split; [destruct (nres_trie n); reflexivity|]. split; [apply nres_trie_wf; assumption|].
      split; [rewrite Hv; exact H1|]. split; [discriminate|]. split.
      * intros HU. cbn [tcall] in *. unfold map_visit in HU. rewrite HU in H2. discriminate.
      * intros f0 [= ->] HM. rewrite Hr. apply H3. assumption.
  - assert (Ht : m_transform rdef rd st (TUnchanged x) m = Ret (TU x)) by (destruct m as [[]|[]|]; reflexivity).
    rewrite Ht. cbn [bind]. exists m, x, Self. repeat split; auto.
    + symmetry. apply t_map_all_unchanged. cbn. induction (map_visit m); auto.
    + discriminate.
  - assert (Ht : m_transform rdef rd st (TRemoved x) m = Ret (TN (NRZ x))) by (destruct m as [[]|[]|]; reflexivity).
    rewrite Ht. cbn [bind]. exists map_new, x, Other. split; [reflexivity|]. split; [apply mwf_new|]. split.
    + unfold t_map. cbn. induction (map_visit m); auto.
    + split; [discriminate|]. split; [|discriminate]. intros H. right. split; [eauto|].
      destruct (map_visit m); [reflexivity|discriminate].
Qed.

Lemma map_transform_strategy st st' (op : transform_op (K * V) V R) (m : trie K V) : mwf m ->
  exists m' r r' o, map_transform rdef rd st op m = Ret (m', r, o) /\ map_transform rdef rd st' op m = Ret (m', r', o) /\
    (monoid rdef rd -> r = r').
Proof.
  intros HW. unfold map_transform.
  destruct (m_transform_strategy rdef rd op st st' 0 0 m HW) as (t & t' & -> & -> & H1 & H2 & H3). cbn [bind].
  destruct t as [r|n], t' as [r'|n']; try discriminate; cbn [tred] in H3.
  - exists m, r, r', Self. auto.
  - exists (fst (nres_trie n)), (nred n), (nred n'), Other. specialize (H2 m). cbn [tout] in H2.
    destruct n, n'; try discriminate; injection H2 as <- || clear H2; auto.
Qed.

Lemma map_transmute_ok {S X} {KS : Key S} (op : transmute_op (K * V) S X R) (m : trie K V) : mwf m ->
  m_keeps (mcall op) (map_visit m) ->
  exists m' r, map_transmute rdef rd op m = Ret (m', r) /\ mwf m' /\
    map_visit m' = m_map (mcall op) (map_visit m) /\
    (forall f, op = MGeneric f -> monoid rdef rd -> r = msum rdef rd (map (fun e => m_red (f e)) (map_visit m))).
Proof.
  intros HW HK. unfold map_transmute. destruct op as [f|x].
  - destruct (m_transmute_ok rdef rd f 0 0 m HW HK) as (n & -> & (H1 & H3) & H4). cbn [bind].
    exists (fst (nres_trie n)), (snd (nres_trie n)). destruct (nres_trie_visit n) as [Hv Hr].
    split; [destruct (nres_trie n); reflexivity|]. split; [apply nres_trie_wf; assumption|].
    split; [rewrite Hv; exact H1|].
    intros f0 [= ->] HM. rewrite Hr. apply H3. assumption.
  - assert (Ht : m_transmute rdef rd (MRemoved (S := S) (X := X) x) m = Ret (NRZ x)) by (destruct m as [[]|[]|]; reflexivity).
    rewrite Ht. cbn [bind]. exists map_new, x. split; [reflexivity|]. split; [apply mwf_new|]. split.
    + clear. unfold m_map. induction (map_visit m) as [|e l IH]; [reflexivity|exact IH].
    + discriminate.
Qed.

End TransApi.
