(** find, insert and remove refine the association-list specification. *)
From Coq Require Import NArith Arith List Bool Lia ZifyBool ZifyN ZifyNat Permutation.
From Verif Require Import Base Words WordsP Flag FlagP Bia BiaP Node Spec SpecP Inv.
Import ListNotations.
Open Scope N_scope.

Section NodeP.
Context {E : Env} {K V : Type} {KK : Key K}.

(** * One slot of a branch *)

Lemma lookup_rest d i c (rest : list (K * V)) :
  (forall e, In e rest -> idx d (hash (ecls e)) <> i) -> idx d (hash c) = i -> lookup c rest = None.
Proof. intros H Hi. apply lookup_none. intros e He Hc. apply (H e He). congruence. Qed.

Lemma lookup_C d p bits (values : list (mnode K V)) x c :
  wf d p (MC (BIA bits values x)) ->
  lookup c (m_visit (MC (BIA bits values x))) = lookup c (ovisit (getv bits values (idx d (hash c)))).
Proof.
  intros HW. destruct (slot_split _ _ _ _ _ (idx d (hash c)) HW (idx_lt _ _)) as (rest & Hr & HP).
  inversion HW; subst.
  rewrite (lookup_perm _ _ c (wf_uniq _ _ _ HW) (HP bits values _ H4 (fun _ _ => eq_refl))).
  rewrite lookup_app. rewrite (lookup_rest _ _ _ _ Hr eq_refl).
  destruct (lookup c (ovisit (getv bits values (idx d (hash c))))); reflexivity.
Qed.

Lemma wf_update d p bits (values : list (mnode K V)) x i c c' x' :
  wf d p (MC (BIA bits values x)) -> getv bits values i = Some c ->
  wf (d + 1) (p + i * 2 ^ off d) c' ->
  x' + lenN (m_visit c) = x + lenN (m_visit c') ->
  exists b', bupdated (BIA bits values x) (2 ^ i) c' x' = Ok b' /\ wf d p (MC b') /\
    exists rest, (forall e, In e rest -> idx d (hash (ecls e)) <> i) /\
      Permutation (m_visit (MC (BIA bits values x))) (m_visit c ++ rest) /\
      Permutation (m_visit (MC b')) (m_visit c' ++ rest).
Proof.
  intros HW Hg HW' Hx. pose proof HW as HW0. inversion HW; subst.
  assert (Hi : i < max_ones fw) by (eapply okv_lt; eassumption).
  destruct (slot_split _ _ _ _ _ i HW0 Hi) as (rest & Hr & HP).
  destruct (bupdated_ok fw (BIA bits values (lenN (concat (map m_visit values)))) i c' c x' H4 Hg)
    as ([bits' values' x''] & Hb & Hok & Hex & Hget).
  cbn [bextra] in Hex. subst x''. exists (BIA bits' values' x'). split; [exact Hb|].
  unfold get in Hget. cbn [bbits bvalues] in Hget. unfold bia_ok in Hok. cbn [bbits bvalues] in Hok.
  assert (Hsame : forall j, j <> i -> getv bits' values' j = getv bits values j).
  { intros j Hj. rewrite Hget. destruct (N.eqb_spec i j); [congruence|reflexivity]. }
  assert (Hgi : getv bits' values' i = Some c') by (rewrite Hget, N.eqb_refl; reflexivity).
  pose proof (HP bits values (lenN (concat (map m_visit values))) H4 (fun _ _ => eq_refl)) as HP1.
  pose proof (HP bits' values' x' Hok Hsame) as HP2.
  rewrite Hg in HP1. rewrite Hgi in HP2. cbn [ovisit] in HP1, HP2.
  split; [|exists rest; auto].
  constructor; try assumption.
  - left. intros ->. unfold getv in Hgi. destruct (N.testbit bits' i); [|discriminate].
    unfold nthN in Hgi. destruct (N.to_nat (rank bits' i)); discriminate.
  - apply Permutation_length in HP1. apply Permutation_length in HP2.
    cbn [m_visit] in HP1, HP2. rewrite app_length in HP1, HP2. unfold lenN in *. lia.
  - intros j c1 Hj. rewrite Hget in Hj. destruct (N.eqb_spec i j) as [<-|]; [congruence|]. eauto.
Qed.

Lemma wf_insert_slot d p bits (values : list (mnode K V)) x i c' x' :
  wf d p (MC (BIA bits values x)) -> i < max_ones fw -> getv bits values i = None ->
  wf (d + 1) (p + i * 2 ^ off d) c' ->
  x' = x + lenN (m_visit c') ->
  exists b', binserted (BIA bits values x) (2 ^ i) c' x' = Ok b' /\ wf d p (MC b') /\
    Permutation (m_visit (MC b')) (m_visit c' ++ m_visit (MC (BIA bits values x))).
Proof.
  intros HW Hi Hg HW' Hx. pose proof HW as HW0. inversion HW; subst.
  destruct (slot_split _ _ _ _ _ i HW0 Hi) as (rest & Hr & HP).
  destruct (binserted_ok fw (BIA bits values (lenN (concat (map m_visit values)))) i c' (lenN (concat (map m_visit values)) + lenN (m_visit c')) H4 Hi Hg)
    as ([bits' values' x''] & Hb & Hok & Hex & Hget).
  cbn [bextra] in Hex. subst x''. eexists. split; [exact Hb|].
  unfold get in Hget. cbn [bbits bvalues] in Hget. unfold bia_ok in Hok. cbn [bbits bvalues] in Hok.
  assert (Hsame : forall j, j <> i -> getv bits' values' j = getv bits values j).
  { intros j Hj. rewrite Hget. destruct (N.eqb_spec i j); [congruence|reflexivity]. }
  assert (Hgi : getv bits' values' i = Some c') by (rewrite Hget, N.eqb_refl; reflexivity).
  pose proof (HP bits values (lenN (concat (map m_visit values))) H4 (fun _ _ => eq_refl)) as HP1.
  pose proof (HP bits' values' (lenN (concat (map m_visit values)) + lenN (m_visit c')) Hok Hsame) as HP2.
  rewrite Hg in HP1. rewrite Hgi in HP2. cbn [ovisit app] in HP1, HP2.
  assert (HP3 : Permutation (m_visit (MC (BIA bits' values' (lenN (concat (map m_visit values)) + lenN (m_visit c')))))
      (m_visit c' ++ m_visit (MC (BIA bits values (lenN (concat (map m_visit values))))))).
  { rewrite HP2. apply Permutation_app_head. symmetry. exact HP1. }
  split; [|exact HP3].
  constructor; try assumption.
  - left. intros ->. unfold getv in Hgi. destruct (N.testbit bits' i); [|discriminate].
    unfold nthN in Hgi. destruct (N.to_nat (rank bits' i)); discriminate.
  - apply Permutation_length in HP3. cbn [m_visit] in HP3. rewrite app_length in HP3. unfold lenN in *. lia.
  - intros j c1 Hj. rewrite Hget in Hj. destruct (N.eqb_spec i j) as [<-|]; [congruence|]. eauto.
Qed.

Lemma wf_remove_slot d p bits (values : list (mnode K V)) x i c x' :
  wf d p (MC (BIA bits values x)) -> getv bits values i = Some c ->
  x' + lenN (m_visit c) = x -> 0 < x' ->
  exists b', bremoved (BIA bits values x) (2 ^ i) x' = Ok b' /\ wf d p (MC b') /\
    exists rest, (forall e, In e rest -> idx d (hash (ecls e)) <> i) /\
      Permutation (m_visit (MC (BIA bits values x))) (m_visit c ++ rest) /\
      Permutation (m_visit (MC b')) rest.
Proof.
  intros HW Hg Hx Hx0. pose proof HW as HW0. inversion HW; subst x d0 p0 bits0 values0 x0.
  assert (Hi : i < max_ones fw) by (eapply okv_lt; eassumption).
  destruct (slot_split _ _ _ _ _ i HW0 Hi) as (rest & Hr & HP).
  destruct (bremoved_ok fw (BIA bits values (x' + lenN (m_visit c))) i c x' H4 Hg)
    as ([bits' values' x''] & Hb & Hok & Hex & Hget).
  cbn [bextra] in Hex. subst x''. exists (BIA bits' values' x'). split; [exact Hb|].
  unfold get in Hget. cbn [bbits bvalues] in Hget. unfold bia_ok in Hok. cbn [bbits bvalues] in Hok.
  assert (Hsame : forall j, j <> i -> getv bits' values' j = getv bits values j).
  { intros j Hj. rewrite Hget. destruct (N.eqb_spec i j); [congruence|reflexivity]. }
  assert (Hgi : getv bits' values' i = None) by (rewrite Hget, N.eqb_refl; reflexivity).
  pose proof (HP bits values (x' + lenN (m_visit c)) H4 (fun _ _ => eq_refl)) as HP1.
  pose proof (HP bits' values' x' Hok Hsame) as HP2.
  rewrite Hg in HP1. rewrite Hgi in HP2. cbn [ovisit app] in HP1, HP2.
  assert (Hlen : x' = lenN (concat (map m_visit values'))).
  { apply Permutation_length in HP1. apply Permutation_length in HP2.
    cbn [m_visit] in HP1, HP2. rewrite app_length in HP1. unfold lenN in *. lia. }
  split; [|exists rest; auto].
  constructor; try assumption.
  - left. intros ->. cbn in Hlen. lia.
  - intros j c1 Hj. rewrite Hget in Hj. destruct (N.eqb_spec i j) as [<-|]; [congruence|]. eauto.
Qed.

(** * find *)

Section FindQ.
Context {Q : Type} {KQ : Key Q}.

Lemma s_find_ok (s : snode K V) (q : Q) : s_find s q = lookup (cls q) (s_visit s).
Proof. destruct s. reflexivity. Qed.

Lemma l_find_ok (l : lnode K V) (q : Q) : l_find l q = lookup (cls q) (l_visit l).
Proof.
  induction l; cbn [l_find l_visit]; rewrite lookup_cons.
  - unfold keqb, ecls. cbn [fst]. rewrite IHl. reflexivity.
  - unfold keqb, ecls. cbn [fst]. rewrite s_find_ok. reflexivity.
Qed.

Lemma m_find_ok d p (n : mnode K V) : wf d p n -> forall (q : Q) f,
  flag_for d (hashk q) f -> m_find n q (Some f) = Ret (lookup (cls q) (m_visit n)).
Proof.
  induction 1; intros q f Hf.
  - cbn [m_find]. rewrite s_find_ok. reflexivity.
  - cbn [m_find]. rewrite l_find_ok. reflexivity.
  - assert (HW : wf d p (MC (BIA bits values x))) by (econstructor; eassumption).
    rewrite (lookup_C _ _ _ _ _ _ HW).
    cbn [m_find unwrap bind]. rewrite bat_map.
    rewrite (proj2 (proj2 Hf) H).
    rewrite (bat_get fw) by exact H1. unfold get. cbn [bbits bvalues].
    fold (hashk q). destruct (getv bits values (idx d (hashk q))) as [c|] eqn:Hg; [|reflexivity].
    cbn [ovisit]. destruct c.
    + pose proof (H4 _ _ Hg) as HWc. inversion HWc; subst.
      rewrite (flag_next_ok d (hashk q)) by assumption.
      cbn [bind]. apply (H5 _ _ Hg). apply flag_for_at. assumption.
    + rewrite l_find_ok. reflexivity.
    + rewrite s_find_ok. reflexivity.
Qed.

End FindQ.
End NodeP.
