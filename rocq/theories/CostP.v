(** Bounds on the work done by find. *)
From Coq Require Import NArith Arith List Bool Lia ZifyBool ZifyN ZifyNat Permutation.
From Verif Require Import Base Words WordsP Flag FlagP Bia BiaP Node Spec SpecP Inv NodeP InsertP TrieP Api ApiP Reach ReachP Cost Profile.
Import ListNotations.
Open Scope N_scope.

Section CostP.
Context {E : Env} {K V : Type} {KK : Key K} {Q : Type} {KQ : Key Q}.

(** Forgetting the cost gives find. *)
Lemma m_find_cost_erase (n : mnode K V) : forall (q : Q) f,
  m_find n q f = let* (r, _) := m_find_cost n q f in Ret r.
Proof.
  induction n as [bits values x IH|l|s] using mnode_ind'; intros q f; cbn [m_find m_find_cost]; try reflexivity.
  destruct f as [f|]; [|reflexivity]. cbn [unwrap bind]. rewrite !bat_map.
  destruct (bat (BIA bits values x) (fl_flag f)) as [c|] eqn:Hb; [|reflexivity].
  apply bat_in in Hb. rewrite Forall_forall in IH. specialize (IH c Hb).
  destruct c; try reflexivity. destruct (flag_next f) as [nx| |]; [|reflexivity|reflexivity]. cbn [bind].
  rewrite IH. destruct (m_find_cost (MC c) q nx) as [[r [b k]]| |]; reflexivity.
Qed.

(** Entries with hash [h]. *)
Definition with_hash (h : N) (l : list (K * V)) : list (K * V) := filter (fun e => hash (cls (fst e)) =? h) l.

Lemma l_find_cost_le (l : lnode K V) (q : Q) : l_find_cost l q <= lenN (l_visit l).
Proof.
  induction l; cbn [l_find_cost l_visit]; rewrite lenN_cons; destruct (keqb key q); try lia.
  cbn. lia.
Qed.

Lemma filter_all {A} (f : A -> bool) l : (forall x, In x l -> f x = true) -> filter f l = l.
Proof.
  induction l as [|a l IH]; intros H; cbn; [reflexivity|]. rewrite (H a) by (left; reflexivity).
  rewrite IH; [reflexivity|]. intros; apply H; right; assumption.
Qed.

Lemma with_hash_sub h (l l' rest : list (K * V)) : Permutation l (l' ++ rest) -> lenN (with_hash h l') <= lenN (with_hash h l).
Proof.
  intros HP. unfold lenN, with_hash.
  assert (HF : Permutation (filter (fun e => hash (cls (fst e)) =? h) l) (filter (fun e => hash (cls (fst e)) =? h) (l' ++ rest))).
  { clear -HP. induction HP; cbn.
    - constructor.
    - destruct (_ =? h); [constructor|]; assumption.
    - destruct (hash (cls (fst y)) =? h), (hash (cls (fst x)) =? h); try reflexivity. apply perm_swap.
    - etransitivity; eassumption. }
  apply Permutation_length in HF. rewrite filter_app, app_length in HF. lia.
Qed.

Lemma leaf_hash_cost d p (n : mnode K V) (q : Q) : wf d p n ->
  match n with
  | MC _ => True
  | ML l => exists h, l_find_cost l q <= lenN (with_hash h (m_visit n))
  | MS s => exists h, 1 <= lenN (with_hash h (m_visit n))
  end.
Proof.
  destruct 1 as [d p s Hs|d p l h HL Hl|]; [| |exact I].
  - exists (hashk (s_key s)). unfold with_hash, s_visit. cbn. unfold hashk. rewrite N.eqb_refl. cbn. lia.
  - exists h. unfold with_hash. rewrite filter_all; [apply l_find_cost_le|].
    intros e He. apply N.eqb_eq. apply HL. exact He.
Qed.

Lemma m_find_cost_ok d p (n : mnode K V) : wf d p n -> forall (q : Q) f, flag_for d (hashk q) f ->
  exists r b c, m_find_cost n q (Some f) = Ret (r, (b, c)) /\
    (b = 0 \/ off (d + b - 1) < hbits) /\
    (exists h, c <= lenN (with_hash h (m_visit n))).
Proof.
  induction 1 as [d p s Hs|d p l h HL Hl|d p bits values x Ho Hp Hok Hne Hx Hch IH]; intros q f Hf.
  - cbn [m_find_cost]. do 3 eexists. split; [reflexivity|]. split; [left; reflexivity|].
    apply (leaf_hash_cost d p (MS s) q). constructor. assumption.
  - cbn [m_find_cost]. do 3 eexists. split; [reflexivity|]. split; [left; reflexivity|].
    apply (leaf_hash_cost d p (ML l) q). econstructor; eassumption.
  - cbn [m_find_cost unwrap bind]. rewrite bat_map.
    assert (HW : wf d p (MC (BIA bits values x))) by (econstructor; eassumption).
    assert (Hb : bat (BIA bits values x) (fl_flag f) =
      match getv bits values (idx d (hashk q)) with Some c => Ok c | None => Err BNotFound end).
    { rewrite (proj2 (proj2 Hf)) by assumption. apply (bat_get fw). exact Hok. }
    rewrite Hb.
    assert (Hbr : forall b, b = 1 -> b = 0 \/ off (d + b - 1) < hbits).
    { intros b ->. right. replace (d + 1 - 1) with d by lia. assumption. }
    destruct (getv bits values (idx d (hashk q))) as [c|] eqn:Hg.
    2:{ do 3 eexists. split; [reflexivity|]. split; [apply Hbr; reflexivity|]. exists 0. lia. }
    assert (Hsub : forall h, lenN (with_hash h (m_visit c)) <= lenN (with_hash h (m_visit (MC (BIA bits values x))))).
    { intros h. destruct (slot_split _ _ _ _ _ _ HW (idx_lt d (hashk q))) as (rest & _ & HPs).
      specialize (HPs bits values x Hok (fun _ _ => eq_refl)). rewrite Hg in HPs. cbn [ovisit] in HPs.
      eapply with_hash_sub. exact HPs. }
    pose proof (Hch _ _ Hg) as HWc.
    destruct c as [c0|l|s].
    + assert (Hoff : off (d + 1) < hbits) by (inversion HWc; assumption).
      rewrite (flag_next_ok d (hashk q) f Hf Hoff). cbn [bind].
      destruct (IH _ _ Hg q _ (flag_for_at _ _ Hoff)) as (r & b & k & Hr & Hb1 & (h & Hk)). rewrite Hr. cbn [bind].
      do 3 eexists. split; [reflexivity|]. split.
      * right. destruct Hb1 as [->|Hb1]; [replace (d + (1 + 0) - 1) with d by lia; assumption|].
        replace (d + (1 + b) - 1) with (d + 1 + b - 1) by lia. assumption.
      * exists h. specialize (Hsub h). lia.
    + do 3 eexists. split; [reflexivity|]. split; [apply Hbr; reflexivity|].
      destruct (leaf_hash_cost _ _ _ q HWc) as (h & Hh). exists h. specialize (Hsub h). cbn [m_visit] in *. lia.
    + do 3 eexists. split; [reflexivity|]. split; [apply Hbr; reflexivity|].
      destruct (leaf_hash_cost _ _ _ q HWc) as (h & Hh). exists h. specialize (Hsub h). cbn [m_visit] in *. lia.
Qed.

Theorem find_cost (m : trie K V) (q : Q) : reachable m ->
  exists r b c, map_find_cost m q = Ret (r, (b, c)) /\ map_find m q = Ret r /\
    b * log_b fw < max_ones hw + log_b fw /\
    exists h, c <= N.of_nat (length (filter (fun e => hash (cls (fst e)) =? h) (map_visit m))).
Proof.
  intros HR. apply reachable_mwf in HR. unfold map_find_cost, map_find. rewrite flag_new_ok. cbn [bind].
  destruct (m_find_cost_ok 0 0 m HR q _ (flag_for_0 _)) as (r & b & c & Hc & Hb & Hh).
  rewrite m_find_cost_erase, Hc. cbn [bind].
  exists (match r with Some e => Ok e | None => Err NotFound end), b, c.
  split; [destruct r; reflexivity|]. split; [destruct r; reflexivity|]. split; [|exact Hh].
  pose proof (log_b_pos fw). destruct Hb as [->|Hb].
  - pose proof max_ones_hw_pos. unfold hbits in *. lia.
  - unfold off, hbits in Hb. replace (0 + b - 1) with (b - 1) in Hb by lia.
    destruct (N.eq_dec b 0) as [->|]; [pose proof max_ones_hw_pos; unfold hbits in *; lia|].
    replace b with (b - 1 + 1) at 1 by lia. rewrite N.mul_add_distr_r. lia.
Qed.

End CostP.
