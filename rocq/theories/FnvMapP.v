(** Default maps whose keys have at most four bytes: no collisions, no panics. *)
From Coq Require Import NArith Arith List Bool Lia ZifyBool ZifyN ZifyNat.
From Verif Require Import Base Words WordsP Flag FlagP Bia BiaP Node Spec SpecP Inv NodeP InsertP TrieP Api ApiP
  Trans Transform SpecT Joint SpecJ JoinP JointT JointTApiP Reach ReachP MapP TransMapP JointMapP JointTMapP
  Cost CostP Profile Depth DepthJP Fnv FnvP.
Import ListNotations.
Open Scope N_scope.

(** * Separated hashes *)
Section Sep.
Context {E : Env} (lim : N) (Hlim : lim < hbits) (Hroot : off 1 <= lim) (Hsep : forall c c' : C, sep lim (hash c) (hash c')).
Context {K V : Type} {KK : Key K} {Q : Type} {KQ : Key Q}.

Lemma sep_not_deep (m : trie K V) : reachable m -> forall c, deep m c = false.
Proof. intros HR c. apply (shallow_hits lim Hlim). exact (reachable_shallow lim Hlim Hroot Hsep m HR). Qed.

Theorem sep_insert (into : Q -> K) (m : trie K V) q v replace : reachable m -> cls (into q) = cls q ->
  exists r, map_insert into m q v replace = Ret r.
Proof.
  intros HR Hq. destruct (insert_total_iff into m q v replace HR Hq) as [(_ & _ & H)|[H _]]; [|exact H].
  rewrite (sep_not_deep m HR) in H. discriminate.
Qed.
Theorem sep_remove (m : trie K V) (q : Q) : reachable m -> exists r, map_remove m q = Ret r.
Proof.
  intros HR. destruct (remove_total_iff m q HR) as [(_ & _ & H)|[H _]]; [|exact H].
  rewrite (sep_not_deep m HR) in H. discriminate.
Qed.

Lemma shallow_cost (n : mnode K V) : forall d (q : Q) f r b c, shallow lim d n -> m_find_cost n q f = Ret (r, (b, c)) ->
  b = 0 \/ off (d + b) <= lim.
Proof.
  induction n as [bits values x IH|l|s] using mnode_ind'; intros d q f r b c Hn H; cbn [m_find_cost] in H;
    [|injection H as _ <- _; left; reflexivity..].
  destruct f as [f|]; [|discriminate]. cbn [unwrap bind] in H. rewrite bat_map in H.
  destruct (shallow_C_inv _ _ _ _ _ Hn) as [Hd Hv].
  destruct (bat (BIA bits values x) (fl_flag f)) as [c0|] eqn:Hb; [|injection H as _ <- _; right; exact Hd].
  apply bat_in in Hb. cbn [bvalues] in Hb.
  destruct c0 as [c1|l|s]; try (injection H as _ <- _; right; exact Hd).
  destruct (flag_next f) as [nx| |]; try discriminate. cbn [bind] in H.
  destruct (m_find_cost (MC c1) q nx) as [[r0 [b0 k0]]| |] eqn:Hr; try discriminate. cbn [bind] in H. injection H as _ <- _.
  rewrite Forall_forall in IH. destruct (IH _ Hb _ _ _ _ _ _ (Hv _ Hb) Hr) as [->|H0]; right.
  - exact Hd.
  - match goal with |- off (d + ?x) <= _ => change x with (1 + b0) end. rewrite N.add_assoc. exact H0.
Qed.

Lemma sep_find_cost (m : trie K V) (q : Q) : reachable m ->
  exists r b c, map_find_cost m q = Ret (r, (b, c)) /\ map_find m q = Ret r /\ (b = 0 \/ off b <= lim) /\
    exists h, c <= N.of_nat (length (filter (fun e => hash (cls (fst e)) =? h) (map_visit m))).
Proof.
  intros HR. destruct (find_cost m q HR) as (r & b & c & H1 & H2 & _ & H3). exists r, b, c. split; [exact H1|]. split; [exact H2|]. split; [|exact H3].
  revert H1. unfold map_find_cost. destruct (flag_new _) as [f| |]; try discriminate. cbn [bind].
  destruct (m_find_cost m q (Some f)) as [[r0 [b0 c0]]| |] eqn:Hc; try discriminate. cbn [bind].
  intros H1. replace b with b0 by (destruct r0; injection H1 as _ Hb _; exact Hb).
  exact (shallow_cost m 0 q (Some f) r0 b0 c0 (reachable_shallow lim Hlim Hroot Hsep m HR) Hc).
Qed.
End Sep.

(** Two different hashes differ before the last slice. *)
Theorem separated_maps {E : Env} :
  (forall c c' : C, hash c mod 2 ^ last_off = hash c' mod 2 ^ last_off -> hash c = hash c') ->
  forall K V (KK : Key K) (m : trie K V), reachable m ->
  (forall Q (KQ : Key Q) (into : Q -> K) q v replace, cls (into q) = cls q -> exists r, map_insert into m q v replace = Ret r) /\
  (forall Q (KQ : Key Q) (q : Q), exists r, map_remove m q = Ret r).
Proof.
  intros H K V KK m HR. pose proof off_1_lt as Ho.
  assert (Hs : forall c c' : C, sep (hbits - 1) (hash c) (hash c')) by (intros c c'; apply sep_of, H).
  split.
  - intros Q KQ into q v replace. apply (sep_insert (hbits - 1)); try assumption; lia.
  - intros Q KQ q. apply (sep_remove (hbits - 1)); try assumption; lia.
Qed.

(** * Keys of at most four bytes *)
Theorem fnv_inj l l' : length l = length l' -> (length l <= 4)%nat ->
  Forall (fun b => b < 256) l -> Forall (fun b => b < 256) l' -> fnv l mod 2 ^ 40 = fnv l' mod 2 ^ 40 -> l = l'.
Proof. intros Hl Hn H H' He. exact (fnv_low l l' _ Hl Hn H H' He). Qed.

Section Default.
Context {E : Env} {size : nat} (HK : default_keys size) (Hs : (size <= 4)%nat).

Lemma dk_low (c c' : C) : hash c mod 2 ^ 40 = hash c' mod 2 ^ 40 -> c = c'.
Proof.
  destruct HK as [_ _ (bytes & Hb & Hi)]. destruct (Hb c) as (H1 & H2 & ->). destruct (Hb c') as (H1' & H2' & ->).
  intros He. apply Hi. apply fnv_inj; try assumption; lia.
Qed.
Lemma dk_inj (c c' : C) : hash c = hash c' -> c = c'.
Proof. intros H. apply dk_low. rewrite H. reflexivity. Qed.
Lemma dk_lim : 40 < hbits.
Proof. unfold hbits. rewrite (dk_hash _ HK). reflexivity. Qed.
Lemma dk_off d : off d = d * 5.
Proof. unfold off. rewrite (dk_flag _ HK). reflexivity. Qed.
Lemma dk_root : off 1 <= 40.
Proof. rewrite dk_off. reflexivity || lia. Qed.
Lemma dk_sep (c c' : C) : sep 40 (hash c) (hash c').
Proof.
  destruct (N.eq_dec (hash c) (hash c')) as [He|Hn]; [left; exact He|]. right. intros d Hd.
  destruct (N.le_gt_cases (off (d + 1)) 40) as [|Hg]; [assumption|]. exfalso. apply Hn. f_equal. apply dk_low.
  apply (low_bits (off d)); [|exact Hd]. rewrite dk_off in Hg |- *. lia.
Qed.
Lemma dk_free {K V} {KK : Key K} (l : list (K * V)) e e' : In e l -> In e' l -> hash (cls (fst e)) = hash (cls (fst e')) -> cls (fst e) = cls (fst e').
Proof. intros _ _. apply dk_inj. Qed.
Lemma dk_cnt {K V} {KK : Key K} (m : trie K V) h : reachable m -> (cnt h (map_visit m) <= 1)%nat.
Proof. intros HR. apply (cnt_free tt (fun a _ => a)); [apply mwf_uniq, reachable_mwf, HR|apply dk_free]. Qed.

Section Map.
Context {K V : Type} {KK : Key K} {Q : Type} {KQ : Key Q}.

Theorem dk_insert (into : Q -> K) (m : trie K V) q v replace : reachable m -> cls (into q) = cls q ->
  exists r, map_insert into m q v replace = Ret r.
Proof. exact (sep_insert 40 dk_lim dk_root dk_sep into m q v replace). Qed.
Theorem dk_remove (m : trie K V) (q : Q) : reachable m -> exists r, map_remove m q = Ret r.
Proof. exact (sep_remove 40 dk_lim dk_root dk_sep m q). Qed.
Theorem dk_find (m : trie K V) (q : Q) : reachable m ->
  exists r b c, map_find_cost m q = Ret (r, (b, c)) /\ map_find m q = Ret r /\ b <= 8 /\ c <= 1.
Proof.
  intros HR. destruct (sep_find_cost 40 dk_lim dk_root dk_sep m q HR) as (r & b & c & H1 & H2 & H3 & h & H4).
  exists r, b, c. split; [exact H1|]. split; [exact H2|]. split.
  - destruct H3 as [->|H3]; [lia|]. rewrite dk_off in H3. lia.
  - pose proof (dk_cnt m h HR) as Hc. unfold cnt, ecls in Hc. lia.
Qed.
End Map.

Section Joint.
Context {K V L W R : Type} {KK : Key K} {KL : Key L} (rdef : R) (rd : R -> R -> R) (st : strategy).

Theorem dk_tm both lop rop (m : trie K V) (right : trie L W) : reachable m -> reachable right ->
  m_keeps (mcall rop) (map_visit right) ->
  exists m' r o, map_tm rdef rd st both lop rop m right = Ret (m', r, o) /\ reachable m' /\
    is_merge (fun e e' => t_to (tcall both (e, e')) e) (fun e => t_to (tcall lop e) e) (fun e' => m_to (mcall rop e')) m right m'.
Proof.
  intros HR HRr Hk. destruct (tm_returns rdef rd st both lop rop m right HR HRr Hk) as [[_ H] _].
  destruct H as (m' & r & o & H).
  - intros (h & H1 & _). pose proof (dk_cnt m h HR). lia.
  - exists m', r, o. split; [exact H|]. split; [|apply (tm_exact rdef rd st both lop rop m right m' r o HR HRr Hk H)].
    exact (reach_tm K V KK L W KL R rdef rd st both lop rop m right m' r o HR HRr Hk H).
Qed.
Theorem dk_mt both lop rop (m : trie K V) (right : trie L W) : reachable m -> reachable right ->
  m_keeps (mcall lop) (map_visit m) ->
  exists m' r o, map_mt rdef rd st both lop rop m right = Ret (m', r, o) /\ reachable m' /\
    is_merge (fun e e' => t_to (tcall both (e, e')) e') (fun e => m_to (mcall lop e)) (fun e' => t_to (tcall rop e') e') m right m'.
Proof.
  intros HR HRr Hk. destruct (mt_returns rdef rd st both lop rop m right HR HRr Hk) as [[_ H] _].
  destruct H as (m' & r & o & H).
  - intros (h & H1 & _). pose proof (dk_cnt m h HR). lia.
  - exists m', r, o. split; [exact H|]. split; [|apply (mt_exact rdef rd st both lop rop m right m' r o HR HRr Hk H)].
    exact (reach_mt K V KK L W KL R rdef rd st both lop rop m right m' r o HR HRr Hk H).
Qed.
Theorem dk_mm {S X} {KS : Key S} (both : transmute_op ((K * V) * (L * W)) S X R) lop rop (m : trie K V) (right : trie L W) : reachable m -> reachable right ->
  b_keeps (mcall both) (map_visit m) (map_visit right) -> m_keeps (mcall lop) (map_visit m) -> m_keeps (mcall rop) (map_visit right) ->
  exists m' r, map_mm rdef rd both lop rop m right = Ret (m', r) /\ reachable m' /\
    is_merge (fun e e' => m_to (mcall both (e, e'))) (fun e => m_to (mcall lop e)) (fun e' => m_to (mcall rop e')) m right m'.
Proof.
  intros HR HRr Hb Hl Hr. destruct (mm_returns rdef rd both lop rop m right HR HRr Hb Hl Hr) as [H _].
  destruct H as (m' & r & H).
  - intros h. left. apply dk_cnt. exact HR.
  - exists m', r. split; [exact H|]. split; [|exact (mm_exact rdef rd both lop rop m right m' r HR HRr Hb Hl Hr H)].
    exact (reach_mm K V KK L W KL S X KS R rdef rd both lop rop m right m' r HR HRr Hb Hl Hr H).
Qed.
Lemma dk_tame both lop rop (m right : trie K V) : tame (R := R) both lop rop (map_visit m) (map_visit right).
Proof. apply tame_apart; apply dk_free. Qed.
Theorem dk_tt both lop rop (m right : trie K V) : reachable m -> reachable right ->
  exists m' r o, map_tt rdef rd st both lop rop m right = Ret (m', r, o) /\ reachable m' /\
    (~ one_sided both ->
     exists fB, is_merge fB (fun e => t_to (tcall lop e) e) (fun e' => t_to (tcall rop e') e') m right m' /\
     forall e e', In e (map_visit m) -> In e' (map_visit right) -> cls (fst e) = cls (fst e') -> b_to (jcall both e e') e e' (fB e e')).
Proof.
  intros HR HRr. destruct (tt_returns rdef rd st both lop rop m right HR HRr (dk_tame _ _ _ _ _)) as [H _].
  destruct H as (m' & r & o & H).
  - intros h. left. apply dk_cnt. exact HR.
  - exists m', r, o. split; [exact H|]. split; [exact (reach_tt K V KK R rdef rd st both lop rop m right m' r o HR HRr (dk_tame _ _ _ _ _) H)|].
    intros Hn. apply (tt_exact rdef rd st both lop rop m right m' r o HR HRr (dk_tame _ _ _ _ _) Hn H).
Qed.
End Joint.
End Default.
