(** C26, C27, C31, C35: sets and the transfute operations. *)
From Coq Require Import NArith Arith List Bool Lia Permutation.
From Verif Require Import Base Words Flag Bia Node Api Spec Trans Transform SpecT LoopP Joint JointT SpecJ Reach ReachP MapP TransMapP
  JointMapP JointTApiP JointTMapP Hist Sets SpecS SetHist SetP Ex.
Import ListNotations.
Open Scope N_scope.

(** For the examples only; the theorems bind their own [Env]. *)
#[local] Existing Instance exE | 100.

(** * C27 *)
(** [sspec_run] (SpecS.v): the history on a list of keys.  The alternative is
    the debug panic of C11. *)
Theorem C27_histories : forall (E : Env) K (KK : Key K) (os : list (sop K)),
  (srun set_new os = Panic /\ checked = true) \/
  exists s, srun set_new os = Ret (s, snd (sspec_run [] os)) /\ reachable s /\
    (forall Q (KQ : Key Q) (q : Q),
       set_find s q = Ret (match member (cls q) (fst (sspec_run [] os)) with Some k => Ok k | None => Err NotFound end)) /\
    set_size s = N.of_nat (length (fst (sspec_run [] os))) /\
    Permutation (set_visit s) (fst (sspec_run [] os)).
Proof. intros E K KK. exact set_history. Qed.
Print Assumptions C27_histories.

(** A set built by the calls of a map history without the values. *)
Theorem C27_forgets_values : forall (E : Env) K V (KK : Key K) (os : list (op K V)) m xs s ys,
  run map_new os = Ret (m, xs) -> srun set_new (map forget os) = Ret (s, ys) ->
  ys = map forget_obs xs /\ set_size s = map_size m /\ Permutation (set_visit s) (map fst (map_visit m)) /\
  forall Q (KQ : Key Q) (q : Q),
    set_find s q = match map_find m q with Ret (Ok e) => Ret (Ok (fst e)) | Ret (Err x) => Ret (Err x) | Panic => Panic | Diverge => Diverge end.
Proof. intros E K V KK. exact set_forgets. Qed.
Print Assumptions C27_forgets_values.

(** The sets of keys of the example maps. *)
Definition ex_sos : list (sop key) := map forget ex_os.
Definition ex_s : tset key := res_of set_new (srun (E := exE) set_new ex_sos).
Definition ex_sos2 : list (sop key) :=
  [SInsert (1, 100) false; SInsert (3, 103) false; SInsert (128, 200) false; SInsert (4097, 201) false; SInsert (44, 300) false; SInsert (36, 301) false].
Definition ex_s2 : tset key := res_of set_new (srun (E := exE) set_new ex_sos2).

Example C27_histories_ex : srun set_new ex_sos = Ret (ex_s, snd (sspec_run [] ex_sos)) /\
  snd (sspec_run [] ex_sos) =
    [WInserted (0, 0) None; WInserted (1, 0) None; WInserted (2, 0) None; WInserted (128, 0) None; WInserted (4096, 0) None;
     WInserted (2 ^ 62, 0) None; WInserted (28, 0) None; WInserted (1, 1) (Some (1, 0)); WInserted (36, 0) None; WRemoved (28, 0)] /\
  set_size ex_s = 7 /\ set_find ex_s (Num 1) = Ret (Ok (1, 1)) /\ set_find ex_s (Num 28) = Ret (Err NotFound).
Proof. split; [vm_compute; reflexivity|]. split; [vm_compute; reflexivity|]. vm_compute. auto. Qed.
Example C27_forgets_values_ex : exists xs ys, run map_new ex_os = Ret (ex_m, xs) /\ srun set_new (map forget ex_os) = Ret (ex_s, ys) /\
  map_size ex_m = 7.
Proof. do 2 eexists. split; [vm_compute; reflexivity|]. split; [vm_compute; reflexivity|]. vm_compute. reflexivity. Qed.

Lemma srun_reachable os s xs : srun (E := exE) (K := key) set_new os = Ret (s, xs) -> reachable (E := exE) s.
Proof.
  intros H. destruct (set_history (E := exE) (K := key) os) as [[Hp _]|(s' & H1 & H2 & _)]; [congruence|].
  rewrite H in H1. injection H1 as <- _. assumption.
Qed.
Lemma ex_s_reach : reachable (E := exE) ex_s.
Proof. eapply (srun_reachable ex_sos). vm_compute. reflexivity. Qed.
Lemma ex_s2_reach : reachable (E := exE) ex_s2.
Proof. eapply (srun_reachable ex_sos2). vm_compute. reflexivity. Qed.

(** transform and transmute of a set. *)
Theorem C27_transform : forall (E : Env) K R (KK : Key K) (rdef : R) (rd : R -> R -> R) st (op : stransform_op K R) (s : tset K), reachable s ->
  exists s' r o, set_transform rdef rd st op s = Ret (s', r, o) /\ reachable s' /\
    set_visit s' = flat_map (fun k => olist (s_to (stcall op k) k)) (set_visit s) /\
    set_size s' = N.of_nat (length (set_visit s')) /\
    (forall Q (KQ : Key Q) (q : Q), set_find s' q = sfind_map (fun k => s_to (stcall op k) k) (set_find s q)) /\
    (forall f, op = STGeneric f -> monoid rdef rd -> r = fold_right rd rdef (map (fun k => s_red (f k)) (set_visit s))) /\
    (o = Self -> s' = s).
Proof. intros E K R KK. exact set_transform_exact. Qed.
Print Assumptions C27_transform.
Theorem C27_transmute : forall (E : Env) K R (KK : Key K) (rdef : R) (rd : R -> R -> R) S (KS : Key S) (op : stransmute_op K S R) (s : tset K),
  reachable s ->
  (forall k k' r, In k (set_visit s) -> smcall op k = SKTransmuted k' r -> cls k' = cls k) ->
  exists s' r, set_transmute rdef rd op s = Ret (s', r) /\ reachable s' /\
    set_visit s' = flat_map (fun k => olist (sk_to (smcall op k))) (set_visit s) /\
    set_size s' = N.of_nat (length (set_visit s')) /\
    (forall Q (KQ : Key Q) (q : Q), set_find s' q = sfind_map (fun k => sk_to (smcall op k)) (set_find s q)) /\
    (forall f, op = SMGeneric f -> monoid rdef rd -> r = fold_right rd rdef (map (fun k => sk_red (f k)) (set_visit s))).
Proof. intros E K R KK rdef rd S KS. exact (set_transmute_exact rdef rd). Qed.
Print Assumptions C27_transmute.
Example C27_transform_ex : reachable (E := exE) ex_s /\
  let f (k : key) := if fst k <? 100 then SUnchanged 1 else SDropped 100 in
  let g (k : key) := if fst k <? 100 then SKTransmuted (Num (fst k)) 1 else SKDropped 100 in
  (exists s', set_transform 0 N.add MiddleIndex (STGeneric f) ex_s = Ret (s', 304, Other) /\ set_visit s' = [(1, 1); (2, 0); (0, 0); (36, 0)]) /\
  (forall k k' r, In k (set_visit ex_s) -> smcall (SMGeneric g) k = SKTransmuted k' r -> cls k' = cls k) /\
  (exists s', set_transmute 0 N.add (SMGeneric g) ex_s = Ret (s', 304) /\ set_visit s' = [Num 1; Num 2; Num 0; Num 36]).
Proof.
  split; [exact ex_s_reach|]. intros f g. split; [|split].
  - eexists. split; [vm_compute; reflexivity|]. vm_compute. reflexivity.
  - intros k k' r _. unfold smcall, g. destruct (fst k <? 100); intros [= <- _]. reflexivity.
  - eexists. split; [vm_compute; reflexivity|]. vm_compute. reflexivity.
Qed.

(** Joint operations of two sets.  [smerge] (SpecS.v): element by element. *)
Theorem C27_transform_with_transmuted : forall (E : Env) K L (KK : Key K) (KL : Key L) R (rdef : R) (rd : R -> R -> R) st
    both lop rop (s : tset K) (right : tset L) s' r o,
  reachable s -> reachable right ->
  (forall l k x, In l (set_visit right) -> smcall rop l = SKTransmuted k x -> cls k = cls l) ->
  set_tm rdef rd st both lop rop s right = Ret (s', r, o) ->
  is_smerge (fun k l => s_to (stcall both (k, l)) k) (fun k => s_to (stcall lop k) k) (fun l => sk_to (smcall rop l)) s right s' /\
  (o = Self -> s' = s) /\ o <> Right.
Proof. intros E K L KK KL R. exact set_tm_exact. Qed.
Print Assumptions C27_transform_with_transmuted.
Theorem C27_transmute_with_transformed : forall (E : Env) K L (KK : Key K) (KL : Key L) R (rdef : R) (rd : R -> R -> R) st
    both lop rop (s : tset K) (right : tset L) s' r o,
  reachable s -> reachable right ->
  (forall k l x, In k (set_visit s) -> smcall lop k = SKTransmuted l x -> cls l = cls k) ->
  set_mt rdef rd st both lop rop s right = Ret (s', r, o) ->
  is_smerge (fun k l => s_to (stcall both (k, l)) l) (fun k => sk_to (smcall lop k)) (fun l => s_to (stcall rop l) l) s right s' /\
  (o = Right -> s' = right) /\ o <> Self.
Proof. intros E K L KK KL R. exact set_mt_exact. Qed.
Print Assumptions C27_transmute_with_transformed.
Theorem C27_transmute_with_transmuted : forall (E : Env) K L (KK : Key K) (KL : Key L) R (rdef : R) (rd : R -> R -> R) S (KS : Key S)
    (both : stransmute_op (K * L) S R) lop rop (s : tset K) (right : tset L) s' r,
  reachable s -> reachable right ->
  (forall k l z x, In k (set_visit s) -> In l (set_visit right) -> cls k = cls l -> smcall both (k, l) = SKTransmuted z x -> cls z = cls k) ->
  (forall k z x, In k (set_visit s) -> smcall lop k = SKTransmuted z x -> cls z = cls k) ->
  (forall l z x, In l (set_visit right) -> smcall rop l = SKTransmuted z x -> cls z = cls l) ->
  set_mm rdef rd both lop rop s right = Ret (s', r) ->
  is_smerge (fun k l => sk_to (smcall both (k, l))) (fun k => sk_to (smcall lop k)) (fun l => sk_to (smcall rop l)) s right s'.
Proof. intros E K L KK KL R rdef rd S KS. exact (set_mm_exact rdef rd). Qed.
Print Assumptions C27_transmute_with_transmuted.
(** On the domain of C21. *)
Theorem C27_transform_with_transformed : forall (E : Env) K R (KK : Key K) (rdef : R) (rd : R -> R -> R) st
    (both : sjoint_op K R) lop rop (s right : tset K) s' r o,
  reachable s -> reachable right ->
  tame (joint_of both) (transform_of lop) (transform_of rop) (map_visit s) (map_visit right) ->
  set_tt rdef rd st both lop rop s right = Ret (s', r, o) ->
  (exists fB, is_smerge fB (fun k => s_to (stcall lop k) k) (fun k => s_to (stcall rop k) k) s right s' /\
     forall k k', In k (set_visit s) -> In k' (set_visit right) -> cls k = cls k' -> sb_about both k k' (fB k k')) /\
  (o = Self -> s' = s) /\ (o = Right -> s' = right).
Proof. intros E K R KK. exact set_tt_exact. Qed.
Print Assumptions C27_transform_with_transformed.
Definition ex_sn : tset num := res_of set_new (srun (E := exE) set_new (map (fun n => SInsert (Num n) false) [1; 4097; 8; 12])).
Lemma ex_sn_reach : reachable (E := exE) ex_sn.
Proof.
  destruct (set_history (E := exE) (K := num) (map (fun n => SInsert (Num n) false) [1; 4097; 8; 12])) as [[Hp _]|(s' & H1 & H2 & _)].
  - vm_compute in Hp. discriminate.
  - unfold ex_sn. rewrite H1. exact H2.
Qed.
Definition ex_sb (k k' : key) : sbres N := if fst k =? 1 then SBUnchangedLR 1 else SBDropped 10.
Example C27_joint_ex : reachable (E := exE) ex_s /\ reachable (E := exE) ex_s2 /\ reachable (E := exE) ex_sn /\
  (exists s', set_tm 0 N.add Sequential (STGeneric (fun p => if fst (fst p) =? 1 then SUnchanged 1 else SDropped 10)) (STUnchanged 0)
      (SMGeneric (fun k : key => if fst k <? 40 then SKTransmuted (fst k, 9) 100 else SKDropped 1000)) ex_s ex_s2 = Ret (s', 2121, Other) /\
    set_visit s' = [(3, 9); (1, 1); (2, 0); (0, 0); (2 ^ 62, 0); (4096, 0)]) /\
  (exists s' r, set_mt 0 N.add Sequential (STUnchanged 0) (SMGeneric (fun k : key => SKTransmuted (Num (fst k)) 1)) (STRemoved 0) ex_s2 ex_sn = Ret (s', r, Other) /\
    set_visit s' = [Num 3; Num 1; Num 4097; Num 128; Num 36; Num 44]) /\
  (exists s' r, set_mm 0 N.add (SMGeneric (fun p : key * num => SKTransmuted (Num (fst (fst p))) 1)) (SMRemoved 0) (SMGeneric (fun k => SKTransmuted k 1)) ex_s2 ex_sn = Ret (s', r) /\
    set_visit s' = [Num 1; Num 4097; Num 8; Num 12]) /\
  tame (E := exE) (joint_of (SJGeneric ex_sb false)) (transform_of (STUnchanged 0)) (transform_of (STRemoved 0)) (map_visit ex_s) (map_visit ex_s2) /\
  (exists s' r, set_tt 0 N.add Sequential (SJGeneric ex_sb false) (STUnchanged 0) (STRemoved 0) ex_s ex_s2 = Ret (s', r, Other) /\
    set_visit s' = [(1, 1); (2, 0); (0, 0); (2 ^ 62, 0); (4096, 0)]).
Proof.
  split; [exact ex_s_reach|]. split; [exact ex_s2_reach|]. split; [exact ex_sn_reach|]. split.
  - eexists. split; [vm_compute; reflexivity|]. vm_compute. reflexivity.
  - split; [do 2 eexists; split; [vm_compute; reflexivity|]; vm_compute; reflexivity|].
    split; [do 2 eexists; split; [vm_compute; reflexivity|]; vm_compute; reflexivity|]. split.
    + apply tame_impartial.
      * intros e e'. cbn. unfold ex_sb. destruct (fst (fst e) =? 1); exact I.
      * left. intros e e' _ H. exact H.
      * left. intros e e' H. destruct H.
    + do 2 eexists. split; [vm_compute; reflexivity|]. vm_compute. reflexivity.
Qed.

(** * C26, on sets *)
(** [contains]: find succeeds.  [sshared]: the number of common elements. *)
Theorem C26_set_union : forall (E : Env) K R (KK : Key K) (rdef : R) (rd : R -> R -> R) st rb rl rr (s right : tset K) s' r o,
  reachable s -> reachable right ->
  set_tt rdef rd st (SJUnchangedLR rb) (STUnchanged rl) (STUnchanged rr) s right = Ret (s', r, o) ->
  reachable s' /\ (forall Q (KQ : Key Q) (q : Q), contains s' q = contains s q || contains right q) /\
  set_size s' + sshared s right = set_size s + set_size right /\
  (forall k, In k (set_visit s') -> In k (set_visit s) \/ In k (set_visit right)).
Proof. intros E K R KK. exact set_union. Qed.
Print Assumptions C26_set_union.
Theorem C26_set_intersection : forall (E : Env) K R (KK : Key K) (rdef : R) (rd : R -> R -> R) st rb rl rr (s right : tset K) s' r o,
  reachable s -> reachable right ->
  set_tt rdef rd st (SJUnchangedLR rb) (STRemoved rl) (STRemoved rr) s right = Ret (s', r, o) ->
  reachable s' /\ (forall Q (KQ : Key Q) (q : Q), contains s' q = contains s q && contains right q) /\
  set_size s' = sshared s right /\
  (forall k, In k (set_visit s') -> In k (set_visit s) \/ In k (set_visit right)).
Proof. intros E K R KK. exact set_intersection. Qed.
Print Assumptions C26_set_intersection.
Theorem C26_set_difference : forall (E : Env) K R (KK : Key K) (rdef : R) (rd : R -> R -> R) st rb rl rr (s right : tset K) s' r o,
  reachable s -> reachable right ->
  set_tt rdef rd st (SJRemoved rb) (STUnchanged rl) (STRemoved rr) s right = Ret (s', r, o) ->
  reachable s' /\ (forall Q (KQ : Key Q) (q : Q), contains s' q = contains s q && negb (contains right q)) /\
  set_size s' + sshared s right = set_size s /\
  (forall k, In k (set_visit s') -> In k (set_visit s) \/ In k (set_visit right)).
Proof. intros E K R KK. exact set_difference. Qed.
Print Assumptions C26_set_difference.
Theorem C26_set_symmetric_difference : forall (E : Env) K R (KK : Key K) (rdef : R) (rd : R -> R -> R) st rb rl rr (s right : tset K) s' r o,
  reachable s -> reachable right ->
  set_tt rdef rd st (SJRemoved rb) (STUnchanged rl) (STUnchanged rr) s right = Ret (s', r, o) ->
  reachable s' /\ (forall Q (KQ : Key Q) (q : Q), contains s' q = xorb (contains s q) (contains right q)) /\
  set_size s' + 2 * sshared s right = set_size s + set_size right /\
  (forall k, In k (set_visit s') -> In k (set_visit s) \/ In k (set_visit right)).
Proof. intros E K R KK. exact set_symmetric_difference. Qed.
Print Assumptions C26_set_symmetric_difference.
Example C26_set_ex : reachable (E := exE) ex_s /\ reachable (E := exE) ex_s2 /\
  set_size ex_s = 7 /\ set_size ex_s2 = 6 /\ sshared ex_s ex_s2 = 3 /\
  (exists s' r o, set_tt 0 N.add Sequential (SJUnchangedLR 0) (STUnchanged 0) (STUnchanged 0) ex_s ex_s2 = Ret (s', r, o) /\
     set_size s' = 10 /\ contains s' (Num 3) = true /\ contains s' (Num 5) = false) /\
  (exists s' r o, set_tt 0 N.add Sequential (SJUnchangedLR 0) (STRemoved 0) (STRemoved 0) ex_s ex_s2 = Ret (s', r, o) /\
     set_size s' = 3 /\ contains s' (Num 3) = false /\ contains s' (Num 1) = true) /\
  (exists s' r o, set_tt 0 N.add Sequential (SJRemoved 0) (STUnchanged 0) (STRemoved 0) ex_s ex_s2 = Ret (s', r, o) /\
     set_size s' = 4 /\ contains s' (Num 1) = false /\ contains s' (Num 0) = true) /\
  (exists s' r o, set_tt 0 N.add Sequential (SJRemoved 0) (STUnchanged 0) (STUnchanged 0) ex_s ex_s2 = Ret (s', r, o) /\
     set_size s' = 7 /\ contains s' (Num 1) = false /\ contains s' (Num 3) = true).
Proof.
  split; [exact ex_s_reach|]. split; [exact ex_s2_reach|]. split; [vm_compute; reflexivity|]. split; [vm_compute; reflexivity|].
  split; [vm_compute; reflexivity|].
  split; [|split; [|split]]; do 3 eexists; (split; [vm_compute; reflexivity|]); vm_compute; auto.
Qed.

(** * C31, on sets *)
(** Missing: the constants UnchangedL and UnchangedR, refuted next. *)
Theorem C31_set_flip_partial : forall A R (op : sjoint_op A R) (a b : A),
  match op with SJUnchangedL _ | SJUnchangedR _ => False | _ => True end -> sjcall (sjflip op) b a = sbres_flip (sjcall op a b).
Proof. exact @sjflip_call. Qed.
Print Assumptions C31_set_flip_partial.
Theorem C31_set_flip_refuted : exists (op : sjoint_op N N) (a b : N), sjcall (sjflip op) b a <> sbres_flip (sjcall op a b).
Proof. exists (SJUnchangedL 0), 0, 1. discriminate. Qed.
Print Assumptions C31_set_flip_refuted.
Theorem C31_set_transform : forall A B R (op : stransform_op (A * B) R) a b, stcall (stflip op) (b, a) = stcall op (a, b).
Proof. exact @stflip_call. Qed.
Print Assumptions C31_set_transform.
Theorem C31_set_transmute : forall A B S R (op : stransmute_op (A * B) S R) a b, smcall (smflip op) (b, a) = smcall op (a, b).
Proof. exact @smflip_call. Qed.
Print Assumptions C31_set_transmute.
Example C31_set_ex : sjcall (sjflip (SJGeneric (fun a b => if a <? b then SBUnchangedL 1 else SBUnchangedR 2) false)) 5 3 = SBUnchangedR 1 /\
  stcall (stflip (STGeneric (fun p : N * bool => if snd p then SUnchanged (fst p) else SDropped 0))) (true, 7) = SUnchanged 7.
Proof. split; reflexivity. Qed.

(** * C35 *)
(** As tm and mt (C23, C24) with a transmutation that keeps the key: no
    contract on the operation is left to the caller. *)
Theorem C35_transform_with_transfuted : forall (E : Env) K V W R (KK : Key K) (rdef : R) (rd : R -> R -> R) st
    both lop rop (m : trie K V) (right : trie K W) m' r o,
  reachable m -> reachable right ->
  map_tf rdef rd st both lop rop m right = Ret (m', r, o) ->
  is_merge (fun e e' => t_to (tcall both (e, e')) e) (fun e => t_to (tcall lop e) e) (fun e' => f_to (smcall rop e') (fst e')) m right m' /\
  (o = Self -> m' = m) /\ o <> Right.
Proof. intros E K V W R KK. exact tf_exact. Qed.
Print Assumptions C35_transform_with_transfuted.
Theorem C35_transfute_with_transformed : forall (E : Env) K V W R (KK : Key K) (rdef : R) (rd : R -> R -> R) st
    both lop rop (m : trie K V) (right : trie K W) m' r o,
  reachable m -> reachable right ->
  map_ft rdef rd st both lop rop m right = Ret (m', r, o) ->
  is_merge (fun e e' => t_to (tcall both (e, e')) e') (fun e => f_to (smcall lop e) (fst e)) (fun e' => t_to (tcall rop e') e') m right m' /\
  (o = Right -> m' = right) /\ o <> Self.
Proof. intros E K V W R KK. exact ft_exact. Qed.
Print Assumptions C35_transfute_with_transformed.
(** The constant stays a constant: it is not called entry by entry. *)
Theorem C35_constants : forall (E : Env) K V W R (KK : Key K) (rdef : R) (rd : R -> R -> R) st (x : R) (m : trie K V) (right : trie K W),
  (forall both lop, map_tf rdef rd st both lop (SMRemoved x) m right = map_tm rdef rd st both lop (MRemoved x) m right) /\
  (forall both rop, map_ft rdef rd st both (SMRemoved x) rop m right = map_mt rdef rd st both (MRemoved x) rop m right).
Proof. intros. split; reflexivity. Qed.
Print Assumptions C35_constants.
Example C35_constants_ex : reachable (E := exE) ex_s2 /\
  map_tf 0 N.add Sequential (TUnchanged 0) (TUnchanged 0) (SMRemoved 1) (map_new (K := key) (V := N)) ex_s2 = Ret (map_new, 3, Other) /\
  map_tf 0 N.add Sequential (TUnchanged 0) (TUnchanged 0) (SMGeneric (fun _ => SKDropped 1)) (map_new (K := key) (V := N)) ex_s2 = Ret (map_new, 6, Other).
Proof. split; [exact ex_s2_reach|]. vm_compute. auto. Qed.
Theorem C35_keys_tf : forall (E : Env) K V W R (KK : Key K) (rdef : R) (rd : R -> R -> R) st
    both lop rop (m : trie K V) (right : trie K W) m' r o,
  reachable m -> reachable right ->
  map_tf rdef rd st both lop rop m right = Ret (m', r, o) ->
  forall x, In x (map_visit m') ->
    (exists e, In e (map_visit m) /\ fst x = fst e) \/
    (exists e' z, In e' (map_visit right) /\ lookup (cls (fst e')) (map_visit m) = None /\ fst x = fst e' /\ smcall rop e' = SKTransmuted (snd x) z).
Proof. intros E K V W R KK. exact tf_keys. Qed.
Print Assumptions C35_keys_tf.
Theorem C35_keys_ft : forall (E : Env) K V W R (KK : Key K) (rdef : R) (rd : R -> R -> R) st
    both lop rop (m : trie K V) (right : trie K W) m' r o,
  reachable m -> reachable right ->
  map_ft rdef rd st both lop rop m right = Ret (m', r, o) ->
  forall x, In x (map_visit m') ->
    (exists e', In e' (map_visit right) /\ fst x = fst e') \/
    (exists e z, In e (map_visit m) /\ lookup (cls (fst e)) (map_visit right) = None /\ fst x = fst e /\ smcall lop e = SKTransmuted (snd x) z).
Proof. intros E K V W R KK. exact ft_keys. Qed.
Print Assumptions C35_keys_ft.
Theorem C35_terminates_tf : forall (E : Env) K V W R (KK : Key K) (rdef : R) (rd : R -> R -> R) st both lop rop (m : trie K V) (right : trie K W),
  reachable m -> reachable right ->
  ((exists m' r o, map_tf rdef rd st both lop rop m right = Ret (m', r, o)) <->
   ~ exists h, (2 <= cnt h (map_visit m))%nat /\ (3 <= cnt h (map_visit right))%nat) /\
  map_tf rdef rd st both lop rop m right <> Panic.
Proof. intros E K V W R KK. exact tf_returns. Qed.
Print Assumptions C35_terminates_tf.
Theorem C35_terminates_ft : forall (E : Env) K V W R (KK : Key K) (rdef : R) (rd : R -> R -> R) st both lop rop (m : trie K V) (right : trie K W),
  reachable m -> reachable right ->
  ((exists m' r o, map_ft rdef rd st both lop rop m right = Ret (m', r, o)) <->
   ~ exists h, (3 <= cnt h (map_visit m))%nat /\ (2 <= cnt h (map_visit right))%nat) /\
  map_ft rdef rd st both lop rop m right <> Panic.
Proof. intros E K V W R KK. exact ft_returns. Qed.
Print Assumptions C35_terminates_ft.
(** The right map has values of another type; (3, 103) is only there. *)
Example C35_ex : reachable (E := exE) ex_m /\ reachable (E := exE) ex_s2 /\
  (exists m' r, map_tf 0 N.add Sequential (TGeneric (fun p => VTransformed (snd (fst p) + 100) 1)) (TUnchanged 0)
      (SMGeneric (fun e : key * unit => if fst (fst e) <? 100 then SKTransmuted (snd (fst e)) 10 else SKDropped 0)) ex_m ex_s2 = Ret (m', r, Other) /\
    map_find m' (Num 3) = Ret (Ok (3, 103, 103)) /\ map_find m' (Num 1) = Ret (Ok (1, 1, 117)) /\ map_find m' (Num 0) = Ret (Ok (0, 0, 10)) /\
    map_size m' = 9) /\
  (exists m' r, map_ft 0 N.add Sequential (TGeneric (fun p => VTransformed (snd (snd p) + 100) 1))
      (SMGeneric (fun e : key * unit => if fst (fst e) <? 100 then SKTransmuted (snd (fst e)) 10 else SKDropped 0)) (TUnchanged 0) ex_s2 ex_m = Ret (m', r, Other) /\
    map_find m' (Num 3) = Ret (Ok (3, 103, 103)) /\ map_find m' (Num 1) = Ret (Ok (1, 1, 117)) /\ map_size m' = 9).
Proof.
  split; [exact ex_reach|]. split; [exact ex_s2_reach|]. split; do 2 eexists; (split; [vm_compute; reflexivity|]); vm_compute; auto.
Qed.
