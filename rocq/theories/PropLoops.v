(** C69: bulk operations against loops of single calls. *)
From Coq Require Import NArith Arith List Bool Lia Permutation.
From Verif Require Import Base Words Flag Bia Node Api Spec SpecJ SpecS Trans Transform SpecT Joint JointT Reach MapP TransMapP JointMapP JointTMapP Sets SetP
  Hist Ex SpecLoops Loops LoopsP LoopsAP PropJoint PropSet.
Import ListNotations.
Open Scope N_scope.

(** For the examples only; the theorems bind their own [Env]. *)
#[local] Existing Instance exE | 100.

(** * Maps *)
Theorem C69_transform : forall (E : Env) K V R (KK : Key K) (rdef : R) (rd : R -> R -> R) st op (m : trie K V) m' r o,
  reachable m -> map_transform rdef rd st op m = Ret (m', r, o) ->
  agrees (loop_map (fun e => t_to (tcall op e) e) m) m' /\
  agrees (loop_change (fun e => t_val (tcall op e) (snd e)) m) m'.
Proof. intros E K V R KK. exact transform_loops. Qed.
Print Assumptions C69_transform.
Theorem C69_transmute : forall (E : Env) K V R (KK : Key K) (rdef : R) (rd : R -> R -> R) S X (KS : Key S)
    (op : transmute_op (K * V) S X R) (m : trie K V) m' r,
  reachable m ->
  (forall e k v x, In e (map_visit m) -> mcall op e = KTransmuted k v x -> cls k = cls (fst e)) ->
  map_transmute rdef rd op m = Ret (m', r) -> agrees (loop_map (fun e => m_to (mcall op e)) m) m'.
Proof. intros E K V R KK rdef rd S X KS. exact (transmute_loops rdef rd). Qed.
Print Assumptions C69_transmute.
Theorem C69_transform_with_transmuted : forall (E : Env) K V R (KK : Key K) (rdef : R) (rd : R -> R -> R) L W (KL : Key L) st
    both lop rop (m : trie K V) (right : trie L W) m' r o,
  reachable m -> reachable right ->
  (forall e k v x, In e (map_visit right) -> mcall rop e = KTransmuted k v x -> cls k = cls (fst e)) ->
  map_tm rdef rd st both lop rop m right = Ret (m', r, o) ->
  agrees (loop_merge (fun e e' => t_to (tcall both (e, e')) e) (fun e => t_to (tcall lop e) e) (fun e' => m_to (mcall rop e')) m right) m' /\
  agrees (loop_absorb (fun e e' => t_val (tcall both (e, e')) (snd e)) (fun e => t_val (tcall lop e) (snd e))
    (fun e' => m_to (mcall rop e')) m right) m'.
Proof. intros E K V R KK rdef rd L W KL. exact (tm_loops rdef rd). Qed.
Print Assumptions C69_transform_with_transmuted.
Theorem C69_transmute_with_transformed : forall (E : Env) K V R (KK : Key K) (rdef : R) (rd : R -> R -> R) L W (KL : Key L) st
    both lop rop (m : trie K V) (right : trie L W) m' r o,
  reachable m -> reachable right ->
  (forall e k v x, In e (map_visit m) -> mcall lop e = KTransmuted k v x -> cls k = cls (fst e)) ->
  map_mt rdef rd st both lop rop m right = Ret (m', r, o) ->
  agrees (loop_merge (fun e e' => t_to (tcall both (e, e')) e') (fun e => m_to (mcall lop e)) (fun e' => t_to (tcall rop e') e') m right) m'.
Proof. intros E K V R KK rdef rd L W KL. exact (mt_loop rdef rd). Qed.
Print Assumptions C69_transmute_with_transformed.
Theorem C69_transmute_with_transmuted : forall (E : Env) K V R (KK : Key K) (rdef : R) (rd : R -> R -> R) L W (KL : Key L) S X (KS : Key S)
    (both : transmute_op ((K * V) * (L * W)) S X R) lop rop (m : trie K V) (right : trie L W) m' r,
  reachable m -> reachable right ->
  (forall e e' k v x, In e (map_visit m) -> In e' (map_visit right) -> cls (fst e) = cls (fst e') ->
     mcall both (e, e') = KTransmuted k v x -> cls k = cls (fst e)) ->
  (forall e k v x, In e (map_visit m) -> mcall lop e = KTransmuted k v x -> cls k = cls (fst e)) ->
  (forall e k v x, In e (map_visit right) -> mcall rop e = KTransmuted k v x -> cls k = cls (fst e)) ->
  map_mm rdef rd both lop rop m right = Ret (m', r) ->
  agrees (loop_merge (fun e e' => m_to (mcall both (e, e'))) (fun e => m_to (mcall lop e)) (fun e' => m_to (mcall rop e')) m right) m'.
Proof. intros E K V R KK rdef rd L W KL S X KS. exact (mm_loop rdef rd). Qed.
Print Assumptions C69_transmute_with_transmuted.
(** On the domain of C21. *)
Theorem C69_transform_with_transformed : forall (E : Env) K V R (KK : Key K) (rdef : R) (rd : R -> R -> R) st
    both lop rop (m right : trie K V) m' r o,
  reachable m -> reachable right ->
  tame both lop rop (map_visit m) (map_visit right) -> ~ one_sided both ->
  map_tt rdef rd st both lop rop m right = Ret (m', r, o) ->
  exists fB, (forall e e', In e (map_visit m) -> In e' (map_visit right) -> cls (fst e) = cls (fst e') ->
      b_to (jcall both e e') e e' (fB e e')) /\
    agrees (loop_merge fB (fun e => t_to (tcall lop e) e) (fun e' => t_to (tcall rop e') e') m right) m'.
Proof. intros E K V R KK. exact tt_loop. Qed.
Print Assumptions C69_transform_with_transformed.
Theorem C69_transform_with_transfuted : forall (E : Env) K V W R (KK : Key K) (rdef : R) (rd : R -> R -> R) st
    both lop rop (m : trie K V) (right : trie K W) m' r o,
  reachable m -> reachable right ->
  map_tf rdef rd st both lop rop m right = Ret (m', r, o) ->
  agrees (loop_merge (fun e e' => t_to (tcall both (e, e')) e) (fun e => t_to (tcall lop e) e) (fun e' => f_to (smcall rop e') (fst e')) m right) m' /\
  agrees (loop_absorb (fun e e' => t_val (tcall both (e, e')) (snd e)) (fun e => t_val (tcall lop e) (snd e))
    (fun e' => f_to (smcall rop e') (fst e')) m right) m'.
Proof. intros E K V W R KK. exact tf_loops. Qed.
Print Assumptions C69_transform_with_transfuted.
Theorem C69_transfute_with_transformed : forall (E : Env) K V W R (KK : Key K) (rdef : R) (rd : R -> R -> R) st
    both lop rop (m : trie K V) (right : trie K W) m' r o,
  reachable m -> reachable right ->
  map_ft rdef rd st both lop rop m right = Ret (m', r, o) ->
  agrees (loop_merge (fun e e' => t_to (tcall both (e, e')) e') (fun e => f_to (smcall lop e) (fst e)) (fun e' => t_to (tcall rop e') e') m right) m'.
Proof. intros E K V W R KK. exact ft_loop. Qed.
Print Assumptions C69_transfute_with_transformed.

(** The loop alone: right on every pair of maps, also where the bulk operation
    does not come back. *)
Theorem C69_loop_returns : forall (E : Env) K V L W S X (KK : Key K) (KL : Key L) (KS : Key S)
    (fB : K * V -> L * W -> option (S * X)) fL fR (m : trie K V) (right : trie L W),
  reachable m -> reachable right ->
  (forall e e' x, In e (map_visit m) -> In e' (map_visit right) -> cls (fst e) = cls (fst e') -> fB e e' = Some x -> cls (fst x) = cls (fst e)) ->
  (forall e x, In e (map_visit m) -> fL e = Some x -> cls (fst x) = cls (fst e)) ->
  (forall e' x, In e' (map_visit right) -> fR e' = Some x -> cls (fst x) = cls (fst e')) ->
  (loop_merge fB fL fR m right = Panic /\ checked = true) \/
  exists a, loop_merge fB fL fR m right = Ret a /\ is_merge fB fL fR m right a.
Proof. intros E K V L W S X KK KL KS. exact loop_merge_total. Qed.
Print Assumptions C69_loop_returns.

(** The loops visit in an order of their own; the contents are those of the
    examples of C23 to C25. *)
Example C69_maps_ex : reachable (E := exE) ex_m /\ reachable (E := exE) ex_r /\
  (exists m' r o, map_tm 0 N.add Sequential (TGeneric ex_both) (TGeneric ex_lop) (MGeneric ex_rop) ex_m ex_r = Ret (m', r, o)) /\
  (exists a, loop_merge (fun e e' => t_to (ex_both (e, e')) e) (fun e => t_to (ex_lop e) e) (fun e' => m_to (ex_rop e')) ex_m ex_r = Ret a /\
     map_visit a = [(3, 9, 103); (0, 0, 10); (2, 0, 12); (1, 1, 117); (4097, 9, 201); (4096, 0, 14); (36, 0, 18)]) /\
  (exists a, loop_absorb (fun e e' => t_val (ex_both (e, e')) (snd e)) (fun e => t_val (ex_lop e) (snd e)) (fun e' => m_to (ex_rop e')) ex_m ex_r = Ret a /\
     map_size a = 7 /\ map_find a (Num 1) = Ret (Ok (1, 1, 117)) /\ map_find a (Num 128) = Ret (Err NotFound)) /\
  (exists a, loop_change (fun e => t_val (ex_lop e) (snd e)) ex_m = Ret a /\ map_size a = 4 /\
     map_find a (Num 1) = Ret (Err NotFound) /\ map_find a (Num 2) = Ret (Ok (2, 0, 12))).
Proof.
  split; [exact ex_reach|]. split; [exact ex_r_reach|].
  split; [do 3 eexists; vm_compute; reflexivity|].
  split; [eexists; split; [vm_compute; reflexivity|vm_compute; reflexivity]|].
  split; eexists; (split; [vm_compute; reflexivity|]); vm_compute; auto.
Qed.
(** With three colliding keys on both sides transform_with_transmuted hangs
    (C28); the loop does not. *)
Example C69_loop_returns_ex : reachable (E := exE) ex_m /\ reachable (E := exE) ex_r3 /\
  map_tm 0 N.add Sequential (TGeneric ex_both) (TGeneric ex_lop) (MGeneric ex_rop) ex_m ex_r3 = Diverge /\
  (forall e e' x, In e (map_visit ex_m) -> In e' (map_visit ex_r3) -> cls (fst e) = cls (fst e') -> t_to (ex_both (e, e')) e = Some x -> cls (fst x) = cls (fst e)) /\
  (forall e x, In e (map_visit ex_m) -> t_to (ex_lop e) e = Some x -> cls (fst x) = cls (fst e)) /\
  (forall e' x, In e' (map_visit ex_r3) -> m_to (ex_rop e') = Some x -> cls (fst x) = cls (fst e')) /\
  exists a, loop_merge (fun e e' => t_to (ex_both (e, e')) e) (fun e => t_to (ex_lop e) e) (fun e' => m_to (ex_rop e')) ex_m ex_r3 = Ret a /\
    (4 <=? map_size a) = true.
Proof.
  split; [exact ex_reach|]. split; [exact ex_r3_reach|]. split; [vm_compute; reflexivity|].
  split; [|split; [|split]].
  - intros e e' x _ _ _. destruct (ex_both (e, e')); cbn [t_to]; intros [= <-] || discriminate; reflexivity.
  - intros e x _. destruct (ex_lop e); cbn [t_to]; intros [= <-] || discriminate; reflexivity.
  - intros e' x _. unfold ex_rop. destruct (N.even (snd e')); cbn [m_to]; [discriminate|]. intros [= <-]. reflexivity.
  - eexists. split; [vm_compute; reflexivity|vm_compute; reflexivity].
Qed.

(** * Sets *)
Theorem C69_set_transform : forall (E : Env) K R (KK : Key K) (rdef : R) (rd : R -> R -> R) st op (s : tset K) s' r o,
  reachable s -> set_transform rdef rd st op s = Ret (s', r, o) ->
  sagrees (sloop_map (fun k => s_to (stcall op k) k) s) s' /\
  sagrees (sloop_filter (fun k => match s_to (stcall op k) k with Some _ => true | None => false end) s) s'.
Proof. intros E K R KK. exact set_transform_loops. Qed.
Print Assumptions C69_set_transform.
Theorem C69_set_transmute : forall (E : Env) K R (KK : Key K) (rdef : R) (rd : R -> R -> R) S (KS : Key S) (op : stransmute_op K S R) (s : tset K) s' r,
  reachable s ->
  (forall k k' x, In k (set_visit s) -> smcall op k = SKTransmuted k' x -> cls k' = cls k) ->
  set_transmute rdef rd op s = Ret (s', r) -> sagrees (sloop_map (fun k => sk_to (smcall op k)) s) s'.
Proof. intros E K R KK rdef rd S KS. exact (set_transmute_loop rdef rd). Qed.
Print Assumptions C69_set_transmute.
Theorem C69_set_transform_with_transmuted : forall (E : Env) K R (KK : Key K) (rdef : R) (rd : R -> R -> R) L (KL : Key L) st
    both lop rop (s : tset K) (right : tset L) s' r o,
  reachable s -> reachable right ->
  (forall l k x, In l (set_visit right) -> smcall rop l = SKTransmuted k x -> cls k = cls l) ->
  set_tm rdef rd st both lop rop s right = Ret (s', r, o) ->
  sagrees (sloop_merge (fun k l => s_to (stcall both (k, l)) k) (fun k => s_to (stcall lop k) k) (fun l => sk_to (smcall rop l)) s right) s'.
Proof. intros E K R KK rdef rd L KL. exact (set_tm_loop rdef rd). Qed.
Print Assumptions C69_set_transform_with_transmuted.
Theorem C69_set_transmute_with_transformed : forall (E : Env) K R (KK : Key K) (rdef : R) (rd : R -> R -> R) L (KL : Key L) st
    both lop rop (s : tset K) (right : tset L) s' r o,
  reachable s -> reachable right ->
  (forall k l x, In k (set_visit s) -> smcall lop k = SKTransmuted l x -> cls l = cls k) ->
  set_mt rdef rd st both lop rop s right = Ret (s', r, o) ->
  sagrees (sloop_merge (fun k l => s_to (stcall both (k, l)) l) (fun k => sk_to (smcall lop k)) (fun l => s_to (stcall rop l) l) s right) s'.
Proof. intros E K R KK rdef rd L KL. exact (set_mt_loop rdef rd). Qed.
Print Assumptions C69_set_transmute_with_transformed.
Theorem C69_set_transmute_with_transmuted : forall (E : Env) K R (KK : Key K) (rdef : R) (rd : R -> R -> R) L (KL : Key L) S (KS : Key S)
    (both : stransmute_op (K * L) S R) lop rop (s : tset K) (right : tset L) s' r,
  reachable s -> reachable right ->
  (forall k l z x, In k (set_visit s) -> In l (set_visit right) -> cls k = cls l -> smcall both (k, l) = SKTransmuted z x -> cls z = cls k) ->
  (forall k z x, In k (set_visit s) -> smcall lop k = SKTransmuted z x -> cls z = cls k) ->
  (forall l z x, In l (set_visit right) -> smcall rop l = SKTransmuted z x -> cls z = cls l) ->
  set_mm rdef rd both lop rop s right = Ret (s', r) ->
  sagrees (sloop_merge (fun k l => sk_to (smcall both (k, l))) (fun k => sk_to (smcall lop k)) (fun l => sk_to (smcall rop l)) s right) s'.
Proof. intros E K R KK rdef rd L KL S KS. exact (set_mm_loop rdef rd). Qed.
Print Assumptions C69_set_transmute_with_transmuted.
(** On the domain of C21. *)
Theorem C69_set_transform_with_transformed : forall (E : Env) K R (KK : Key K) (rdef : R) (rd : R -> R -> R) st
    (both : sjoint_op K R) lop rop (s right : tset K) s' r o,
  reachable s -> reachable right ->
  tame (joint_of both) (transform_of lop) (transform_of rop) (map_visit s) (map_visit right) ->
  set_tt rdef rd st both lop rop s right = Ret (s', r, o) ->
  exists fB, (forall k k', In k (set_visit s) -> In k' (set_visit right) -> cls k = cls k' -> sb_about both k k' (fB k k')) /\
    sagrees (sloop_merge fB (fun k => s_to (stcall lop k) k) (fun k => s_to (stcall rop k) k) s right) s'.
Proof. intros E K R KK. exact set_tt_loop. Qed.
Print Assumptions C69_set_transform_with_transformed.
(** The exclusive or of two sets, in one call and as a loop; and the elements of
    even class. *)
Example C69_sets_ex : reachable (E := exE) ex_s /\ reachable (E := exE) ex_s2 /\
  (exists s' r o, set_tm 0 N.add Sequential (STRemoved 0) (STUnchanged 0) (SMGeneric (fun k => SKTransmuted k 1)) ex_s ex_s2 = Ret (s', r, o) /\ set_size s' = 7) /\
  (exists a, sloop_merge (fun _ _ => None) (fun k => Some k) (fun k => Some k) ex_s ex_s2 = Ret a /\ set_size a = 7 /\
     set_find a (Num 3) = Ret (Ok (3, 103)) /\ set_find a (Num 1) = Ret (Err NotFound)) /\
  (exists a, sloop_filter (fun k => N.even (fst k)) ex_s = Ret a /\ set_size a = 6 /\ set_find a (Num 1) = Ret (Err NotFound)) /\
  (exists a, sloop_map (fun k => if N.even (fst k) then Some k else None) ex_s = Ret a /\ set_size a = 6).
Proof.
  split; [exact ex_s_reach|]. split; [exact ex_s2_reach|].
  split; [do 3 eexists; split; vm_compute; reflexivity|].
  split; [|split]; eexists; (split; [vm_compute; reflexivity|]); vm_compute; auto.
Qed.
