(** C22-C25, C28, C34, C39, C42: transform_with_transmuted,
    transmute_with_transformed and transmute_with_transmuted.
    transform_with_transformed is in PropJointT.v. *)
From Coq Require Import NArith Arith List Bool Lia Permutation.
From Verif Require Import Base Words Flag Bia Node Api Spec Trans Transform SpecT LoopP Joint SpecJ Reach MapP TransMapP JointMapP Hist Ex.
Import ListNotations.
Open Scope N_scope.

(** For the examples only; the theorems bind their own [Env]. *)
#[local] Existing Instance exE | 100.

(** The example operations: add the values of class 1, drop class 128, keep
    other common keys; keep even values on the left; drop even values on the
    right and tag the others 9.  Every call adds its own power of ten. *)
Definition ex_both (p : (key * N) * (num * N)) : vres N N :=
  if snd (fst p) =? 17 then VTransformed (snd (fst p) + snd (snd p)) 1
  else if snd (fst p) =? 13 then VDropped 10 else VUnchanged 100.
Definition ex_both' (p : (num * N) * (key * N)) : vres N N := ex_both (snd p, fst p).
Definition ex_lop (e : key * N) : vres N N := if N.even (snd e) then VUnchanged 1000 else VDropped 10000.
Definition ex_rop (e : num * N) : kres key N N :=
  if N.even (snd e) then KDropped 100000 else KTransmuted (num_n (fst e), 9) (snd e) 1000000.
Lemma ex_rop_keeps (l : list (num * N)) : forall e k v x, In e l -> mcall (MGeneric ex_rop) e = KTransmuted k v x -> cls k = cls (fst e).
Proof.
  intros e k v x _. unfold mcall, ex_rop. destruct (N.even (snd e)); [discriminate|]. intros [= <- _ _]. reflexivity.
Qed.
(** The same decisions as transmutations to a third type. *)
Definition ex_mboth (p : (key * N) * (num * N)) : kres num N N :=
  match ex_both p with
  | VUnchanged r => KTransmuted (fst (snd p)) (snd (fst p)) r
  | VTransformed v r => KTransmuted (fst (snd p)) v r
  | VDropped r => KDropped r
  end.
Definition ex_mlop (e : key * N) : kres num N N :=
  if N.even (snd e) then KTransmuted (Num (fst (fst e))) (snd e) 1000 else KDropped 10000.
Definition ex_mrop (e : num * N) : kres num N N :=
  if N.even (snd e) then KDropped 100000 else KTransmuted (fst e) (snd e) 1000000.
Lemma ex_mboth_keeps (ln : list (key * N)) (lr : list (num * N)) : forall e e' k v x, In e ln -> In e' lr -> cls (fst e) = cls (fst e') ->
  mcall (MGeneric ex_mboth) (e, e') = KTransmuted k v x -> cls k = cls (fst e).
Proof.
  intros e e' k v x _ _ Hc. unfold mcall, ex_mboth. destruct (ex_both (e, e')); intros [= <- _ _] || discriminate; symmetry; exact Hc.
Qed.
Lemma ex_mlop_keeps (l : list (key * N)) : forall e k v x, In e l -> mcall (MGeneric ex_mlop) e = KTransmuted k v x -> cls k = cls (fst e).
Proof.
  intros e k v x _. unfold mcall, ex_mlop. destruct (N.even (snd e)); [|discriminate]. intros [= <- _ _]. reflexivity.
Qed.
Lemma ex_mrop_keeps (l : list (num * N)) : forall e k v x, In e l -> mcall (MGeneric ex_mrop) e = KTransmuted k v x -> cls k = cls (fst e).
Proof.
  intros e k v x _. unfold mcall, ex_mrop. destruct (N.even (snd e)); [discriminate|]. intros [= <- _ _]. reflexivity.
Qed.

(** * C23 *)
(** [is_merge] (JointMapP.v): the result is reachable, find on it is [jfound]
    of find on the two maps, its entries are those of the merge of the two
    entry lists, and its size is their number. *)
Theorem C23_transform_with_transmuted : forall (E : Env) K V L W R (KK : Key K) (KL : Key L) (rdef : R) (rd : R -> R -> R) st
    both lop rop (m : trie K V) (right : trie L W) m' r o,
  reachable m -> reachable right ->
  (forall e k v x, In e (map_visit right) -> mcall rop e = KTransmuted k v x -> cls k = cls (fst e)) ->
  map_tm rdef rd st both lop rop m right = Ret (m', r, o) ->
  is_merge (fun e e' => t_to (tcall both (e, e')) e) (fun e => t_to (tcall lop e) e) (fun e' => m_to (mcall rop e')) m right m' /\
  (o = Self -> m' = m) /\ o <> Right.
Proof. intros E K V L W R KK KL. exact tm_exact. Qed.
Print Assumptions C23_transform_with_transmuted.
Example C23_transform_with_transmuted_ex : reachable (E := exE) ex_m /\ reachable (E := exE) ex_r /\
  (forall e k v x, In e (map_visit ex_r) -> mcall (MGeneric ex_rop) e = KTransmuted k v x -> cls k = cls (fst e)) /\
  exists m', map_tm 0 N.add Sequential (TGeneric ex_both) (TGeneric ex_lop) (MGeneric ex_rop) ex_m ex_r = Ret (m', 2113111, Other) /\
    map_visit m' = [(3, 9, 103); (1, 1, 117); (2, 0, 12); (0, 0, 10); (4097, 9, 201); (4096, 0, 14); (36, 0, 18)] /\
    map_size m' = 7 /\ map_find m' (Num 128) = Ret (Err NotFound) /\ map_find m' (Num 1) = Ret (Ok (1, 1, 117)).
Proof.
  split; [exact ex_reach|]. split; [exact ex_r_reach|]. split; [apply ex_rop_keeps|].
  eexists. split; [vm_compute; reflexivity|]. vm_compute. auto.
Qed.

(** * C24 *)
Theorem C24_transmute_with_transformed : forall (E : Env) K V L W R (KK : Key K) (KL : Key L) (rdef : R) (rd : R -> R -> R) st
    both lop rop (m : trie K V) (right : trie L W) m' r o,
  reachable m -> reachable right ->
  (forall e k v x, In e (map_visit m) -> mcall lop e = KTransmuted k v x -> cls k = cls (fst e)) ->
  map_mt rdef rd st both lop rop m right = Ret (m', r, o) ->
  is_merge (fun e e' => t_to (tcall both (e, e')) e') (fun e => m_to (mcall lop e)) (fun e' => t_to (tcall rop e') e') m right m' /\
  (o = Right -> m' = right) /\ o <> Self.
Proof. intros E K V L W R KK KL. exact mt_exact. Qed.
Print Assumptions C24_transmute_with_transformed.
Example C24_transmute_with_transformed_ex : reachable (E := exE) ex_r /\ reachable (E := exE) ex_m /\
  (forall e k v x, In e (map_visit ex_r) -> mcall (MGeneric ex_rop) e = KTransmuted k v x -> cls k = cls (fst e)) /\
  exists m', map_mt 0 N.add MiddleIndex (TGeneric ex_both') (MGeneric ex_rop) (TGeneric ex_lop) ex_r ex_m = Ret (m', 2113111, Other) /\
    map_visit m' = [(3, 9, 103); (1, 1, 117); (2, 0, 12); (0, 0, 10); (4097, 9, 201); (4096, 0, 14); (36, 0, 18)] /\
    map_size m' = 7 /\ map_find m' (Num 128) = Ret (Err NotFound).
Proof.
  split; [exact ex_r_reach|]. split; [exact ex_reach|]. split; [apply ex_rop_keeps|].
  eexists. split; [vm_compute; reflexivity|]. vm_compute. auto.
Qed.

(** * C25 *)
Theorem C25_transmute_with_transmuted : forall (E : Env) K V L W S X R (KK : Key K) (KL : Key L) (KS : Key S) (rdef : R) (rd : R -> R -> R)
    (both : transmute_op ((K * V) * (L * W)) S X R) lop rop (m : trie K V) (right : trie L W) m' r,
  reachable m -> reachable right ->
  (forall e e' k v x, In e (map_visit m) -> In e' (map_visit right) -> cls (fst e) = cls (fst e') ->
     mcall both (e, e') = KTransmuted k v x -> cls k = cls (fst e)) ->
  (forall e k v x, In e (map_visit m) -> mcall lop e = KTransmuted k v x -> cls k = cls (fst e)) ->
  (forall e k v x, In e (map_visit right) -> mcall rop e = KTransmuted k v x -> cls k = cls (fst e)) ->
  map_mm rdef rd both lop rop m right = Ret (m', r) ->
  is_merge (fun e e' => m_to (mcall both (e, e'))) (fun e => m_to (mcall lop e)) (fun e' => m_to (mcall rop e')) m right m'.
Proof. intros E K V L W S X R KK KL KS rdef rd. exact (mm_exact rdef rd). Qed.
Print Assumptions C25_transmute_with_transmuted.
(** The left collision list has three entries and the right one two: this
    returns because the right one is the one copied. *)
Example C25_transmute_with_transmuted_ex : reachable (E := exE) ex_m /\ reachable (E := exE) ex_r /\
  (forall e e' k v x, In e (map_visit ex_m) -> In e' (map_visit ex_r) -> cls (fst e) = cls (fst e') ->
     mcall (MGeneric ex_mboth) (e, e') = KTransmuted k v x -> cls k = cls (fst e)) /\
  (forall e k v x, In e (map_visit ex_m) -> mcall (MGeneric ex_mlop) e = KTransmuted k v x -> cls k = cls (fst e)) /\
  (forall e k v x, In e (map_visit ex_r) -> mcall (MGeneric ex_mrop) e = KTransmuted k v x -> cls k = cls (fst e)) /\
  exists m', map_mm 0 N.add (MGeneric ex_mboth) (MGeneric ex_mlop) (MGeneric ex_mrop) ex_m ex_r = Ret (m', 2113111) /\
    map_visit m' = [(Num 3, 103); (Num 1, 117); (Num 2, 12); (Num 0, 10); (Num 4096, 14); (Num 4097, 201); (Num 36, 18)] /\
    map_size m' = 7.
Proof.
  split; [exact ex_reach|]. split; [exact ex_r_reach|]. split; [apply ex_mboth_keeps|].
  split; [apply ex_mlop_keeps|]. split; [apply ex_mrop_keeps|].
  eexists. split; [vm_compute; reflexivity|]. vm_compute. auto.
Qed.

(** * C22 *)
Theorem C22_reduction_tm : forall (E : Env) K V L W R (KK : Key K) (KL : Key L) (rdef : R) (rd : R -> R -> R) st
    both f h (m : trie K V) (right : trie L W) m' r o,
  reachable m -> reachable right ->
  (forall e k v x, In e (map_visit right) -> h e = KTransmuted k v x -> cls k = cls (fst e)) ->
  monoid rdef rd -> (forall a b, rd a b = rd b a) ->
  map_tm rdef rd st both (TGeneric f) (MGeneric h) m right = Ret (m', r, o) ->
  r = fold_right rd rdef (merged_reds (fun e e' => t_red (tcall both (e, e'))) (fun e => t_red (f e)) (fun e' => m_red (h e'))
        (map_visit m) (map_visit right)).
Proof. intros E K V L W R KK KL. exact tm_reduction. Qed.
Print Assumptions C22_reduction_tm.
Theorem C22_reduction_mt : forall (E : Env) K V L W R (KK : Key K) (KL : Key L) (rdef : R) (rd : R -> R -> R) st
    both f h (m : trie K V) (right : trie L W) m' r o,
  reachable m -> reachable right ->
  (forall e k v x, In e (map_visit m) -> f e = KTransmuted k v x -> cls k = cls (fst e)) ->
  monoid rdef rd -> (forall a b, rd a b = rd b a) ->
  map_mt rdef rd st both (MGeneric f) (TGeneric h) m right = Ret (m', r, o) ->
  r = fold_right rd rdef (merged_reds (fun e e' => t_red (tcall both (e, e'))) (fun e => m_red (f e)) (fun e' => t_red (h e'))
        (map_visit m) (map_visit right)).
Proof. intros E K V L W R KK KL. exact mt_reduction. Qed.
Print Assumptions C22_reduction_mt.
Theorem C22_reduction_mm : forall (E : Env) K V L W S X R (KK : Key K) (KL : Key L) (KS : Key S) (rdef : R) (rd : R -> R -> R)
    (both : transmute_op ((K * V) * (L * W)) S X R) f h (m : trie K V) (right : trie L W) m' r,
  reachable m -> reachable right ->
  (forall e e' k v x, In e (map_visit m) -> In e' (map_visit right) -> cls (fst e) = cls (fst e') ->
     mcall both (e, e') = KTransmuted k v x -> cls k = cls (fst e)) ->
  (forall e k v x, In e (map_visit m) -> f e = KTransmuted k v x -> cls k = cls (fst e)) ->
  (forall e k v x, In e (map_visit right) -> h e = KTransmuted k v x -> cls k = cls (fst e)) ->
  monoid rdef rd -> (forall a b, rd a b = rd b a) ->
  map_mm rdef rd both (MGeneric f) (MGeneric h) m right = Ret (m', r) ->
  r = fold_right rd rdef (merged_reds (fun e e' => m_red (mcall both (e, e'))) (fun e => m_red (f e)) (fun e' => m_red (h e'))
        (map_visit m) (map_visit right)).
Proof. intros E K V L W S X R KK KL KS rdef rd. exact (mm_reduction rdef rd). Qed.
Print Assumptions C22_reduction_mm.
(** One 1, one 10 and one 100 for the three common keys, three 1000s and one
    10000 for the left-only ones, one 100000 and two 1000000s for the
    right-only ones: C23, C24 and C25's examples all return 2113111. *)
Example C22_reduction_ex : monoid 0 N.add /\ (forall a b, a + b = b + a) /\
  fold_right N.add 0 (merged_reds (fun e e' => t_red (ex_both (e, e'))) (fun e => t_red (ex_lop e)) (fun e' => m_red (ex_rop e'))
    (map_visit ex_m) (map_visit ex_r)) = 2113111.
Proof. split; [split; [exact N.add_assoc|split; [exact N.add_0_l|exact N.add_0_r]]|]. split; [exact N.add_comm|]. vm_compute. reflexivity. Qed.

(** * C28 *)
(** The exact condition for the first two families, whatever the fuel. *)
Theorem C28_terminates_tm : forall (E : Env) K V L W R (KK : Key K) (KL : Key L) (rdef : R) (rd : R -> R -> R) st
    both lop rop (m : trie K V) (right : trie L W),
  reachable m -> reachable right ->
  (forall e k v x, In e (map_visit right) -> mcall rop e = KTransmuted k v x -> cls k = cls (fst e)) ->
  ((exists m' r o, map_tm rdef rd st both lop rop m right = Ret (m', r, o)) <->
   ~ exists h, (2 <= cnt h (map_visit m))%nat /\ (3 <= cnt h (map_visit right))%nat) /\
  map_tm rdef rd st both lop rop m right <> Panic.
Proof. intros E K V L W R KK KL. exact tm_returns. Qed.
Print Assumptions C28_terminates_tm.
Theorem C28_terminates_mt : forall (E : Env) K V L W R (KK : Key K) (KL : Key L) (rdef : R) (rd : R -> R -> R) st
    both lop rop (m : trie K V) (right : trie L W),
  reachable m -> reachable right ->
  (forall e k v x, In e (map_visit m) -> mcall lop e = KTransmuted k v x -> cls k = cls (fst e)) ->
  ((exists m' r o, map_mt rdef rd st both lop rop m right = Ret (m', r, o)) <->
   ~ exists h, (3 <= cnt h (map_visit m))%nat /\ (2 <= cnt h (map_visit right))%nat) /\
  map_mt rdef rd st both lop rop m right <> Panic.
Proof. intros E K V L W R KK KL. exact mt_returns. Qed.
Print Assumptions C28_terminates_mt.
(** For transmute_with_transmuted which list is traversed depends on the
    shapes; two bounds. *)
Theorem C28_terminates_mm : forall (E : Env) K V L W S X R (KK : Key K) (KL : Key L) (KS : Key S) (rdef : R) (rd : R -> R -> R)
    (both : transmute_op ((K * V) * (L * W)) S X R) lop rop (m : trie K V) (right : trie L W),
  reachable m -> reachable right ->
  (forall e e' k v x, In e (map_visit m) -> In e' (map_visit right) -> cls (fst e) = cls (fst e') ->
     mcall both (e, e') = KTransmuted k v x -> cls k = cls (fst e)) ->
  (forall e k v x, In e (map_visit m) -> mcall lop e = KTransmuted k v x -> cls k = cls (fst e)) ->
  (forall e k v x, In e (map_visit right) -> mcall rop e = KTransmuted k v x -> cls k = cls (fst e)) ->
  ((forall h, (cnt h (map_visit m) <= 1 \/ cnt h (map_visit right) <= 1 \/
               cnt h (map_visit m) = 2 /\ cnt h (map_visit right) = 2)%nat) ->
     exists m' r, map_mm rdef rd both lop rop m right = Ret (m', r)) /\
  ((exists h, (3 <= cnt h (map_visit m))%nat /\ (3 <= cnt h (map_visit right))%nat) ->
     map_mm rdef rd both lop rop m right = Diverge) /\
  map_mm rdef rd both lop rop m right <> Panic.
Proof. intros E K V L W S X R KK KL KS rdef rd. exact (mm_returns rdef rd). Qed.
Print Assumptions C28_terminates_mm.
(** The claim is false: for any number of loop iterations there are two maps,
    of three entries each, that keep the loop running. *)
Definition slow_env (n : nat) (Hn : (3 <= n)%nat) : Env.
Proof.
  refine {| C := N; ceqb := N.eqb; hash := fun _ => 0; hw := W64; fw := W32; checked := false; fuel := n; fuel_ge := Hn |}.
  - intros a b. apply N.eqb_eq.
  - intros c. reflexivity.
Defined.
Definition slow_key n Hn : @Key (slow_env n Hn) N := fun k => k.
Theorem C28_terminates_refuted : forall n, (3 <= n)%nat -> exists (E : Env) (KK : Key N) (m : trie N N),
  fuel = n /\ reachable m /\ map_size m = 3 /\
  map_tm 0 N.add Sequential (TUnchanged 0) (TUnchanged 0) (MRemoved 0) m m = Diverge /\
  map_mt 0 N.add Sequential (TUnchanged 0) (MRemoved 0) (TUnchanged 0) m m = Diverge /\
  map_mm (S := N) (X := N) 0 N.add (MRemoved 0) (MRemoved 0) (MRemoved 0) m m = Diverge.
Proof.
  intros n Hn. exists (slow_env n Hn), (slow_key n Hn).
  set (os := [OInsert 0 0 false; OInsert 1 1 false; OInsert 2 2 false]).
  destruct (run (E := slow_env n Hn) (KK := slow_key n Hn) map_new os) as [[m xs]| |] eqn:Hm; [|vm_compute in Hm; discriminate..].
  exists m. pose proof (run_reachable (E := slow_env n Hn) os m xs Hm) as HR.
  assert (Hs : map_size m = 3 /\ cnt (E := slow_env n Hn) (KK := slow_key n Hn) 0 (map_visit m) = 3%nat).
  { revert Hm. vm_compute. intros [= <- _]. auto. }
  split; [reflexivity|]. split; [exact HR|]. split; [apply Hs|]. destruct Hs as [_ Hs].
  pose proof (tm_returns (E := slow_env n Hn) 0 N.add Sequential (TUnchanged 0) (TUnchanged 0) (MRemoved 0) m m HR HR
    ltac:(intros; discriminate)) as [HT HTp].
  pose proof (mt_returns (E := slow_env n Hn) 0 N.add Sequential (TUnchanged 0) (MRemoved 0) (TUnchanged 0) m m HR HR
    ltac:(intros; discriminate)) as [HU HUp].
  pose proof (mm_returns (E := slow_env n Hn) (S := N) (X := N) (KS := slow_key n Hn) 0 N.add (MRemoved 0) (MRemoved 0) (MRemoved 0) m m HR HR
    ltac:(intros; discriminate) ltac:(intros; discriminate) ltac:(intros; discriminate)) as [_ [HM _]].
  split; [|split].
  - destruct (map_tm _ _ _ _ _ _ m m) as [[[m' r] o]| |]; [|congruence|reflexivity].
    exfalso. destruct HT as [HT _]. apply HT; [eauto|]. exists 0. rewrite Hs. lia.
  - destruct (map_mt _ _ _ _ _ _ m m) as [[[m' r] o]| |]; [|congruence|reflexivity].
    exfalso. destruct HU as [HU _]. apply HU; [eauto|]. exists 0. rewrite Hs. lia.
  - apply HM. exists 0. rewrite Hs. lia.
Qed.
Print Assumptions C28_terminates_refuted.
Example C28_terminates_ex :
  reachable (E := exE) ex_m /\ reachable (E := exE) ex_r /\ reachable (E := exE) ex_r3 /\
  cnt 0 (map_visit ex_m) = 3%nat /\ cnt 0 (map_visit ex_r) = 2%nat /\ cnt 0 (map_visit ex_r3) = 3%nat /\
  map_tm 0 N.add Sequential (TGeneric ex_both) (TGeneric ex_lop) (MGeneric ex_rop) ex_m ex_r3 = Diverge /\
  map_mt 0 N.add Sequential (TGeneric ex_both') (MGeneric ex_rop) (TGeneric ex_lop) ex_r3 ex_m = Diverge /\
  map_mm 0 N.add (MGeneric ex_mboth) (MGeneric ex_mlop) (MGeneric ex_mrop) ex_m ex_r3 = Diverge.
Proof. split; [exact ex_reach|]. split; [exact ex_r_reach|]. split; [exact ex_r3_reach|]. vm_compute. auto 10. Qed.

(** * C34 *)
(** [alike] (JointMapP.v): same size, and find with any query gives the same
    value, or fails, on both. *)
Theorem C34_tm_mt : forall (E : Env) K L V R (KK : Key K) (KL : Key L) (rdef : R) (rd : R -> R -> R) st st'
    both lop rop both' lop' rop' (m : trie K V) (right : trie L V) m1 r1 o1 m2 r2 o2,
  reachable m -> reachable right ->
  (forall e k v x, In e (map_visit right) -> mcall rop e = KTransmuted k v x -> cls k = cls (fst e)) ->
  (forall e k v x, In e (map_visit m) -> mcall lop' e = KTransmuted k v x -> cls k = cls (fst e)) ->
  map_tm rdef rd st both lop rop m right = Ret (m1, r1, o1) ->
  map_mt rdef rd st' both' lop' rop' m right = Ret (m2, r2, o2) ->
  (forall e e', In e (map_visit m) -> In e' (map_visit right) -> cls (fst e) = cls (fst e') ->
     option_map snd (t_to (tcall both (e, e')) e) = option_map snd (t_to (tcall both' (e, e')) e')) ->
  (forall e, In e (map_visit m) -> option_map snd (t_to (tcall lop e) e) = option_map snd (m_to (mcall lop' e))) ->
  (forall e, In e (map_visit right) -> option_map snd (m_to (mcall rop e)) = option_map snd (t_to (tcall rop' e) e)) ->
  alike m1 m2.
Proof.
  intros E K L V R KK KL rdef rd st st' both lop rop both' lop' rop' m right m1 r1 o1 m2 r2 o2 HR HRr HK HK' H1 H2.
  exact (merges_alike _ _ _ _ _ _ m right m1 m2 HR HRr
    (proj1 (tm_exact rdef rd st both lop rop m right m1 r1 o1 HR HRr HK H1))
    (proj1 (mt_exact rdef rd st' both' lop' rop' m right m2 r2 o2 HR HRr HK' H2))).
Qed.
Print Assumptions C34_tm_mt.
Theorem C34_tm_mm : forall (E : Env) K L S V W R (KK : Key K) (KL : Key L) (KS : Key S) (rdef : R) (rd : R -> R -> R) st
    both lop rop (both' : transmute_op ((K * V) * (L * W)) S V R) lop' rop' (m : trie K V) (right : trie L W) m1 r1 o1 m2 r2,
  reachable m -> reachable right ->
  (forall e k v x, In e (map_visit right) -> mcall rop e = KTransmuted k v x -> cls k = cls (fst e)) ->
  (forall e e' k v x, In e (map_visit m) -> In e' (map_visit right) -> cls (fst e) = cls (fst e') ->
     mcall both' (e, e') = KTransmuted k v x -> cls k = cls (fst e)) ->
  (forall e k v x, In e (map_visit m) -> mcall lop' e = KTransmuted k v x -> cls k = cls (fst e)) ->
  (forall e k v x, In e (map_visit right) -> mcall rop' e = KTransmuted k v x -> cls k = cls (fst e)) ->
  map_tm rdef rd st both lop rop m right = Ret (m1, r1, o1) ->
  map_mm rdef rd both' lop' rop' m right = Ret (m2, r2) ->
  (forall e e', In e (map_visit m) -> In e' (map_visit right) -> cls (fst e) = cls (fst e') ->
     option_map snd (t_to (tcall both (e, e')) e) = option_map snd (m_to (mcall both' (e, e')))) ->
  (forall e, In e (map_visit m) -> option_map snd (t_to (tcall lop e) e) = option_map snd (m_to (mcall lop' e))) ->
  (forall e, In e (map_visit right) -> option_map snd (m_to (mcall rop e)) = option_map snd (m_to (mcall rop' e))) ->
  alike m1 m2.
Proof.
  intros E K L S V W R KK KL KS rdef rd st both lop rop both' lop' rop' m right m1 r1 o1 m2 r2 HR HRr HK HB HKl HKr H1 H2.
  exact (merges_alike _ _ _ _ _ _ m right m1 m2 HR HRr
    (proj1 (tm_exact rdef rd st both lop rop m right m1 r1 o1 HR HRr HK H1))
    (mm_exact rdef rd both' lop' rop' m right m2 r2 HR HRr HB HKl HKr H2)).
Qed.
Print Assumptions C34_tm_mm.
Example C34_tm_mm_ex : reachable (E := exE) ex_m /\ reachable (E := exE) ex_r /\
  (forall e e', In e (map_visit ex_m) -> In e' (map_visit ex_r) -> cls (fst e) = cls (fst e') ->
     option_map snd (t_to (ex_both (e, e')) e) = option_map snd (m_to (ex_mboth (e, e')))) /\
  (forall e, In e (map_visit ex_m) -> option_map snd (t_to (ex_lop e) e) = option_map snd (m_to (ex_mlop e))) /\
  (forall e, In e (map_visit ex_r) -> option_map snd (m_to (ex_rop e)) = option_map snd (m_to (ex_mrop e))).
Proof.
  split; [exact ex_reach|]. split; [exact ex_r_reach|]. split; [|split].
  - intros e e' _ _ _. unfold ex_mboth. cbn [fst snd]. destruct (ex_both (e, e')); reflexivity.
  - intros e _. unfold ex_lop, ex_mlop. destruct (N.even (snd e)); reflexivity.
  - intros e _. unfold ex_rop, ex_mrop. destruct (N.even (snd e)); reflexivity.
Qed.

(** * C39 *)
(** Every entry of the result of transform_with_transmuted has the key object
    of a left entry, unless right_op made it for a right-only key. *)
Theorem C39_keys_tm : forall (E : Env) K V L W R (KK : Key K) (KL : Key L) (rdef : R) (rd : R -> R -> R) st
    both lop rop (m : trie K V) (right : trie L W) m' r o,
  reachable m -> reachable right ->
  (forall e k v x, In e (map_visit right) -> mcall rop e = KTransmuted k v x -> cls k = cls (fst e)) ->
  map_tm rdef rd st both lop rop m right = Ret (m', r, o) ->
  forall x, In x (map_visit m') ->
    (exists e, In e (map_visit m) /\ fst x = fst e) \/
    (exists e' z, In e' (map_visit right) /\ lookup (cls (fst e')) (map_visit m) = None /\ mcall rop e' = KTransmuted (fst x) (snd x) z).
Proof.
  intros E K V L W R KK KL. exact tm_keys.
Qed.
Print Assumptions C39_keys_tm.
Theorem C39_keys_mt : forall (E : Env) K V L W R (KK : Key K) (KL : Key L) (rdef : R) (rd : R -> R -> R) st
    both lop rop (m : trie K V) (right : trie L W) m' r o,
  reachable m -> reachable right ->
  (forall e k v x, In e (map_visit m) -> mcall lop e = KTransmuted k v x -> cls k = cls (fst e)) ->
  map_mt rdef rd st both lop rop m right = Ret (m', r, o) ->
  forall x, In x (map_visit m') ->
    (exists e', In e' (map_visit right) /\ fst x = fst e') \/
    (exists e z, In e (map_visit m) /\ lookup (cls (fst e)) (map_visit right) = None /\ mcall lop e = KTransmuted (fst x) (snd x) z).
Proof.
  intros E K V L W R KK KL. exact mt_keys.
Qed.
Print Assumptions C39_keys_mt.
(** The example of C23: keys tagged 9 were made by [ex_rop]. *)

(** * C42 *)
Theorem C42_tm_removes_all : forall (E : Env) K V L W R (KK : Key K) (KL : Key L) (rdef : R) (rd : R -> R -> R) st
    both lop rop (m : trie K V) (right : trie L W) m' r o,
  reachable m -> reachable right ->
  (forall e e', In e (map_visit m) -> In e' (map_visit right) -> cls (fst e) = cls (fst e') -> exists x, tcall both (e, e') = VDropped x) ->
  (forall e, In e (map_visit m) -> exists x, tcall lop e = VDropped x) ->
  (forall e, In e (map_visit right) -> exists x, mcall rop e = KDropped x) ->
  map_tm rdef rd st both lop rop m right = Ret (m', r, o) -> m' = map_new.
Proof. intros E K V L W R KK KL. exact tm_all_dropped. Qed.
Print Assumptions C42_tm_removes_all.
Theorem C42_mt_removes_all : forall (E : Env) K V L W R (KK : Key K) (KL : Key L) (rdef : R) (rd : R -> R -> R) st
    both lop rop (m : trie K V) (right : trie L W) m' r o,
  reachable m -> reachable right ->
  (forall e e', In e (map_visit m) -> In e' (map_visit right) -> cls (fst e) = cls (fst e') -> exists x, tcall both (e, e') = VDropped x) ->
  (forall e, In e (map_visit m) -> exists x, mcall lop e = KDropped x) ->
  (forall e, In e (map_visit right) -> exists x, tcall rop e = VDropped x) ->
  map_mt rdef rd st both lop rop m right = Ret (m', r, o) -> m' = map_new.
Proof. intros E K V L W R KK KL. exact mt_all_dropped. Qed.
Print Assumptions C42_mt_removes_all.
Theorem C42_mm_removes_all : forall (E : Env) K V L W S X R (KK : Key K) (KL : Key L) (KS : Key S) (rdef : R) (rd : R -> R -> R)
    (both : transmute_op ((K * V) * (L * W)) S X R) lop rop (m : trie K V) (right : trie L W) m' r,
  reachable m -> reachable right ->
  (forall e e', In e (map_visit m) -> In e' (map_visit right) -> cls (fst e) = cls (fst e') -> exists x, mcall both (e, e') = KDropped x) ->
  (forall e, In e (map_visit m) -> exists x, mcall lop e = KDropped x) ->
  (forall e, In e (map_visit right) -> exists x, mcall rop e = KDropped x) ->
  map_mm rdef rd both lop rop m right = Ret (m', r) -> m' = map_new.
Proof. intros E K V L W S X R KK KL KS rdef rd. exact (mm_all_dropped rdef rd). Qed.
Print Assumptions C42_mm_removes_all.
Example C42_joint_removes_all_ex : reachable (E := exE) ex_m /\ reachable (E := exE) ex_r /\
  map_tm 0 N.add Sequential (TRemoved 1) (TGeneric (fun _ => VDropped 1)) (MRemoved 1) ex_m ex_r = Ret (map_new, 10, Other).
Proof. split; [exact ex_reach|]. split; [exact ex_r_reach|]. vm_compute. reflexivity. Qed.
