(** C58: nothing assumed of [reduce_op]. *)
From Coq Require Import NArith List Bool Permutation Lia.
From Verif Require Import Base Words Flag Bia Node LoopP Api Spec Trans Transform Joint JointT SpecT SpecJ Reach EffApi Brackets NaturalP BracketP Ex PropTransform PropJoint PropJointT.
Import ListNotations.
Open Scope N_scope.

(** For the examples only; the theorems bind their own [Env]. *)
#[local] Existing Instance exE | 100.

(** * Any homomorphism of reductions carries over, whatever the outcome *)
(** [tover h op op'] (Brackets.v): the operations answer alike, the reductions
    of [op'] being the images of those of [op].  No law is asked of [rd]. *)
Theorem C58_natural_transform : forall (E : Env) K V R R' (h : R -> R') rdef rd rdef' rd' st,
  h rdef = rdef' -> (forall a b, h (rd a b) = rd' (h a) (h b)) ->
  forall (op : transform_op (K * V) V R) (op' : transform_op (K * V) V R') (m : trie K V), tover h op op' ->
  map_transform rdef' rd' st op' m = omap (fun p => (fst (fst p), h (snd (fst p)), snd p)) (map_transform rdef rd st op m).
Proof.
  intros E K V R R' h rdef rd rdef' rd' st H0 H1 op op' m HO. exact (map_transform_map h rdef rd rdef' rd' st H0 H1 op op' m HO).
Qed.
Print Assumptions C58_natural_transform.
Theorem C58_natural_transmute : forall (E : Env) K V S X R R' (h : R -> R') rdef rd rdef' rd',
  h rdef = rdef' -> (forall a b, h (rd a b) = rd' (h a) (h b)) ->
  forall (op : transmute_op (K * V) S X R) (op' : transmute_op (K * V) S X R') (m : trie K V), mover h op op' ->
  map_transmute rdef' rd' op' m = omap (fun p => (fst p, h (snd p))) (map_transmute rdef rd op m).
Proof.
  intros E K V S X R R' h rdef rd rdef' rd' H0 H1 op op' m HO. exact (map_transmute_map h rdef rd rdef' rd' H0 H1 op op' m HO).
Qed.
Print Assumptions C58_natural_transmute.
Theorem C58_natural_tm : forall (E : Env) K V L W R R' (KK : Key K) (KL : Key L) (h : R -> R') rdef rd rdef' rd' st,
  h rdef = rdef' -> (forall a b, h (rd a b) = rd' (h a) (h b)) ->
  forall (both : transform_op ((K * V) * (L * W)) V R) (both' : transform_op ((K * V) * (L * W)) V R') (lop : transform_op (K * V) V R) (lop' : transform_op (K * V) V R') (rop : transmute_op (L * W) K V R) (rop' : transmute_op (L * W) K V R') (m : trie K V) (right : trie L W), tover h both both' -> tover h lop lop' -> mover h rop rop' ->
  map_tm rdef' rd' st both' lop' rop' m right = omap (fun p => (fst (fst p), h (snd (fst p)), snd p)) (map_tm rdef rd st both lop rop m right).
Proof.
  intros E K V L W R R' KK KL h rdef rd rdef' rd' st H0 H1 both both' lop lop' rop rop' m right HB HL HR. exact (map_tm_map h rdef rd rdef' rd' st H0 H1 both lop rop both' lop' rop' m right HB HL HR).
Qed.
Print Assumptions C58_natural_tm.
Theorem C58_natural_mt : forall (E : Env) K V L W R R' (KK : Key K) (KL : Key L) (h : R -> R') rdef rd rdef' rd' st,
  h rdef = rdef' -> (forall a b, h (rd a b) = rd' (h a) (h b)) ->
  forall (both : transform_op ((K * V) * (L * W)) W R) (both' : transform_op ((K * V) * (L * W)) W R') (lop : transmute_op (K * V) L W R) (lop' : transmute_op (K * V) L W R') (rop : transform_op (L * W) W R) (rop' : transform_op (L * W) W R') (m : trie K V) (right : trie L W), tover h both both' -> mover h lop lop' -> tover h rop rop' ->
  map_mt rdef' rd' st both' lop' rop' m right = omap (fun p => (fst (fst p), h (snd (fst p)), snd p)) (map_mt rdef rd st both lop rop m right).
Proof.
  intros E K V L W R R' KK KL h rdef rd rdef' rd' st H0 H1 both both' lop lop' rop rop' m right HB HL HR. exact (map_mt_map h rdef rd rdef' rd' st H0 H1 both lop rop both' lop' rop' m right HB HL HR).
Qed.
Print Assumptions C58_natural_mt.
Theorem C58_natural_mm : forall (E : Env) K V L W S X R R' (KK : Key K) (KL : Key L) (KS : Key S) (h : R -> R') rdef rd rdef' rd',
  h rdef = rdef' -> (forall a b, h (rd a b) = rd' (h a) (h b)) ->
  forall (both : transmute_op ((K * V) * (L * W)) S X R) (both' : transmute_op ((K * V) * (L * W)) S X R') (lop : transmute_op (K * V) S X R) (lop' : transmute_op (K * V) S X R') (rop : transmute_op (L * W) S X R) (rop' : transmute_op (L * W) S X R') (m : trie K V) (right : trie L W), mover h both both' -> mover h lop lop' -> mover h rop rop' ->
  map_mm rdef' rd' both' lop' rop' m right = omap (fun p => (fst p, h (snd p))) (map_mm rdef rd both lop rop m right).
Proof.
  intros E K V L W S X R R' KK KL KS h rdef rd rdef' rd' H0 H1 both both' lop lop' rop rop' m right HB HL HR. exact (map_mm_map h rdef rd rdef' rd' H0 H1 both lop rop both' lop' rop' m right HB HL HR).
Qed.
Print Assumptions C58_natural_mm.
Theorem C58_natural_tt : forall (E : Env) K V R R' (KK : Key K) (h : R -> R') rdef rd rdef' rd' st,
  h rdef = rdef' -> (forall a b, h (rd a b) = rd' (h a) (h b)) ->
  forall (both : joint_op (K * V) V R) (both' : joint_op (K * V) V R') (lop : transform_op (K * V) V R) (lop' : transform_op (K * V) V R') (rop : transform_op (K * V) V R) (rop' : transform_op (K * V) V R') (m right : trie K V), jover h both both' -> tover h lop lop' -> tover h rop rop' ->
  map_tt rdef' rd' st both' lop' rop' m right = omap (fun p => (fst (fst p), h (snd (fst p)), snd p)) (map_tt rdef rd st both lop rop m right).
Proof.
  intros E K V R R' KK h rdef rd rdef' rd' st H0 H1 both both' lop lop' rop rop' m right HB HL HR. exact (map_tt_map h rdef rd rdef' rd' st H0 H1 both lop rop both' lop' rop' m right HB HL HR).
Qed.
Print Assumptions C58_natural_tt.
(** Lengths of lists: a homomorphism from appending to adding. *)
Example C58_natural_ex : (forall a b : list N, N.of_nat (length (a ++ b)) = N.of_nat (length a) + N.of_nat (length b)) /\
  tover (fun l : list N => N.of_nat (length l)) (TGeneric ex_f) (TGeneric (fun e => vmap (fun l => N.of_nat (length l)) (ex_f e))) /\
  map_transform 0 N.add MiddleIndex (TGeneric (fun e => vmap (fun l => N.of_nat (length l)) (ex_f e))) ex_m =
    omap (fun p => (fst (fst p), N.of_nat (length (snd (fst p))), snd p)) (map_transform [] (@app N) MiddleIndex (TGeneric ex_f) ex_m) /\
  (exists m' o, map_transform 0 N.add MiddleIndex (TGeneric (fun e => vmap (fun l => N.of_nat (length l)) (ex_f e))) ex_m = Ret (m', 10, o)).
Proof.
  split; [intros; rewrite app_length; apply Nat2N.inj_add|]. split; [intros a; reflexivity|].
  split; [vm_compute; reflexivity|]. do 2 eexists. vm_compute. reflexivity.
Qed.

(** * The map and its origin do not depend on the reductions *)
(** Two operations that decide alike, with reductions of any two types: what
    is left when the reductions are forgotten is the same. *)
Theorem C58_contents_transform : forall (E : Env) K V R R' (rdef : R) rd (rdef' : R') rd' st
    (op : transform_op (K * V) V R) (op' : transform_op (K * V) V R') (op0 : transform_op (K * V) V unit) (m : trie K V),
  tover (fun _ => tt) op op0 -> tover (fun _ => tt) op' op0 ->
  omap (fun p => (fst (fst p), snd p)) (map_transform rdef rd st op m) = omap (fun p => (fst (fst p), snd p)) (map_transform rdef' rd' st op' m).
Proof. exact @contents_transform. Qed.
Print Assumptions C58_contents_transform.
Theorem C58_contents_transmute : forall (E : Env) K V S X R R' (rdef : R) rd (rdef' : R') rd'
    (op : transmute_op (K * V) S X R) (op' : transmute_op (K * V) S X R') (op0 : transmute_op (K * V) S X unit) (m : trie K V),
  mover (fun _ => tt) op op0 -> mover (fun _ => tt) op' op0 ->
  omap fst (map_transmute rdef rd op m) = omap fst (map_transmute rdef' rd' op' m).
Proof. exact @contents_transmute. Qed.
Print Assumptions C58_contents_transmute.
Theorem C58_contents_tm : forall (E : Env) K V L W R R' (KK : Key K) (KL : Key L) (rdef : R) rd (rdef' : R') rd' st
    (both : transform_op ((K * V) * (L * W)) V R) (both' : transform_op ((K * V) * (L * W)) V R') (both0 : transform_op ((K * V) * (L * W)) V unit) (lop : transform_op (K * V) V R) (lop' : transform_op (K * V) V R') (lop0 : transform_op (K * V) V unit) (rop : transmute_op (L * W) K V R) (rop' : transmute_op (L * W) K V R') (rop0 : transmute_op (L * W) K V unit) (m : trie K V) (right : trie L W),
  tover (fun _ => tt) both both0 -> tover (fun _ => tt) both' both0 -> tover (fun _ => tt) lop lop0 -> tover (fun _ => tt) lop' lop0 -> mover (fun _ => tt) rop rop0 -> mover (fun _ => tt) rop' rop0 ->
  omap (fun p => (fst (fst p), snd p)) (map_tm rdef rd st both lop rop m right) = omap (fun p => (fst (fst p), snd p)) (map_tm rdef' rd' st both' lop' rop' m right).
Proof. exact @contents_tm. Qed.
Print Assumptions C58_contents_tm.
Theorem C58_contents_mt : forall (E : Env) K V L W R R' (KK : Key K) (KL : Key L) (rdef : R) rd (rdef' : R') rd' st
    (both : transform_op ((K * V) * (L * W)) W R) (both' : transform_op ((K * V) * (L * W)) W R') (both0 : transform_op ((K * V) * (L * W)) W unit) (lop : transmute_op (K * V) L W R) (lop' : transmute_op (K * V) L W R') (lop0 : transmute_op (K * V) L W unit) (rop : transform_op (L * W) W R) (rop' : transform_op (L * W) W R') (rop0 : transform_op (L * W) W unit) (m : trie K V) (right : trie L W),
  tover (fun _ => tt) both both0 -> tover (fun _ => tt) both' both0 -> mover (fun _ => tt) lop lop0 -> mover (fun _ => tt) lop' lop0 -> tover (fun _ => tt) rop rop0 -> tover (fun _ => tt) rop' rop0 ->
  omap (fun p => (fst (fst p), snd p)) (map_mt rdef rd st both lop rop m right) = omap (fun p => (fst (fst p), snd p)) (map_mt rdef' rd' st both' lop' rop' m right).
Proof. exact @contents_mt. Qed.
Print Assumptions C58_contents_mt.
Theorem C58_contents_mm : forall (E : Env) K V L W S X R R' (KK : Key K) (KL : Key L) (KS : Key S) (rdef : R) rd (rdef' : R') rd'
    (both : transmute_op ((K * V) * (L * W)) S X R) (both' : transmute_op ((K * V) * (L * W)) S X R') (both0 : transmute_op ((K * V) * (L * W)) S X unit) (lop : transmute_op (K * V) S X R) (lop' : transmute_op (K * V) S X R') (lop0 : transmute_op (K * V) S X unit) (rop : transmute_op (L * W) S X R) (rop' : transmute_op (L * W) S X R') (rop0 : transmute_op (L * W) S X unit) (m : trie K V) (right : trie L W),
  mover (fun _ => tt) both both0 -> mover (fun _ => tt) both' both0 -> mover (fun _ => tt) lop lop0 -> mover (fun _ => tt) lop' lop0 -> mover (fun _ => tt) rop rop0 -> mover (fun _ => tt) rop' rop0 ->
  omap fst (map_mm rdef rd both lop rop m right) = omap fst (map_mm rdef' rd' both' lop' rop' m right).
Proof. exact @contents_mm. Qed.
Print Assumptions C58_contents_mm.
Theorem C58_contents_tt : forall (E : Env) K V R R' (KK : Key K) (rdef : R) rd (rdef' : R') rd' st
    (both : joint_op (K * V) V R) (both' : joint_op (K * V) V R') (both0 : joint_op (K * V) V unit) (lop : transform_op (K * V) V R) (lop' : transform_op (K * V) V R') (lop0 : transform_op (K * V) V unit) (rop : transform_op (K * V) V R) (rop' : transform_op (K * V) V R') (rop0 : transform_op (K * V) V unit) (m right : trie K V),
  jover (fun _ => tt) both both0 -> jover (fun _ => tt) both' both0 -> tover (fun _ => tt) lop lop0 -> tover (fun _ => tt) lop' lop0 -> tover (fun _ => tt) rop rop0 -> tover (fun _ => tt) rop' rop0 ->
  omap (fun p => (fst (fst p), snd p)) (map_tt rdef rd st both lop rop m right) = omap (fun p => (fst (fst p), snd p)) (map_tt rdef' rd' st both' lop' rop' m right).
Proof. exact @contents_tt. Qed.
Print Assumptions C58_contents_tt.
(** The example of C15 with its reductions forgotten, and with other ones. *)
Example C58_contents_ex :
  tover (fun _ => tt) (TGeneric ex_f) (TGeneric (fun e => vmap (fun _ => tt) (ex_f e))) /\
  tover (fun _ => tt) (TGeneric (fun e => vmap (fun _ => snd e) (ex_f e))) (TGeneric (fun e => vmap (fun _ => tt) (ex_f e))) /\
  map_transform [] (@app N) Sequential (TGeneric ex_f) ex_m <> Panic /\
  (exists m' r r' o, map_transform [] (@app N) Sequential (TGeneric ex_f) ex_m = Ret (m', r, o) /\
    map_transform 5 (fun a b => 3 * a + b) Sequential (TGeneric (fun e => vmap (fun _ => snd e) (ex_f e))) ex_m = Ret (m', r', o) /\ m' <> ex_m).
Proof.
  split; [intros e; reflexivity|]. split; [intros e; cbn; destruct (ex_f e); reflexivity|]. split; [vm_compute; discriminate|].
  do 4 eexists. split; [vm_compute; reflexivity|]. split; [vm_compute; reflexivity|]. vm_compute. discriminate.
Qed.

(** * What is returned is a bracketing *)
(** [btree] (Brackets.v): an expression in the default, values and [reduce_op];
    [bleaves] its values from left to right, [beval] what it comes to.  The
    bracketing is the same for all defaults and all [reduce_op]. *)
Theorem C58_transform_brackets : forall (E : Env) K V R (KK : Key K) st (f : K * V -> vres V R) (m : trie K V), reachable m ->
  exists m' o t, bleaves t = map_visit m /\
    forall rdef rd, map_transform rdef rd st (TGeneric f) m = Ret (m', beval rdef rd (fun e => t_red (f e)) t, o).
Proof. intros E K V R KK. exact transform_brackets. Qed.
Print Assumptions C58_transform_brackets.
Theorem C58_transmute_brackets : forall (E : Env) K V R (KK : Key K) S X (KS : Key S) (f : K * V -> kres S X R) (m : trie K V), reachable m ->
  (forall e k v r, In e (map_visit m) -> f e = KTransmuted k v r -> cls k = cls (fst e)) ->
  exists m' t, bleaves t = map_visit m /\
    forall rdef rd, map_transmute rdef rd (MGeneric f) m = Ret (m', beval rdef rd (fun e => m_red (f e)) t).
Proof. intros E K V R KK S X KS. exact transmute_brackets. Qed.
Print Assumptions C58_transmute_brackets.
Theorem C58_tm_brackets : forall (E : Env) K V L W R (KK : Key K) (KL : Key L) st (fB : (K * V) * (L * W) -> vres V R) (fL : K * V -> vres V R) (fR : L * W -> kres K V R) (m : trie K V) (r : trie L W) rdef0 rd0 x,
  reachable m -> reachable r ->
  (forall e k v x, In e (map_visit r) -> fR e = KTransmuted k v x -> cls k = cls (fst e)) ->
  map_tm rdef0 rd0 st (TGeneric fB) (TGeneric fL) (MGeneric fR) m r = Ret x ->
  exists m' o t, Permutation (bleaves t) (merge (fun e e' => [AskBoth e e']) (fun e => [AskLeft e]) (fun e' => [AskRight e']) (map_visit m) (map_visit r)) /\
    forall rdef rd, map_tm rdef rd st (TGeneric fB) (TGeneric fL) (MGeneric fR) m r =
      Ret (m', beval rdef rd (three (fun e e' => t_red (fB (e, e'))) (fun e => t_red (fL e)) (fun e' => m_red (fR e'))) t, o).
Proof. intros E K V L W R KK KL. exact tm_brackets. Qed.
Print Assumptions C58_tm_brackets.
Theorem C58_mt_brackets : forall (E : Env) K V L W R (KK : Key K) (KL : Key L) st (fB : (K * V) * (L * W) -> vres W R) (fL : K * V -> kres L W R) (fR : L * W -> vres W R) (m : trie K V) (r : trie L W) rdef0 rd0 x,
  reachable m -> reachable r ->
  (forall e k v x, In e (map_visit m) -> fL e = KTransmuted k v x -> cls k = cls (fst e)) ->
  map_mt rdef0 rd0 st (TGeneric fB) (MGeneric fL) (TGeneric fR) m r = Ret x ->
  exists m' o t, Permutation (bleaves t) (merge (fun e e' => [AskBoth e e']) (fun e => [AskLeft e]) (fun e' => [AskRight e']) (map_visit m) (map_visit r)) /\
    forall rdef rd, map_mt rdef rd st (TGeneric fB) (MGeneric fL) (TGeneric fR) m r =
      Ret (m', beval rdef rd (three (fun e e' => t_red (fB (e, e'))) (fun e => m_red (fL e)) (fun e' => t_red (fR e'))) t, o).
Proof. intros E K V L W R KK KL. exact mt_brackets. Qed.
Print Assumptions C58_mt_brackets.
Theorem C58_mm_brackets : forall (E : Env) K V L W R (KK : Key K) (KL : Key L) S X (KS : Key S) (fB : (K * V) * (L * W) -> kres S X R) (fL : K * V -> kres S X R) (fR : L * W -> kres S X R) (m : trie K V) (r : trie L W) rdef0 rd0 x,
  reachable m -> reachable r ->
  (forall e e' k v x, In e (map_visit m) -> In e' (map_visit r) -> cls (fst e) = cls (fst e') ->
     fB (e, e') = KTransmuted k v x -> cls k = cls (fst e)) ->
  (forall e k v x, In e (map_visit m) -> fL e = KTransmuted k v x -> cls k = cls (fst e)) ->
  (forall e k v x, In e (map_visit r) -> fR e = KTransmuted k v x -> cls k = cls (fst e)) ->
  map_mm rdef0 rd0 (MGeneric fB) (MGeneric fL) (MGeneric fR) m r = Ret x ->
  exists m' t, Permutation (bleaves t) (merge (fun e e' => [AskBoth e e']) (fun e => [AskLeft e]) (fun e' => [AskRight e']) (map_visit m) (map_visit r)) /\
    forall rdef rd, map_mm rdef rd (MGeneric fB) (MGeneric fL) (MGeneric fR) m r =
      Ret (m', beval rdef rd (three (fun e e' => m_red (fB (e, e'))) (fun e => m_red (fL e)) (fun e' => m_red (fR e'))) t).
Proof. intros E K V L W R KK KL S X KS. exact mm_brackets. Qed.
Print Assumptions C58_mm_brackets.
Theorem C58_tt_brackets : forall (E : Env) K V R (KK : Key K) st (fB : (K * V) * (K * V) -> bres V R) (fL : K * V -> vres V R) (fR : K * V -> vres V R) (m : trie K V) (r : trie K V) rdef0 rd0 x,
  reachable m -> reachable r ->
  map_tt rdef0 rd0 st (JGeneric (fun e e' => fB (e, e')) false) (TGeneric fL) (TGeneric fR) m r = Ret x ->
  exists m' o t, Permutation (bleaves t) (merge (fun e e' => [AskBoth e e']) (fun e => [AskLeft e]) (fun e' => [AskRight e']) (map_visit m) (map_visit r)) /\
    forall rdef rd, map_tt rdef rd st (JGeneric (fun e e' => fB (e, e')) false) (TGeneric fL) (TGeneric fR) m r =
      Ret (m', beval rdef rd (three (fun e e' => b_red (fB (e, e'))) (fun e => t_red (fL e)) (fun e' => t_red (fR e'))) t, o).
Proof. intros E K V R KK. exact tt_brackets. Qed.
Print Assumptions C58_tt_brackets.
(** With an operation that is neither associative nor has the default as its
    identity: the strategies bracket differently and return different
    reductions, so C17 needs its monoid. *)
Example C58_transform_brackets_ex : reachable (E := exE) ex_m /\
  (exists m' o, map_transform 5 (fun a b => 3 * a + b) Sequential (TGeneric (fun e => VUnchanged (snd e))) ex_m = Ret (m', 13890, o)) /\
  (exists m' o, map_transform 5 (fun a b => 3 * a + b) MiddleIndex (TGeneric (fun e => VUnchanged (snd e))) ex_m = Ret (m', 15539864603, o)) /\
  (exists m' o t, map_transform BDef BNode Sequential (TGeneric (fun e => VUnchanged (BLeaf (snd e)))) ex_m = Ret (m', t, o) /\
     bleaves t = map snd (map_visit ex_m) /\ beval 5 (fun a b => 3 * a + b) (fun v => v) t = 13890).
Proof. split; [exact ex_reach|]. split; [do 2 eexists; vm_compute; reflexivity|].
  split; [do 2 eexists; vm_compute; reflexivity|]. do 3 eexists. split; [vm_compute; reflexivity|]. split; vm_compute; reflexivity.
Qed.
Example C58_joint_brackets_ex : reachable (E := exE) ex_m /\ reachable (E := exE) ex_r /\ reachable (E := exE) ex_t /\
  (forall e k v x, In e (map_visit ex_r) -> ex_rop e = KTransmuted k v x -> cls k = cls (fst e)) /\
  (exists m' o, map_tm 5 (fun a b => 3 * a + b) Sequential (TGeneric ex_both) (TGeneric ex_lop) (MGeneric ex_rop) ex_m ex_r = Ret (m', 757980454, o)) /\
  (exists m' o t, map_tt BDef BNode MiddleIndex (JGeneric (fun e e' => bmap (fun _ => BLeaf (AskBoth (snd e) (snd e'))) (ex_jboth e e')) false)
     (TGeneric (fun e => vmap (fun _ => BLeaf (AskLeft (snd e))) (ex_jlop e))) (TGeneric (fun e => vmap (fun _ => BLeaf (AskRight (snd e))) (ex_jrop e))) ex_m ex_t = Ret (m', t, o) /\
     bleaves t = [AskRight 103; AskBoth 17 100; AskLeft 12; AskLeft 10; AskLeft 15; AskLeft 14; AskRight 201; AskBoth 13 200; AskBoth 18 301; AskRight 300]).
Proof.
  split; [exact ex_reach|]. split; [exact ex_r_reach|]. split; [exact ex_t_reach|].
  split; [exact (ex_rop_keeps _)|]. split; [do 2 eexists; vm_compute; reflexivity|].
  do 3 eexists. split; vm_compute; reflexivity.
Qed.
Example C58_mm_brackets_ex : reachable (E := exE) ex_m /\ reachable (E := exE) ex_r /\
  (exists m' t, map_mm BDef BNode (MGeneric (fun p => kmap (fun _ => BLeaf (AskBoth (snd (fst p)) (snd (snd p)))) (ex_mboth p)))
     (MGeneric (fun e => kmap (fun _ => BLeaf (AskLeft (snd e))) (ex_mlop e))) (MGeneric (fun e => kmap (fun _ => BLeaf (AskRight (snd e))) (ex_mrop e))) ex_m ex_r = Ret (m', t) /\
     bleaves t = [AskRight 103; AskBoth 17 100; AskLeft 12; AskLeft 10; AskLeft 15; AskLeft 14; AskRight 201; AskBoth 13 200; AskBoth 18 301; AskRight 300]).
Proof. split; [exact ex_reach|]. split; [exact ex_r_reach|]. do 2 eexists. split; vm_compute; reflexivity. Qed.

(** * Closed properties *)
(** A property of the default, of what the operations may answer, and kept by
    [reduce_op], holds of what is returned.  [t_all P D op] (Brackets.v): of the
    closure's reductions on the arguments [D], or of the constant. *)
Theorem C58_transform_closed : forall (E : Env) K V R (KK : Key K) (P : R -> Prop) (rdef : R) (rd : R -> R -> R) st (op : transform_op (K * V) V R) (m : trie K V) m' x o,
  reachable m ->
  P rdef -> (forall a b, P a -> P b -> P (rd a b)) -> t_all P (fun e => In e (map_visit m)) op ->
  map_transform rdef rd st op m = Ret (m', x, o) -> P x.
Proof. intros E K V R KK P rdef rd. exact (transform_closed P rdef rd). Qed.
Print Assumptions C58_transform_closed.
Theorem C58_transmute_closed : forall (E : Env) K V R (KK : Key K) (P : R -> Prop) (rdef : R) (rd : R -> R -> R) S X (op : transmute_op (K * V) S X R) (m : trie K V) m' x,
  reachable m ->
  P rdef -> (forall a b, P a -> P b -> P (rd a b)) -> m_all P (fun e => In e (map_visit m)) op ->
  map_transmute rdef rd op m = Ret (m', x) -> P x.
Proof. intros E K V R KK P rdef rd S X. exact (transmute_closed P rdef rd). Qed.
Print Assumptions C58_transmute_closed.
Theorem C58_tm_closed : forall (E : Env) K V L W R (KK : Key K) (KL : Key L) (P : R -> Prop) (rdef : R) (rd : R -> R -> R) st (both : transform_op ((K * V) * (L * W)) V R) (lop : transform_op (K * V) V R) (rop : transmute_op (L * W) K V R) (m : trie K V) (r : trie L W) m' x o,
  reachable m -> reachable r ->
  P rdef -> (forall a b, P a -> P b -> P (rd a b)) ->
  t_all P (fun p => in_both (map_visit m) (map_visit r) (fst p) (snd p)) both -> t_all P (in_left (map_visit m) (map_visit r)) lop -> m_all P (in_right (map_visit m) (map_visit r)) rop ->
  map_tm rdef rd st both lop rop m r = Ret (m', x, o) -> P x.
Proof. intros E K V L W R KK KL P rdef rd. exact (tm_closed P rdef rd). Qed.
Print Assumptions C58_tm_closed.
Theorem C58_mt_closed : forall (E : Env) K V L W R (KK : Key K) (KL : Key L) (P : R -> Prop) (rdef : R) (rd : R -> R -> R) st (both : transform_op ((K * V) * (L * W)) W R) (lop : transmute_op (K * V) L W R) (rop : transform_op (L * W) W R) (m : trie K V) (r : trie L W) m' x o,
  reachable m -> reachable r ->
  P rdef -> (forall a b, P a -> P b -> P (rd a b)) ->
  t_all P (fun p => in_both (map_visit m) (map_visit r) (fst p) (snd p)) both -> m_all P (in_left (map_visit m) (map_visit r)) lop -> t_all P (in_right (map_visit m) (map_visit r)) rop ->
  map_mt rdef rd st both lop rop m r = Ret (m', x, o) -> P x.
Proof. intros E K V L W R KK KL P rdef rd. exact (mt_closed P rdef rd). Qed.
Print Assumptions C58_mt_closed.
Theorem C58_mm_closed : forall (E : Env) K V L W R (KK : Key K) (KL : Key L) (P : R -> Prop) (rdef : R) (rd : R -> R -> R) S X (KS : Key S) (both : transmute_op ((K * V) * (L * W)) S X R) (lop : transmute_op (K * V) S X R) (rop : transmute_op (L * W) S X R) (m : trie K V) (r : trie L W) m' x,
  reachable m -> reachable r ->
  P rdef -> (forall a b, P a -> P b -> P (rd a b)) ->
  m_all P (fun p => in_both (map_visit m) (map_visit r) (fst p) (snd p)) both -> m_all P (in_left (map_visit m) (map_visit r)) lop -> m_all P (in_right (map_visit m) (map_visit r)) rop ->
  map_mm rdef rd both lop rop m r = Ret (m', x) -> P x.
Proof. intros E K V L W R KK KL P rdef rd S X KS. exact (mm_closed P rdef rd). Qed.
Print Assumptions C58_mm_closed.
Theorem C58_tt_closed : forall (E : Env) K V R (KK : Key K) (P : R -> Prop) (rdef : R) (rd : R -> R -> R) st (both : joint_op (K * V) V R) (lop : transform_op (K * V) V R) (rop : transform_op (K * V) V R) (m : trie K V) (r : trie K V) m' x o,
  reachable m -> reachable r ->
  P rdef -> (forall a b, P a -> P b -> P (rd a b)) ->
  j_all P (in_both (map_visit m) (map_visit r)) both -> t_all P (in_left (map_visit m) (map_visit r)) lop -> t_all P (in_right (map_visit m) (map_visit r)) rop ->
  map_tt rdef rd st both lop rop m r = Ret (m', x, o) -> P x.
Proof. intros E K V R KK P rdef rd. exact (tt_closed P rdef rd). Qed.
Print Assumptions C58_tt_closed.

(** Every reduction is at least 1: so is what is returned. *)
Example C58_closed_ex : reachable (E := exE) ex_m /\ reachable (E := exE) ex_r /\ 1 <= 5 /\
  (forall a b, 1 <= a -> 1 <= b -> 1 <= 3 * a + b) /\
  t_all (fun r => 1 <= r) (fun p => in_both (map_visit ex_m) (map_visit ex_r) (fst p) (snd p)) (TGeneric ex_both) /\
  t_all (V := N) (fun r => 1 <= r) (in_left (map_visit ex_m) (map_visit ex_r)) (TUnchanged 7) /\
  m_all (fun r => 1 <= r) (in_right (map_visit ex_m) (map_visit ex_r)) (MGeneric ex_rop) /\
  (exists m' o, map_tm 5 (fun a b => 3 * a + b) Sequential (TGeneric ex_both) (TUnchanged 7) (MGeneric ex_rop) ex_m ex_r = Ret (m', 756125392, o)).
Proof.
  split; [exact ex_reach|]. split; [exact ex_r_reach|]. split; [discriminate|].
  split; [intros; lia|]. split; [|split; [|split]].
  - intros p _. unfold ex_both. destruct (snd (fst p) =? 17); [|destruct (snd (fst p) =? 13)]; cbn; discriminate.
  - cbn. discriminate.
  - intros e _. unfold ex_rop. destruct (N.even (snd e)); cbn; discriminate.
  - do 2 eexists. vm_compute. reflexivity.
Qed.
