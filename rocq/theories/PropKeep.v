(** C36: merges that hand back one of their maps. *)
From Coq Require Import NArith Arith List Bool Lia Permutation.
From Verif Require Import Base Words Flag Bia Node Api Spec Trans Transform SpecT LoopP Joint JointT SpecJ Reach ReachP MapP TransMapP
  JointMapP JointNodeP JointTP JointTApiP JointTMapP KeepP KeepMP Hist Ex PropJointT.
Import ListNotations.
Open Scope N_scope.

#[local] Existing Instance exE | 100.

(** [Self] and [Right] are the results that share their root with [self] and
    with [right], so that [==] holds (hash_trie.rs:213-217).  Missing from the
    full claim: entries of the other map that are dropped rather than matched,
    colliding hashes in the other map, and the constants UnchangedL and
    UnchangedR.  The first is refuted below. *)
Theorem C36_left_unchanged_partial : forall (E : Env) K V R (KK : Key K) (rdef : R) (rd : R -> R -> R) st
    both lop rop (m right : trie K V), reachable m -> reachable right ->
  ~ one_sided both -> (forall x, lop <> TRemoved x) ->
  (forall e', In e' (map_visit right) -> exists e, In e (map_visit m) /\ cls (fst e) = cls (fst e')) ->
  (forall e e', In e (map_visit right) -> In e' (map_visit right) -> hash (cls (fst e)) = hash (cls (fst e')) -> cls (fst e) = cls (fst e')) ->
  (forall e, In e (map_visit m) -> (forall e', In e' (map_visit right) -> cls (fst e) <> cls (fst e')) -> exists x, tcall lop e = VUnchanged x) ->
  (forall e e', In e (map_visit m) -> In e' (map_visit right) -> cls (fst e) = cls (fst e') ->
     exists x, jcall both e e' = BUnchangedLR x \/ jcall both e e' = BUnchangedL x) ->
  exists r, map_tt rdef rd st both lop rop m right = Ret (m, r, Self).
Proof. intros E K V R KK. exact tt_keep_left. Qed.
Print Assumptions C36_left_unchanged_partial.

(** The mirror image.  Where everything matches, either map may come back. *)
Theorem C36_right_unchanged_partial : forall (E : Env) K V R (KK : Key K) (rdef : R) (rd : R -> R -> R) st
    both lop rop (m right : trie K V), reachable m -> reachable right ->
  ~ one_sided both -> (forall x, rop <> TRemoved x) ->
  (forall e, In e (map_visit m) -> exists e', In e' (map_visit right) /\ cls (fst e') = cls (fst e)) ->
  (forall e e', In e (map_visit m) -> In e' (map_visit m) -> hash (cls (fst e)) = hash (cls (fst e')) -> cls (fst e) = cls (fst e')) ->
  (forall e', In e' (map_visit right) -> (forall e, In e (map_visit m) -> cls (fst e') <> cls (fst e)) -> exists x, tcall rop e' = VUnchanged x) ->
  (forall e e', In e (map_visit m) -> In e' (map_visit right) -> cls (fst e) = cls (fst e') ->
     exists x, jcall both e e' = BUnchangedLR x \/ jcall both e e' = BUnchangedR x) ->
  exists r, map_tt rdef rd st both lop rop m right = Ret (right, r, Right) \/
    map_tt rdef rd st both lop rop m right = Ret (m, r, Self) /\
      forall e', In e' (map_visit right) -> exists e, In e (map_visit m) /\ cls (fst e) = cls (fst e').
Proof. intros E K V R KK. exact tt_keep_right. Qed.
Print Assumptions C36_right_unchanged_partial.

(** Against an empty map. *)
Theorem C36_empty_partial : forall (E : Env) K V R (KK : Key K) (rdef : R) (rd : R -> R -> R) st both x op (m : trie K V),
  reachable m -> ~ one_sided both ->
  (exists r, map_tt rdef rd st both (TUnchanged x) op m map_new = Ret (m, r, Self)) /\
  (exists r o, map_tt rdef rd st both op (TUnchanged x) map_new m = Ret (m, r, o) /\ (map_size m <> 0 -> o = Right)).
Proof. intros E K V R KK. exact tt_keep_empty. Qed.
Print Assumptions C36_empty_partial.

Definition ex_kb (e e' : key * N) : bres N N := if fst (fst e) =? 4 then BUnchangedL 1 else BUnchangedLR 1.
Definition ex_kr (e e' : key * N) : bres N N := if fst (fst e) =? 4 then BUnchangedR 1 else BUnchangedLR 1.
Definition ex_big : trie key N := ex_of [(4, 1); (5, 1); (8, 1); (9, 1); (10, 1); (132, 1); (12, 1)].
Definition ex_small : trie key N := ex_of [(5, 2); (10, 2); (12, 2)].
(** The larger map has collision lists of two and three keys. *)
Example C36_left_unchanged_ex : reachable (E := exE) ex_big /\ reachable (E := exE) ex_small /\
  (forall e', In e' (map_visit ex_small) -> exists e, In e (map_visit ex_big) /\ cls (fst e) = cls (fst e')) /\
  (forall e e', In e (map_visit ex_small) -> In e' (map_visit ex_small) -> hash (cls (fst e)) = hash (cls (fst e')) -> cls (fst e) = cls (fst e')) /\
  (forall e, In e (map_visit ex_big) -> (forall e', In e' (map_visit ex_small) -> cls (fst e) <> cls (fst e')) ->
     exists x, tcall (TGeneric (fun e => VUnchanged (snd e) : vres N N)) e = VUnchanged x) /\
  (forall e e', In e (map_visit ex_big) -> In e' (map_visit ex_small) -> cls (fst e) = cls (fst e') ->
     exists x, jcall (JGeneric ex_kb false) e e' = BUnchangedLR x \/ jcall (JGeneric ex_kb false) e e' = BUnchangedL x) /\
  map_tt 0 N.add MiddleIndex (JGeneric ex_kb false) (TGeneric (fun e => VUnchanged (snd e))) (TRemoved 5) ex_big ex_small = Ret (ex_big, 7, Self).
Proof.
  split; [unfold ex_big; ex_of_reach|]. split; [unfold ex_small; ex_of_reach|]. split; [|split; [|split; [|split]]].
  - assert (H : forallb (fun e' => existsb (fun e => fst (fst e) =? fst (fst e')) (map_visit ex_big)) (map_visit ex_small) = true)
      by (vm_compute; reflexivity).
    rewrite forallb_forall in H. intros e' He'. specialize (H e' He'). apply existsb_exists in H. destruct H as (e & He & Hc).
    exists e. split; [assumption|]. apply N.eqb_eq. exact Hc.
  - intros e e'. vm_compute. intuition (subst; try reflexivity; discriminate).
  - intros e _ _. eexists. reflexivity.
  - intros e e' _ _ _. exists 1. cbn. unfold ex_kb. destruct (fst (fst e) =? 4); auto.
  - vm_compute. reflexivity.
Qed.
Example C36_right_unchanged_ex : reachable (E := exE) ex_small /\ reachable (E := exE) ex_big /\
  map_tt 0 N.add MiddleIndex (JGeneric ex_kr false) (TRemoved 5) (TGeneric (fun e => VUnchanged (snd e))) ex_small ex_big = Ret (ex_big, 7, Right).
Proof. split; [unfold ex_small; ex_of_reach|]. split; [unfold ex_big; ex_of_reach|]. vm_compute. reflexivity. Qed.
Example C36_empty_ex : reachable (E := exE) ex_m /\
  map_tt 0 N.add Sequential (JRemoved 3) (TUnchanged 2) (TRemoved 5) ex_m map_new = Ret (ex_m, 4, Self) /\
  map_tt 0 N.add Sequential (JRemoved 3) (TRemoved 5) (TUnchanged 2) map_new ex_m = Ret (ex_m, 4, Right).
Proof. split; [exact ex_reach|]. vm_compute. auto. Qed.

(** A dropped entry of the other map costs the sharing: the result has the
    entries of [m] but is a new map. *)
Theorem C36_dropped_refuted : exists (E : Env) (KK : Key key) (m right m' : trie key N) r,
  reachable m /\ reachable right /\
  map_tt 0 N.add Sequential (JUnchangedLR 0) (TGeneric (fun _ => VUnchanged 0)) (TGeneric (fun _ => VDropped 0)) m right = Ret (m', r, Other) /\
  map_visit m' = map_visit m.
Proof.
  do 2 eexists. exists (ex_of [(4, 1); (8, 1)]), (ex_of [(12, 2)]). do 2 eexists. split; [ex_of_reach|]. split; [ex_of_reach|].
  split; [vm_compute; reflexivity|]. vm_compute. reflexivity.
Qed.
Print Assumptions C36_dropped_refuted.

(** The merges that transmute one side can only hand back the other.  Missing
    from the full claim: entries of the transmuted map that are dropped rather
    than matched, and hashes that collide across the two maps; both are refuted
    below, as is merging with an empty map. *)
Theorem C36_tm_unchanged_partial : forall (E : Env) K V L W R (KK : Key K) (KL : Key L) (rdef : R) (rd : R -> R -> R) st
    both lop rop (m : trie K V) (right : trie L W), reachable m -> reachable right ->
  (forall e k v x, In e (map_visit right) -> mcall rop e = KTransmuted k v x -> cls k = cls (fst e)) ->
  (forall e', In e' (map_visit right) -> exists e, In e (map_visit m) /\ cls (fst e) = cls (fst e')) ->
  (forall e e', In e (map_visit m) -> In e' (map_visit right) -> hash (cls (fst e)) = hash (cls (fst e')) -> cls (fst e) = cls (fst e')) ->
  (map_size right <> 0 \/ forall e e', In e (map_visit m) -> In e' (map_visit m) -> hash (cls (fst e)) = hash (cls (fst e')) -> cls (fst e) = cls (fst e')) ->
  (forall e, In e (map_visit m) -> (forall e', In e' (map_visit right) -> cls (fst e) <> cls (fst e')) -> exists x, tcall lop e = VUnchanged x) ->
  (forall e e', In e (map_visit m) -> In e' (map_visit right) -> cls (fst e) = cls (fst e') -> exists x, tcall both (e, e') = VUnchanged x) ->
  exists r, map_tm rdef rd st both lop rop m right = Ret (m, r, Self).
Proof. intros E K V L W R KK KL. exact tm_keep. Qed.
Print Assumptions C36_tm_unchanged_partial.

Theorem C36_mt_unchanged_partial : forall (E : Env) K V L W R (KK : Key K) (KL : Key L) (rdef : R) (rd : R -> R -> R) st
    both lop rop (m : trie K V) (right : trie L W), reachable m -> reachable right ->
  (forall e k v x, In e (map_visit m) -> mcall lop e = KTransmuted k v x -> cls k = cls (fst e)) ->
  (forall e, In e (map_visit m) -> exists e', In e' (map_visit right) /\ cls (fst e') = cls (fst e)) ->
  (forall e e', In e (map_visit m) -> In e' (map_visit right) -> hash (cls (fst e)) = hash (cls (fst e')) -> cls (fst e) = cls (fst e')) ->
  (map_size m <> 0 \/ forall e e', In e (map_visit right) -> In e' (map_visit right) -> hash (cls (fst e)) = hash (cls (fst e')) -> cls (fst e) = cls (fst e')) ->
  (forall e', In e' (map_visit right) -> (forall e, In e (map_visit m) -> cls (fst e') <> cls (fst e)) -> exists x, tcall rop e' = VUnchanged x) ->
  (forall e e', In e (map_visit m) -> In e' (map_visit right) -> cls (fst e) = cls (fst e') -> exists x, tcall both (e, e') = VUnchanged x) ->
  exists r, map_mt rdef rd st both lop rop m right = Ret (right, r, Right).
Proof. intros E K V L W R KK KL. exact mt_keep. Qed.
Print Assumptions C36_mt_unchanged_partial.

Definition ex_few : trie key N := ex_of [(132, 2); (12, 2)].
Definition ex_un (e : key * N) : vres N N := VUnchanged (snd e).
Example C36_tm_unchanged_ex : reachable (E := exE) ex_big /\ reachable (E := exE) ex_few /\
  (forall e', In e' (map_visit ex_few) -> exists e, In e (map_visit ex_big) /\ cls (fst e) = cls (fst e')) /\
  (forall e e', In e (map_visit ex_big) -> In e' (map_visit ex_few) -> hash (cls (fst e)) = hash (cls (fst e')) -> cls (fst e) = cls (fst e')) /\
  map_size ex_few <> 0 /\
  map_tm 0 N.add Sequential (TUnchanged 1) (TGeneric ex_un) (MRemoved 5) ex_big ex_few = Ret (ex_big, 7, Self) /\
  map_mt 0 N.add Sequential (TUnchanged 1) (MRemoved 5) (TGeneric ex_un) ex_few ex_big = Ret (ex_big, 7, Right).
Proof.
  split; [unfold ex_big; ex_of_reach|]. split; [unfold ex_few; ex_of_reach|]. split; [|split; [|split; [discriminate|split; vm_compute; reflexivity]]].
  - assert (H : forallb (fun e' => existsb (fun e => fst (fst e) =? fst (fst e')) (map_visit ex_big)) (map_visit ex_few) = true)
      by (vm_compute; reflexivity).
    rewrite forallb_forall in H. intros e' He'. specialize (H e' He'). apply existsb_exists in H. destruct H as (e & He & Hc).
    exists e. split; [assumption|]. apply N.eqb_eq. exact Hc.
  - assert (H : forallb (fun e => forallb (fun e' => negb (hash (cls (fst e)) =? hash (cls (fst e'))) || (fst (fst e) =? fst (fst e')))
      (map_visit ex_few)) (map_visit ex_big) = true) by (vm_compute; reflexivity).
    rewrite forallb_forall in H. intros e e' He He' Hh. specialize (H e He). rewrite forallb_forall in H. specialize (H e' He').
    apply orb_true_iff in H. destruct H as [H|H]; [apply negb_true_iff, N.eqb_neq in H; contradiction (H Hh)|apply N.eqb_eq; exact H].
Qed.

(** A list of colliding keys at the root. *)
Definition ex_lone : trie key N := res_of map_new
  (match map_transform 0 N.add Sequential (TGeneric (fun e => if fst (fst e) <? 8 then VUnchanged 0 else VDropped 0)) (ex_of [(4, 1); (5, 1); (8, 1)]) with
   | Ret (m, _, _) => Ret (m, 0) | Panic => Panic | Diverge => Diverge end).
Lemma ex_lone_reach : reachable (E := exE) ex_lone.
Proof.
  eapply (reach_transform _ _ _ N 0 N.add Sequential (TGeneric (fun e => if fst (fst e) <? 8 then VUnchanged 0 else VDropped 0))
    (ex_of [(4, 1); (5, 1); (8, 1)])); [ex_of_reach|]. vm_compute. reflexivity.
Qed.

(** Merging with an empty map under Unchanged returns a new map. *)
Theorem C36_tm_empty_refuted : exists (E : Env) (KK : Key key) (m m' : trie key N) r, reachable m /\
  map_tm 0 N.add Sequential (TUnchanged 0) (TUnchanged 0) (MRemoved 0) m (map_new (K := key) (V := N)) = Ret (m', r, Other) /\
  map_visit m' = map_visit m.
Proof. do 2 eexists. exists ex_lone. do 2 eexists. split; [exact ex_lone_reach|]. split; vm_compute; reflexivity. Qed.
Print Assumptions C36_tm_empty_refuted.

(** Every entry matches one of [m] and is left unchanged, and the result is a new map. *)
Theorem C36_tm_collision_refuted : exists (E : Env) (KK : Key key) (m right m' : trie key N) r, reachable m /\ reachable right /\
  (forall e', In e' (map_visit right) -> In e' (map_visit m)) /\
  map_tm 0 N.add Sequential (TUnchanged 0) (TUnchanged 0) (MRemoved 0) m right = Ret (m', r, Other) /\
  map_visit m' = map_visit m.
Proof.
  do 2 eexists. exists (ex_of [(4, 1); (5, 1); (8, 1)]), ex_lone. do 2 eexists. split; [ex_of_reach|]. split; [exact ex_lone_reach|].
  split; [|split; vm_compute; reflexivity]. intros e'. vm_compute. tauto.
Qed.
Print Assumptions C36_tm_collision_refuted.

Theorem C36_tm_dropped_refuted : exists (E : Env) (KK : Key key) (m right m' : trie key N) r, reachable m /\ reachable right /\
  map_tm 0 N.add Sequential (TUnchanged 0) (TUnchanged 0) (MGeneric (fun _ => KDropped 0)) m right = Ret (m', r, Other) /\
  map_visit m' = map_visit m.
Proof.
  do 2 eexists. exists (ex_of [(4, 1); (8, 1)]), (ex_of [(12, 2)]). do 2 eexists. split; [ex_of_reach|]. split; [ex_of_reach|].
  split; vm_compute; reflexivity.
Qed.
Print Assumptions C36_tm_dropped_refuted.
