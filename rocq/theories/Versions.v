(** Branching histories: a client keeps every version it was ever given and
    derives new ones from any of them by any operation of the API. *)
From Coq Require Import NArith List Bool Permutation.
From Verif Require Import Base Words Flag Bia Node Api Spec Trans Transform SpecT Joint SpecJ JointT LoopP.
Import ListNotations.

Section Versions.
Context {E : Env} {K V R : Type} {KK : Key K}.
Context (rdef : R) (rd : R -> R -> R).

(** One call.  The numbers name the versions it is applied to, the oldest
    version being 0. *)
Inductive call : Type :=
| CInsert (i : nat) (k : K) (v : V) (replace : bool)
| CRemove (i : nat) (k : K)
| CTransform (i : nat) (st : strategy) (op : transform_op (K * V) V R)
| CTransmute (i : nat) (op : transmute_op (K * V) K V R)
| CTT (i j : nat) (st : strategy) (both : joint_op (K * V) V R) (lop rop : transform_op (K * V) V R)
| CTM (i j : nat) (st : strategy) (both : transform_op ((K * V) * (K * V)) V R) (lop : transform_op (K * V) V R)
    (rop : transmute_op (K * V) K V R)
| CMT (i j : nat) (st : strategy) (both : transform_op ((K * V) * (K * V)) V R) (lop : transmute_op (K * V) K V R)
    (rop : transform_op (K * V) V R)
| CMM (i j : nat) (both : transmute_op ((K * V) * (K * V)) K V R) (lop rop : transmute_op (K * V) K V R).

(** What comes back beside the new version. *)
Inductive got : Type :=
| GInserted (stored : K * V) (prev : option (K * V))
| GRefused (stored : K * V)
| GRemoved (e : K * V)
| GNotFound
| GReduced (r : R).

(** The versions a call is applied to; naming a version that does not exist is
    no call at all and leaves the map empty. *)
Definition version {A} (d : A) (s : list A) (i : nat) : A := nth i s d.

(** One call on the tries (Api.v, Transform.v, Joint.v, JointT.v): the version
    it derives, which is the old one if there is nothing new, and its answer. *)
Definition derive (s : list (trie K V)) (c : call) : outcome (trie K V * got) :=
  let at_ := version map_new s in
  match c with
  | CInsert i k v replace =>
      let* r := map_insert (fun x => x) (at_ i) k v replace in
      match r with
      | Ok (m', e, prev) => Ret (m', GInserted e prev)
      | Err e => Ret (at_ i, GRefused e)
      end
  | CRemove i k =>
      let* r := map_remove (at_ i) k in
      match r with
      | Ok (m', e) => Ret (m', GRemoved e)
      | Err _ => Ret (at_ i, GNotFound)
      end
  | CTransform i st op => let* (mr, _) := map_transform rdef rd st op (at_ i) in Ret (fst mr, GReduced (snd mr))
  | CTransmute i op => let* mr := map_transmute rdef rd op (at_ i) in Ret (fst mr, GReduced (snd mr))
  | CTT i j st both lop rop =>
      let* (mr, _) := map_tt rdef rd st both lop rop (at_ i) (at_ j) in Ret (fst mr, GReduced (snd mr))
  | CTM i j st both lop rop =>
      let* (mr, _) := map_tm rdef rd st both lop rop (at_ i) (at_ j) in Ret (fst mr, GReduced (snd mr))
  | CMT i j st both lop rop =>
      let* (mr, _) := map_mt rdef rd st both lop rop (at_ i) (at_ j) in Ret (fst mr, GReduced (snd mr))
  | CMM i j both lop rop =>
      let* mr := map_mm rdef rd both lop rop (at_ i) (at_ j) in Ret (fst mr, GReduced (snd mr))
  end.

(** A history: every call adds a version. *)
Fixpoint versions (s : list (trie K V)) (cs : list call) : outcome (list (trie K V) * list got) :=
  match cs with
  | [] => Ret (s, [])
  | c :: cs' =>
      let* (m, x) := derive s c in
      let* (s', xs) := versions (s ++ [m]) cs' in
      Ret (s', x :: xs)
  end.

(** * The same on association lists *)

(** The reduced value: known when the operations are closures
    and the reduction is a commutative monoid. *)
Definition reduces (closures : Prop) (l : list R) (x : got) : Prop :=
  exists r, x = GReduced r /\ (closures -> monoid rdef rd -> (forall a b, rd a b = rd b a) -> r = fold_right rd rdef l).

(** What an entry contributes. *)
Definition t_red' (op : transform_op (K * V) V R) (e : K * V) : R := t_red (tcall op e).
Definition m_red' (op : transmute_op (K * V) K V R) (e : K * V) : R := m_red (mcall op e).

(** One call: the contents of the version it derives. *)
Definition derives (s : list (list (K * V))) (c : call) (l' : list (K * V)) (x : got) : Prop :=
  let at_ := version [] s in
  match c with
  | CInsert i k v replace =>
      match spec_insert k v replace (at_ i) with
      | Ok (l, prev) => Permutation l' l /\ x = GInserted (k, v) prev
      | Err e => Permutation l' (at_ i) /\ x = GRefused e
      end
  | CRemove i k =>
      match spec_remove (cls k) (at_ i) with
      | Some (l, e) => Permutation l' l /\ x = GRemoved e
      | None => Permutation l' (at_ i) /\ x = GNotFound
      end
  | CTransform i _ op => Permutation l' (flat_map (fun e => t_entry (tcall op e) e) (at_ i)) /\
      reduces (t_generic op) (map (t_red' op) (at_ i)) x
  | CTransmute i op => Permutation l' (flat_map (fun e => m_entry (mcall op e)) (at_ i)) /\
      reduces (m_generic op) (map (m_red' op) (at_ i)) x
  | CTT i j _ both lop rop => exists fB,
      (forall e e', In e (at_ i) -> In e' (at_ j) -> cls (fst e) = cls (fst e') -> b_to (jcall both e e') e e' (fB e e')) /\
      Permutation l' (merged_entries fB (fun e => t_to (tcall lop e) e) (fun e' => t_to (tcall rop e') e') (at_ i) (at_ j)) /\
      reduces (t_generic lop /\ t_generic rop) (merged_reds (fun e e' => b_red (jcall both e e')) (t_red' lop) (t_red' rop) (at_ i) (at_ j)) x
  | CTM i j _ both lop rop =>
      Permutation l' (merged_entries (fun e e' => t_to (tcall both (e, e')) e) (fun e => t_to (tcall lop e) e)
                        (fun e' => m_to (mcall rop e')) (at_ i) (at_ j)) /\
      reduces (t_generic lop /\ m_generic rop) (merged_reds (fun e e' => t_red (tcall both (e, e'))) (t_red' lop) (m_red' rop) (at_ i) (at_ j)) x
  | CMT i j _ both lop rop =>
      Permutation l' (merged_entries (fun e e' => t_to (tcall both (e, e')) e') (fun e => m_to (mcall lop e))
                        (fun e' => t_to (tcall rop e') e') (at_ i) (at_ j)) /\
      reduces (m_generic lop /\ t_generic rop) (merged_reds (fun e e' => t_red (tcall both (e, e'))) (m_red' lop) (t_red' rop) (at_ i) (at_ j)) x
  | CMM i j both lop rop =>
      Permutation l' (merged_entries (fun e e' => m_to (mcall both (e, e'))) (fun e => m_to (mcall lop e))
                        (fun e' => m_to (mcall rop e')) (at_ i) (at_ j)) /\
      reduces (m_generic lop /\ m_generic rop) (merged_reds (fun e e' => m_red (mcall both (e, e'))) (m_red' lop) (m_red' rop) (at_ i) (at_ j)) x
  end.

Inductive spec_versions : list (list (K * V)) -> list call -> list (list (K * V)) -> list got -> Prop :=
| sv_nil s : spec_versions s [] s []
| sv_cons s c cs l x s' xs : derives s c l x -> spec_versions (s ++ [l]) cs s' xs -> spec_versions s (c :: cs) s' (x :: xs).

(** What the caller of [c] owes (map.rs:128, :182, :225, :245: transmuted keys
    hash and compare like the originals), and the domain of C21 for
    transform_with_transformed. *)
Definition contract (s : list (list (K * V))) (c : call) : Prop :=
  let at_ := version [] s in
  match c with
  | CInsert _ _ _ _ | CRemove _ _ | CTransform _ _ _ => True
  | CTransmute i op => m_keeps (mcall op) (at_ i)
  | CTT i j _ both lop rop => tame both lop rop (at_ i) (at_ j) /\ ~ one_sided both
  | CTM i j _ _ _ rop => m_keeps (mcall rop) (at_ j)
  | CMT i j _ _ lop _ => m_keeps (mcall lop) (at_ i)
  | CMM i j both lop rop =>
      b_keeps (mcall both) (at_ i) (at_ j) /\ m_keeps (mcall lop) (at_ i) /\ m_keeps (mcall rop) (at_ j)
  end.

(** Every call of a history keeps its contract. *)
Fixpoint contracts (s : list (trie K V)) (cs : list call) : Prop :=
  match cs with
  | [] => True
  | c :: cs' => contract (map map_visit s) c /\ forall m x, derive s c = Ret (m, x) -> contracts (s ++ [m]) cs'
  end.

End Versions.
Arguments call : clear implicits.
Arguments got : clear implicits.
