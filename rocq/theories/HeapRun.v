(** Every operation of a history, run on the heap. *)
From Coq Require Import NArith Arith List Bool.
From Verif Require Import Base Bia Node Api Spec Trans Transform Joint JointT Versions Heap SpecH HeapHist HeapBulk.
Import ListNotations.

Section HeapRun.
Context {E : Env} {K V R : Type} {KK : Key K} {NZ : Noise K V}.
Context (rdef : R) (rd : R -> R -> R).
Notation heap := (heap K V).

(** What comes back beside the new map: for insert and remove references
    (map.rs:98-112), for the bulk operations the reduced value (map.rs:115-265). *)
Inductive hgot : Type :=
| HGInserted (stored : addr) (prev : option addr)
| HGRefused (stored : addr)
| HGRemoved (e : addr)
| HGNotFound
| HGReduced (r : R).

(** One call on the handles the client holds; a handle that does not exist is
    no call.  The source of both maps of a joint operation is the same heap. *)
Definition hrun (h : heap) (vs : list hnode) (c : call K V R) : outcome (hnode * hgot * heap) :=
  let at_ i := unwrap (nth_error vs i) in
  match c with
  | CInsert i k v replace =>
      let* n := at_ i in
      let* (r, h) := hm_insert (fun x => x) h n k v replace in
      match r with
      | Ok (n', a, prev) => Ret (n', HGInserted a prev, h)
      | Err a => Ret (n, HGRefused a, h)
      end
  | CRemove i k =>
      let* n := at_ i in
      let* (r, h) := hm_remove h n k in
      match r with
      | Ok (n', a) => Ret (n', HGRemoved a, h)
      | Err _ => Ret (n, HGNotFound, h)
      end
  | CTransform i st op =>
      let* n := at_ i in let* (nr, h) := hm_transform rdef rd st op h n in Ret (fst nr, HGReduced (snd nr), h)
  | CTransmute i op =>
      let* n := at_ i in let* (nr, h) := hm_transmute rdef rd op h n h in Ret (fst nr, HGReduced (snd nr), h)
  | CTT i j st both lop rop =>
      let* n := at_ i in let* m := at_ j in
      let* (nr, h) := hm_tt rdef rd st both lop rop h n m in Ret (fst nr, HGReduced (snd nr), h)
  | CTM i j st both lop rop =>
      let* n := at_ i in let* m := at_ j in
      let* (nr, h) := hm_tm rdef rd st both lop rop h n h m in Ret (fst nr, HGReduced (snd nr), h)
  | CMT i j st both lop rop =>
      let* n := at_ i in let* m := at_ j in
      let* (nr, h) := hm_mt rdef rd st both lop rop h n h m in Ret (fst nr, HGReduced (snd nr), h)
  | CMM i j both lop rop =>
      let* n := at_ i in let* m := at_ j in
      let* (nr, h) := hm_mm rdef rd both lop rop h n h m h in Ret (fst nr, HGReduced (snd nr), h)
  end.

(** A history of calls; every call adds a map. *)
Fixpoint hruns (h : heap) (vs : list hnode) (cs : list (call K V R)) : outcome (list hnode * list hgot * heap) :=
  match cs with
  | [] => Ret (vs, [], h)
  | c :: cs =>
      let* (nx, h) := hrun h vs c in
      let* (vx, h) := hruns h (vs ++ [fst nx]) cs in
      Ret (fst vx, snd nx :: snd vx, h)
  end.

(** Where the cells of a new map may come from: the maps whose allocations the
    call may hand on.  map.rs:128, :245 build maps of new cells only. *)
Definition keeps (c : call K V R) : list nat :=
  match c with
  | CInsert i _ _ _ | CRemove i _ | CTransform i _ _ | CTM i _ _ _ _ _ => [i]
  | CMT _ j _ _ _ _ => [j]
  | CTT i j _ _ _ _ => [i; j]
  | CTransmute _ _ | CMM _ _ _ _ _ => []
  end.

(** The answers say the same. *)
Definition same_got (h : heap) (x : hgot) (y : got K V R) : Prop :=
  match x, y with
  | HGInserted a p, GInserted e q => entry_at h a = Some e /\ orel (fun a e => entry_at h a = Some e) p q
  | HGRefused a, GRefused e => entry_at h a = Some e
  | HGRemoved a, GRemoved e => entry_at h a = Some e
  | HGNotFound, GNotFound => True
  | HGReduced r, GReduced r' => r = r'
  | _, _ => False
  end.

(** The handle shows what the tree shows. *)
Definition answers (h : heap) (n : hnode) (t : trie K V) : Prop :=
  hm_size h n = Ret (map_size t) /\ hm_visit h n = Ret (map_visit t) /\
  forall Q (KQ : Key Q) (q : Q), hm_get h n q = (let* r := map_find t q in Ret (match r with Ok e => Some e | Err _ => None end)).

(** The handle shows these entries. *)
Definition holds_entries (h : heap) (n : hnode) (l : list (K * V)) : Prop :=
  hm_visit h n = Ret l /\ hm_size h n = Ret (N.of_nat (length l)) /\ uniq l /\
  forall Q (KQ : Key Q) (q : Q), hm_get h n q = Ret (lookup (cls q) l).

End HeapRun.
Arguments hgot : clear implicits.

Section Named.
Context {K V R : Type}.
(** Every call of a history names maps that exist by then. *)
Fixpoint named (n : nat) (cs : list (call K V R)) : Prop :=
  match cs with
  | [] => True
  | c :: cs => Forall (fun i => (i < n)%nat) (uses c) /\ named (S n) cs
  end.
End Named.
