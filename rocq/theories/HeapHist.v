(** Histories of a client that keeps maps, with the allocations behind them. *)
From Coq Require Import NArith Arith List Bool.
From Verif Require Import Base Bia Node Api Trans Transform Joint JointT Versions Heap SpecH.
Import ListNotations.

Section HeapHist.
Context {E : Env} {K V R : Type} {KK : Key K} {NZ : Noise K V}.
Context (rdef : R) (rd : R -> R -> R).
Notation heap := (heap K V).

(** What a client does: make a new map, clone one, or call an operation. *)
Inductive hcall : Type :=
| HNew
| HClone (i : nat)
| HCall (c : call K V R).

(** The operations that are not spelled out on the heap. *)
Definition bulk (c : call K V R) : Prop :=
  match c with CInsert _ _ _ _ | CRemove _ _ => False | _ => True end.

(** The version whose root a bulk operation hands back (hash_trie.rs:65-167, the
    [Unchanged] cases, which clone it), if it does. *)
Definition source (ts : list (trie K V)) (c : call K V R) : outcome (option nat) :=
  let at_ := version map_new ts in
  match c with
  | CTransform i st op =>
      let* (_, o) := map_transform rdef rd st op (at_ i) in Ret (match o with Self => Some i | _ => None end)
  | CTT i j st both lop rop =>
      let* (_, o) := map_tt rdef rd st both lop rop (at_ i) (at_ j) in
      Ret (match o with Self => Some i | Right => Some j | Other => None end)
  | CTM i j st both lop rop =>
      let* (_, o) := map_tm rdef rd st both lop rop (at_ i) (at_ j) in Ret (match o with Self => Some i | _ => None end)
  | CMT i j st both lop rop =>
      let* (_, o) := map_mt rdef rd st both lop rop (at_ i) (at_ j) in Ret (match o with Right => Some j | _ => None end)
  | _ => Ret None
  end.

(** Which versions a call is applied to. *)
Definition uses (c : call K V R) : list nat :=
  match c with
  | CInsert i _ _ _ | CRemove i _ | CTransform i _ _ | CTransmute i _ => [i]
  | CTT i j _ _ _ _ | CTM i j _ _ _ _ | CMT i j _ _ _ _ | CMM i j _ _ _ => [i; j]
  end.

(** One step: the heap and the list of handles the client holds, before and
    after.  insert and remove run on the heap (Heap.v).  A bulk operation is
    described by the tree it computes (Versions.v); where it puts that tree, and
    which cells it shares, is left open, except that it only adds cells and that
    it hands back the old root when the code does.  A call that panics may have
    added cells, and no map. *)
Inductive hstep : heap -> list hnode -> hcall -> heap -> list hnode -> Prop :=
| hs_new h vs n h' : hm_new h = (n, h') -> hstep h vs HNew h' (vs ++ [n])
| hs_clone h vs i n : nth_error vs i = Some n -> hstep h vs (HClone i) h (vs ++ [hm_clone n])
| hs_insert h vs i k v replace n n' a prev h' : nth_error vs i = Some n ->
    hm_insert (fun x => x) h n k v replace = Ret (Ok (n', a, prev), h') ->
    hstep h vs (HCall (CInsert i k v replace)) h' (vs ++ [n'])
| hs_refused h vs i k v replace n a h' : nth_error vs i = Some n ->
    hm_insert (fun x => x) h n k v replace = Ret (Err a, h') ->
    hstep h vs (HCall (CInsert i k v replace)) h' (vs ++ [n])
| hs_remove h vs i k n n' a h' : nth_error vs i = Some n ->
    hm_remove h n k = Ret (Ok (n', a), h') -> hstep h vs (HCall (CRemove i k)) h' (vs ++ [n'])
| hs_absent h vs i k n e h' : nth_error vs i = Some n ->
    hm_remove h n k = Ret (Err e, h') -> hstep h vs (HCall (CRemove i k)) h' (vs ++ [n])
| hs_bulk h vs c ts t x h' n' : bulk c -> Forall (fun i => (i < length vs)%nat) (uses c) ->
    Forall2 (rep h) vs ts -> derive rdef rd ts c = Ret (t, x) -> ext h h' -> rep h' n' t ->
    (forall i, source ts c = Ret (Some i) -> nth_error vs i = Some n') ->
    hstep h vs (HCall c) h' (vs ++ [n'])
| hs_panic h vs c h' : ext h h' -> hstep h vs c h' vs.

Inductive hsteps : heap -> list hnode -> list hcall -> heap -> list hnode -> Prop :=
| hss_nil h vs : hsteps h vs [] h vs
| hss_cons h vs c cs h1 vs1 h' vs' : hstep h vs c h1 vs1 -> hsteps h1 vs1 cs h' vs' -> hsteps h vs (c :: cs) h' vs'.

(** What the client owes for a step (Versions.v, [contract]), in terms of what
    visit shows of the versions it holds. *)
Definition hcontract (h : heap) (vs : list hnode) (c : hcall) : Prop :=
  match c with
  | HCall c => forall ls, Forall2 (fun n l => hm_visit h n = Ret l) vs ls -> contract ls c
  | _ => True
  end.

(** Histories in which it keeps its side. *)
Inductive lawful : heap -> list hnode -> list hcall -> heap -> list hnode -> Prop :=
| lw_nil h vs : lawful h vs [] h vs
| lw_cons h vs c cs h1 vs1 h' vs' : hcontract h vs c -> hstep h vs c h1 vs1 -> lawful h1 vs1 cs h' vs' -> lawful h vs (c :: cs) h' vs'.

(** The same on trees. *)
Inductive tstep : list (trie K V) -> hcall -> list (trie K V) -> Prop :=
| ts_new ts : tstep ts HNew (ts ++ [map_new])
| ts_clone ts i t : nth_error ts i = Some t -> tstep ts (HClone i) (ts ++ [t])
| ts_call ts c t x : Forall (fun i => (i < length ts)%nat) (uses c) -> derive rdef rd ts c = Ret (t, x) -> tstep ts (HCall c) (ts ++ [t])
| ts_panic ts c : tstep ts c ts.

Inductive tsteps : list (trie K V) -> list hcall -> list (trie K V) -> Prop :=
| tss_nil ts : tsteps ts [] ts
| tss_cons ts c cs ts1 ts' : tstep ts c ts1 -> tsteps ts1 cs ts' -> tsteps ts (c :: cs) ts'.

(** What the client sees of a map: its size, what find answers, and what visit
    shows. *)
Definition hm_get {Q} {KQ : Key Q} (h : heap) (m : hnode) (q : Q) : outcome (option (K * V)) :=
  let* r := hm_find h m q in
  match r with
  | Ok a => let* e := unwrap (entry_at h a) in Ret (Some e)
  | Err _ => Ret None
  end.

End HeapHist.
Arguments hcall : clear implicits.
