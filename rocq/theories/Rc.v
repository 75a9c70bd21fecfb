(** Reference counts: what [Arc] adds to the allocations of Heap.v.  A client
    makes, clones, uses and drops maps; dropping frees cells, and freed memory may
    hold anything afterwards.

    The crate has no [mem::forget], [ManuallyDrop], [Weak], [Arc::into_raw],
    [Box::leak] or [Drop] of its own, so a count is the number of [Arc]s there
    are.  The clones and drops inside one call are not modelled, only what they
    add up to ([acquire]). *)
From Coq Require Import NArith Arith List Bool.
From Verif Require Import Base Bia Node Api Versions Heap SpecH HeapHist HeapBulk HeapRun.
Import ListNotations.
Open Scope nat_scope.

Section Rc.
Context {E : Env} {K V R : Type} {KK : Key K}.
Context (rdef : R) (rd : R -> R -> R).
Notation heap := (heap K V).

(** The [Arc]s stored in a cell, in the order of the fields (cnode.rs:9-11 with
    bit_indexed_array.rs:5-9; lnode.rs:31-36; snode.rs:6-9). *)
Definition refs (c : cell K V) : list addr :=
  match c with
  | CellC b => map addr_of (bvalues b)
  | CellL _ _ next _ => [addr_of (hnext_node next)]
  | CellS _ _ => []
  end.

(** How many [Arc]s point to a cell; 0 is freed (or not allocated yet). *)
Definition counts : Type := addr -> nat.
Definition set_count (cnt : counts) (a : addr) (n : nat) : counts := fun x => if Nat.eqb x a then n else cnt x.

(** One more [Arc] for each of these addresses.  The [Arc]s inside a cell that was
    not alive before, one the call allocated, exist from now on too. *)
Fixpoint acquire (fuel : nat) (h : heap) (todo : list addr) (cnt : counts) : outcome counts :=
  match todo with
  | [] => Ret cnt
  | a :: todo =>
      match fuel, nth_error h a with
      | S fuel, Some c =>
          acquire fuel h (match cnt a with O => refs c ++ todo | S _ => todo end) (set_count cnt a (S (cnt a)))
      | O, _ => Diverge
      | _, None => Panic
      end
  end.

(** [Drop for Arc] (library/alloc/src/sync.rs) and the drop glue of the cells:
    decrement, and at zero drop what the cell holds, field by field, then free it.
    [Panic] is the undefined behaviour of dropping an [Arc] to a freed cell.
    Depth first: [todo] is the stack. *)
Fixpoint release (fuel : nat) (h : heap) (todo : list addr) (cnt : counts) : outcome counts :=
  match todo with
  | [] => Ret cnt
  | a :: todo =>
      match fuel, nth_error h a, cnt a with
      | S fuel, Some c, S n =>
          release fuel h (match n with O => refs c ++ todo | S _ => todo end) (set_count cnt a n)
      | O, _, _ => Diverge
      | _, _, _ => Panic
      end
  end.

(** Enough for both: a reference is followed at most once. *)
Definition rc_fuel (h : heap) : nat := S (list_sum (map (fun c => length (refs c)) h)).

(** The memory of cells that are not alive may change at any time. *)
Definition junk (cnt : counts) (h h' : heap) : Prop :=
  length h' = length h /\ forall a, cnt a <> 0%nat -> nth_error h' a = nth_error h a.

Definition remove_nth {A} (i : nat) (l : list A) : list A := firstn i l ++ skipn (S i) l.

Inductive rcall : Type :=
| RNew
| RClone (i : nat)
| RCall (c : call K V R)
| RDrop (i : nat).

(** One step of a client: heap, counts and held maps before and after.  A call
    that panics drops what it made (unwinding). *)
Inductive rstep : heap -> counts -> list hnode -> rcall -> heap -> counts -> list hnode -> Prop :=
| rs_new h cnt vs n h1 cnt' h' : hm_new h = (n, h1) -> acquire (rc_fuel h1) h1 [addr_of n] cnt = Ret cnt' ->
    junk cnt' h1 h' -> rstep h cnt vs RNew h' cnt' (vs ++ [n])
| rs_clone h cnt vs i n cnt' h' : nth_error vs i = Some n -> acquire (rc_fuel h) h [addr_of n] cnt = Ret cnt' ->
    junk cnt' h h' -> rstep h cnt vs (RClone i) h' cnt' (vs ++ [hm_clone n])
| rs_call h cnt vs c n x h1 cnt' h' : Forall (fun i => (i < length vs)%nat) (uses c) ->
    hrun rdef rd h vs c = Ret (n, x, h1) -> acquire (rc_fuel h1) h1 [addr_of n] cnt = Ret cnt' ->
    junk cnt' h1 h' -> rstep h cnt vs (RCall c) h' cnt' (vs ++ [n])
| rs_panic h cnt vs c h' : Forall (fun i => (i < length vs)%nat) (uses c) -> hrun rdef rd h vs c = Panic ->
    junk cnt h h' -> rstep h cnt vs (RCall c) h' cnt vs
| rs_drop h cnt vs i n cnt' h' : nth_error vs i = Some n -> release (rc_fuel h) h [addr_of n] cnt = Ret cnt' ->
    junk cnt' h h' -> rstep h cnt vs (RDrop i) h' cnt' (remove_nth i vs).

Inductive rsteps : list rcall -> heap -> counts -> list hnode -> Prop :=
| rss_nil : rsteps [] [] (fun _ => 0%nat) []
| rss_snoc cs h cnt vs c h' cnt' vs' : rsteps cs h cnt vs -> rstep h cnt vs c h' cnt' vs' -> rsteps (cs ++ [c]) h' cnt' vs'.

(** What follows a state. *)
Inductive rthen (h : heap) (cnt : counts) (vs : list hnode) : list rcall -> heap -> counts -> list hnode -> Prop :=
| rt_nil : rthen h cnt vs [] h cnt vs
| rt_snoc cs h1 cnt1 vs1 c h' cnt' vs' : rthen h cnt vs cs h1 cnt1 vs1 -> rstep h1 cnt1 vs1 c h' cnt' vs' -> rthen h cnt vs (cs ++ [c]) h' cnt' vs'.

(** The same client on trees, where nothing is freed. *)
Inductive tree_step : list (trie K V) -> rcall -> list (trie K V) -> Prop :=
| tr_new ts : tree_step ts RNew (ts ++ [map_new])
| tr_clone ts i t : nth_error ts i = Some t -> tree_step ts (RClone i) (ts ++ [t])
| tr_call ts c t x : Forall (fun i => (i < length ts)%nat) (uses c) -> derive rdef rd ts c = Ret (t, x) ->
    tree_step ts (RCall c) (ts ++ [t])
| tr_panic ts c : Forall (fun i => (i < length ts)%nat) (uses c) -> derive rdef rd ts c = Panic -> tree_step ts (RCall c) ts
| tr_drop ts i : (i < length ts)%nat -> tree_step ts (RDrop i) (remove_nth i ts).

Inductive tree_steps : list rcall -> list (trie K V) -> Prop :=
| trs_nil : tree_steps [] []
| trs_snoc cs ts c ts' : tree_steps cs ts -> tree_step ts c ts' -> tree_steps (cs ++ [c]) ts'.

(** The number of [Arc]s to [a]: those of held maps and those in living cells. *)
Definition arcs (h : heap) (cnt : counts) (vs : list hnode) (a : addr) : nat :=
  count_occ Nat.eq_dec (map addr_of vs) a +
  list_sum (map (fun b => match cnt b, nth_error h b with
                          | S _, Some c => count_occ Nat.eq_dec (refs c) a
                          | _, _ => 0
                          end) (seq 0 (length h))).

End Rc.
Arguments rcall : clear implicits.
