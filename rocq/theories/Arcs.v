(** Reference counts, one atomic operation at a time.

    Rc.v counts a call as a whole and one client at a time.  Here any number of
    threads use [Arc]s at once, between calls and inside of them, and addresses
    of freed cells are used again.  A thread does with an [Arc] what the crate
    and its clients do: create one ([Arc::new], lnode.rs:54 and snode.rs:24; [into],
    cnode.rs:16, the array having been in a [Box]), clone one it can reach ([clone] throughout src/node and src/map.rs), read through it, and drop
    it.  The steps of all threads are listed in the order in which they happen;
    which thread does a step makes no difference and is not recorded.  Which
    [Arc]s a function clones and drops on the way is not fixed either.

    Simplified: a sequentially consistent memory; following [Arc]s from one that
    is held down to the one to clone is one step with the clone (the one held
    keeps the way there from changing). *)
From Coq Require Import NArith Arith List Bool Permutation.
From Verif Require Import Base Bia Node Heap Rc.
Import ListNotations.
Open Scope nat_scope.

Section Arcs.
Context {E : Env} {K V : Type} {KK : Key K}.
Notation heap := (heap K V).

(** Memory, counts, the [Arc]s in the hands of threads, and the cells being
    destroyed, each with the [Arc]s in it that are still to be dropped. *)
Record arcs_state : Type := ArcsState {
  mem : heap;
  cnts : counts;
  own : list addr;
  dying : list (addr * list addr)
}.

(** Allocated and not yet freed. *)
Definition in_use (s : arcs_state) (a : addr) : Prop := cnts s a <> 0 \/ In a (map fst (dying s)).

(** What can be read starting from an [Arc]. *)
Inductive reach (h : heap) : addr -> addr -> Prop :=
| re_self a : reach h a a
| re_next a c b x : nth_error h a = Some c -> In b (refs c) -> reach h b x -> reach h a x.

(** Write a cell. *)
Definition put (a : addr) (c : cell K V) (h : heap) : heap := firstn a h ++ c :: skipn (S a) h.

(** [Drop for Arc] (library/alloc/src/sync.rs): decrement; whoever takes the count
    to zero destroys the cell.  There is no rule for a count that is zero
    already: that would be dropping an [Arc] to a freed cell. *)
Inductive decrement (h : heap) (cnt : counts) (fs : list (addr * list addr)) (a : addr) : counts -> list (addr * list addr) -> Prop :=
| de_more n : cnt a = S (S n) -> decrement h cnt fs a (set_count cnt a (S n)) fs
| de_last c : cnt a = 1 -> nth_error h a = Some c -> decrement h cnt fs a (set_count cnt a 0) ((a, refs c) :: fs).

Inductive event : Type := Allocated (a : addr) | Freed (a : addr).

(** The drop glue: drop the next [Arc] in a cell that is being destroyed; free
    the cell when none is left. *)
Inductive destroy : arcs_state -> list event -> arcs_state -> Prop :=
| ds_field h cnt own f1 b r rest f2 cnt' fs : decrement h cnt (f1 ++ (b, rest) :: f2) r cnt' fs ->
    destroy (ArcsState h cnt own (f1 ++ (b, r :: rest) :: f2)) [] (ArcsState h cnt' own fs)
| ds_free h cnt own f1 b f2 :
    destroy (ArcsState h cnt own (f1 ++ (b, []) :: f2)) [Freed b] (ArcsState h cnt own (f1 ++ f2)).

Inductive arcs_step : arcs_state -> list event -> arcs_state -> Prop :=
(* [Arc]s go from hand to hand; their order in the list means nothing *)
| as_order h cnt own fs cnt' own' : Permutation own own' -> (forall a, cnt a = cnt' a) ->
    arcs_step (ArcsState h cnt own fs) [] (ArcsState h cnt' own' fs)
(* [Arc::new]: the [Arc]s in the new cell are moved into it.  Anywhere that is free. *)
| as_new h cnt own fs own' c a : Permutation own (refs c ++ own') -> ~ in_use (ArcsState h cnt own fs) a -> a <= length h ->
    arcs_step (ArcsState h cnt own fs) [Allocated a] (ArcsState (put a c h) (set_count cnt a 1) (a :: own') fs)
| as_clone h cnt own fs r a : In r own -> reach h r a ->
    arcs_step (ArcsState h cnt own fs) [] (ArcsState h (set_count cnt a (S (cnt a))) (a :: own) fs)
| as_drop h cnt a own fs cnt' fs' : decrement h cnt fs a cnt' fs' ->
    arcs_step (ArcsState h cnt (a :: own) fs) [] (ArcsState h cnt' own fs')
| as_destroy s es s' : destroy s es s' -> arcs_step s es s'
(* memory that is not in use may change at any time *)
| as_junk h cnt own fs h' : length h <= length h' ->
    (forall a, in_use (ArcsState h cnt own fs) a -> nth_error h' a = nth_error h a) ->
    arcs_step (ArcsState h cnt own fs) [] (ArcsState h' cnt own fs).

(** What follows a state, and what has been allocated and freed on the way. *)
Inductive arcs_then (s : arcs_state) : list event -> arcs_state -> Prop :=
| at_nil : arcs_then s [] s
| at_snoc es s1 es' s' : arcs_then s es s1 -> arcs_step s1 es' s' -> arcs_then s (es ++ es') s'.

Definition arcs_start : arcs_state := ArcsState [] (fun _ => 0) [] [].
Definition arcs_run : list event -> arcs_state -> Prop := arcs_then arcs_start.

(** What follows a state while somebody holds an [Arc] to [r] all the time. *)
Inductive arcs_keep (r : addr) (s : arcs_state) : arcs_state -> Prop :=
| ak_nil : In r (own s) -> arcs_keep r s s
| ak_snoc s1 es s' : arcs_keep r s s1 -> arcs_step s1 es s' -> In r (own s') -> arcs_keep r s s'.

(** Only destruction goes on, for so many steps. *)
Inductive destroys (s : arcs_state) : nat -> arcs_state -> Prop :=
| dy_nil : destroys s 0 s
| dy_snoc n s1 es s' : destroys s n s1 -> destroy s1 es s' -> destroys s (S n) s'.

(** The [Arc]s to [a] that exist: in somebody's hands, in cells, and in what is
    left of cells being destroyed. *)
Definition arcs_to (s : arcs_state) (a : addr) : nat :=
  count_occ Nat.eq_dec (own s) a +
  list_sum (map (fun b => match cnts s b, nth_error (mem s) b with
                          | S _, Some c => count_occ Nat.eq_dec (refs c) a
                          | _, _ => 0
                          end) (seq 0 (length (mem s)))) +
  count_occ Nat.eq_dec (concat (map snd (dying s))) a.

Definition allocations (es : list event) (a : addr) : nat :=
  length (filter (fun e => match e with Allocated b => Nat.eqb b a | Freed _ => false end) es).
Definition frees (es : list event) (a : addr) : nat :=
  length (filter (fun e => match e with Freed b => Nat.eqb b a | Allocated _ => false end) es).

End Arcs.
Arguments arcs_state : clear implicits.
