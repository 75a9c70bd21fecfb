(** Threads that share maps.

    Keys and values are [Send + Sync] (traits.rs:235-242) and the nodes are
    [Arc]s of them, so maps may be sent to and used by several threads.
    Nothing writes to a cell after creating it (Heap.v), so all that a call can
    notice of other threads is that they allocate too.  The cells of all threads lie in one heap in the
    order of their allocation.  A call that runs while others do sees, before
    each of its own allocations, whatever the others have added by then
    ([Noise], Heap.v); its reads go to cells that existed when it started or
    that it made itself. *)
From Coq Require Import NArith Arith List Bool.
From Verif Require Import Base Bia Node Api Spec Trans Transform Joint JointT Versions Heap SpecH HeapHist HeapBulk HeapRun.
Import ListNotations.

Section Conc.
Context {E : Env} {K V R : Type} {KK : Key K}.
Context (rdef : R) (rd : R -> R -> R).
Notation heap := (heap K V).

(** A map some thread has been given, and how many cells existed in all when it
    was. *)
Definition known : Type := hnode * nat.

(** The maps of a call have been handed out by the time [t] at which it starts
    (and so may have reached its thread). *)
Definition ready (ms : list known) (t : nat) (c : call K V R) : Prop :=
  forall i, In i (uses c) -> exists n t', nth_error ms i = Some (n, t') /\ (t' <= t)%nat.

(** An execution of any number of threads.  [g] is the heap when all is over;
    time is the number of cells allocated so far, so that [firstn t g] is the heap at
    time [t].  The calls are listed in any order in which the maps a call uses
    come from calls before it; each has its own start, what the others
    allocate while it runs, and its own end, and calls of the list overlap as
    they please.  That the heap a call ends with is a beginning of [g] says that
    what it saw the others allocate is what was allocated. *)
Inductive threads (g : heap) : list known -> list (call K V R) -> list known -> list (hgot R) -> Prop :=
| th_nil ms : threads g ms [] ms []
| th_call ms c t (others : Noise K V) n x h cs ms' xs :
    (t <= length g)%nat -> ready ms t c ->
    hrun (NZ := others) rdef rd (firstn t g) (map fst ms) c = Ret (n, x, h) -> ext h g ->
    threads g (ms ++ [(n, length h)]) cs ms' xs -> threads g ms (c :: cs) ms' (x :: xs).

(** The maps to begin with: new ones (map.rs:76-80), made at any time by any
    thread. *)
Definition fresh (g : heap) (m : known) : Prop :=
  exists (others : Noise K V) t h, (t <= length g)%nat /\ hm_new (NZ := others) (firstn t g) = (fst m, h) /\ snd m = length h /\ ext h g.

(** The same answers from two maps in two heaps. *)
Definition alike (g g' : heap) (m m' : hnode) : Prop :=
  hm_size g m = hm_size g' m' /\ hm_visit g m = hm_visit g' m' /\
  forall Q (KQ : Key Q) (q : Q), hm_get g m q = hm_get g' m' q.

(** The same result of two calls. *)
Definition same_answer (g g' : heap) (x y : hgot R) : Prop :=
  exists a : got K V R, same_got g x a /\ same_got g' y a.

End Conc.
