(** C55: reference counts while threads share maps. *)
From Coq Require Import NArith Arith List Bool Permutation Lia.
From Verif Require Import Base Words Flag Bia Node Api Versions Ex Heap SpecH HeapHist HeapBulk HeapRun Rc Conc Arcs ArcsP ArcsRcP PropHeap PropRc.
Import ListNotations.
Open Scope nat_scope.
#[local] Existing Instance exE | 100.

(** At any moment the count of a cell is the number of [Arc]s to it. *)
Theorem C55_counts : forall (E : Env) K V (KK : Key K) es (s : arcs_state K V) a, arcs_run es s -> cnts s a = arcs_to s a.
Proof. intros E K V KK. exact arcs_counts. Qed.
Print Assumptions C55_counts.
(** Whatever can be read from an [Arc] somebody holds is allocated, and not being
    destroyed. *)
Theorem C55_safe : forall (E : Env) K V (KK : Key K) es (s : arcs_state K V) r a, arcs_run es s -> In r (own s) -> reach (mem s) r a ->
  cnts s a <> 0 /\ exists c, nth_error (mem s) a = Some c.
Proof. intros E K V KK. exact arcs_safe. Qed.
Print Assumptions C55_safe.
(** It does not change either while the [Arc] is held. *)
Theorem C55_stays : forall (E : Env) K V (KK : Key K) es (s : arcs_state K V) r s' a, arcs_run es s -> arcs_keep r s s' -> reach (mem s) r a ->
  reach (mem s') r a /\ nth_error (mem s') a = nth_error (mem s) a.
Proof. intros E K V KK. exact arcs_stay. Qed.
Print Assumptions C55_stays.
(** An [Arc] can always be dropped, in hands and inside of cells: it never points
    to something freed. *)
Theorem C55_drop : forall (E : Env) K V (KK : Key K) es (h : heap K V) cnt a own fs, arcs_run es (ArcsState h cnt (a :: own) fs) ->
  exists cnt' fs', arcs_step (ArcsState h cnt (a :: own) fs) [] (ArcsState h cnt' own fs').
Proof. intros E K V KK. exact arcs_drop. Qed.
Print Assumptions C55_drop.
Theorem C55_field : forall (E : Env) K V (KK : Key K) es (h : heap K V) cnt own f1 b l f2, arcs_run es (ArcsState h cnt own (f1 ++ (b, l) :: f2)) ->
  match l with
  | [] => destroy (ArcsState h cnt own (f1 ++ (b, l) :: f2)) [Freed b] (ArcsState h cnt own (f1 ++ f2))
  | r :: rest => exists cnt' fs', decrement h cnt (f1 ++ (b, rest) :: f2) r cnt' fs' /\
      destroy (ArcsState h cnt own (f1 ++ (b, l) :: f2)) [] (ArcsState h cnt' own fs')
  end.
Proof. intros E K V KK. exact arcs_field. Qed.
Print Assumptions C55_field.
(** Destruction comes to an end in any order, and does not get stuck. *)
Theorem C55_ends : forall (E : Env) K V (KK : Key K) es (s : arcs_state K V), arcs_run es s ->
  exists bound, forall n s', destroys s n s' -> n <= bound /\ (dying s' = [] \/ exists es' s'', destroy s' es' s'').
Proof. intros E K V KK. exact arcs_ends. Qed.
Print Assumptions C55_ends.
(** With no destruction going on, exactly what can be reached is in use. *)
Theorem C55_quiet : forall (E : Env) K V (KK : Key K) es (s : arcs_state K V) a, arcs_run es s -> dying s = [] ->
  in_use s a <-> exists r, In r (own s) /\ reach (mem s) r a.
Proof. intros E K V KK. exact arcs_quiet. Qed.
Print Assumptions C55_quiet.
(** No leak. *)
Theorem C55_empty : forall (E : Env) K V (KK : Key K) es (s : arcs_state K V) a, arcs_run es s -> dying s = [] -> own s = [] -> ~ in_use s a.
Proof. intros E K V KK. exact arcs_empty. Qed.
Print Assumptions C55_empty.
(** Each allocation is freed at most once, and has been exactly when the cell is
    no longer in use. *)
Theorem C55_once : forall (E : Env) K V (KK : Key K) es (s : arcs_state K V) a, arcs_run es s ->
  (in_use s a -> allocations es a = S (frees es a)) /\ (~ in_use s a -> allocations es a = frees es a).
Proof. intros E K V KK. exact arcs_once. Qed.
Print Assumptions C55_once.
(** The order in which threads clone and drop makes no difference to the counts in
    the end. *)
Theorem C55_orders : forall (E : Env) K V (KK : Key K) es (s : arcs_state K V) es' s', arcs_run es s -> arcs_run es' s' ->
  dying s = [] -> dying s' = [] -> mem s = mem s' -> Permutation (own s) (own s') -> forall a, cnts s a = cnts s' a.
Proof. intros E K V KK. exact arcs_determined. Qed.
Print Assumptions C55_orders.
(** The counts of C50, of whole calls one after the other, come about in single
    operations like these. *)
Theorem C55_calls : forall (E : Env) K V R (KK : Key K) (rdef : R) (rd : R -> R -> R) (cs : list (rcall K V R)) (h : heap K V) cnt vs,
  rsteps rdef rd cs h cnt vs -> exists es, arcs_run es (ArcsState h cnt (map addr_of vs) []).
Proof. intros E K V R KK. exact arcs_rc. Qed.
Print Assumptions C55_calls.
(** A map that somebody holds all along answers as before, whatever is done to all
    the other maps meanwhile. *)
Theorem C55_answers : forall (E : Env) K V R (KK : Key K) (rdef : R) (rd : R -> R -> R) (cs : list (rcall K V R)) (h : heap K V) cnt vs n s,
  rsteps rdef rd cs h cnt vs -> In n vs -> arcs_keep (addr_of n) (ArcsState h cnt (map addr_of vs) []) s -> alike h (mem s) n n.
Proof. intros E K V R KK. exact arcs_answers. Qed.
Print Assumptions C55_answers.

(** An entry (cell 0), shared by a thread that holds it and a list (cell 1)
    another thread made of it and drops. *)
Definition ex_cell : cell key N := CellS (0, 0)%N 10%N.
Definition ex_two : cell key N := CellL (4, 0)%N 11%N (XS 0) 2%N.
Definition ex_shared : arcs_state key N := ArcsState [ex_cell; ex_two] (set_count (set_count (set_count (fun _ => 0) 0 1) 0 2) 1 1) [1; 0] [].
Example ex_shared_run : arcs_run [Allocated 0; Allocated 1] ex_shared.
Proof.
  change [Allocated 0; Allocated 1] with (([Allocated 0] ++ []) ++ [Allocated 1]).
  eapply at_snoc; [eapply at_snoc; [change [Allocated 0] with ([] ++ [Allocated 0]); eapply at_snoc; [constructor|]|]|].
  - apply (as_new [] (fun _ => 0) [] [] [] ex_cell 0); [constructor|intros [H|[]]; apply H; reflexivity|apply le_n].
  - eapply as_clone; [left; reflexivity|constructor].
  - apply (as_new [ex_cell] (set_count (set_count (fun _ => 0) 0 1) 0 2) [0; 0] [] [0] ex_two 1).
    + apply Permutation_refl.
    + intros [H|[]]. apply H. reflexivity.
    + apply le_n.
Qed.
Example C55_counts_ex : map (cnts ex_shared) [0; 1; 2] = [2; 1; 0] /\ map (arcs_to ex_shared) [0; 1; 2] = [2; 1; 0].
Proof. split; reflexivity. Qed.
Example C55_safe_ex : In 1 (own ex_shared) /\ reach (mem ex_shared) 1 0.
Proof. split; [left; reflexivity|]. eapply re_next; [reflexivity|left; reflexivity|constructor]. Qed.
(** The list is dropped; before its entry is, the other thread drops it too, and
    whoever comes last frees it.  Cell 1 is used again in between. *)
Definition ex_going : arcs_state key N := ArcsState [ex_cell; ex_two] (set_count (set_count (cnts ex_shared) 1 0) 0 1) [] [(1, [0])].
Example ex_going_run : arcs_run [Allocated 0; Allocated 1] ex_going.
Proof.
  change [Allocated 0; Allocated 1] with (([Allocated 0; Allocated 1] ++ []) ++ []).
  eapply at_snoc; [eapply at_snoc; [exact ex_shared_run|]|].
  - apply as_drop. eapply de_last; reflexivity.
  - apply as_drop. eapply de_more. reflexivity.
Qed.
Example C55_field_ex : map (cnts ex_going) [0; 1] = [1; 0] /\ map (arcs_to ex_going) [0; 1] = [1; 0] /\
  destroy ex_going [] (ArcsState [ex_cell; ex_two] (set_count (cnts ex_going) 0 0) [] [(0, []); (1, [])]).
Proof. split; [reflexivity|]. split; [reflexivity|]. apply (ds_field _ _ [] [] 1 0 [] []).
  apply (de_last [ex_cell; ex_two] (cnts ex_going) [(1, [])] 0 ex_cell); reflexivity.
Qed.
Definition ex_reused : arcs_state key N := ArcsState [ex_cell; CellS (8, 0)%N 12%N] (set_count (set_count (cnts ex_going) 0 0) 1 1) [1] [(0, [])].
Definition ex_events : list event := [Allocated 0; Allocated 1; Freed 1; Allocated 1].
Example ex_reused_run : arcs_run ex_events ex_reused.
Proof.
  change ex_events with ((([Allocated 0; Allocated 1] ++ []) ++ [Freed 1]) ++ [Allocated 1]).
  eapply at_snoc; [eapply at_snoc; [eapply at_snoc; [exact ex_going_run|apply as_destroy; exact (proj2 (proj2 C55_field_ex))]|]|].
  - apply as_destroy. apply (ds_free _ _ [] [(0, [])] 1 []).
  - apply (as_new [ex_cell; ex_two] (set_count (cnts ex_going) 0 0) [] [(0, [])] [] (CellS (8, 0)%N 12%N) 1).
    + constructor.
    + intros [H|[H|[]]]; [apply H; reflexivity|discriminate].
    + cbn. lia.
Qed.
Example C55_once_ex : map (allocations ex_events) [0; 1] = [1; 2] /\ map (frees ex_events) [0; 1] = [0; 1] /\
  in_use ex_reused 0 /\ in_use ex_reused 1 /\ ~ in_use ex_reused 2.
Proof.
  split; [reflexivity|]. split; [reflexivity|]. split; [right; left; reflexivity|]. split; [left; discriminate|].
  intros [H|[H|[]]]; [apply H; reflexivity|discriminate].
Qed.
Example C55_ends_ex : destroys ex_reused 1 (ArcsState (mem ex_reused) (cnts ex_reused) [1] []).
Proof. eapply dy_snoc; [apply dy_nil|]. apply (ds_free _ _ [1] [] 0 []). Qed.
Example C55_drop_ex : exists cnt' fs', arcs_step ex_shared [] (ArcsState [ex_cell; ex_two] cnt' [0] fs').
Proof. apply (C55_drop exE key N _ _ _ _ _ _ _ ex_shared_run). Qed.
(** Holding the entry while the list is destroyed and its memory used again. *)
Definition ex_kept : arcs_state key N :=
  ArcsState [ex_cell; CellS (8, 0)%N 12%N] (set_count (set_count (set_count (cnts ex_shared) 1 0) 0 1) 1 1) [1; 0] [].
Lemma ex_keep : arcs_keep 0 ex_shared ex_kept.
Proof.
  eapply ak_snoc; [eapply ak_snoc; [eapply ak_snoc; [eapply ak_snoc; [apply ak_nil|apply as_drop; eapply de_last; reflexivity|]|apply as_destroy; apply (ds_field _ _ _ [] 1 0 [] []); eapply de_more; reflexivity|]
    |apply as_destroy; apply (ds_free _ _ _ [] 1 [])|]|apply (as_new [ex_cell; ex_two] _ [0] [] [0] (CellS (8, 0)%N 12%N) 1)|]; cbn [own].
  - right; left; reflexivity.
  - left; reflexivity.
  - left; reflexivity.
  - left; reflexivity.
  - apply Permutation_refl.
  - intros [H|[]]. apply H. reflexivity.
  - cbn. lia.
  - right; left; reflexivity.
Qed.
Example C55_stays_ex : reach (mem ex_shared) 0 0 /\ nth_error (mem ex_kept) 0 = nth_error (mem ex_shared) 0 /\ nth_error (mem ex_kept) 1 <> nth_error (mem ex_shared) 1.
Proof. split; [constructor|]. split; [reflexivity|]. cbn. discriminate. Qed.
Example C55_quiet_ex : dying ex_shared = [] /\ in_use ex_shared 0 /\ in_use ex_shared 1 /\ ~ in_use ex_shared 2.
Proof.
  split; [reflexivity|]. split; [left; discriminate|]. split; [left; discriminate|]. intros [H|[]]. apply H. reflexivity.
Qed.
(** Everything dropped, in the end. *)
Example C55_empty_ex : exists es (s : arcs_state key N), arcs_run es s /\ dying s = [] /\ own s = [] /\ map (allocations es) [0; 1] = [1; 1] /\ map (frees es) [0; 1] = [1; 1].
Proof.
  exists (((([Allocated 0; Allocated 1] ++ []) ++ [Freed 1]) ++ [Freed 0])). eexists. split.
  - eapply at_snoc; [eapply at_snoc; [eapply at_snoc; [exact ex_going_run|apply as_destroy; exact (proj2 (proj2 C55_field_ex))]|]|].
    + apply as_destroy. apply (ds_free _ _ [] [(0, [])] 1 []).
    + apply as_destroy. apply (ds_free _ _ [] [] 0 []).
  - repeat split.
Qed.
(** Made first, cloned later: the same counts. *)
Example C55_orders_ex : exists es (s : arcs_state key N), arcs_run es s /\ dying s = [] /\ mem s = mem ex_shared /\ Permutation (own s) (own ex_shared) /\
  own s <> own ex_shared /\ map (cnts s) [0; 1] = [2; 1].
Proof.
  exists (([Allocated 0] ++ [Allocated 1]) ++ []). eexists. split; [|split; [|split; [|split; [|split]]]].
  - eapply at_snoc; [eapply at_snoc; [change [Allocated 0] with ([] ++ [Allocated 0]); eapply at_snoc; [constructor|]|]|].
    + apply (as_new [] (fun _ => 0) [] [] [] ex_cell 0); [constructor|intros [H|[]]; apply H; reflexivity|apply le_n].
    + apply (as_new [ex_cell] _ [0] [] [] ex_two 1); [apply Permutation_refl| |apply le_n]. intros [H|[]]. apply H. reflexivity.
    + eapply as_clone with (r := 1) (a := 0); [left; reflexivity|]. eapply re_next; [reflexivity|left; reflexivity|constructor].
  - reflexivity.
  - reflexivity.
  - apply perm_swap.
  - discriminate.
  - reflexivity.
Qed.
(** The five maps of [ex_rc]; the last one is held while the first is cloned,
    that clone and the first are dropped, and the cell of the first is destroyed
    and overwritten. *)
Example C55_calls_ex : exists cnt, rsteps (E := exE) 0%N N.add ex_rc ex_hp cnt ex_vs /\ map cnt (seq 0 12) = [1; 2; 1; 3; 1; 2; 1; 1; 1; 1; 1; 0].
Proof. eexists. split; [unfold ex_rc; rmade|]. vm_compute. reflexivity. Qed.
Example C55_answers_ex : exists cnt (s : arcs_state key N), rsteps (E := exE) 0%N N.add ex_rc ex_hp cnt ex_vs /\ In (HC 10) ex_vs /\
  arcs_keep 10 (ArcsState ex_hp cnt (map addr_of ex_vs) []) s /\ nth_error (mem s) 0 = Some ex_two /\ nth_error ex_hp 0 <> Some ex_two.
Proof.
  eexists. eexists. split; [unfold ex_rc; rmade|]. split; [do 4 right; left; reflexivity|]. split; [|split].
  - eapply ak_snoc; [eapply ak_snoc; [eapply ak_snoc; [eapply ak_snoc; [eapply ak_snoc; [apply ak_nil|eapply as_clone with (r := 0) (a := 0); [left; reflexivity|constructor]|]|apply as_drop; eapply de_more; reflexivity|]
    |apply as_drop; eapply de_last; reflexivity|]|apply as_destroy; apply (ds_free _ _ _ [] 0 [])|]|eapply as_junk with (h' := ex_two :: tl ex_hp)|]; cbn [own].
    + do 4 right; left; reflexivity.
    + do 5 right; left; reflexivity.
    + do 4 right; left; reflexivity.
    + do 3 right; left; reflexivity.
    + do 3 right; left; reflexivity.
    + cbn. lia.
    + intros [|a]; [|intros _; reflexivity]. intros [H|[]]. exfalso. apply H. vm_compute. reflexivity.
    + do 3 right; left; reflexivity.
  - reflexivity.
  - vm_compute. discriminate.
Qed.
