(** Concrete environments and maps for the examples beside the theorems. *)
From Coq Require Import NArith Arith List Bool Lia Permutation.
From Verif Require Import Base Words Flag Bia Node Api Spec Hist HistP Reach ReachP.
Import ListNotations.
Open Scope N_scope.

(** Classes are numbers, hashed by [h] cut to the hash width. *)
Definition env (hw fw : width) (h : N -> N) (checked : bool) : Env.
Proof.
  refine {| C := N; ceqb := N.eqb; hash := fun c => h c mod 2 ^ max_ones hw; hw := hw; fw := fw;
            checked := checked; fuel := 5 |}.
  - intros a b. apply N.eqb_eq.
  - intros c. apply N.mod_lt. apply N.pow_nonzero. discriminate.
  - repeat constructor.
Defined.

(** The default widths; classes 4i .. 4i+3 have the same hash. *)
Definition exE : Env := env W64 W32 (fun c => c / 4) false.
(** The same as a debug build. *)
Definition exD : Env := env W64 W32 (fun c => c / 4) true.

(** Keys with a tag that equality ignores. *)
Definition key : Type := N * N.
#[export] Instance key_key : @Key exE key := fun k => fst k.
(** Another query type: plain numbers. *)
Record num : Set := Num { num_n : N }.
#[export] Instance key_num : @Key exE num := num_n.
Definition num_into (n : num) : key := (num_n n, 77).

Lemma run_reachable {E : Env} {K V} {KK : Key K} (os : list (op K V)) m xs :
  run map_new os = Ret (m, xs) -> reachable m.
Proof.
  intros H. destruct (run_ok os (map_new (V := V)) [] (reach_new K V KK)) as [[Hp _]|(m' & Hm & HR & _)].
  - constructor.
  - congruence.
  - rewrite H in Hm. injection Hm as -> _. exact HR.
Qed.

Definition res_of {A} (d : A) {B} (o : outcome (A * B)) : A := match o with Ret (a, _) => a | _ => d end.

(** Three colliding keys, keys sharing one, two and twelve slices with them,
    and a removal. *)
Definition ex_os : list (op key N) :=
  [OInsert (0, 0) 10 false; OInsert (1, 0) 11 false; OInsert (2, 0) 12 false;
   OInsert (4 * 2 ^ 5, 0) 13 false; OInsert (4 * 2 ^ 10, 0) 14 true; OInsert (4 * 2 ^ 60, 0) 15 false;
   OInsert (4 * 7, 0) 16 false; OInsert (1, 1) 17 true; OInsert (4 * 9, 0) 18 false; ORemove (4 * 7, 5)].
Definition ex_m : trie key N := res_of map_new (run (E := exE) map_new ex_os).

Lemma ex_run : exists xs, run (E := exE) map_new ex_os = Ret (ex_m, xs).
Proof. eexists. vm_compute. reflexivity. Qed.

Lemma ex_reach : reachable (E := exE) ex_m.
Proof. destruct ex_run as [xs H]. exact (run_reachable _ _ _ H). Qed.

(** A map with one entry. *)
Definition ex_one_os : list (op key N) := [OInsert (5, 1) 50 false].
Definition ex_one : trie key N := res_of map_new (run (E := exE) map_new ex_one_os).
Lemma ex_one_run : exists xs, run (E := exE) map_new ex_one_os = Ret (ex_one, xs).
Proof. eexists. vm_compute. reflexivity. Qed.
Lemma ex_one_reach : reachable (E := exE) ex_one.
Proof. destruct ex_one_run as [xs H]. exact (run_reachable _ _ _ H). Qed.

(** Two more maps, with another key type, to merge with: both share keys,
    hashes and slices with [ex_m]; [ex_r] has two entries with hash 0 and
    [ex_r3] three. *)
Definition ex_r_os : list (op num N) :=
  [OInsert (Num 1) 100 false; OInsert (Num 3) 103 false; OInsert (Num (4 * 2 ^ 5)) 200 false;
   OInsert (Num (4 * 2 ^ 10 + 1)) 201 false; OInsert (Num (4 * 11)) 300 false; OInsert (Num (4 * 9)) 301 false].
Definition ex_r : trie num N := res_of map_new (run (E := exE) map_new ex_r_os).
Lemma ex_r_run : exists xs, run (E := exE) map_new ex_r_os = Ret (ex_r, xs).
Proof. eexists. vm_compute. reflexivity. Qed.
Lemma ex_r_reach : reachable (E := exE) ex_r.
Proof. destruct ex_r_run as [xs H]. exact (run_reachable _ _ _ H). Qed.

Definition ex_r3_os : list (op num N) := ex_r_os ++ [OInsert (Num 0) 104 false].
Definition ex_r3 : trie num N := res_of map_new (run (E := exE) map_new ex_r3_os).
Lemma ex_r3_run : exists xs, run (E := exE) map_new ex_r3_os = Ret (ex_r3, xs).
Proof. eexists. vm_compute. reflexivity. Qed.
Lemma ex_r3_reach : reachable (E := exE) ex_r3.
Proof. destruct ex_r3_run as [xs H]. exact (run_reachable _ _ _ H). Qed.
