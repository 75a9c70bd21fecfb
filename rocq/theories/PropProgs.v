(** C68: the crate's own tests and examples never fail (src/map.rs, src/set.rs, examples/, README.md). *)
From Coq Require Import NArith ZArith Arith List Bool Lia.
From Verif Require Import Base Words Flag Bia Node Api Spec Trans Transform SpecT LoopP Joint JointT SpecJ Reach ReachP Sets
  MapP Debug Fnv FnvP FnvMapP I32 I32P Progs ProgsP ProgsP2.
Import ListNotations.
Open Scope N_scope.

(** The examples' [i32] keys, in a debug build. *)
Definition exI : Env := i32_env true 3 (le_n 3).
Definition exK : @Key exI i32 := i32_key true 3 (le_n 3).
Definition ints (l : list N) : list i32 := map wrap l.

(** * examples/ *)
Theorem C68_example_map : forall debug n Hn (insertions searches removals : list i32),
  example_map (E := i32_env debug n Hn) (KK := i32_key debug n Hn) insertions searches removals = Ret tt.
Proof. intros debug n Hn. exact (example_map_passes (E := i32_env debug n Hn) (i32_default debug n Hn) (le_n 4)). Qed.
Theorem C68_example_set : forall debug n Hn (insertions searches removals : list i32),
  example_set (E := i32_env debug n Hn) (KK := i32_key debug n Hn) insertions searches removals = Ret tt.
Proof. intros debug n Hn. exact (example_set_passes (E := i32_env debug n Hn) (i32_default debug n Hn) (le_n 4)). Qed.
Theorem C68_example_xor_tt : forall debug n Hn st (lefts rights : list i32),
  xor_tt (E := i32_env debug n Hn) (KK := i32_key debug n Hn) st lefts rights = Ret tt.
Proof. intros debug n Hn. exact (xor_tt_passes (E := i32_env debug n Hn) (i32_default debug n Hn) (le_n 4)). Qed.
Theorem C68_example_xor_tm : forall debug n Hn st (lefts rights : list i32),
  xor_tm (E := i32_env debug n Hn) (KK := i32_key debug n Hn) st lefts rights = Ret tt.
Proof. intros debug n Hn. exact (xor_tm_passes (E := i32_env debug n Hn) (i32_default debug n Hn) (le_n 4)). Qed.
Theorem C68_example_xor_mt : forall debug n Hn st (lefts rights : list i32),
  xor_mt (E := i32_env debug n Hn) (KK := i32_key debug n Hn) st lefts rights = Ret tt.
Proof. intros debug n Hn. exact (xor_mt_passes (E := i32_env debug n Hn) (i32_default debug n Hn) (le_n 4)). Qed.
Theorem C68_example_xor_mm : forall debug n Hn (lefts rights : list i32),
  xor_mm (E := i32_env debug n Hn) (KK := i32_key debug n Hn) lefts rights = Ret tt.
Proof. intros debug n Hn. exact (xor_mm_passes (E := i32_env debug n Hn) (i32_default debug n Hn) (le_n 4)). Qed.
(** The same runs on numbers some of which are negative, equal, or in both lists;
    the exclusive or that is compared has entries. *)
Definition exL : list i32 := ints [7; 4294967295; 39; 7; 12; 2147483648; 100].
Definition exR : list i32 := ints [39; 8; 4294967295; 8; 71].
Example C68_example_nonvacuous :
  map (fun e => val (fst e)) (xored (E := exI) (KK := exK) exL exR) = [71; 8; 100; 2147483648; 12; 7] /\
  example_map (E := exI) (KK := exK) exL exR exR = Ret tt /\ example_set (E := exI) (KK := exK) exL exR exR = Ret tt /\
  xor_tt (E := exI) (KK := exK) MiddleIndex exL exR = Ret tt /\ xor_mm (E := exI) (KK := exK) exL exR = Ret tt /\
  (let* ls := sfill (E := exI) (KK := exK) set_new exL in check_xor (E := exI) (KK := exK) exL exR ls) = Panic.
Proof. repeat apply conj; vm_compute; reflexivity. Qed.
Print Assumptions C68_example_map.
Print Assumptions C68_example_set.
Print Assumptions C68_example_xor_tt.
Print Assumptions C68_example_xor_tm.
Print Assumptions C68_example_xor_mt.
Print Assumptions C68_example_xor_mm.

(** * README.md: any key, any hasher *)
Theorem C68_readme : forall (E : Env) K Q (KK : Key K) (KQ : Key Q) (into : Q -> K) (q : Q), cls (into q) = cls q ->
  exists s, readme into q = Ret s /\ set_size s = 0.
Proof. intros E K Q KK KQ. exact readme_passes. Qed.
Example C68_readme_nonvacuous :
  (let* s := readme (E := exI) (KK := exK) (KQ := exK) (fun k => k) (wrap 42) in Ret (set_size s)) = Ret 0 /\
  (let* r := set_insert (E := exI) (KK := exK) (KQ := exK) (fun k => k) set_new (wrap 42) false in
   let* (s, k, _) := unwrap_ok r in Ret (set_size s, val k)) = Ret (1, 42).
Proof. split; vm_compute; reflexivity. Qed.
Print Assumptions C68_readme.

(** * Tests *)
Theorem C68_test_map_joint : forall debug n Hn st (a b : list i32),
  test_map_joint (E := i32_env debug n Hn) (KK := i32_key debug n Hn) word_eqb (wrap 0) wadd wmul st a b = Ret tt.
Proof.
  intros debug n Hn. exact (test_map_joint_passes (E := i32_env debug n Hn) (i32_default debug n Hn) (le_n 4) word_eqb
    word_refl (wrap 0) wadd wmul wadd_monoid wadd_comm).
Qed.
Theorem C68_test_set_joint : forall debug n Hn st (a b : list i32),
  test_set_joint (E := i32_env debug n Hn) (KK := i32_key debug n Hn) word_eqb (wrap 0) wadd wmul st a b = Ret tt.
Proof.
  intros debug n Hn. exact (test_set_joint_passes (E := i32_env debug n Hn) (i32_default debug n Hn) (le_n 4) word_eqb
    word_refl (wrap 0) wadd wmul wadd_monoid wadd_comm).
Qed.
(** The tests do look at the reductions: with what is not a commutative monoid they can fail. *)
Example C68_test_joint_nonvacuous :
  test_map_joint (E := exI) (KK := exK) word_eqb (wrap 0) wadd wmul MiddleIndex exL exR = Ret tt /\
  test_set_joint (E := exI) (KK := exK) word_eqb (wrap 0) wadd wmul Sequential exL exR = Ret tt /\
  test_set_joint (E := exI) (KK := exK) word_eqb (wrap 1) (fun a b => wrap (val a + 3 * val b)) wmul MiddleIndex exL exR = Panic.
Proof. repeat apply conj; vm_compute; reflexivity. Qed.
Print Assumptions C68_test_map_joint.
Print Assumptions C68_test_set_joint.

(** [for i in 1..101] replaced by any list.  [sval] (I32.v) is the number that the 32
    bits stand for; [i * i] and [l + r] panic on overflow in debug builds and wrap
    around in release builds.  The tests of maps pass exactly when no number is
    given twice and no square overflows.  Those of sets pass when no number is given
    twice and the total is the sum, modulo 2 ^ 32 in release builds; in debug builds
    also no sum of some of the numbers may overflow (when it can, it is the order
    in which the trie holds them that decides). *)
Theorem C68_test_map_transform : forall debug n Hn st (l : list i32),
  (NoDup l /\ (debug = true -> forall k, In k l -> (sval k * sval k < 2 ^ 31)%Z) ->
   test_map_transform (E := i32_env debug n Hn) (KK := i32_key debug n Hn) word_eqb wmul (isquare debug) st l = Ret tt) /\
  (~ (NoDup l /\ (debug = true -> forall k, In k l -> (sval k * sval k < 2 ^ 31)%Z)) ->
   test_map_transform (E := i32_env debug n Hn) (KK := i32_key debug n Hn) word_eqb wmul (isquare debug) st l = Panic).
Proof. exact i32_map_transform. Qed.
Theorem C68_test_map_transmute : forall debug n Hn (l : list i32),
  (NoDup l /\ (debug = true -> forall k, In k l -> (sval k * sval k < 2 ^ 31)%Z) ->
   test_map_transmute (E := i32_env debug n Hn) (KK := i32_key debug n Hn) word_eqb wmul (isquare debug) l = Ret tt) /\
  (~ (NoDup l /\ (debug = true -> forall k, In k l -> (sval k * sval k < 2 ^ 31)%Z)) ->
   test_map_transmute (E := i32_env debug n Hn) (KK := i32_key debug n Hn) word_eqb wmul (isquare debug) l = Panic).
Proof. exact i32_map_transmute. Qed.
Theorem C68_test_set_transform : forall debug n Hn st (l : list i32) (total : i32),
  let run := test_set_transform (E := i32_env debug n Hn) (KK := i32_key debug n Hn) oeqb (Some (wrap 0)) (iadd debug) Some st l (Some total) in
  (~ NoDup l -> run = Panic) /\
  (debug = false -> NoDup l -> wrap (fold_right N.add 0 (map val l)) = total -> run = Ret tt) /\
  (debug = false -> wrap (fold_right N.add 0 (map val l)) <> total -> run = Panic) /\
  (debug = true -> NoDup l -> fold_right Z.add 0%Z (map sval l) = sval total ->
     (fold_right Z.add 0 (map (fun k => Z.abs (sval k)) l) < 2 ^ 31)%Z -> run = Ret tt) /\
  (debug = true -> fold_right Z.add 0%Z (map sval l) <> sval total -> run = Panic).
Proof. exact i32_set_transform. Qed.
Theorem C68_test_set_transmute : forall debug n Hn (l : list i32) (total : i32),
  let run := test_set_transmute (E := i32_env debug n Hn) (KK := i32_key debug n Hn) oeqb (Some (wrap 0)) (iadd debug) Some l (Some total) in
  (~ NoDup l -> run = Panic) /\
  (debug = false -> NoDup l -> wrap (fold_right N.add 0 (map val l)) = total -> run = Ret tt) /\
  (debug = false -> wrap (fold_right N.add 0 (map val l)) <> total -> run = Panic) /\
  (debug = true -> NoDup l -> fold_right Z.add 0%Z (map sval l) = sval total ->
     (fold_right Z.add 0 (map (fun k => Z.abs (sval k)) l) < 2 ^ 31)%Z -> run = Ret tt) /\
  (debug = true -> fold_right Z.add 0%Z (map sval l) <> sval total -> run = Panic).
Proof. exact i32_set_transmute. Qed.
(** The crate's inputs: [1..101], with the sum 5050. *)
Definition hundred : list i32 := ints (map N.of_nat (seq 1 100)).
Example C68_test_transform_nonvacuous :
  NoDup (map val hundred) /\ fold_right Z.add 0%Z (map sval hundred) = sval (wrap 5050) /\
  fold_right Z.add 0%Z (map (fun k => Z.abs (sval k)) hundred) = 5050%Z /\ forallb (fun k => sval k * sval k <? 2 ^ 31)%Z hundred = true /\
  test_set_transform (E := exI) (KK := exK) oeqb (Some (wrap 0)) (iadd true) Some MiddleIndex hundred (Some (wrap 5050)) = Ret tt /\
  test_set_transmute (E := exI) (KK := exK) oeqb (Some (wrap 0)) (iadd true) Some hundred (Some (wrap 5051)) = Panic /\
  test_map_transform (E := exI) (KK := exK) word_eqb wmul (isquare true) MiddleIndex hundred = Ret tt /\
  test_map_transmute (E := exI) (KK := exK) word_eqb wmul (isquare true) (ints [5; 6; 5]) = Panic.
Proof.
  split.
  { assert (Hm : map val hundred = map N.of_nat (seq 1 100)) by (vm_compute; reflexivity). rewrite Hm.
    apply FinFun.Injective_map_NoDup; [intros x y; apply Nat2N.inj|apply seq_NoDup]. }
  do 6 (split; [vm_compute; reflexivity|]). vm_compute. reflexivity.
Qed.
(** Negative numbers, and overflows: [-1] is 2 ^ 32 - 1. *)
Definition relI : Env := i32_env false 3 (le_n 3).
Definition relK : @Key relI i32 := i32_key false 3 (le_n 3).
Example C68_test_overflow :
  let minus1 := 2 ^ 32 - 1 in let big := 2 ^ 31 - 1 in
  test_set_transform (E := exI) (KK := exK) oeqb (Some (wrap 0)) (iadd true) Some MiddleIndex (ints [minus1; 6]) (Some (wrap 5)) = Ret tt /\
  test_set_transform (E := exI) (KK := exK) oeqb (Some (wrap 0)) (iadd true) Some MiddleIndex (ints [big; 6]) (Some (wrap (big + 6))) = Panic /\
  test_set_transform (E := relI) (KK := relK) oeqb (Some (wrap 0)) (iadd false) Some MiddleIndex (ints [big; 6]) (Some (wrap (big + 6))) = Ret tt /\
  test_map_transform (E := exI) (KK := exK) word_eqb wmul (isquare true) MiddleIndex (ints [46340; minus1]) = Ret tt /\
  test_map_transform (E := exI) (KK := exK) word_eqb wmul (isquare true) MiddleIndex (ints [46341; minus1]) = Panic /\
  test_map_transform (E := relI) (KK := relK) word_eqb wmul (isquare false) MiddleIndex (ints [46341; minus1]) = Ret tt.
Proof. do 5 (split; [vm_compute; reflexivity|]). vm_compute. reflexivity. Qed.
Print Assumptions C68_test_map_transform.
Print Assumptions C68_test_map_transmute.
Print Assumptions C68_test_set_transform.
Print Assumptions C68_test_set_transmute.

(** * The tests without inputs, evaluated; these are tests of the model, not proofs *)
Definition look (b : bia N) : list (option N) * list (option N) :=
  (map (fun i => match bat_bit_index W64 b i with Ret (Ok v) => Some v | _ => None end) [0; 1; 2; 3; 4],
   map (fun i => match bat b i with Ok v => Some v | Err _ => None end) [1; 2; 4; 8; 16]).
(** bit_indexed_array.rs:513-621. *)
Example C68_bit_indexed_array_tests :
  match new_bia 5 [13; 42] 0, new_bia 13 [13; 42; 8] 0 with
  | Ok a, Ok b =>
      (let* c := unwrap_ok (binserted a 2 3 0) in Ret (lenN (bvalues c), look c)) =
        Ret (3, ([Some 13; Some 3; Some 42; None; None], [Some 13; Some 3; Some 42; None; None])) /\
      is_ok (binserted a 4 3 0) = false /\ is_ok (binserted a 10 3 0) = false /\
      (let* c := unwrap_ok (bupdated b 8 11 0) in Ret (lenN (bvalues c), look c)) =
        Ret (3, ([Some 13; None; Some 42; Some 11; None], [Some 13; None; Some 42; Some 11; None])) /\
      is_ok (bupdated a 2 3 0) = false /\ is_ok (bupdated a 5 3 0) = false /\
      (let* c := unwrap_ok (bupdated_bit_index W64 b 2 11 0) in Ret (lenN (bvalues c), look c)) =
        Ret (3, ([Some 13; None; Some 11; Some 8; None], [Some 13; None; Some 11; Some 8; None])) /\
      is_ok (bupdated_bit_index W64 a 1 3 0) = false /\
      (let* c := unwrap_ok (bremoved b 8 0) in Ret (lenN (bvalues c), look c)) =
        Ret (2, ([Some 13; None; Some 42; None; None], [Some 13; None; Some 42; None; None])) /\
      is_ok (bremoved b 2 0) = false /\ is_ok (bremoved b 5 0) = false
  | _, _ => False
  end.
Proof. vm_compute. repeat split. Qed.
(** lnode.rs:1262-1269 and lib.rs:36-39. *)
Example C68_lnode_and_default_tests :
  (let l := l_new (wrap 3) tt (NL (l_new (wrap 2) tt (NS (SN (wrap 1) tt)))) in
   (l_size l, map (fun i => option_map (fun e => val (fst e)) (l_find (E := exI) (KK := exK) (KQ := exK) l (wrap i))) [1; 2; 3; 4])) =
    (3, [Some 1; Some 2; Some 3; None]) /\
  (let* r := set_insert (E := exI) (KK := exK) (KQ := exK) (fun k => k) set_new (wrap 42) false in Ret (is_ok r)) = Ret true /\
  (let* r := map_insert (E := exI) (KK := exK) (KQ := exK) (fun k => k) map_new (wrap 42) 66 false in Ret (is_ok r)) = Ret true.
Proof. split; [vm_compute; reflexivity|]. split; vm_compute; reflexivity. Qed.
