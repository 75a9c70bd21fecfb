(** The type [i32] of the crate's tests and examples, and the environment of
    [DefaultHashTrieSet<i32>] and [DefaultHashTrieMap<i32, _>] (lib.rs:24-28). *)
From Coq Require Import NArith ZArith List Bool Lia Eqdep_dec.
From Verif Require Import Base Words Fnv FnvP.
Import ListNotations.
Open Scope N_scope.

(** The numbers below [b]. *)
Definition word (b : N) : Type := {x : N | (x <? b) = true}.
Definition val {b} (w : word b) : N := proj1_sig w.
Lemma val_lt {b} (w : word b) : val w < b.
Proof. destruct w as [x H]. apply N.ltb_lt. exact H. Qed.
Lemma val_inj {b} (v w : word b) : val v = val w -> v = w.
Proof.
  destruct v as [x H], w as [y H']. cbn. intros ->. f_equal. apply UIP_dec, bool_dec.
Qed.
Definition word_eqb {b} (v w : word b) : bool := val v =? val w.
Lemma word_eqb_eq {b} (v w : word b) : word_eqb v w = true <-> v = w.
Proof. unfold word_eqb. rewrite N.eqb_eq. split; [apply val_inj|congruence]. Qed.

(** [i32] as its 32 bits: a negative number [x] is [2 ^ 32 + x]. *)
Definition i32 : Type := word (2 ^ 32).
Lemma wrap_ok (n : N) : (n mod 2 ^ 32 <? 2 ^ 32) = true.
Proof. apply N.ltb_lt, N.mod_lt. discriminate. Qed.
Definition wrap (n : N) : i32 := exist _ (n mod 2 ^ 32) (wrap_ok n).
(** [wrapping_add] and [wrapping_mul]. *)
Definition wadd (a b : i32) : i32 := wrap (val a + val b).
Definition wmul (a b : i32) : i32 := wrap (val a * val b).

(** The number itself, and its square as [i * i] computes it (map.rs:298, :320): an
    overflow panics in debug builds and wraps around in release builds. *)
Definition sval (a : i32) : Z := if val a <? 2 ^ 31 then Z.of_N (val a) else (Z.of_N (val a) - 2 ^ 32)%Z.
Definition fits (x : Z) : bool := ((- 2 ^ 31 <=? x) && (x <? 2 ^ 31))%Z.
Definition isquare (debug : bool) (a : i32) : outcome i32 := if debug && negb (fits (sval a * sval a)) then Panic else Ret (wmul a a).

(** [l + r], likewise (set.rs:325, :340); [None] is the panic. *)
Definition iadd (debug : bool) (a b : option i32) : option i32 :=
  match a, b with Some x, Some y => if debug && negb (fits (sval x + sval y)) then None else Some (wadd x y) | _, _ => None end.

(** traits.rs:255-260 with FnvHasher: [Hash for i32] writes four bytes. *)
Definition i32_env (debug : bool) (n : nat) (Hn : (3 <= n)%nat) : Env := {|
  C := i32; ceqb := word_eqb; ceqb_eq := word_eqb_eq; hash := fun c => fnv (bytes_of 4 (val c));
  hw := W64; fw := W32; hash_lt := fun c => fnv_lt (bytes_of 4 (val c)); checked := debug; fuel := n; fuel_ge := Hn |}.
Definition i32_key debug n Hn : @Key (i32_env debug n Hn) i32 := fun k => k.
(** [assert_eq!] of two sums; a sum that overflowed has panicked. *)
Definition oeqb (a b : option i32) : bool := match a, b with Some x, Some y => word_eqb x y | _, _ => false end.
