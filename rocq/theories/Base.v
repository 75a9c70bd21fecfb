(** Outcomes of running Rust code, and the environment every definition is
    parameterised by. *)
From Coq Require Import NArith List Bool.
Import ListNotations.
Open Scope N_scope.

(** A Rust call either returns, panics, or runs forever.  [unwrap], [panic!],
    [assert!], slice indexing out of bounds and unsigned underflow are [Panic];
    running out of loop fuel is [Diverge]. *)
Inductive outcome (A : Type) : Type :=
| Ret (a : A)
| Panic
| Diverge.
Arguments Ret {A} a.
Arguments Panic {A}.
Arguments Diverge {A}.

Definition bind {A B} (o : outcome A) (f : A -> outcome B) : outcome B :=
  match o with
  | Ret a => f a
  | Panic => Panic
  | Diverge => Diverge
  end.

Declare Scope outcome_scope.
Notation "'let*' x := e 'in' f" := (bind e (fun x => f))
  (at level 200, x pattern, e at level 100, f at level 200, right associativity) : outcome_scope.
Open Scope outcome_scope.

(** [Option::unwrap]. *)
Definition unwrap {A} (o : option A) : outcome A :=
  match o with Some a => Ret a | None => Panic end.

(** Rust [Result] (results.rs uses it with [BitError] and [HashTrieError]). *)
Inductive result (A E : Type) : Type :=
| Ok (a : A)
| Err (e : E).
Arguments Ok {A E} a.
Arguments Err {A E} e.

(** [Result::unwrap]. *)
Definition unwrap_ok {A E} (r : result A E) : outcome A :=
  match r with Ok a => Ret a | Err _ => Panic end.

(** usize subtraction: underflow panics in debug builds.  Release builds would
    wrap; the theorems show it never underflows, so both agree. *)
Definition usub (a b : N) : outcome N :=
  if b <=? a then Ret (a - b) else Panic.

(** Word types: u8, u16, u32, u64, u128 (usize is one of them). *)
Inductive width : Set := W8 | W16 | W32 | W64 | W128.

(** traits.rs:196-208, [MaxOnes::max_ones]. *)
Definition max_ones (w : width) : N :=
  match w with W8 => 8 | W16 => 16 | W32 => 32 | W64 => 64 | W128 => 128 end.

(** The environment: everything the Rust code is generic over, apart from the
    key and value types.
    - [C], [ceqb], [hash]: the Eq/Hash/HashLike contract.  Every key type maps
      its keys to classes in [C]; keys compare equal iff their classes are
      equal ([ceqb]), and the hash of a key is a function of its class
      (lib users' [Eq]/[Hash] impls; traits.rs:235-251 [Key], [HashLike], [HasherBv]).
    - [hw], [fw]: width of the hash word H and of the flag word F.
    - [checked]: overflow checks on (debug build) or off (release build).
    - [fuel]: iterations allowed in the one loop that may not terminate
      (lnode.rs:308-316, :446-454, :567-575); at least three. *)
Class Env : Type := {
  C : Type;
  ceqb : C -> C -> bool;
  ceqb_eq : forall a b, ceqb a b = true <-> a = b;
  hash : C -> N;
  hw : width;
  fw : width;
  hash_lt : forall c, hash c < 2 ^ max_ones hw;
  checked : bool;
  fuel : nat;
  fuel_ge : (3 <= fuel)%nat
}.

(** A key type: its classification function. *)
Class Key {E : Env} (K : Type) : Type := cls : K -> C.

(** [K: PartialEq<L>] (traits.rs:235-246, [Key] and [HashLike] contracts). *)
Definition keqb {E : Env} {K L} {KK : Key K} {KL : Key L} (k : K) (l : L) : bool :=
  ceqb (cls k) (cls l).

(** [M::default().hash(key)] (traits.rs:249-267); the narrowing in it is
    modelled separately in [Words.hasher_bv]. *)
Definition hashk {E : Env} {K} {KK : Key K} (k : K) : N := hash (cls k).
