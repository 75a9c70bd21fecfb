(** The hasher of the default maps and sets.

    lib.rs:24-28 fixes [DefaultHashTrieSet] and [DefaultHashTrieMap]: 64-bit hashes,
    32-bit flags, [fnv::FnvHasher].  The crate [fnv] (Cargo.toml:14) is not part of
    the repository; [fnv_step] is FNV-1a with 64 bits as published, which is what it
    implements: [hash ^= byte; hash = hash.wrapping_mul(0x100000001b3)].  That a key of
    1, 2 or 4 bytes ([i32], [u16], [char], ...) hashes by writing its bytes once is the
    standard library's [Hash]. *)
From Coq Require Import NArith List Bool.
From Verif Require Import Base Words.
Import ListNotations.
Open Scope N_scope.

(** [FnvHasher::write] for one byte. *)
Definition fnv_step (h b : N) : N := (N.lxor h b * 0x100000001b3) mod 2 ^ 64.

(** [FnvHasher::default()], [write] of all bytes, [finish]. *)
Definition fnv (bytes : list N) : N := fold_left fnv_step bytes 0xcbf29ce484222325.

(** The bytes of [n], the lowest first ([to_ne_bytes] of a little-endian machine). *)
Fixpoint bytes_of (size : nat) (n : N) : list N :=
  match size with
  | O => []
  | S s => n mod 256 :: bytes_of s (n / 256)
  end.

(** A key type whose values write [size] bytes each, different values different bytes,
    hashed as in the default maps: traits.rs:255-260 and lib.rs:24-28. *)
Record default_keys {E : Env} (size : nat) : Prop := {
  dk_hash : hw = W64;
  dk_flag : fw = W32;
  dk_bytes : exists bytes : C -> list N,
    (forall c, length (bytes c) = size /\ Forall (fun b => b < 256) (bytes c) /\ hash c = fnv (bytes c)) /\
    (forall c c', bytes c = bytes c' -> c = c')
}.

(** [String] and [&str]: [Hash for str] writes the bytes and then 0xff. *)
Definition fnv_str (s : list N) : N := fnv (s ++ [255]).
