(** Hash slices (src/flag.rs). *)
From Coq Require Import NArith List Bool.
From Verif Require Import Base Words.
Open Scope N_scope.

(** flag.rs:4-9, [struct Flag]. *)
Record Flag : Set := mkFlag { fl_hash : N; fl_depth : N; fl_flag : N }.

Section Flag.
Context {E : Env}.

(** The expression [F::nth_bit(F::try_from(h.bitand(F::mask_log_b())).unwrap()
    .as_usize()).unwrap()] of flag.rs:16 and flag.rs:30. *)
Definition slice_bit (h : N) : outcome N :=
  let* i := unwrap_ok (try_from fw (N.land h (mask_log_b fw))) in
  unwrap_ok (nth_bit fw i).

(** flag.rs:13-19, [Flag::new] (also [From<H>], flag.rs:56-60). *)
Definition flag_new (h : N) : outcome Flag :=
  let* f := slice_bit h in
  Ret (mkFlag h 0 f).

(** flag.rs:22-33, [Flag::new_at_depth]. *)
Definition flag_new_at_depth (h depth : N) : outcome (option Flag) :=
  if 8 * max_ones hw <=? depth * log_b fw then Ret None
  else
    let* s := shr checked hw h (depth * log_b fw) in
    let* f := slice_bit s in
    Ret (Some (mkFlag h depth f)).

(** flag.rs:51-53, [Flag::next]. *)
Definition flag_next (f : Flag) : outcome (option Flag) :=
  flag_new_at_depth (fl_hash f) (fl_depth f + 1).

End Flag.
