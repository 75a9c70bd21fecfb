(** A tactic for permutations of concatenations. *)
From Coq Require Import List Permutation Arith.
Import ListNotations.

Inductive pieces : Type := Pn | Pa (i : nat) | Pp (l r : pieces).

Section Pieces.
Context {A : Type} (env : list (list A)).

Fixpoint ev (t : pieces) : list A :=
  match t with Pn => [] | Pa i => nth i env [] | Pp l r => ev l ++ ev r end.

Fixpoint atoms (t : pieces) : list nat :=
  match t with Pn => [] | Pa i => [i] | Pp l r => atoms l ++ atoms r end.

Fixpoint insn (n : nat) (l : list nat) : list nat :=
  match l with [] => [n] | m :: l' => if n <=? m then n :: l else m :: insn n l' end.
Definition sortn (l : list nat) : list nat := fold_right insn [] l.

Lemma insn_perm n l : Permutation (insn n l) (n :: l).
Proof. induction l as [|m l IH]; [reflexivity|]. cbn. destruct (n <=? m); [reflexivity|]. rewrite IH. apply perm_swap. Qed.
Lemma sortn_perm l : Permutation (sortn l) l.
Proof. induction l as [|n l IH]; [reflexivity|]. cbn. rewrite insn_perm, IH. reflexivity. Qed.

Lemma ev_atoms t : ev t = flat_map (fun i => nth i env []) (atoms t).
Proof. induction t as [|i|l IHl r IHr]; cbn; [reflexivity|symmetry; apply app_nil_r|]. rewrite flat_map_app, <- IHl, <- IHr. reflexivity. Qed.

Lemma ev_perm t t' : sortn (atoms t) = sortn (atoms t') -> Permutation (ev t) (ev t').
Proof.
  intros H. rewrite !ev_atoms. apply Permutation_flat_map. rewrite <- (sortn_perm (atoms t)), H. apply sortn_perm.
Qed.

End Pieces.

Ltac piece_at a env :=
  lazymatch env with
  | a :: _ => constr:(0)
  | _ :: ?t => let n := piece_at a t in constr:(S n)
  end.
Ltac piece_env a env :=
  match env with
  | _ => let n := piece_at a env in env
  | _ => constr:(a :: env)
  end.
Ltac pieces_env l env :=
  lazymatch l with
  | ?a ++ ?b => let env' := pieces_env a env in pieces_env b env'
  | [] => env
  | [?x] => piece_env [x] env
  | ?x :: ?b => let env' := piece_env [x] env in pieces_env b env'
  | _ => piece_env l env
  end.
Ltac pieces_of l env :=
  lazymatch l with
  | ?a ++ ?b => let x := pieces_of a env in let y := pieces_of b env in constr:(Pp x y)
  | [] => constr:(Pn)
  | [?x] => let n := piece_at [x] env in constr:(Pa n)
  | ?x :: ?b => let n := piece_at [x] env in let y := pieces_of b env in constr:(Pp (Pa n) y)
  | _ => let n := piece_at l env in constr:(Pa n)
  end.

(** Solves [Permutation l l'] if both are made of the same pieces. *)
Ltac permut :=
  lazymatch goal with
  | |- @Permutation ?A ?l ?r =>
      let e := pieces_env l (@nil (list A)) in
      let e := pieces_env r e in
      let x := pieces_of l e in let y := pieces_of r e in
      change (Permutation (ev e x) (ev e y)); apply ev_perm; reflexivity
  end.

Example permut_test {A} (a b c : list A) x y : Permutation (a ++ x :: b ++ [y] ++ c) (y :: (b ++ c) ++ a ++ [x]).
Proof. permut. Qed.
