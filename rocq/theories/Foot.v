(** How much memory maps take: histories of a client that makes, clones, uses and
    drops maps (Rc.v) and keeps the contracts on keys. *)
From Coq Require Import NArith Arith List Bool.
From Verif Require Import Base Words Bia Node Api Trans Transform SpecT Joint SpecJ JointT Versions Heap SpecH HeapHist HeapBulk HeapRun Rc.
Import ListNotations.

Section Foot.
Context {E : Env} {K V R : Type} {KK : Key K}.
Context (rdef : R) (rd : R -> R -> R).
Notation heap := (heap K V).

(** Converted and transmuted keys hash and compare like the originals
    (traits.rs:241-247, map.rs:128, :182, :225, :245).  This is [contract]
    (Versions.v) without the domain of C21. *)
Definition keys_kept (s : list (list (K * V))) (c : call K V R) : Prop :=
  let at_ := version [] s in
  match c with
  | CInsert _ _ _ _ | CRemove _ _ | CTransform _ _ _ | CTT _ _ _ _ _ _ => True
  | CTransmute i op => m_keeps (mcall op) (at_ i)
  | CTM i j _ _ _ rop => m_keeps (mcall rop) (at_ j)
  | CMT i j _ _ lop _ => m_keeps (mcall lop) (at_ i)
  | CMM i j both lop rop =>
      b_keeps (mcall both) (at_ i) (at_ j) /\ m_keeps (mcall lop) (at_ i) /\ m_keeps (mcall rop) (at_ j)
  end.

Definition rkept (h : heap) (vs : list hnode) (c : rcall K V R) : Prop :=
  match c with
  | RCall c => forall ls, Forall2 (fun n l => hm_visit h n = Ret l) vs ls -> keys_kept ls c
  | _ => True
  end.

(** [rsteps] (Rc.v) where every call keeps the contracts. *)
Inductive rlawful : list (rcall K V R) -> heap -> counts -> list hnode -> Prop :=
| rl_nil : rlawful [] [] (fun _ => 0%nat) []
| rl_snoc cs h cnt vs c h' cnt' vs' : rlawful cs h cnt vs -> rkept h vs c -> rstep rdef rd h cnt vs c h' cnt' vs' ->
    rlawful (cs ++ [c]) h' cnt' vs'.

End Foot.

(** The number of levels of branches below the root that a hash can be spread
    over (flag.rs:11-46). *)
Definition depth_below {E : Env} : N := ((max_ones hw - 1) / log_b fw)%N.
