(** The vocabulary of SpecConst.v for sets and the transfute operations. *)
From Coq Require Import NArith List Bool Permutation.
From Verif Require Import Base Words Flag Bia Node Api Trans Joint JointT Sets Eff EffApi Ask AskT SpecAskT AskJ SpecAskJ SpecAskSet SpecConst.
Import ListNotations.
Open Scope N_scope.

(** The answer [o] is the constant's, or the closure was called and gave it. *)
Definition sw_from {R} (w : tway R) (o : sres R) (call : Prop) : Prop :=
  match w with TwClosure => call | TwUnchanged r => o = SUnchanged r | TwRemoved r => o = SDropped r end.
Definition skw_from {S R} (w : mway R) (o : skres S R) (call : Prop) : Prop :=
  match w with MwClosure => call | MwRemoved r => o = SKDropped r end.
(** A closure that answers like the constant and never panics. *)
Definition sw_fair {R} (w : tway R) (a : option (sres R)) : Prop :=
  match a with Some o => sw_from w o True | None => w = TwClosure end.
Definition skw_fair {S R} (w : mway R) (a : option (skres S R)) : Prop :=
  match a with Some o => skw_from w o True | None => w = MwClosure end.

Section Becomes.
Context {E : Env} {K V L W S R : Type}.
Definition stm_goes (wb wl : tway R) (wr : mway R) (tr : list (event (A := jreply K unit L unit K unit (sres R) (sres R) (skres K R) R)))
  (i : jitem K unit L unit (sres R) (sres R) (skres K R)) (out : list (K * unit)) : Prop :=
  item_from (sw_from wb) (sw_from wl) (skw_from wr) tr i /\
  match i with IBoth x _ o | ILeft x o => sj_becomes tr x o out | IRight _ o => out = skout o end.
Definition smt_goes (wb : tway R) (wl : mway R) (wr : tway R) (tr : list (event (A := jreply K unit L unit L unit (sres R) (skres L R) (sres R) R)))
  (i : jitem K unit L unit (sres R) (skres L R) (sres R)) (out : list (L * unit)) : Prop :=
  item_from (sw_from wb) (skw_from wl) (sw_from wr) tr i /\
  match i with IBoth _ y o | IRight y o => sj_becomes tr y o out | ILeft _ o => out = skout o end.
Definition smm_goes (wb wl wr : mway R) (tr : list (event (A := jreply K unit L unit Empty_set Empty_set (skres S R) (skres S R) (skres S R) R)))
  (i : jitem K unit L unit (skres S R) (skres S R) (skres S R)) (out : list (S * unit)) : Prop :=
  item_from (skw_from wb) (skw_from wl) (skw_from wr) tr i /\ out = skout (smm_out i).
Definition tf_goes (wb wl : tway R) (wr : mway R) (tr : list (event (A := jreply K V K W K V (vres V R) (vres V R) (skres V R) R)))
  (i : jitem K V K W (vres V R) (vres V R) (skres V R)) (out : list (K * V)) : Prop :=
  item_from (tw_from wb) (tw_from wl) (skw_from wr) tr i /\
  match i with IBoth x _ o | ILeft x o => jbecomes tr x o out | IRight y o => f_becomes tr (fst y) o out end.
Definition ft_goes (wb : tway R) (wl : mway R) (wr : tway R) (tr : list (event (A := jreply K V K W K W (vres W R) (skres W R) (vres W R) R)))
  (i : jitem K V K W (vres W R) (skres W R) (vres W R)) (out : list (K * W)) : Prop :=
  item_from (tw_from wb) (skw_from wl) (tw_from wr) tr i /\
  match i with IBoth _ y o | IRight y o => jbecomes tr y o out | ILeft x o => f_becomes tr (fst x) o out end.
End Becomes.
