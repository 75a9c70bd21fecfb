(** The set operations (src/set.rs) and the transfute operations of maps
    (src/map.rs) with the client's closures as calls: the wrapper's closure
    calls the client's and converts its answer. *)
From Coq Require Import NArith List Bool.
From Verif Require Import Base Words Flag Bia Node Api Trans Transform Joint JointT Sets Eff EffT EffJ EffApi.
Import ListNotations.

(** The operation with a function for the closure (Sets.v): transformations.rs:267-275,
    :406-412 and :78-90. *)
Definition stw_fun {I R} (w : tway R) (f : I -> sres R) : stransform_op I R :=
  match w with TwClosure => STGeneric f | TwUnchanged r => STUnchanged r | TwRemoved r => STRemoved r end.
Definition smw_fun {I S R} (w : mway R) (f : I -> skres S R) : stransmute_op I S R :=
  match w with MwClosure => SMGeneric f | MwRemoved r => SMRemoved r end.
Definition sjw_fun {I R} (w : jway R) (f : I -> I -> sbres R) : sjoint_op I R :=
  match w with
  | JwClosure => SJGeneric f false
  | JwUnchangedLR r => SJUnchangedLR r
  | JwUnchangedL r => SJUnchangedL r
  | JwUnchangedR r => SJUnchangedR r
  | JwRemoved r => SJRemoved r
  end.

Section Wrap.
Context {Q : Type} {A : Q -> Type}.

(** set.rs:121-124, :172-173, :203, ...: [g] is called, its answer converted. *)
Definition es_transform {K R} (g : K -> prog A (sres R)) (e : K * unit) : prog A (vres unit R) :=
  let+ o := g (fst e) in PRet (vres_of o).
(** set.rs:144-147, :209-212, ... *)
Definition es_transmute {K S R} (g : K -> prog A (skres S R)) (e : K * unit) : prog A (kres S unit R) :=
  let+ o := g (fst e) in PRet (kres_of o).
(** set.rs:166. *)
Definition es_joint {K R} (g : K -> K -> prog A (sbres R)) (e e' : K * unit) : prog A (bres unit R) :=
  let+ o := g (fst e) (fst e') in PRet (bres_of o).
(** map.rs:172-175 and :215-218. *)
Definition ef_transmute {K V W R} (g : K * W -> prog A (skres V R)) (e : K * W) : prog A (kres K V R) :=
  let+ o := g e in
  PRet (match o with SKTransmuted v r => KTransmuted (fst e) v r | SKDropped r => KDropped r end).

(** transformations.rs:288-296, [SetTransform::call_transmute]. *)
Definition es_call {I R} (w : tway R) (g : I -> prog A (sres R)) (i : I) : prog A (sres R) :=
  match w with TwClosure => g i | TwUnchanged r => PRet (SUnchanged r) | TwRemoved r => PRet (SDropped r) end.
(** transformations.rs:424-431, [SetTransmute::call_transmute]. *)
Definition es_mcall {I S R} (w : mway R) (g : I -> prog A (skres S R)) (i : I) : prog A (skres S R) :=
  match w with MwClosure => g i | MwRemoved r => PRet (SKDropped r) end.
(** set.rs:202 and :235. *)
Definition es_both {K L R} (w : tway R) (g : K * L -> prog A (sres R)) : etransform A ((K * unit) * (L * unit)) unit R :=
  EGeneric (fun p => let+ o := es_call w g (fst (fst p), fst (snd p)) in PRet (vres_of o)).
(** set.rs:273-276. *)
Definition es_mboth {K L S R} (w : mway R) (g : K * L -> prog A (skres S R)) : etransmute A ((K * unit) * (L * unit)) S unit R :=
  EMGeneric (fun p => let+ o := es_mcall w g (fst (fst p), fst (snd p)) in PRet (kres_of o)).

Context {E : Env} {K R : Type} {KK : Key K} (rdef : R) (rd : R -> R -> R).

(** set.rs:107-109. *)
Definition eset_visit (g : K -> prog A unit) (s : tset K) : prog A unit := emap_visit (fun e => g (fst e)) s.

(** set.rs:112-129. *)
Definition eset_transform st (w : tway R) (g : K -> prog A (sres R)) (s : tset K) : prog A (tset K * R * origin) :=
  emap_transform rdef rd st (tw_op w (es_transform g)) s.

(** set.rs:132-151. *)
Definition eset_transmute {S} (w : mway R) (g : K -> prog A (skres S R)) (s : tset K) : prog A (tset S * R) :=
  emap_transmute rdef rd (mw_op w (es_transmute g)) s.

(** set.rs:154-183. *)
Definition eset_tt st (wb : jway R) (gb : K -> K -> prog A (sbres R)) (wl : tway R) (gl : K -> prog A (sres R))
  (wr : tway R) (gr : K -> prog A (sres R)) (s right : tset K) : prog A (tset K * R * origin) :=
  emap_tt rdef rd st (jw_op wb (es_joint gb)) (tw_op wl (es_transform gl)) (tw_op wr (es_transform gr)) s right.

(** set.rs:186-216. *)
Definition eset_tm {L} {KL : Key L} st (wb : tway R) (gb : K * L -> prog A (sres R)) (wl : tway R) (gl : K -> prog A (sres R))
  (wr : mway R) (gr : L -> prog A (skres K R)) (s : tset K) (right : tset L) : prog A (tset K * R * origin) :=
  emap_tm rdef rd st (es_both wb gb) (tw_op wl (es_transform gl)) (mw_op wr (es_transmute gr)) s right.

(** set.rs:219-249. *)
Definition eset_mt {L} {KL : Key L} st (wb : tway R) (gb : K * L -> prog A (sres R)) (wl : mway R) (gl : K -> prog A (skres L R))
  (wr : tway R) (gr : L -> prog A (sres R)) (s : tset K) (right : tset L) : prog A (tset L * R * origin) :=
  emap_mt rdef rd st (es_both wb gb) (mw_op wl (es_transmute gl)) (tw_op wr (es_transform gr)) s right.

(** set.rs:252-292. *)
Definition eset_mm {L S} {KL : Key L} {KS : Key S} (wb : mway R) (gb : K * L -> prog A (skres S R)) (wl : mway R) (gl : K -> prog A (skres S R))
  (wr : mway R) (gr : L -> prog A (skres S R)) (s : tset K) (right : tset L) : prog A (tset S * R) :=
  emap_mm rdef rd (es_mboth wb gb) (mw_op wl (es_transmute gl)) (mw_op wr (es_transmute gr)) s right.

(** map.rs:159-179, [transform_with_transfuted]. *)
Definition emap_tf {V W} st (wb : tway R) (gb : (K * V) * (K * W) -> prog A (vres V R)) (wl : tway R) (gl : K * V -> prog A (vres V R))
  (wr : mway R) (gr : K * W -> prog A (skres V R)) (m : trie K V) (right : trie K W) : prog A (trie K V * R * origin) :=
  emap_tm rdef rd st (tw_op wb gb) (tw_op wl gl) (mw_op wr (ef_transmute gr)) m right.

(** map.rs:202-222, [transfute_with_transformed]. *)
Definition emap_ft {V W} st (wb : tway R) (gb : (K * V) * (K * W) -> prog A (vres W R)) (wl : mway R) (gl : K * V -> prog A (skres W R))
  (wr : tway R) (gr : K * W -> prog A (vres W R)) (m : trie K V) (right : trie K W) : prog A (trie K W * R * origin) :=
  emap_mt rdef rd st (tw_op wb gb) (mw_op wl (ef_transmute gl)) (tw_op wr gr) m right.

End Wrap.
