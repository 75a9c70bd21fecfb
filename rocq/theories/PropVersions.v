(** C40: histories that mix all operations. *)
From Coq Require Import NArith Arith List Bool Lia Permutation.
From Verif Require Import Base Words Flag Bia Node Api Spec Trans Transform SpecT LoopP Joint JointT SpecJ Reach ReachP Versions VersionsP Hist Ex.
Import ListNotations.
Open Scope N_scope.

(** For the examples only; the theorems bind their own [Env]. *)
#[local] Existing Instance exE | 100.

(** [versions] (Versions.v) runs a branching history of insert, remove,
    transform, transmute and the four joint operations from the empty map;
    [spec_versions] is the same on association lists.  Every version the
    client ends up with, however it was derived, shows exactly the contents
    that the specification gives it, and every value returned on the way is the
    specified one.  Missing from the full claim: [contracts] restricts
    transform_with_transformed to the domain of C21; C40_compose_refuted shows
    why. *)
Theorem C40_compose_partial : forall (E : Env) K V R (KK : Key K) (rdef : R) (rd : R -> R -> R) (cs : list (call K V R))
    (s' : list (trie K V)) xs,
  contracts rdef rd [map_new] cs -> versions rdef rd [map_new] cs = Ret (s', xs) ->
  Forall reachable s' /\
  exists ls, spec_versions rdef rd [[]] cs ls xs /\ Forall2 shows s' ls.
Proof. intros E K V R KK. exact versions_refine. Qed.
Print Assumptions C40_compose_partial.

(** Colliding keys, a branching history, a root collapsed to a single leaf
    (version 9) that is extended again. *)
Definition ex_cs : list (call key N N) :=
  [CInsert 0 (0, 0) 10 false; CInsert 1 (1, 0) 11 false; CInsert 2 (128, 0) 13 false;
   CTransform 3 MiddleIndex (TGeneric (fun e => if snd e =? 13 then VDropped 1 else VTransformed (snd e + 1) 2));
   CInsert 0 (36, 0) 18 false;
   CTM 4 5 Sequential (TUnchanged 0) (TUnchanged 0) (MGeneric (fun e => KTransmuted (fst (fst e), 5) (snd e) 3));
   CTT 6 3 MiddleIndex (JGeneric (fun e e' => BTransformed (snd e * snd e') 4) false) (TGeneric (fun _ => VUnchanged 5))
     (TGeneric (fun _ => VDropped 6));
   CRemove 7 (36, 1); CMM 8 6 (MRemoved 0) (MRemoved 0) (MGeneric (fun e => KTransmuted (fst (fst e), 7) (snd e + 100) 7));
   CInsert 9 (0, 3) 5 false;
   CTransmute 3 (MGeneric (fun e => KTransmuted (fst (fst e), 9) (snd e) 8));
   CMT 11 10 Sequential (TUnchanged 9) (MRemoved 0) (TUnchanged 0);
   CInsert 3 (1, 4) 0 false].
Ltac next := match goal with
  | |- forall m x, derive _ _ _ _ = Ret (m, x) -> _ => intros ? ? H; vm_compute in H; injection H as <- <-
  end.
Ltac keeps := let H := fresh in let H1 := fresh in repeat intro;
  match goal with H : _ = KTransmuted _ _ _ |- _ => cbn in H; try discriminate; injection H as <- <- <-; try reflexivity end.
Example C40_compose_ex : contracts (E := exE) 0 N.add [map_new] ex_cs /\
  exists s', versions 0 N.add [map_new] ex_cs =
    Ret (s', [GInserted (0, 0, 10) None; GInserted (1, 0, 11) None; GInserted (128, 0, 13) None; GReduced 5;
              GInserted (36, 0, 18) None; GReduced 3; GReduced 19; GRemoved (36, 5, 18); GReduced 7;
              GInserted (0, 3, 5) None; GReduced 24; GReduced 9; GRefused (1, 0, 11)]) /\
    map map_visit s' =
      [[]; [(0, 0, 10)]; [(1, 0, 11); (0, 0, 10)]; [(1, 0, 11); (0, 0, 10); (128, 0, 13)]; [(1, 0, 12); (0, 0, 11)]; [(36, 0, 18)];
       [(1, 0, 12); (0, 0, 11); (36, 5, 18)]; [(1, 0, 132); (0, 0, 110); (36, 5, 18)]; [(1, 0, 132); (0, 0, 110)]; [(36, 7, 118)];
       [(0, 3, 5); (36, 7, 118)]; [(1, 9, 11); (0, 9, 10); (128, 9, 13)]; [(0, 3, 5); (36, 7, 118)];
       [(1, 0, 11); (0, 0, 10); (128, 0, 13)]].
Proof.
  split.
  - unfold ex_cs. cbn [contracts]. do 5 (split; [exact I|next]).
    split; [cbn [contract]; keeps|next].
    split. { cbn [contract]. split; [|intros []]. split; (intros h _; split; [intros _; cbn; auto|]); intros _; split; cbn; try tauto. }
    next. split; [exact I|next]. split. { cbn [contract]. split; [|split]; keeps. }
    next. split; [exact I|next]. split; [cbn [contract]; keeps|next]. split; [cbn [contract]; keeps|next].
    split; [exact I|next]. exact I.
  - eexists. split; [vm_compute; reflexivity|]. vm_compute. reflexivity.
Qed.

(** Outside the domain of C21 the result of transform_with_transformed can be
    a map on which remove does not behave as specified: the removed key is
    still found. *)
Theorem C40_compose_refuted : exists (E : Env) (KK : Key key) (m1 m2 : trie key N) m3 r o m4 (k : key) e e',
  reachable m1 /\ reachable m2 /\
  map_tt 0 N.add Sequential (JGeneric (fun _ _ => BUnchangedR 0) false) (TUnchanged 0) (TUnchanged 0) m1 m2 = Ret (m3, r, o) /\
  map_remove m3 k = Ret (Ok (m4, e)) /\ map_find m4 k = Ret (Ok e').
Proof.
  exists exE, key_key.
  exists (res_of map_new (run (E := exE) (K := key) (V := N) map_new [OInsert (0, 1) 1 false; OInsert (1, 1) 1 false])).
  exists (res_of map_new (run (E := exE) (K := key) (V := N) map_new [OInsert (0, 2) 2 false])).
  do 4 eexists. exists (0, 0). do 2 eexists.
  split; [|split].
  - assert (H : exists xs m, run (E := exE) (K := key) (V := N) map_new [OInsert (0, 1) 1 false; OInsert (1, 1) 1 false] = Ret (m, xs))
      by (do 2 eexists; vm_compute; reflexivity).
    destruct H as (xs & m & H). rewrite H. exact (run_reachable _ _ _ H).
  - assert (H : exists xs m, run (E := exE) (K := key) (V := N) map_new [OInsert (0, 2) 2 false] = Ret (m, xs))
      by (do 2 eexists; vm_compute; reflexivity).
    destruct H as (xs & m & H). rewrite H. exact (run_reachable _ _ _ H).
  - split; [vm_compute; reflexivity|]. split; [vm_compute; reflexivity|]. vm_compute. reflexivity.
Qed.
Print Assumptions C40_compose_refuted.
