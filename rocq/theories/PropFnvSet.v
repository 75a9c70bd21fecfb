(** C67 for sets and for transfute. *)
From Coq Require Import NArith Arith List Bool Lia.
From Verif Require Import Base Words Flag Bia Node Api Spec Trans Transform SpecT Joint JointT SpecJ Reach ReachP Sets SpecS SetP
  MapP JointMapP JointTMapP Fnv FnvP FnvMapP FnvSetP I32 I32P Progs ProgsP ProgsP2.
Import ListNotations.
Open Scope N_scope.

Theorem C67_set_insert : forall (E : Env) size, default_keys size -> (size <= 4)%nat ->
  forall K Q (KK : Key K) (KQ : Key Q) (into : Q -> K) (s : tset K) q replace,
  reachable s -> cls (into q) = cls q -> exists r, set_insert into s q replace = Ret r.
Proof. intros E size HK Hs K Q KK KQ. exact (dks_insert HK Hs). Qed.
Print Assumptions C67_set_insert.
Theorem C67_set_remove : forall (E : Env) size, default_keys size -> (size <= 4)%nat ->
  forall K Q (KK : Key K) (KQ : Key Q) (s : tset K) (q : Q), reachable s -> exists r, set_remove s q = Ret r.
Proof. intros E size HK Hs K Q KK KQ. exact (dks_remove HK Hs). Qed.
Print Assumptions C67_set_remove.
Theorem C67_set_transform_with_transmuted : forall (E : Env) size, default_keys size -> (size <= 4)%nat ->
  forall K L R (KK : Key K) (KL : Key L) (rdef : R) (rd : R -> R -> R) st both lop rop (s : tset K) (right : tset L),
  reachable s -> reachable right ->
  (forall l k x, In l (set_visit right) -> smcall rop l = SKTransmuted k x -> cls k = cls l) ->
  exists s' r o, set_tm rdef rd st both lop rop s right = Ret (s', r, o) /\
    is_smerge (fun k l => s_to (stcall both (k, l)) k) (fun k => s_to (stcall lop k) k) (fun l => sk_to (smcall rop l)) s right s'.
Proof. intros E size HK Hs K L R KK KL. exact (dks_tm HK Hs). Qed.
Print Assumptions C67_set_transform_with_transmuted.
Theorem C67_set_transmute_with_transformed : forall (E : Env) size, default_keys size -> (size <= 4)%nat ->
  forall K L R (KK : Key K) (KL : Key L) (rdef : R) (rd : R -> R -> R) st both lop rop (s : tset K) (right : tset L),
  reachable s -> reachable right ->
  (forall k l x, In k (set_visit s) -> smcall lop k = SKTransmuted l x -> cls l = cls k) ->
  exists s' r o, set_mt rdef rd st both lop rop s right = Ret (s', r, o) /\
    is_smerge (fun k l => s_to (stcall both (k, l)) l) (fun k => sk_to (smcall lop k)) (fun l => s_to (stcall rop l) l) s right s'.
Proof. intros E size HK Hs K L R KK KL. exact (dks_mt HK Hs). Qed.
Print Assumptions C67_set_transmute_with_transformed.
Theorem C67_set_transmute_with_transmuted : forall (E : Env) size, default_keys size -> (size <= 4)%nat ->
  forall K L S R (KK : Key K) (KL : Key L) (KS : Key S) (rdef : R) (rd : R -> R -> R)
    (both : stransmute_op (K * L) S R) lop rop (s : tset K) (right : tset L),
  reachable s -> reachable right ->
  (forall k l z x, In k (set_visit s) -> In l (set_visit right) -> cls k = cls l -> smcall both (k, l) = SKTransmuted z x -> cls z = cls k) ->
  (forall k z x, In k (set_visit s) -> smcall lop k = SKTransmuted z x -> cls z = cls k) ->
  (forall l z x, In l (set_visit right) -> smcall rop l = SKTransmuted z x -> cls z = cls l) ->
  exists s' r, set_mm rdef rd both lop rop s right = Ret (s', r) /\
    is_smerge (fun k l => sk_to (smcall both (k, l))) (fun k => sk_to (smcall lop k)) (fun l => sk_to (smcall rop l)) s right s'.
Proof. intros E size HK Hs K L S R KK KL KS rdef rd. exact (dks_mm HK Hs rdef rd). Qed.
Print Assumptions C67_set_transmute_with_transmuted.
(** [sb_about]: which of two equal keys is kept is left open where the constants leave it open. *)
Theorem C67_set_transform_with_transformed : forall (E : Env) size, default_keys size -> (size <= 4)%nat ->
  forall K R (KK : Key K) (rdef : R) (rd : R -> R -> R) st both lop rop (s right : tset K),
  reachable s -> reachable right ->
  exists s' r o, set_tt rdef rd st both lop rop s right = Ret (s', r, o) /\
    exists fB, is_smerge fB (fun k => s_to (stcall lop k) k) (fun k => s_to (stcall rop k) k) s right s' /\
      forall k k', In k (set_visit s) -> In k' (set_visit right) -> cls k = cls k' -> sb_about both k k' (fB k k').
Proof. intros E size HK Hs K R KK rdef rd st. exact (dks_tt HK Hs rdef rd st). Qed.
Print Assumptions C67_set_transform_with_transformed.
Theorem C67_transform_with_transfuted : forall (E : Env) size, default_keys size -> (size <= 4)%nat ->
  forall K V W R (KK : Key K) (rdef : R) (rd : R -> R -> R) st both lop rop (m : trie K V) (right : trie K W),
  reachable m -> reachable right ->
  exists m' r o, map_tf rdef rd st both lop rop m right = Ret (m', r, o) /\
    is_merge (fun e e' => t_to (tcall both (e, e')) e) (fun e => t_to (tcall lop e) e) (fun e' => f_to (smcall rop e') (fst e')) m right m'.
Proof. intros E size HK Hs K V W R KK. exact (dk_tf HK Hs). Qed.
Print Assumptions C67_transform_with_transfuted.
Theorem C67_transfute_with_transformed : forall (E : Env) size, default_keys size -> (size <= 4)%nat ->
  forall K V W R (KK : Key K) (rdef : R) (rd : R -> R -> R) st both lop rop (m : trie K V) (right : trie K W),
  reachable m -> reachable right ->
  exists m' r o, map_ft rdef rd st both lop rop m right = Ret (m', r, o) /\
    is_merge (fun e e' => t_to (tcall both (e, e')) e') (fun e => f_to (smcall lop e) (fst e)) (fun e' => t_to (tcall rop e') e') m right m'.
Proof. intros E size HK Hs K V W R KK. exact (dk_ft HK Hs). Qed.
Print Assumptions C67_transfute_with_transformed.

(** Sets of [i32] in a debug build. *)
Definition exI : Env := i32_env true 3 (le_n 3).
Definition exK : @Key exI i32 := i32_key true 3 (le_n 3).
Definition filled_with (l : list N) : tset i32 := match sfill (E := exI) (KK := exK) set_new (map wrap l) with Ret s => s | _ => set_new end.
Lemma filled_reach l : reachable (E := exI) (KK := exK) (filled_with l).
Proof.
  unfold filled_with. destruct (sfill_new (E := exI) (KK := exK) (i32_default true 3 (le_n 3)) (le_n 4) (map wrap l)) as (s & -> & H). apply H.
Qed.
Definition exS : tset i32 := filled_with [7; 39; 4294967295; 12; 1178726393; 112993582].
Definition exT : tset i32 := filled_with [39; 8; 112993582].
Example C67_set_ex : @default_keys exI 4 /\ @checked exI = true /\ reachable (E := exI) (KK := exK) exS /\ reachable (E := exI) (KK := exK) exT /\
  (set_size exS, set_size exT) = (6, 3) /\
  (let* (s, _, _) := set_tt (E := exI) (KK := exK) tt (fun _ _ => tt) MiddleIndex (SJRemoved tt) (STUnchanged tt) (STUnchanged tt) exS exT in Ret (set_size s)) = Ret 5 /\
  (let* (s, _, _) := set_tm (E := exI) (KK := exK) (KL := exK) tt (fun _ _ => tt) Sequential (STUnchanged tt) (STRemoved tt) (SMRemoved tt) exS exT in
   Ret (map val (set_visit s))) = Ret [39; 112993582] /\
  (let* r := set_remove (E := exI) (KK := exK) (KQ := exK) exS (wrap 1178726393) in let* (s, _) := unwrap_ok r in Ret (set_size s)) = Ret 5.
Proof.
  split; [exact (i32_default true 3 (le_n 3))|]. split; [reflexivity|]. split; [apply filled_reach|]. split; [apply filled_reach|].
  split; [vm_compute; reflexivity|]. split; [vm_compute; reflexivity|]. split; vm_compute; reflexivity.
Qed.
