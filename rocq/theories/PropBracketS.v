(** C58 for sets and the transfute operations. *)
From Coq Require Import NArith List Bool Permutation.
From Verif Require Import Base Words Node Api Reach Spec Trans Transform Joint JointT SpecT SpecJ Sets SpecS SetP EffApi Brackets BracketSP Ex PropTransform PropSet.
Import ListNotations.
Open Scope N_scope.

(** For the examples only; the theorems bind their own [Env]. *)
#[local] Existing Instance exE | 100.

(** [btree], [bleaves], [beval], [three]: Brackets.v; [smerge]: SpecS.v. *)
Theorem C58_set_transform_brackets : forall (E : Env) K R (KK : Key K) st (f : K -> sres R) (s : tset K), reachable s ->
  exists s' o t, bleaves t = set_visit s /\
    forall rdef rd, set_transform rdef rd st (STGeneric f) s = Ret (s', beval rdef rd (fun k => s_red (f k)) t, o).
Proof. intros E K R KK. exact set_transform_brackets. Qed.
Print Assumptions C58_set_transform_brackets.
Theorem C58_set_transmute_brackets : forall (E : Env) K R (KK : Key K) S (KS : Key S) (f : K -> skres S R) (s : tset K), reachable s ->
  (forall k k' r, In k (set_visit s) -> f k = SKTransmuted k' r -> cls k' = cls k) ->
  exists s' t, bleaves t = set_visit s /\
    forall rdef rd, set_transmute rdef rd (SMGeneric f) s = Ret (s', beval rdef rd (fun k => sk_red (f k)) t).
Proof. intros E K R KK S KS. exact set_transmute_brackets. Qed.
Print Assumptions C58_set_transmute_brackets.
(** The operation on common elements may be a constant here: set.rs passes it on as a closure. *)
Theorem C58_set_tm_brackets : forall (E : Env) K L R (KK : Key K) (KL : Key L) st (both : stransform_op (K * L) R) (fL : K -> sres R) (fR : L -> skres K R)
    (s : tset K) (right : tset L) rdef0 rd0 x,
  reachable s -> reachable right -> (forall l k x, In l (set_visit right) -> fR l = SKTransmuted k x -> cls k = cls l) ->
  set_tm rdef0 rd0 st both (STGeneric fL) (SMGeneric fR) s right = Ret x ->
  exists s' o t, Permutation (bleaves t) (smerge (fun k l => Some (AskBoth k l)) (fun k => Some (AskLeft k)) (fun l => Some (AskRight l)) (set_visit s) (set_visit right)) /\
    forall rdef rd, set_tm rdef rd st both (STGeneric fL) (SMGeneric fR) s right =
      Ret (s', beval rdef rd (three (fun k l => s_red (stcall both (k, l))) (fun k => s_red (fL k)) (fun l => sk_red (fR l))) t, o).
Proof. intros E K L R KK KL. exact set_tm_brackets. Qed.
Print Assumptions C58_set_tm_brackets.
Theorem C58_set_mt_brackets : forall (E : Env) K L R (KK : Key K) (KL : Key L) st (both : stransform_op (K * L) R) (fL : K -> skres L R) (fR : L -> sres R)
    (s : tset K) (right : tset L) rdef0 rd0 x,
  reachable s -> reachable right -> (forall k l x, In k (set_visit s) -> fL k = SKTransmuted l x -> cls l = cls k) ->
  set_mt rdef0 rd0 st both (SMGeneric fL) (STGeneric fR) s right = Ret x ->
  exists s' o t, Permutation (bleaves t) (smerge (fun k l => Some (AskBoth k l)) (fun k => Some (AskLeft k)) (fun l => Some (AskRight l)) (set_visit s) (set_visit right)) /\
    forall rdef rd, set_mt rdef rd st both (SMGeneric fL) (STGeneric fR) s right =
      Ret (s', beval rdef rd (three (fun k l => s_red (stcall both (k, l))) (fun k => sk_red (fL k)) (fun l => s_red (fR l))) t, o).
Proof. intros E K L R KK KL. exact set_mt_brackets. Qed.
Print Assumptions C58_set_mt_brackets.
Theorem C58_set_mm_brackets : forall (E : Env) K L R (KK : Key K) (KL : Key L) S (KS : Key S) (both : stransmute_op (K * L) S R) (fL : K -> skres S R) (fR : L -> skres S R)
    (s : tset K) (right : tset L) rdef0 rd0 x,
  reachable s -> reachable right ->
  (forall k l k' x, In k (set_visit s) -> In l (set_visit right) -> cls k = cls l -> smcall both (k, l) = SKTransmuted k' x -> cls k' = cls k) ->
  (forall k k' x, In k (set_visit s) -> fL k = SKTransmuted k' x -> cls k' = cls k) ->
  (forall l k' x, In l (set_visit right) -> fR l = SKTransmuted k' x -> cls k' = cls l) ->
  set_mm rdef0 rd0 both (SMGeneric fL) (SMGeneric fR) s right = Ret x ->
  exists s' t, Permutation (bleaves t) (smerge (fun k l => Some (AskBoth k l)) (fun k => Some (AskLeft k)) (fun l => Some (AskRight l)) (set_visit s) (set_visit right)) /\
    forall rdef rd, set_mm rdef rd both (SMGeneric fL) (SMGeneric fR) s right =
      Ret (s', beval rdef rd (three (fun k l => sk_red (smcall both (k, l))) (fun k => sk_red (fL k)) (fun l => sk_red (fR l))) t).
Proof. intros E K L R KK KL S KS. exact set_mm_brackets. Qed.
Print Assumptions C58_set_mm_brackets.
Theorem C58_set_tt_brackets : forall (E : Env) K R (KK : Key K) st (fB : K -> K -> sbres R) (fL fR : K -> sres R) (s right : tset K) rdef0 rd0 x,
  reachable s -> reachable right ->
  set_tt rdef0 rd0 st (SJGeneric fB false) (STGeneric fL) (STGeneric fR) s right = Ret x ->
  exists s' o t, Permutation (bleaves t) (smerge (fun k l => Some (AskBoth k l)) (fun k => Some (AskLeft k)) (fun l => Some (AskRight l)) (set_visit s) (set_visit right)) /\
    forall rdef rd, set_tt rdef rd st (SJGeneric fB false) (STGeneric fL) (STGeneric fR) s right =
      Ret (s', beval rdef rd (three (fun k l => sb_red (fB k l)) (fun k => s_red (fL k)) (fun l => s_red (fR l))) t, o).
Proof. intros E K R KK. exact set_tt_brackets. Qed.
Print Assumptions C58_set_tt_brackets.
(** transform_with_transfuted and transfute_with_transformed. *)
Theorem C58_tf_brackets : forall (E : Env) K R (KK : Key K) V W st (fB : (K * V) * (K * W) -> vres V R) (fL : K * V -> vres V R) (fR : K * W -> skres V R)
    (m : trie K V) (r : trie K W) rdef0 rd0 x,
  reachable m -> reachable r ->
  map_tf rdef0 rd0 st (TGeneric fB) (TGeneric fL) (SMGeneric fR) m r = Ret x ->
  exists m' o t, Permutation (bleaves t) (merge (fun e e' => [AskBoth e e']) (fun e => [AskLeft e]) (fun e' => [AskRight e']) (map_visit m) (map_visit r)) /\
    forall rdef rd, map_tf rdef rd st (TGeneric fB) (TGeneric fL) (SMGeneric fR) m r =
      Ret (m', beval rdef rd (three (fun e e' => t_red (fB (e, e'))) (fun e => t_red (fL e)) (fun e' => sk_red (fR e'))) t, o).
Proof. intros E K R KK V W. exact tf_brackets. Qed.
Print Assumptions C58_tf_brackets.
Theorem C58_ft_brackets : forall (E : Env) K R (KK : Key K) V W st (fB : (K * V) * (K * W) -> vres W R) (fL : K * V -> skres W R) (fR : K * W -> vres W R)
    (m : trie K V) (r : trie K W) rdef0 rd0 x,
  reachable m -> reachable r ->
  map_ft rdef0 rd0 st (TGeneric fB) (SMGeneric fL) (TGeneric fR) m r = Ret x ->
  exists m' o t, Permutation (bleaves t) (merge (fun e e' => [AskBoth e e']) (fun e => [AskLeft e]) (fun e' => [AskRight e']) (map_visit m) (map_visit r)) /\
    forall rdef rd, map_ft rdef rd st (TGeneric fB) (SMGeneric fL) (TGeneric fR) m r =
      Ret (m', beval rdef rd (three (fun e e' => t_red (fB (e, e'))) (fun e => sk_red (fL e)) (fun e' => t_red (fR e'))) t, o).
Proof. intros E K R KK V W. exact ft_brackets. Qed.
Print Assumptions C58_ft_brackets.

(** The brackets themselves, and an operation without laws. *)
Example C58_set_brackets_ex : reachable (E := exE) ex_s /\ reachable (E := exE) ex_s2 /\
  (exists s' o, set_transform 5 (fun a b => 3 * a + b) Sequential (STGeneric (fun k : key => SUnchanged (fst k mod 100))) ex_s = Ret (s', 7266, o)) /\
  (exists s' o t, set_tt BDef BNode MiddleIndex (SJGeneric (fun k l : key => SBUnchangedL (BLeaf (AskBoth (fst k) (fst l)))) false)
     (STGeneric (fun k => SUnchanged (BLeaf (AskLeft (fst k))))) (STGeneric (fun k => SDropped (BLeaf (AskRight (fst k))))) ex_s ex_s2 = Ret (s', t, o) /\
     bleaves t = [AskRight 3; AskBoth 1 1; AskLeft 2; AskLeft 0; AskLeft (2 ^ 62); AskLeft 4096; AskRight 4097; AskBoth 128 128; AskBoth 36 36; AskRight 44]) /\
  (exists s' o t, set_tm BDef BNode Sequential (STRemoved (BLeaf (AskBoth 0 0)))
     (STGeneric (fun k : key => SUnchanged (BLeaf (AskLeft (fst k))))) (SMGeneric (fun k : key => SKTransmuted k (BLeaf (AskRight (fst k))))) ex_s ex_s2 = Ret (s', t, o) /\
     bleaves t = [AskRight 3; AskBoth 0 0; AskLeft 2; AskLeft 0; AskLeft (2 ^ 62); AskLeft 4096; AskRight 4097; AskBoth 0 0; AskBoth 0 0; AskRight 44]).
Proof.
  split; [exact ex_s_reach|]. split; [exact ex_s2_reach|].
  split; [do 2 eexists; vm_compute; reflexivity|].
  split; do 3 eexists; (split; [vm_compute; reflexivity|]); vm_compute; reflexivity.
Qed.
Example C58_transfute_brackets_ex : reachable (E := exE) ex_m /\ reachable (E := exE) ex_s2 /\
  (exists m' o t, map_tf BDef BNode Sequential (TGeneric (fun p => VTransformed (snd (fst p) + 100) (BLeaf (AskBoth (snd (fst p)) (fst (fst (snd p)))))))
      (TGeneric (fun e => VUnchanged (BLeaf (AskLeft (snd e)))))
      (SMGeneric (fun e : key * unit => if fst (fst e) <? 100 then SKTransmuted (snd (fst e)) (BLeaf (AskRight (fst (fst e)))) else SKDropped (BLeaf (AskRight 1000)))) ex_m ex_s2 = Ret (m', t, o) /\
    bleaves t = [AskRight 3; AskBoth 17 1; AskLeft 12; AskLeft 10; AskLeft 15; AskLeft 14; AskRight 1000; AskBoth 13 128; AskBoth 18 36; AskRight 44]) /\
  (exists m' o t, map_ft BDef BNode MiddleIndex (TGeneric (fun p => VTransformed (snd (snd p) + 100) (BLeaf (AskBoth (fst (fst (fst p))) (snd (snd p))))))
      (SMGeneric (fun e : key * unit => if fst (fst e) <? 100 then SKTransmuted (snd (fst e)) (BLeaf (AskLeft (fst (fst e)))) else SKDropped (BLeaf (AskLeft 1000))))
      (TGeneric (fun e => VUnchanged (BLeaf (AskRight (snd e))))) ex_s2 ex_m = Ret (m', t, o) /\
    bleaves t = [AskLeft 3; AskBoth 1 17; AskRight 12; AskRight 10; AskRight 15; AskLeft 1000; AskRight 14; AskBoth 128 13; AskBoth 36 18; AskLeft 44]).
Proof.
  split; [exact ex_reach|]. split; [exact ex_s2_reach|]. split; do 3 eexists; (split; [vm_compute; reflexivity|]); vm_compute; reflexivity.
Qed.
