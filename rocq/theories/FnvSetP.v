(** Default sets with keys of at most four bytes, and transfute. *)
From Coq Require Import NArith Arith List Bool Lia Permutation.
From Verif Require Import Base Words Flag Bia Node Api Spec Inv Trans Transform SpecT Joint JointT SpecJ Reach ReachP
  MapP JointMapP JointTMapP Sets SetP SpecS Cost Fnv FnvP FnvMapP.
Import ListNotations.
Open Scope N_scope.

Section Default.
Context {E : Env} {size : nat} (HK : default_keys size) (Hs : (size <= 4)%nat).

Section One.
Context {K Q : Type} {KK : Key K} {KQ : Key Q}.
Theorem dks_insert (into : Q -> K) (s : tset K) q replace : reachable s -> cls (into q) = cls q -> exists r, set_insert into s q replace = Ret r.
Proof.
  intros HR Hq. destruct (dk_insert HK Hs into s q tt replace HR Hq) as [r Hr]. unfold set_insert. rewrite Hr.
  destruct r as [[[s' [k u]] prev]|[k u]]; eexists; reflexivity.
Qed.
Theorem dks_remove (s : tset K) (q : Q) : reachable s -> exists r, set_remove s q = Ret r.
Proof.
  intros HR. destruct (dk_remove HK Hs s q HR) as [r Hr]. unfold set_remove. rewrite Hr. destruct r as [[s' [k u]]|e]; eexists; reflexivity.
Qed.
End One.

Section Joint.
Context {K L R : Type} {KK : Key K} {KL : Key L} (rdef : R) (rd : R -> R -> R) (st : strategy).
Theorem dks_tm both lop rop (s : tset K) (right : tset L) : reachable s -> reachable right ->
  (forall l k x, In l (set_visit right) -> smcall rop l = SKTransmuted k x -> cls k = cls l) ->
  exists s' r o, set_tm rdef rd st both lop rop s right = Ret (s', r, o) /\
    is_smerge (fun k l => s_to (stcall both (k, l)) k) (fun k => s_to (stcall lop k) k) (fun l => sk_to (smcall rop l)) s right s'.
Proof.
  intros HR HRr Hk. destruct (dk_tm HK Hs rdef rd st (both_transform_of both) (transform_of lop) (transmute_of rop) s right HR HRr (keeps_of rop right Hk)) as (s' & r & o & H & _).
  exists s', r, o. split; [exact H|]. exact (proj1 (set_tm_exact rdef rd st both lop rop s right s' r o HR HRr Hk H)).
Qed.
Theorem dks_mt both lop rop (s : tset K) (right : tset L) : reachable s -> reachable right ->
  (forall k l x, In k (set_visit s) -> smcall lop k = SKTransmuted l x -> cls l = cls k) ->
  exists s' r o, set_mt rdef rd st both lop rop s right = Ret (s', r, o) /\
    is_smerge (fun k l => s_to (stcall both (k, l)) l) (fun k => sk_to (smcall lop k)) (fun l => s_to (stcall rop l) l) s right s'.
Proof.
  intros HR HRr Hk. destruct (dk_mt HK Hs rdef rd st (both_transform_of both) (transmute_of lop) (transform_of rop) s right HR HRr (keeps_of lop s Hk)) as (s' & r & o & H & _).
  exists s', r, o. split; [exact H|]. exact (proj1 (set_mt_exact rdef rd st both lop rop s right s' r o HR HRr Hk H)).
Qed.
Theorem dks_mm {S} {KS : Key S} (both : stransmute_op (K * L) S R) lop rop (s : tset K) (right : tset L) : reachable s -> reachable right ->
  (forall k l z x, In k (set_visit s) -> In l (set_visit right) -> cls k = cls l -> smcall both (k, l) = SKTransmuted z x -> cls z = cls k) ->
  (forall k z x, In k (set_visit s) -> smcall lop k = SKTransmuted z x -> cls z = cls k) ->
  (forall l z x, In l (set_visit right) -> smcall rop l = SKTransmuted z x -> cls z = cls l) ->
  exists s' r, set_mm rdef rd both lop rop s right = Ret (s', r) /\
    is_smerge (fun k l => sk_to (smcall both (k, l))) (fun k => sk_to (smcall lop k)) (fun l => sk_to (smcall rop l)) s right s'.
Proof.
  intros HR HRr Hb Hl Hr.
  assert (HB : b_keeps (mcall (both_transmute_of both)) (map_visit s) (map_visit right)).
  { intros [k u] [l w] z v x He He' Hc. cbn [mcall both_transmute_of fst snd] in *. destruct (smcall both (k, l)) eqn:Hm; cbn [kres_of]; intros [= -> <- <-].
    eapply Hb; [| |exact Hc|exact Hm]; unfold set_visit; apply in_map_iff; [exists (k, u)|exists (l, w)]; auto. }
  destruct (dk_mm HK Hs rdef rd (both_transmute_of both) (transmute_of lop) (transmute_of rop) s right HR HRr HB (keeps_of lop s Hl) (keeps_of rop right Hr)) as (s' & r & H & _).
  exists s', r. split; [exact H|]. exact (set_mm_exact rdef rd both lop rop s right s' r HR HRr Hb Hl Hr H).
Qed.
Theorem dks_tt (both : sjoint_op K R) lop rop (s right : tset K) : reachable s -> reachable right ->
  exists s' r o, set_tt rdef rd st both lop rop s right = Ret (s', r, o) /\
    exists fB, is_smerge fB (fun k => s_to (stcall lop k) k) (fun k => s_to (stcall rop k) k) s right s' /\
      forall k k', In k (set_visit s) -> In k' (set_visit right) -> cls k = cls k' -> sb_about both k k' (fB k k').
Proof.
  intros HR HRr. destruct (dk_tt HK Hs rdef rd st (joint_of both) (transform_of lop) (transform_of rop) s right HR HRr) as (s' & r & o & H & _).
  exists s', r, o. split; [exact H|]. exact (proj1 (set_tt_exact rdef rd st both lop rop s right s' r o HR HRr (dk_tame HK Hs _ _ _ _ _) H)).
Qed.
End Joint.

Section Transfute.
Context {K V W R : Type} {KK : Key K} (rdef : R) (rd : R -> R -> R) (st : strategy).
Theorem dk_tf both lop rop (m : trie K V) (right : trie K W) : reachable m -> reachable right ->
  exists m' r o, map_tf rdef rd st both lop rop m right = Ret (m', r, o) /\
    is_merge (fun e e' => t_to (tcall both (e, e')) e) (fun e => t_to (tcall lop e) e) (fun e' => f_to (smcall rop e') (fst e')) m right m'.
Proof.
  intros HR HRr. destruct (dk_tm HK Hs rdef rd st both lop (transfute_of rop) m right HR HRr) as (m' & r & o & H & _).
  { intros e k v x _. apply transfute_keeps. }
  exists m', r, o. split; [exact H|]. exact (proj1 (tf_exact rdef rd st both lop rop m right m' r o HR HRr H)).
Qed.
Theorem dk_ft both lop rop (m : trie K V) (right : trie K W) : reachable m -> reachable right ->
  exists m' r o, map_ft rdef rd st both lop rop m right = Ret (m', r, o) /\
    is_merge (fun e e' => t_to (tcall both (e, e')) e') (fun e => f_to (smcall lop e) (fst e)) (fun e' => t_to (tcall rop e') e') m right m'.
Proof.
  intros HR HRr. destruct (dk_mt HK Hs rdef rd st both (transfute_of lop) rop m right HR HRr) as (m' & r & o & H & _).
  { intros e k v x _. apply transfute_keeps. }
  exists m', r, o. split; [exact H|]. exact (proj1 (ft_exact rdef rd st both lop rop m right m' r o HR HRr H)).
Qed.
End Transfute.
End Default.
