(** Branching histories of all operations refine those on association lists. *)
From Coq Require Import NArith Arith List Bool Lia ZifyBool ZifyN ZifyNat Permutation.
From Verif Require Import Base Words Flag Bia BiaP Node Spec SpecP Inv Api ApiP Trans Transform LoopP SpecT TransformP TransApiP
  Joint SpecJ JoinP JointP JointMP JointApiP JointT JointTApiP Reach ReachP MapP TransMapP JointMapP JointTMapP Versions.
Import ListNotations.
Open Scope N_scope.

Section VersionsP.
Context {E : Env} {K V R : Type} {KK : Key K}.
Context (rdef : R) (rd : R -> R -> R).

Lemma version_reach (s : list (trie K V)) i : Forall reachable s -> reachable (version map_new s i).
Proof.
  intros H. unfold version. destruct (nth_in_or_default i s map_new) as [Hi| ->]; [|constructor].
  rewrite Forall_forall in H. apply H. assumption.
Qed.

Lemma version_visit (s : list (trie K V)) i : version [] (map map_visit s) i = map_visit (version map_new s i).
Proof. unfold version. exact (map_nth map_visit s map_new i). Qed.

Lemma derive_ok (s : list (trie K V)) c m x : Forall reachable s -> contract (map map_visit s) c -> derive rdef rd s c = Ret (m, x) ->
  reachable m /\ derives rdef rd (map map_visit s) c (map_visit m) x.
Proof.
  intros HS HC HD. destruct c as [i k v replace|i k|i st op|i op|i j st both lop rop|i j st both lop rop|i j st both lop rop|i j both lop rop];
    cbn [derive derives contract] in *; rewrite ?version_visit in *;
    pose proof (version_reach s i HS) as Hi; set (mi := version map_new s i) in *;
    try (pose proof (version_reach s j HS) as Hj; set (mj := version map_new s j) in *).
  - destruct (map_insert (fun x => x) mi k v replace) as [res| |] eqn:Hr; try discriminate. cbn [bind] in HD.
    unfold spec_insert.
    destruct (insert_inv (fun x : K => x) mi k v replace res (reachable_mwf _ Hi) eq_refl Hr)
      as [(e & -> & HL & ->)|(m' & -> & HW' & HP' & Hrep)]; injection HD as <- <-.
    + rewrite HL. auto.
    + assert (HR' : reachable m') by (eapply (reach_insert K V KK K KK); [exact Hi| |exact Hr]; reflexivity).
      split; [assumption|]. destruct (lookup (cls k) (map_visit mi)) as [e|] eqn:HL.
      * destruct Hrep as [->|]; [|discriminate]. auto.
      * rewrite without_id in HP' by assumption. auto.
  - destruct (map_remove mi k) as [res| |] eqn:Hr; try discriminate. cbn [bind] in HD. unfold spec_remove.
    destruct (remove_inv mi k res (reachable_mwf _ Hi) Hr) as [(HL & ->)|(m' & e & HL & -> & HW' & HP')]; injection HD as <- <-;
      rewrite HL; [auto|]. split; [|auto]. eapply (reach_remove K V KK K KK); eassumption.
  - destruct (transform_exact rdef rd st op mi Hi) as (m' & r & o & H1 & H2 & H3 & _).
    rewrite H1 in HD. cbn in HD. injection HD as <- <-. split; [assumption|]. rewrite H3. split; [reflexivity|].
    exists r. split; [reflexivity|]. intros Hg HM _. destruct op as [f| |]; try contradiction.
    exact (transform_reduction rdef rd st f mi m' r o Hi HM H1).
  - destruct (transmute_exact rdef rd op mi Hi HC) as (m' & r & H1 & H2 & H3 & _ & _ & H4).
    rewrite H1 in HD. cbn in HD. injection HD as <- <-. split; [assumption|]. rewrite H3. split; [reflexivity|].
    exists r. split; [reflexivity|]. intros Hg HM _. destruct op as [f|]; try contradiction. exact (H4 f eq_refl HM).
  - destruct HC as [HT Ho]. destruct (map_tt rdef rd st both lop rop mi mj) as [[[m' r] o]| |] eqn:Hr; try discriminate.
    cbn in HD. injection HD as <- <-.
    destruct (tt_exact rdef rd st both lop rop mi mj m' r o Hi Hj HT Ho Hr) as [(fB & HM & HB) _].
    split; [exact (im_reach _ _ _ _ _ _ HM)|]. exists fB. split; [exact HB|]. split; [exact (im_visit _ _ _ _ _ _ HM)|].
    exists r. split; [reflexivity|]. intros [Hg Hg'] HM' HC. destruct lop as [f| |], rop as [h| |]; try contradiction.
    exact (tt_reduction rdef rd st both f h mi mj m' r o Hi Hj HT HM' HC Hr).
  - destruct (map_tm rdef rd st both lop rop mi mj) as [[[m' r] o]| |] eqn:Hr; try discriminate.
    cbn in HD. injection HD as <- <-.
    destruct (tm_exact rdef rd st both lop rop mi mj m' r o Hi Hj HC Hr) as [HM _].
    split; [exact (im_reach _ _ _ _ _ _ HM)|]. split; [exact (im_visit _ _ _ _ _ _ HM)|].
    exists r. split; [reflexivity|]. intros [Hg Hg'] HM' HC'. destruct lop as [f| |], rop as [h|]; try contradiction.
    exact (tm_reduction rdef rd st both f h mi mj m' r o Hi Hj HC HM' HC' Hr).
  - destruct (map_mt rdef rd st both lop rop mi mj) as [[[m' r] o]| |] eqn:Hr; try discriminate.
    cbn in HD. injection HD as <- <-.
    destruct (mt_exact rdef rd st both lop rop mi mj m' r o Hi Hj HC Hr) as [HM _].
    split; [exact (im_reach _ _ _ _ _ _ HM)|]. split; [exact (im_visit _ _ _ _ _ _ HM)|].
    exists r. split; [reflexivity|]. intros [Hg Hg'] HM' HC'. destruct lop as [f|], rop as [h| |]; try contradiction.
    exact (mt_reduction rdef rd st both f h mi mj m' r o Hi Hj HC HM' HC' Hr).
  - destruct HC as (HB & HL & HR). destruct (map_mm rdef rd both lop rop mi mj) as [[m' r]| |] eqn:Hr; try discriminate.
    cbn in HD. injection HD as <- <-.
    pose proof (mm_exact rdef rd both lop rop mi mj m' r Hi Hj HB HL HR Hr) as HM.
    split; [exact (im_reach _ _ _ _ _ _ HM)|]. split; [exact (im_visit _ _ _ _ _ _ HM)|].
    exists r. split; [reflexivity|]. intros [Hg Hg'] HM' HC'. destruct lop as [f|], rop as [h|]; try contradiction.
    exact (mm_reduction rdef rd both f h mi mj m' r Hi Hj HB HL HR HM' HC' Hr).
Qed.

Theorem versions_ok cs : forall (s s' : list (trie K V)) xs, Forall reachable s -> contracts rdef rd s cs -> versions rdef rd s cs = Ret (s', xs) ->
  Forall reachable s' /\ spec_versions rdef rd (map map_visit s) cs (map map_visit s') xs /\ exists t, s' = s ++ t.
Proof.
  induction cs as [|c cs IH]; intros s s' xs HS HC HV; cbn [versions contracts] in *.
  - injection HV as <- <-. split; [assumption|]. split; [constructor|]. exists []. symmetry. apply app_nil_r.
  - destruct HC as [HC HN]. destruct (derive rdef rd s c) as [[m x]| |] eqn:HD; try discriminate. cbn [bind] in HV.
    destruct (versions rdef rd (s ++ [m]) cs) as [[s1 xs1]| |] eqn:HV1; try discriminate. cbn [bind] in HV. injection HV as <- <-.
    destruct (derive_ok s c m x HS HC HD) as [HR HD'].
    destruct (IH (s ++ [m]) s1 xs1) as (H1 & H2 & t & Ht).
    + apply Forall_app. auto.
    + apply (HN m x eq_refl).
    + assumption.
    + split; [assumption|]. split.
      * rewrite map_app in H2. econstructor; eassumption.
      * exists (m :: t). rewrite Ht, <- app_assoc. reflexivity.
Qed.

(** What can be observed of a version. *)
Definition shows (m : trie K V) (l : list (K * V)) : Prop :=
  (forall Q (KQ : Key Q) (q : Q), map_find m q = Ret (match lookup (cls q) l with Some e => Ok e | None => Err NotFound end)) /\
  map_size m = N.of_nat (length l) /\ map_visit m = l /\ uniq l.

Lemma reachable_shows (m : trie K V) : reachable m -> shows m (map_visit m).
Proof.
  intros HR. pose proof (reachable_mwf m HR) as HW. split; [|split; [apply (mwf_size m HW)|split; [reflexivity|apply mwf_uniq; assumption]]].
  intros Q KQ q. rewrite (map_find_ok m q HW). destruct (lookup _ _); reflexivity.
Qed.

(** Histories from the empty map. *)
Theorem versions_refine cs (s' : list (trie K V)) xs : contracts rdef rd [map_new] cs -> versions rdef rd [map_new] cs = Ret (s', xs) ->
  Forall reachable s' /\
  exists ls, spec_versions rdef rd [[]] cs ls xs /\ Forall2 shows s' ls.
Proof.
  intros HC HV. destruct (versions_ok cs [map_new] s' xs) as (H1 & H2 & _); try assumption.
  - constructor; [constructor|constructor].
  - split; [assumption|]. exists (map map_visit s'). split; [exact H2|].
    clear -H1. induction H1; constructor; auto using reachable_shows.
Qed.

End VersionsP.
