(** transform_with_transformed on well-formed maps. *)
From Coq Require Import NArith Arith List Bool Lia ZifyBool ZifyN ZifyNat Permutation.
From Verif Require Import Base Words WordsP Flag FlagP Bia BiaP Node Spec SpecP Inv NodeP InsertP TrieP Api ApiP
  Trans Transform LoopP SpecT TransformP TransApiP Joint SpecJ JoinP JointP JointMP JointLeafP JointNodeP JointApiP
  JointT JointTLeafP JointTP.
Import ListNotations.
Open Scope N_scope.

Section ApiTT.
Context {E : Env} {K V R : Type} {KK : Key K}.
Context (rdef : R) (rd : R -> R -> R) (st : strategy).

(** [m'] and [r] are a merge of [m] and [right], with [fB] saying what common
    keys became. *)
Definition tt_merge (both : joint_op (K * V) V R) (lop rop : transform_op (K * V) V R) (m right m' : trie K V) (r : R) : Prop :=
  exists fB : K * V -> K * V -> option (K * V),
    (forall e e', lookup (ecls e) (map_visit m) = Some e -> lookup (ecls e) (map_visit right) = Some e' -> b_about both e e' (fB e e')) /\
    map_merge rdef rd (tt_gen lop rop) (fun e e' => (fB e e', b_red (jcall both e e'))) (tt_li lop) (tt_ri rop) m right m' r.

Lemma tt_merge_intro both lop rop q (m right : trie K V) o r : mwf m -> mwf right ->
  owf 0 0 o -> merged (sp_tt q both lop rop) (map_visit m) (map_visit right) (ovisit o) ->
  (comm_monoid rdef rd -> tt_gen lop rop -> r = msum rdef rd (reds (sp_tt q both lop rop) (map_visit m) (map_visit right))) ->
  forall m' : trie K V, mwf m' -> map_visit m' = ovisit o -> tt_merge both lop rop m right m' r.
Proof.
  intros HW HWr Hw Hm Hr m' HW' HV. exists (fun e _ => lookup (ecls e) (ovisit o)). split.
  - intros e e' He He'. specialize (Hm (ecls e)). unfold joined in Hm. rewrite He, He' in Hm. exact Hm.
  - set (bi := fun e e' : K * V => (lookup (ecls e) (ovisit o), b_red (jcall both e e'))).
    assert (HK : jkeeps bi (tt_li lop) (tt_ri rop) (map_visit m) (map_visit right)).
    { intros c x. pose proof (tt_jkeeps both lop rop (map_visit m) (map_visit right) c x) as H. unfold joined in *.
      destruct (lookup c (map_visit m)) as [e|] eqn:He; destruct (lookup c (map_visit right)) as [e'|]; try exact H.
      intros Hx. unfold bi in Hx. cbn [fst] in Hx. symmetry in Hx. apply lookup_in in Hx. destruct Hx as [_ ->].
      apply lookup_in in He. apply He. }
    refine (map_merge_intro rdef rd (tt_gen lop rop) bi _ _ (lo_tt q) hi_mm m right o r HW HWr HK Hw _ Hr m' HW' HV).
    intros c. specialize (Hm c). unfold joined in *. cbn [fspec sp_tt sB sL sR] in *.
    destruct (lookup c (map_visit m)) as [e|] eqn:He; destruct (lookup c (map_visit right)) as [e'|]; try exact Hm.
    unfold bi. cbn [fst]. apply lookup_in in He. destruct He as [_ <-]. reflexivity.
Qed.

Theorem map_tt_ok both lop rop (m right : trie K V) : mwf m -> mwf right -> tame both lop rop (map_visit m) (map_visit right) ->
  match map_tt rdef rd st both lop rop m right with
  | Ret (m', r, o) =>
      tt_merge both lop rop m right m' r /\ (o = Self -> m' = m) /\ (o = Right -> m' = right) /\
      ~ exists h, lo_tt (tt_short (K := K) (V := V) both lop rop = None) (cnt h (map_visit m)) (cnt h (map_visit right))
  | Diverge => exists h, hi_mm (cnt h (map_visit m)) (cnt h (map_visit right))
  | Panic => False
  end.
Proof.
  intros HW HWr HD.
  pose proof (m_tt_ok rdef rd st both lop rop 0 0 m right HW HWr HD) as H. unfold map_tt.
  destruct (m_tt rdef rd st both lop rop m right 0) as [t| |]; cbn [bind]; [|contradiction|exact H].
  destruct H as [(H1 & H2 & H3) H4]. destruct t as [r|r|r|n].
  - destruct (H1 (Some m) (or_introl eq_refl)) as [Hw Hm]. split; [|split; [reflexivity|split; [discriminate|exact H4]]].
    exact (tt_merge_intro both lop rop _ m right (Some m) r HW HWr Hw Hm H2 m HW eq_refl).
  - destruct (H1 (Some m) eq_refl) as [Hw Hm]. split; [|split; [reflexivity|split; [discriminate|exact H4]]].
    exact (tt_merge_intro both lop rop _ m right (Some m) r HW HWr Hw Hm H2 m HW eq_refl).
  - destruct (H1 (Some right) eq_refl) as [Hw Hm]. split; [|split; [discriminate|split; [reflexivity|exact H4]]].
    exact (tt_merge_intro both lop rop _ m right (Some right) r HW HWr Hw Hm H2 right HWr eq_refl).
  - destruct (H1 (nnode n) eq_refl) as [Hw Hm]. destruct (nres_trie_visit n) as [Hv Hr].
    pose proof (nres_trie_wf n Hw) as HW'. destruct (nres_trie n) as [m' r]. cbn [fst snd] in *. subst r.
    split; [|split; [discriminate|split; [discriminate|exact H4]]].
    exact (tt_merge_intro both lop rop _ m right (nnode n) _ HW HWr Hw Hm H2 m' HW' Hv).
Qed.

(** * Tame operations *)

Lemma plural_not (h : N) (l : list (K * V)) :
  (forall e e', In e l -> In e' l -> hash (ecls e) = hash (ecls e') -> ecls e = ecls e') -> ~ plural h l.
Proof.
  intros H (c & c' & Hn & H1 & H2 & H3 & H4). apply Hn.
  destruct (lookup c l) as [e|] eqn:He; [|contradiction]. destruct (lookup c' l) as [e'|] eqn:He'; [|contradiction].
  apply lookup_in in He. apply lookup_in in He'. destruct He as [He <-]. destruct He' as [He' <-]. apply H; congruence.
Qed.

(** Maps without colliding keys. *)
Lemma tame_apart (both : joint_op (K * V) V R) lop rop ln lr :
  (forall e e', In e ln -> In e' ln -> hash (ecls e) = hash (ecls e') -> ecls e = ecls e') ->
  (forall e e', In e lr -> In e' lr -> hash (ecls e) = hash (ecls e') -> ecls e = ecls e') ->
  tame both lop rop ln lr.
Proof.
  intros Hl Hr. split; intros h Hp; exfalso; (eapply plural_not; [|exact Hp]); assumption.
Qed.

(** One-sided operations that keep or drop, but not both. *)
Definition steady (op : transform_op (K * V) V R) : Prop :=
  forall e e', stays (tcall op e) -> ~ goes (tcall op e').
(** Joint operations that never pick a side. *)
Definition impartial (op : joint_op (K * V) V R) : Prop :=
  forall e e', match jcall op e e' with BUnchangedL _ | BUnchangedR _ => False | _ => True end.

Definition never_stays (op : transform_op (K * V) V R) : Prop := forall e, ~ stays (tcall op e).

Lemma tame_impartial (both : joint_op (K * V) V R) lop rop ln lr : impartial both ->
  steady lop \/ never_stays rop -> steady rop \/ never_stays lop -> tame both lop rop ln lr.
Proof.
  intros HB HL HR.
  assert (H1 : forall e e', ~ keeps_right (jcall both e e')).
  { intros e e'. specialize (HB e e'). destruct (jcall both e e'); cbn; auto. }
  assert (H2 : forall e e', ~ keeps_right (jcall (jflip both) e e')).
  { intros e e'. specialize (HB e' e). destruct both as [f b| | | |]; cbn in *; auto.
    destruct b; cbn in *; [destruct (f e e')|destruct (f e' e)]; cbn in *; auto. }
  split; intros h _; (split; [intros; auto|]); intros _; (split; [intros e e' e1 _ H; destruct (H1 e e' H) || destruct (H2 e e' H)|]);
    intros e' e1 e2 _ H' _ H _.
  - destruct HL as [HL|HL]; [exact (HL e1 e2 H)|destruct (HL e' H')].
  - destruct HR as [HR|HR]; [exact (HR e1 e2 H)|destruct (HR e' H')].
Qed.

Lemma steady_unchanged r : steady (TUnchanged r).
Proof. intros e e' _ H. exact H. Qed.
Lemma steady_removed r : steady (TRemoved r).
Proof. intros e e' H. destruct H. Qed.

End ApiTT.
