(** Whole nodes: transform_with_transmuted, transmute_with_transformed and
    transmute_with_transmuted meet their specifications. *)
From Coq Require Import NArith Arith List Bool Lia ZifyBool ZifyN ZifyNat Permutation.
From Verif Require Import Base Words WordsP Flag FlagP Bia BiaP Node Spec SpecP Inv NodeP InsertP TrieP Api ApiP
  Trans Transform LoopP SpecT TransformP Joint SpecJ JoinP JointP JointMP JointLeafP.
Import ListNotations.
Open Scope N_scope.

(** * Two leaves *)
Section LeafGen.
Context {E : Env} {K V L W S X R : Type} {KK : Key K} {KL : Key L} {KS : Key S}.
Context (rdef : R) (rd : R -> R -> R).
Context (bi : K * V -> L * W -> option (S * X) * R) (li : K * V -> option (S * X) * R) (ri : L * W -> option (S * X) * R).
Context (g : Prop) (lo hi : nat -> nat -> Prop).
Notation sp := (fspec bi li ri g lo hi).
Notation items := (items bi li ri).

(** What is to be shown of a result read as [o] with reduction [r]. *)
Definition fine (d p : N) (ln : list (K * V)) (lr : list (L * W)) (o : option (mnode S X)) (r : R) : Prop :=
  owf d p o /\ merged sp ln lr (ovisit o) /\ (comm_monoid rdef rd -> g -> r = msum rdef rd (reds sp ln lr)).

Lemma leaf_entries d p (n : lnext K V) : wf d p (next_mnode n) ->
  uniq (m_visit (next_mnode n)) /\ (forall e, In e (m_visit (next_mnode n)) -> hash (ecls e) = hashk (next_key n)) /\
  nx_ok n /\ pre d (hashk (next_key n)) = p.
Proof.
  intros HW. destruct (leafy_inv _ _ _ HW) as [HL Hp]. split; [eapply wf_uniq; eassumption|]. split; [intros; eapply leafy_hash; eassumption|].
  split; [|assumption]. destruct n as [l|s]; [|exact I]. apply HL.
Qed.

Lemma leaf_ok_leafy h (n : mnode S X) : leaf_ok n -> uniq (m_visit n) -> (forall e, In e (m_visit n) -> hash (ecls e) = h) -> leafy h n.
Proof.
  destruct n as [c|l|s]; cbn [leaf_ok leafy m_visit]; intros Hl HU Hh; [assumption| |].
  - split; [assumption|split; assumption].
  - exact (Hh _ (or_introl eq_refl)).
Qed.

Lemma two_flags_ok {K' L'} {KK' : Key K'} {KL' : Key L'} (k : K') (l : L') d : hashk k <> hashk l -> pre d (hashk k) = pre d (hashk l) ->
  exists lf rf, two_flags k l d = Ret (lf, rf) /\ flag_for d (hashk k) lf /\ flag_for d (hashk l) rf.
Proof.
  intros Hn Hp. pose proof (neq_off d _ _ Hn (hashk_lt k) (hashk_lt l) Hp) as Ho.
  unfold two_flags. rewrite !flag_at_ok by assumption. cbn [bind unwrap]. do 2 eexists. split; [reflexivity|].
  split; apply flag_for_at; assumption.
Qed.

End LeafGen.

Section LeafGen2.
Context {E : Env} {K V L W S X R : Type} {KK : Key K} {KL : Key L} {KS : Key S}.
Context (rdef : R) (rd : R -> R -> R).
Context (bi : K * V -> L * W -> option (S * X) * R) (li : K * V -> option (S * X) * R) (ri : L * W -> option (S * X) * R).
Context (g : Prop) (lo hi : nat -> nat -> Prop).
Notation sp := (fspec bi li ri g lo hi).
Notation items := (items bi li ri).
Notation fine := (fine rdef rd bi li ri g lo hi).

Lemma leaf_same d p (this : lnext K V) (right : lnext L W) o r :
  wf d p (next_mnode this) -> wf d p (next_mnode right) ->
  hashk (next_key this) = hashk (next_key right) ->
  jkeeps bi li ri (m_visit (next_mnode this)) (m_visit (next_mnode right)) ->
  yield rdef rd g o r (items (m_visit (next_mnode this)) (m_visit (next_mnode right))) ->
  fine d p (m_visit (next_mnode this)) (m_visit (next_mnode right)) o r.
Proof.
  intros HW HWr Hh HK Hy. destruct (leaf_entries _ _ _ HW) as (HU & HH & _ & Hp). destruct (leaf_entries _ _ _ HWr) as (HUr & HHr & _ & _).
  rewrite <- Hp. eapply yield_good; try eassumption. rewrite Hh. assumption.
Qed.

Lemma cnt_same d p (this : lnext K V) (right : lnext L W) (P : nat -> nat -> Prop) :
  wf d p (next_mnode this) -> wf d p (next_mnode right) -> (forall a b, P a b -> a <> O /\ b <> O) ->
  hashk (next_key this) = hashk (next_key right) ->
  ((exists h, P (cnt h (m_visit (next_mnode this))) (cnt h (m_visit (next_mnode right)))) <->
   P (length (m_visit (next_mnode this))) (length (m_visit (next_mnode right)))).
Proof.
  intros HW HWr HP Hh. destruct (leaf_entries _ _ _ HW) as (_ & HH & _ & _). destruct (leaf_entries _ _ _ HWr) as (_ & HHr & _ & _).
  rewrite <- Hh in HHr. split.
  - intros [h H]. destruct (HP _ _ H) as [Ha Hb]. destruct (N.eq_dec h (hashk (next_key this))) as [->|Hn].
    + rewrite !cnt_all in H by assumption. assumption.
    + exfalso. apply Ha. eapply cnt_other; eassumption.
  - intros H. exists (hashk (next_key this)). rewrite !cnt_all by assumption. assumption.
Qed.

Lemma cnt_apart d p (this : lnext K V) (right : lnext L W) (P : nat -> nat -> Prop) :
  wf d p (next_mnode this) -> wf d p (next_mnode right) -> (forall a b, P a b -> a <> O /\ b <> O) ->
  hashk (next_key this) <> hashk (next_key right) ->
  ~ exists h, P (cnt h (m_visit (next_mnode this))) (cnt h (m_visit (next_mnode right))).
Proof.
  intros HW HWr HP Hh. destruct (leaf_entries _ _ _ HW) as (_ & HH & _ & _). destruct (leaf_entries _ _ _ HWr) as (_ & HHr & _ & _).
  intros [h H]. destruct (HP _ _ H) as [Ha Hb]. destruct (cnt_in _ _ Ha) as (e & He & H1). destruct (cnt_in _ _ Hb) as (e' & He' & H2).
  rewrite HH in H1 by assumption. rewrite HHr in H2 by assumption. congruence.
Qed.

Lemma apart_ok d p (this : lnext K V) (right : lnext L W) (g1 g2 : Prop) ol or rl r2 :
  wf d p (next_mnode this) -> wf d p (next_mnode right) ->
  hashk (next_key this) <> hashk (next_key right) ->
  jkeeps bi li ri (m_visit (next_mnode this)) (m_visit (next_mnode right)) ->
  (g -> g1 /\ g2) ->
  yield rdef rd g1 ol rl (map li (m_visit (next_mnode this))) ->
  yield rdef rd g2 or r2 (map ri (m_visit (next_mnode right))) ->
  exists lf rf, two_flags (next_key this) (next_key right) d = Ret (lf, rf) /\
    let F := fun o => fine d p (m_visit (next_mnode this)) (m_visit (next_mnode right)) o (rd rl r2) in
    match ol, or with
    | Some a, Some b => exists c, cnode_lift a lf b rf = Ret c /\ F (Some (MC c))
    | Some a, None => F (Some a)
    | None, o => F o
    end.
Proof.
  intros HW HWr Hh HK Hg (Hl1 & Hl2 & Hl3) (Hr1 & Hr2 & Hr3).
  destruct (leaf_entries _ _ _ HW) as (HU & HH & _ & Hp). destruct (leaf_entries _ _ _ HWr) as (HUr & HHr & _ & Hpr).
  set (ln := m_visit (next_mnode this)) in *. set (lr := m_visit (next_mnode right)) in *.
  set (h1 := hashk (next_key this)) in *. set (h2 := hashk (next_key right)) in *.
  assert (HD : disj ln lr).
  { intros e e' He He' Hc. apply Hh. rewrite <- (HH e He), <- (HHr e' He'), Hc. reflexivity. }
  assert (HKl : jkeeps bi li ri ln []).
  { eapply jkeeps_part; [|exact HK]. intros c [Hc|Hc]; [|contradiction Hc; reflexivity]. split; [reflexivity|].
    destruct (lookup c ln) as [e|] eqn:He; [|contradiction]. apply lookup_in in He. destruct He as [He <-].
    symmetry. apply (disj_lookup ln); assumption. }
  assert (HKr : jkeeps bi li ri [] lr).
  { eapply jkeeps_part; [|exact HK]. intros c [Hc|Hc]; [contradiction Hc; reflexivity|]. split; [|reflexivity].
    destruct (lookup c lr) as [e|] eqn:He; [|contradiction]. apply lookup_in in He. destruct He as [He <-].
    symmetry. apply lookup_none. intros e' He' Hc'. apply (HD e' e); assumption. }
  assert (HL := items_merged bi li ri g lo hi ln [] (ovisit ol) HU ltac:(constructor) HKl).
  rewrite items_left in HL. destruct (HL Hl1) as (HUl & _ & Hhl). specialize (Hhl h1 HH ltac:(intros e [])). clear HL.
  assert (HR := items_merged bi li ri g lo hi [] lr (ovisit or) ltac:(constructor) HUr HKr).
  rewrite items_right in HR. destruct (HR Hr1) as (HUr' & _ & Hhr). specialize (Hhr h2 ltac:(intros e []) HHr). clear HR.
  assert (HF : forall o, owf d p o -> Permutation (ovisit o) (ovisit ol ++ ovisit or) -> fine d p ln lr o (rd rl r2)).
  { intros o Ho HP.
    assert (HP' : Permutation (ovisit o) (ents (items ln lr))).
    { rewrite HP, Hl1, Hr1, <- ents_app. apply flat_map_perm. symmetry. apply items_disj. assumption. }
    split; [assumption|]. split; [apply items_merged; assumption|].
    intros HC Hg'. destruct (Hg Hg') as [Hg1 Hg2]. rewrite (Hl2 HC Hg1), (Hr2 HC Hg2).
    rewrite <- (items_reds bi li ri g lo hi). destruct HC as [HM HC].
    rewrite <- (msum_app _ _ HM), <- map_app. apply (msum_perm _ _ HM _ _ HC). apply Permutation_map. symmetry. apply items_disj. assumption. }
  destruct (two_flags_ok (next_key this) (next_key right) d Hh) as (lf & rf & Hf & Hlf & Hrf).
  { fold h1 h2. congruence. }
  exists lf, rf. split; [assumption|]. cbn zeta.
  destruct ol as [a|]; destruct or as [b|]; cbn [ovisit] in *.
  - assert (La : leafy h1 a) by (apply leaf_ok_leafy; assumption).
    assert (Lb : leafy h2 b) by (apply leaf_ok_leafy; assumption).
    destruct (cnode_lift_ok d h1 h2 a lf b rf La Lb Hh (hashk_lt _) (hashk_lt _) ltac:(congruence) Hlf Hrf) as (c & Hc & HWc & HP).
    exists c. split; [assumption|]. apply HF; [|assumption]. intros n [= <-]. rewrite <- Hp. assumption.
  - apply HF; [|cbn [ovisit]; rewrite app_nil_r; reflexivity]. intros n [= <-]. rewrite <- Hp. apply leafy_wf. apply leaf_ok_leafy; assumption.
  - apply HF; [|reflexivity]. intros n [= <-]. rewrite <- Hpr. apply leafy_wf. apply leaf_ok_leafy; assumption.
  - apply HF; [|reflexivity]. intros n [=].
Qed.

Lemma items_flip (bi' : L * W -> K * V -> option (S * X) * R) ln lr : (forall e e', bi' e' e = bi e e') -> uniq ln -> uniq lr ->
  Permutation (JointMP.items bi' ri li lr ln) (items ln lr).
Proof.
  intros HB Hl Hr. unfold JointMP.items. rewrite (merge_flip (fun e e' => [bi e e'])) by assumption.
  unfold merge. apply Permutation_app_tail. 
  match goal with |- Permutation (flat_map ?f _) (flat_map ?h _) =>
    assert (H : forall x, f x = h x); [|rewrite (flat_map_ext f h H); reflexivity] end.
  intros e'. destruct (lookup (ecls e') ln); [rewrite HB|]; reflexivity.
Qed.

Lemma jkeeps_flip (bi' : L * W -> K * V -> option (S * X) * R) ln lr : (forall e e', bi' e' e = bi e e') ->
  jkeeps bi li ri ln lr -> jkeeps bi' ri li lr ln.
Proof.
  intros HB H c x Hj. apply (H c x). unfold joined in *. destruct (lookup c ln), (lookup c lr); try assumption. rewrite <- HB. assumption.
Qed.

(** The mirrored operation. *)
Lemma jok_flip {T} (bi' : L * W -> K * V -> option (S * X) * R) (g' : Prop) (lo' hi' : nat -> nat -> Prop)
  (rr : @jread K V L W S X R T) (rr' : @jread L W K V S X R T) d p n right o :
  (forall e e', bi' e' e = bi e e') -> (g -> g') -> (forall a b, lo a b -> lo' b a) -> (forall a b, hi' b a -> hi a b) ->
  (forall t ol or x, reads rr t ol or x -> reads rr' t or ol x) -> (forall t ol or, fits rr' t or ol -> fits rr t ol or) ->
  (forall t, jr rr t = jr rr' t) -> wf d p n -> wf d p right ->
  jok rdef rd (fspec bi' ri li g' lo' hi') rr' d p (Some right) (Some n) o ->
  jok rdef rd sp rr d p (Some n) (Some right) o.
Proof.
  intros HB Hg Hlo Hhi Hr Hf Hjr HW HWr. destruct o as [t| |]; cbn [jok ovisit]; [|auto|].
  - intros [(H1 & H2 & H3) H4]. split.
    + split; [|split; [|auto]].
      * intros x Hx. destruct (H1 x (Hr _ _ _ _ Hx)) as [Hw Hm]. split; [assumption|]. intros c. specialize (Hm c).
        cbn [ovisit fspec JointP.sB JointP.sL JointP.sR] in *. unfold joined in *.
        destruct (lookup c (m_visit n)), (lookup c (m_visit right)); try assumption. rewrite Hm, HB. reflexivity.
      * intros HC HG. rewrite Hjr, (H2 HC (Hg HG)). cbn [ovisit].
        rewrite <- !(items_reds). destruct HC as [HM HC]. apply (msum_perm _ _ HM _ _ HC). apply Permutation_map.
        apply items_flip; [assumption|eapply wf_uniq; eassumption..].
    + intros [h Hh]. apply H4. exists h. apply Hlo. exact Hh.
  - intros [h Hh]. exists h. apply Hhi. exact Hh.
Qed.

End LeafGen2.

Lemma tcall_flip {A B V R} (op : transform_op (A * B) V R) a b : tcall (tflip op) (b, a) = tcall op (a, b).
Proof. destruct op; reflexivity. Qed.
Lemma mcall_flip {A B S X R} (op : transmute_op (A * B) S X R) a b : mcall (mflip op) (b, a) = mcall op (a, b).
Proof. destruct op; reflexivity. Qed.

(** * Readings *)
Section Reads.
Context {E : Env} {K V L W R : Type} {KK : Key K} {KL : Key L}.
Context (rdef : R) (rd : R -> R -> R).

Definition rr_tm (keep : bool) : @jread K V L W K V R (tres K V R) :=
  {| reads := fun t ol _ o => o = match t with TU _ => ol | TN n => nnode n end;
     fits := fun t ol _ => match t with TU _ => ol <> None | TN _ => True end;
     jr := tred;
     pick := fun t ol _ => match t with TU _ => ol | TN n => nnode n end;
     fl := fun t => keep && tu t;
     fr := fun _ => true |}.

Definition rr_mt (keep : bool) : @jread K V L W L W R (tres L W R) :=
  {| reads := fun t _ or o => o = match t with TU _ => or | TN n => nnode n end;
     fits := fun t _ or => match t with TU _ => or <> None | TN _ => True end;
     jr := tred;
     pick := fun t _ or => match t with TU _ => or | TN n => nnode n end;
     fl := fun _ => true;
     fr := fun t => keep && tu t |}.

Definition rr_mm {S X} : @jread K V L W S X R (nres S X R) :=
  {| reads := fun n _ _ o => o = nnode n;
     fits := fun _ _ _ => True;
     jr := nred;
     pick := fun n _ _ => nnode n;
     fl := fun _ => true;
     fr := fun _ => true |}.

Definition is_left {A} (ol o : option A) : Prop := o = ol.
Definition no_read {A B} (ol : option A) (o : option B) : Prop := False.

Lemma rr_tm_ok keep : read_ok (rr_tm keep) is_left no_read.
Proof.
  constructor; cbn; unfold is_left, no_read; try contradiction.
  - reflexivity.
  - intros t ol or o Hf H ->. apply andb_true_iff in H. destruct t; [reflexivity|]. destruct H; discriminate.
  - auto.
  - intros d p n o -> HW. split; [intros m [= <-]; assumption|]. intros os Hs. exists os. cbn. auto.
Qed.

Lemma rr_mt_ok keep : read_ok (rr_mt keep) no_read is_left.
Proof.
  constructor; cbn; unfold is_left, no_read; try contradiction.
  - reflexivity.
  - intros t ol or o Hf H ->. apply andb_true_iff in H. destruct t; [reflexivity|]. destruct H; discriminate.
  - auto.
  - intros d p n o -> HW. split; [intros m [= <-]; assumption|]. intros os Hs. exists os. cbn. auto.
Qed.

Lemma rr_mm_ok {S X} {KS : Key S} : read_ok (@rr_mm S X) no_read no_read.
Proof. constructor; cbn; unfold no_read; try contradiction; reflexivity. Qed.

Lemma tm_add_ok keep : add_ok rd (rr_tm keep) (tm_add rd keep).
Proof.
  intros a i ol or or' t Hi Ha Hf _. cbn [rr_tm fits pick jr fl fr] in *. destruct t as [r|n]; cbn [tm_add tred tu].
  - destruct ol as [l|]; [|contradiction]. cbn [unwrap bind]. rewrite push_ok by assumption. cbn [bind].
    destruct keep; [reflexivity|]. rewrite set_ul_after. reflexivity.
  - rewrite push_new_ok by assumption. cbn [bind]. rewrite set_ul_after, andb_false_r. reflexivity.
Qed.

Lemma mt_add_ok keep : add_ok rd (rr_mt keep) (mt_add rd keep).
Proof.
  intros a i ol or or' t Hi Ha Hf Hor. cbn [rr_mt fits pick jr fl fr] in *. destruct t as [r|n]; cbn [mt_add tred tu].
  - destruct Hor as [-> | ->]; [|contradiction]. destruct or as [l|]; [|contradiction]. cbn [unwrap bind]. rewrite push_ok by assumption. cbn [bind].
    destruct keep; [reflexivity|]. rewrite set_ur_after. reflexivity.
  - rewrite push_new_ok by assumption. cbn [bind]. rewrite set_ur_after, andb_false_r. reflexivity.
Qed.

Lemma mm_add_ok {S X} {KS : Key S} : add_ok rd (@rr_mm S X) (mm_add rd).
Proof. intros a i ol or or' t Hi Ha _ _. apply push_new_ok; assumption. Qed.

Lemma tm_done_ok keep : done_ok (rr_tm keep) is_left no_read tm_done.
Proof.
  intros g r nn Hf Hr. unfold tm_done. destruct (a_ul (total g r)) eqn:Hu.
  - exists (TU r). split; [reflexivity|]. split; [reflexivity|]. intros n rn. split; [discriminate|].
    intros o ->. right. left. split; [exact Hu|reflexivity].
  - rewrite Hf. exists (TN nn). split; [reflexivity|]. split; [exact Hr|]. intros n rn. split; [exact I|]. intros o ->. left. reflexivity.
Qed.

Lemma mt_done_ok keep : done_ok (rr_mt keep) no_read is_left mt_done.
Proof.
  intros g r nn Hf Hr. unfold mt_done. destruct (a_ur (total g r)) eqn:Hu.
  - exists (TU r). split; [reflexivity|]. split; [reflexivity|]. intros n rn. split; [discriminate|].
    intros o ->. right. right. split; [exact Hu|reflexivity].
  - rewrite Hf. exists (TN nn). split; [reflexivity|]. split; [exact Hr|]. intros n rn. split; [exact I|]. intros o ->. left. reflexivity.
Qed.

Lemma mm_done_ok {S X} : done_ok (@rr_mm S X) no_read no_read finish.
Proof.
  intros g r nn Hf Hr. exists nn. split; [assumption|]. split; [exact Hr|]. intros n rn. split; [exact I|]. intros o ->. left. reflexivity.
Qed.

End Reads.

(** * transform_with_transmuted and transmute_with_transformed *)
Definition lh_tm (a b : nat) : Prop := (2 <= a /\ 3 <= b)%nat.
Definition lh_mt (a b : nat) : Prop := (3 <= a /\ 2 <= b)%nat.
Lemma lh_tm_pos a b : lh_tm a b -> a <> O /\ b <> O.
Proof. unfold lh_tm. lia. Qed.
Lemma lh_mt_pos a b : lh_mt a b -> a <> O /\ b <> O.
Proof. unfold lh_mt. lia. Qed.

Lemma length_l {K V} (l : lnode K V) : (2 <= length (l_visit l))%nat.
Proof. destruct l as [k v [|]|]; cbn; lia. Qed.

Section TMT.
Context {E : Env} {K V L W R : Type} {KK : Key K} {KL : Key L}.
Context (rdef : R) (rd : R -> R -> R).

Definition sp_tm (both : transform_op ((K * V) * (L * W)) V R) (lop : transform_op (K * V) V R)
  (rop : transmute_op (L * W) K V R) : @jspec K V L W K V R :=
  fspec (tm_bi both) (tm_li lop) (tm_ri rop) (tm_gen lop rop) lh_tm lh_tm.
Definition sp_mt (both : transform_op ((K * V) * (L * W)) W R) (lop : transmute_op (K * V) L W R)
  (rop : transform_op (L * W) W R) : @jspec K V L W L W R :=
  fspec (mt_bi both) (mt_li lop) (mt_ri rop) (mt_gen lop rop) lh_mt lh_mt.

Lemma sp_tm_ok both lop rop : spec_ok (sp_tm both lop rop).
Proof. apply fspec_ok; exact lh_tm_pos. Qed.
Lemma sp_mt_ok both lop rop : spec_ok (sp_mt both lop rop).
Proof. apply fspec_ok; exact lh_mt_pos. Qed.

(** From the reading of a result to [jok]. *)
Lemma tm_fine keep both lop rop d p n right t :
  fine rdef rd (tm_bi both) (tm_li lop) (tm_ri rop) (tm_gen lop rop) lh_tm lh_tm d p (m_visit n) (m_visit right) (tout n t) (tred t) ->
  ~ (exists h, lh_tm (cnt h (m_visit n)) (cnt h (m_visit right))) ->
  jok rdef rd (sp_tm both lop rop) (rr_tm keep) d p (Some n) (Some right) (Ret t).
Proof.
  intros (H1 & H2 & H3) H4. split; [|exact H4]. split; [|split; [exact H3|destruct t; cbn; [discriminate|exact I]]].
  intros o Ho. assert (o = tout n t) as -> by (rewrite Ho; destruct t; reflexivity). split; assumption.
Qed.
Lemma mt_fine keep both lop rop d p n right t :
  fine rdef rd (mt_bi both) (mt_li lop) (mt_ri rop) (mt_gen lop rop) lh_mt lh_mt d p (m_visit n) (m_visit right) (tout right t) (tred t) ->
  ~ (exists h, lh_mt (cnt h (m_visit n)) (cnt h (m_visit right))) ->
  jok rdef rd (sp_mt both lop rop) (rr_mt keep) d p (Some n) (Some right) (Ret t).
Proof.
  intros (H1 & H2 & H3) H4. split; [|exact H4]. split; [|split; [exact H3|destruct t; cbn; [discriminate|exact I]]].
  intros o Ho. assert (o = tout right t) as -> by (rewrite Ho; destruct t; reflexivity). split; assumption.
Qed.

Lemma tout_with (n : mnode K V) (t : tres K V R) r : tout n (t_with t r) = tout n t.
Proof. destruct t as [|[]]; reflexivity. Qed.
Lemma tred_with (t : tres K V R) r : tred (t_with t r) = r.
Proof. destruct t as [|[]]; reflexivity. Qed.
Lemma nnode_with (n : nres K V R) r : nnode (n_with n r) = nnode n.
Proof. destruct n; reflexivity. Qed.
Lemma nred_with (n : nres K V R) r : nred (n_with n r) = r.
Proof. destruct n; reflexivity. Qed.
End TMT.

Section TMT2.
Context {E : Env} {K V L W R : Type} {KK : Key K} {KL : Key L}.
Context (rdef : R) (rd : R -> R -> R).

Lemma tm_apart_ok keep both lop rop d p (this : lnext K V) (right : lnext L W) :
  wf d p (next_mnode this) -> wf d p (next_mnode right) -> hashk (next_key this) <> hashk (next_key right) ->
  jkeeps (tm_bi both) (tm_li lop) (tm_ri rop) (m_visit (next_mnode this)) (m_visit (next_mnode right)) ->
  jok rdef rd (sp_tm both lop rop) (rr_tm keep) d p (Some (next_mnode this)) (Some (next_mnode right)) (tm_apart rd lop rop this right d).
Proof.
  intros HW HWr Hh HK.
  destruct (leaf_entries _ _ _ HW) as (_ & _ & Hn & _). destruct (leaf_entries _ _ _ HWr) as (_ & _ & Hnr & _).
  pose proof (y_transform rdef rd lop this Hn) as Hl. pose proof (y_transmute rdef rd rop right Hnr) as Hr.
  destruct (apart_ok rdef rd (tm_bi both) (tm_li lop) (tm_ri rop) (tm_gen lop rop) lh_tm lh_tm d p this right _ _ _ _ _ _
    HW HWr Hh HK (fun H => H) Hl Hr) as (lf & rf & Hf & HF).
  assert (HC := cnt_apart d p this right lh_tm HW HWr lh_tm_pos Hh).
  unfold tm_apart. rewrite Hf. cbn [bind]. cbn zeta in HF.
  destruct (tout (next_mnode this) (n_transform rd lop this)) as [a|] eqn:Ha; destruct (nnode (n_transmute rd rop right)) as [b|] eqn:Hb.
  - destruct HF as (c & -> & HF). cbn [bind]. apply tm_fine; assumption.
  - apply tm_fine; [|assumption]. rewrite tout_with, tred_with, Ha. assumption.
  - apply tm_fine; [|assumption]. cbn [tout tred]. rewrite nnode_with, nred_with, Hb. assumption.
  - apply tm_fine; [|assumption]. cbn [tout tred]. rewrite nnode_with, nred_with, Hb. assumption.
Qed.

Lemma mt_apart_ok keep both lop rop d p (this : lnext K V) (right : lnext L W) :
  wf d p (next_mnode this) -> wf d p (next_mnode right) -> hashk (next_key this) <> hashk (next_key right) ->
  jkeeps (mt_bi both) (mt_li lop) (mt_ri rop) (m_visit (next_mnode this)) (m_visit (next_mnode right)) ->
  jok rdef rd (sp_mt both lop rop) (rr_mt keep) d p (Some (next_mnode this)) (Some (next_mnode right)) (mt_apart rd lop rop this right d).
Proof.
  intros HW HWr Hh HK.
  destruct (leaf_entries _ _ _ HW) as (_ & _ & Hn & _). destruct (leaf_entries _ _ _ HWr) as (_ & _ & Hnr & _).
  pose proof (y_transmute rdef rd lop this Hn) as Hl. pose proof (y_transform rdef rd rop right Hnr) as Hr.
  destruct (apart_ok rdef rd (mt_bi both) (mt_li lop) (mt_ri rop) (mt_gen lop rop) lh_mt lh_mt d p this right _ _ _ _ _ _
    HW HWr Hh HK (fun H => H) Hl Hr) as (lf & rf & Hf & HF).
  assert (HC := cnt_apart d p this right lh_mt HW HWr lh_mt_pos Hh).
  unfold mt_apart. rewrite Hf. cbn [bind]. cbn zeta in HF.
  destruct (nnode (n_transmute rd lop this)) as [a|] eqn:Ha; destruct (tout (next_mnode right) (n_transform rd rop right)) as [b|] eqn:Hb.
  - destruct HF as (c & -> & HF). cbn [bind]. apply mt_fine; assumption.
  - apply mt_fine; [|assumption]. cbn [tout tred]. rewrite nnode_with, nred_with, Ha. assumption.
  - apply mt_fine; [|assumption]. rewrite tout_with, tred_with, Hb. assumption.
  - apply mt_fine; [|assumption]. rewrite tout_with, tred_with, Hb. assumption.
Qed.

(** Results with equal hashes. *)
Lemma tm_same keep both lop rop d p (this : lnext K V) (right : lnext L W) t :
  wf d p (next_mnode this) -> wf d p (next_mnode right) -> hashk (next_key this) = hashk (next_key right) ->
  jkeeps (tm_bi both) (tm_li lop) (tm_ri rop) (m_visit (next_mnode this)) (m_visit (next_mnode right)) ->
  ~ lh_tm (length (m_visit (next_mnode this))) (length (m_visit (next_mnode right))) ->
  yield rdef rd (tm_gen lop rop) (tout (next_mnode this) t) (tred t)
    (items (tm_bi both) (tm_li lop) (tm_ri rop) (m_visit (next_mnode this)) (m_visit (next_mnode right))) ->
  jok rdef rd (sp_tm both lop rop) (rr_tm keep) d p (Some (next_mnode this)) (Some (next_mnode right)) (Ret t).
Proof.
  intros HW HWr Hh HK Hc Hy. apply tm_fine; [apply leaf_same; assumption|].
  rewrite (cnt_same d p this right lh_tm) by (assumption || exact lh_tm_pos). assumption.
Qed.
Lemma mt_same keep both lop rop d p (this : lnext K V) (right : lnext L W) t :
  wf d p (next_mnode this) -> wf d p (next_mnode right) -> hashk (next_key this) = hashk (next_key right) ->
  jkeeps (mt_bi both) (mt_li lop) (mt_ri rop) (m_visit (next_mnode this)) (m_visit (next_mnode right)) ->
  ~ lh_mt (length (m_visit (next_mnode this))) (length (m_visit (next_mnode right))) ->
  yield rdef rd (mt_gen lop rop) (tout (next_mnode right) t) (tred t)
    (items (mt_bi both) (mt_li lop) (mt_ri rop) (m_visit (next_mnode this)) (m_visit (next_mnode right))) ->
  jok rdef rd (sp_mt both lop rop) (rr_mt keep) d p (Some (next_mnode this)) (Some (next_mnode right)) (Ret t).
Proof.
  intros HW HWr Hh HK Hc Hy. apply mt_fine; [apply leaf_same; assumption|].
  rewrite (cnt_same d p this right lh_mt) by (assumption || exact lh_mt_pos). assumption.
Qed.

Lemma tm_lnode_jok keep both lop rop d p (l : lnode K V) (r : lnode L W) :
  joint_ok rdef rd (sp_tm both lop rop) (rr_tm keep) d p (ML l) (ML r) (tm_lnode rd both lop rop l r d).
Proof.
  intros HW HWr HD. destruct (leaf_entries _ _ (NL l) HW) as (HU & HH & Hl & _). destruct (leaf_entries _ _ (NL r) HWr) as (HUr & HHr & Hr & _).
  destruct (N.eq_dec (hashk (l_key l)) (hashk (l_key r))) as [Hh|Hh].
  - pose proof (tm_lnode_ok rdef rd both lop rop l r d Hh Hl HU HUr) as H.
    destruct (tm_lnode rd both lop rop l r d) as [t| |]; [|contradiction|].
    + destruct H as [Hlen Hy]. apply (tm_same keep both lop rop d p (NL l) (NL r)); try assumption.
      cbn [next_mnode m_visit]. unfold lh_tm. lia.
    + cbn [jok ovisit]. apply (cnt_same d p (NL l) (NL r) lh_tm HW HWr lh_tm_pos Hh). cbn [next_mnode m_visit]. split; [apply length_l|assumption].
  - unfold tm_lnode. apply N.eqb_neq in Hh. rewrite Hh. apply N.eqb_neq in Hh. apply (tm_apart_ok keep both lop rop d p (NL l) (NL r)); assumption.
Qed.

Lemma tm_lsnode_jok keep both lop rop d p (l : lnode K V) (r : snode L W) :
  joint_ok rdef rd (sp_tm both lop rop) (rr_tm keep) d p (ML l) (MS r) (tm_lsnode rd both lop rop l r d).
Proof.
  intros HW HWr HD. destruct (leaf_entries _ _ (NL l) HW) as (HU & HH & Hl & _). unfold tm_lsnode.
  destruct (N.eqb_spec (hashk (l_key l)) (hashk (s_key r))) as [Hh|Hh].
  - apply (tm_same keep both lop rop d p (NL l) (NS r)); try assumption.
    + cbn. unfold lh_tm. lia.
    + apply tm_ls_impl_ok; assumption.
  - apply (tm_apart_ok keep both lop rop d p (NL l) (NS r)); assumption.
Qed.

Lemma tm_snode_jok keep both lop rop d p (l : snode K V) (r : snode L W) :
  joint_ok rdef rd (sp_tm both lop rop) (rr_tm keep) d p (MS l) (MS r) (tm_snode rd both lop rop l r d).
Proof.
  intros HW HWr HD. unfold tm_snode.
  destruct (N.eqb_spec (hashk (s_key l)) (hashk (s_key r))) as [Hh|Hh].
  - apply (tm_same keep both lop rop d p (NS l) (NS r)); try assumption.
    + cbn. unfold lh_tm. lia.
    + apply tm_s_items.
  - apply (tm_apart_ok keep both lop rop d p (NS l) (NS r)); assumption.
Qed.

Lemma mt_lsnode_jok keep both lop rop d p (l : lnode K V) (r : snode L W) :
  joint_ok rdef rd (sp_mt both lop rop) (rr_mt keep) d p (ML l) (MS r) (mt_lsnode rd both lop rop l r d).
Proof.
  intros HW HWr HD. destruct (leaf_entries _ _ (NL l) HW) as (HU & HH & Hl & _). unfold mt_lsnode.
  destruct (N.eqb_spec (hashk (l_key l)) (hashk (s_key r))) as [Hh|Hh].
  - apply (mt_same keep both lop rop d p (NL l) (NS r)); try assumption.
    + cbn. unfold lh_mt. lia.
    + apply mt_ls_impl_ok; assumption.
  - apply (mt_apart_ok keep both lop rop d p (NL l) (NS r)); assumption.
Qed.

Lemma mt_snode_jok keep both lop rop d p (l : snode K V) (r : snode L W) :
  joint_ok rdef rd (sp_mt both lop rop) (rr_mt keep) d p (MS l) (MS r) (mt_snode rd both lop rop l r d).
Proof.
  intros HW HWr HD. unfold mt_snode.
  destruct (N.eqb_spec (hashk (s_key l)) (hashk (s_key r))) as [Hh|Hh].
  - apply (mt_same keep both lop rop d p (NS l) (NS r)); try assumption.
    + cbn. unfold lh_mt. lia.
    + apply mt_s_items.
  - apply (mt_apart_ok keep both lop rop d p (NS l) (NS r)); assumption.
Qed.

End TMT2.

(** ** Mirrored operations *)
Section TMFlip.
Context {E : Env} {K V L W R : Type} {KK : Key K} {KL : Key L}.
Context (rdef : R) (rd : R -> R -> R).

Lemma tm_from_mt keep keep' both lop rop d p (n : mnode K V) (right : mnode L W) o :
  joint_ok rdef rd (sp_mt (tflip both) rop lop) (rr_mt keep') d p right n o ->
  joint_ok rdef rd (sp_tm both lop rop) (rr_tm keep) d p n right o.
Proof.
  intros H HW HWr HD.
  assert (HB : forall e e', mt_bi (tflip both) e' e = tm_bi both e e') by (intros; unfold mt_bi, tm_bi; rewrite tcall_flip; reflexivity).
  assert (HK := jkeeps_flip (tm_bi both) (tm_li lop) (tm_ri rop) (mt_bi (tflip both)) _ _ HB HD).
  specialize (H HWr HW HK). revert H.
  refine (jok_flip rdef rd (tm_bi both) (tm_li lop) (tm_ri rop) _ lh_tm lh_tm (mt_bi (tflip both)) _ lh_mt lh_mt
    (rr_tm keep) (rr_mt keep') d p n right o HB _ _ _ _ _ _ HW HWr).
  - intros [H1 H2]. split; assumption.
  - unfold lh_tm, lh_mt. lia.
  - unfold lh_tm, lh_mt. lia.
  - cbn. auto.
  - cbn. auto.
  - reflexivity.
Qed.

Lemma mt_from_tm keep keep' both lop rop d p (n : mnode K V) (right : mnode L W) o :
  joint_ok rdef rd (sp_tm (tflip both) rop lop) (rr_tm keep') d p right n o ->
  joint_ok rdef rd (sp_mt both lop rop) (rr_mt keep) d p n right o.
Proof.
  intros H HW HWr HD.
  assert (HB : forall e e', tm_bi (tflip both) e' e = mt_bi both e e') by (intros; unfold mt_bi, tm_bi; rewrite tcall_flip; reflexivity).
  assert (HK := jkeeps_flip (mt_bi both) (mt_li lop) (mt_ri rop) (tm_bi (tflip both)) _ _ HB HD).
  specialize (H HWr HW HK). revert H.
  refine (jok_flip rdef rd (mt_bi both) (mt_li lop) (mt_ri rop) _ lh_mt lh_mt (tm_bi (tflip both)) _ lh_tm lh_tm
    (rr_mt keep) (rr_tm keep') d p n right o HB _ _ _ _ _ _ HW HWr).
  - intros [H1 H2]. split; assumption.
  - unfold lh_tm, lh_mt. lia.
  - unfold lh_tm, lh_mt. lia.
  - cbn. auto.
  - cbn. auto.
  - reflexivity.
Qed.

End TMFlip.

(** ** One side only *)
Section Ones.
Context {E : Env} {K V S X R : Type} {KK : Key K} {KS : Key S}.
Context (rdef : R) (rd : R -> R -> R).

Lemma t_map_lookup (op : transform_op (K * V) V R) l c : uniq l ->
  lookup c (t_map op l) = match lookup c l with Some e => t_to (tcall op e) e | None => None end.
Proof.
  intros HU. unfold t_map. rewrite (cls_map_lookup _ _ c (t_cls op l) HU). destruct (lookup c l) as [e|]; [|reflexivity].
  destruct (tcall op e); reflexivity.
Qed.

Lemma m_map_lookup (op : transmute_op (K * V) S X R) l c : uniq l -> m_keeps (mcall op) l ->
  lookup c (m_map (mcall op) l) = match lookup c l with Some e => m_to (mcall op e) | None => None end.
Proof.
  intros HU HK. unfold m_map. rewrite (cls_map_lookup _ _ c (m_cls _ l HK) HU). destruct (lookup c l) as [e|]; [|reflexivity].
  destruct (mcall op e); reflexivity.
Qed.

End Ones.

Section TMWhole.
Context {E : Env} {K V L W R : Type} {KK : Key K} {KL : Key L}.
Context (rdef : R) (rd : R -> R -> R) (st : strategy).

Section One.
Context (both : transform_op ((K * V) * (L * W)) V R) (lop : transform_op (K * V) V R) (rop : transmute_op (L * W) K V R).

Lemma tm_keeps_right lr : uniq lr -> jkeeps (tm_bi both) (tm_li lop) (tm_ri rop) [] lr -> m_keeps (mcall rop) lr.
Proof.
  intros HU HK e k v r He Hc. apply (HK (ecls e) (k, v)). rewrite (in_lookup _ _ HU He). cbn. rewrite Hc. reflexivity.
Qed.

Lemma tm_lone_ok keep : lone_ok rdef rd (sp_tm both lop rop) (rr_tm keep) (tm_lone rdef rd st lop).
Proof.
  intros d p n HW _. destruct (m_transform_any rdef rd st lop d p n HW) as (t & H1 & H2 & H3 & H4).
  exists t. split; [assumption|]. pose proof (wf_uniq _ _ _ HW) as HU. split; [|split].
  - intros o Ho. assert (o = tout n t) as -> by (rewrite Ho; destruct t; reflexivity). split; [assumption|].
    intros c. rewrite H2, t_map_lookup by assumption. cbn [ovisit]. unfold joined. destruct (lookup c (m_visit n)); reflexivity.
  - intros [HM _] [Hg _]. cbn [rr_tm jr ovisit]. rewrite (H3 HM Hg). unfold sp_tm. rewrite <- items_reds, items_left, map_map. reflexivity.
  - destruct t; cbn; [discriminate|exact I].
Qed.

Lemma tm_rone_ok keep : rone_ok rdef rd (sp_tm both lop rop) (rr_tm keep) (tm_rone rdef rd rop).
Proof.
  intros d p n HW HD. pose proof (wf_uniq _ _ _ HW) as HU. pose proof (tm_keeps_right _ HU HD) as HK.
  destruct (m_transmute_any rdef rd rop d p n HW HK) as (t & H1 & H2 & H3 & H4).
  exists (TN t). unfold tm_rone. rewrite H1. split; [reflexivity|]. split; [|split].
  - intros o ->. split; [assumption|]. intros c. rewrite H2, m_map_lookup by assumption. cbn [ovisit]. unfold joined. cbn [lookup find].
    destruct (lookup c (m_visit n)); reflexivity.
  - intros [HM _] [_ Hg]. cbn [rr_tm jr tred ovisit]. rewrite (H3 HM Hg). unfold sp_tm. rewrite <- items_reds, items_right, map_map. reflexivity.
  - exact I.
Qed.

Lemma tm_leaf_ok keep : leaf_ok2 rdef rd (sp_tm both lop rop) (rr_tm keep) (tm_leaf rd both lop rop).
Proof.
  intros d p [l|l] [r|r]; cbn [next_mnode tm_leaf].
  - apply tm_lnode_jok.
  - apply tm_lsnode_jok.
  - apply (tm_from_mt rdef rd keep true). apply mt_lsnode_jok.
  - apply tm_snode_jok.
Qed.

Lemma tm_tree_leaf_ok keep d p n right :
  joint_ok rdef rd (sp_tm both lop rop) (rr_tm keep) d p n (next_mnode right) (tm_tree_leaf rdef rd st both lop rop right n d).
Proof.
  unfold tm_tree_leaf. set (k := match right with NL _ => false | NS _ => true end).
  exact (m_leaf_ok rdef rd (sp_tm both lop rop) (rr_tm k) is_left no_read (sp_tm_ok _ _ _) (rr_tm_ok k) _ _ _ _ _
    (tm_add_ok rd k) (tm_lone_ok k) (tm_rone_ok k) (tm_done_ok k) (tm_leaf_ok k) n d p right).
Qed.

End One.
End TMWhole.

Section MTWhole.
Context {E : Env} {K V L W R : Type} {KK : Key K} {KL : Key L}.
Context (rdef : R) (rd : R -> R -> R) (st : strategy).
Context (both : transform_op ((K * V) * (L * W)) W R) (lop : transmute_op (K * V) L W R) (rop : transform_op (L * W) W R).

Lemma mt_keeps_left ln : uniq ln -> jkeeps (mt_bi both) (mt_li lop) (mt_ri rop) ln [] -> m_keeps (mcall lop) ln.
Proof.
  intros HU HK e k v r He Hc. apply (HK (ecls e) (k, v)). rewrite (in_lookup _ _ HU He). cbn. rewrite Hc. reflexivity.
Qed.

Lemma mt_rone_ok keep : rone_ok rdef rd (sp_mt both lop rop) (rr_mt keep) (mt_rone rdef rd st rop).
Proof.
  intros d p n HW _. destruct (m_transform_any rdef rd st rop d p n HW) as (t & H1 & H2 & H3 & H4).
  exists t. split; [assumption|]. pose proof (wf_uniq _ _ _ HW) as HU. split; [|split].
  - intros o Ho. assert (o = tout n t) as -> by (rewrite Ho; destruct t; reflexivity). split; [assumption|].
    intros c. rewrite H2, t_map_lookup by assumption. cbn [ovisit]. unfold joined. cbn [lookup find]. destruct (lookup c (m_visit n)); reflexivity.
  - intros [HM _] [_ Hg]. cbn [rr_mt jr ovisit]. rewrite (H3 HM Hg). unfold sp_mt. rewrite <- items_reds, items_right, map_map. reflexivity.
  - destruct t; cbn; [discriminate|exact I].
Qed.

Lemma mt_lone_ok keep : lone_ok rdef rd (sp_mt both lop rop) (rr_mt keep) (mt_lone rdef rd lop).
Proof.
  intros d p n HW HD. pose proof (wf_uniq _ _ _ HW) as HU. pose proof (mt_keeps_left _ HU HD) as HK.
  destruct (m_transmute_any rdef rd lop d p n HW HK) as (t & H1 & H2 & H3 & H4).
  exists (TN t). unfold mt_lone. rewrite H1. split; [reflexivity|]. split; [|split].
  - intros o ->. split; [assumption|]. intros c. rewrite H2, m_map_lookup by assumption. cbn [ovisit]. unfold joined.
    destruct (lookup c (m_visit n)); reflexivity.
  - intros [HM _] [Hg _]. cbn [rr_mt jr tred ovisit]. rewrite (H3 HM Hg). unfold sp_mt. rewrite <- items_reds, items_left, map_map. reflexivity.
  - exact I.
Qed.

Lemma mt_leaf_ok keep : leaf_ok2 rdef rd (sp_mt both lop rop) (rr_mt keep) (mt_leaf rd both lop rop).
Proof.
  intros d p [l|l] [r|r]; cbn [next_mnode mt_leaf].
  - apply (mt_from_tm rdef rd keep true). apply tm_lnode_jok.
  - apply mt_lsnode_jok.
  - apply (mt_from_tm rdef rd keep true). apply tm_lsnode_jok.
  - apply mt_snode_jok.
Qed.

Lemma mt_tree_leaf_ok keep d p n right :
  joint_ok rdef rd (sp_mt both lop rop) (rr_mt keep) d p n (next_mnode right) (mt_tree_leaf rdef rd st both lop rop right n d).
Proof.
  unfold mt_tree_leaf. set (k := match right with NL _ => false | NS _ => true end).
  exact (m_leaf_ok rdef rd (sp_mt both lop rop) (rr_mt k) no_read is_left (sp_mt_ok _ _ _) (rr_mt_ok k) _ _ _ _ _
    (mt_add_ok rd k) (mt_lone_ok k) (mt_rone_ok k) (mt_done_ok k) (mt_leaf_ok k) n d p right).
Qed.

End MTWhole.

Section Whole.
Context {E : Env} {K V L W R : Type} {KK : Key K} {KL : Key L}.
Context (rdef : R) (rd : R -> R -> R) (st : strategy).

Theorem m_tm_ok both lop rop d p (n : mnode K V) (right : mnode L W) :
  joint_ok rdef rd (sp_tm both lop rop) (rr_tm true) d p n right (m_tm rdef rd st both lop rop n right d).
Proof.
  apply (m_joint_ok rdef rd (sp_tm both lop rop) (rr_tm true) is_left no_read (sp_tm_ok _ _ _) (rr_tm_ok true) _ _ _ _ _
    (tm_add_ok rd true) (tm_lone_ok rdef rd st both lop rop true) (tm_rone_ok rdef rd both lop rop true)
    (tm_done_ok true) (tm_leaf_ok rdef rd both lop rop true)).
  - intros. apply tm_tree_leaf_ok.
  - intros. apply (tm_from_mt rdef rd true true). apply mt_tree_leaf_ok.
  - discriminate.
Qed.

Theorem m_mt_ok both lop rop d p (n : mnode K V) (right : mnode L W) :
  joint_ok rdef rd (sp_mt both lop rop) (rr_mt true) d p n right (m_mt rdef rd st both lop rop n right d).
Proof.
  apply (m_joint_ok rdef rd (sp_mt both lop rop) (rr_mt true) no_read is_left (sp_mt_ok _ _ _) (rr_mt_ok true) _ _ _ _ _
    (mt_add_ok rd true) (mt_lone_ok rdef rd both lop rop true) (mt_rone_ok rdef rd st both lop rop true)
    (mt_done_ok true) (mt_leaf_ok rdef rd both lop rop true)).
  - intros. apply mt_tree_leaf_ok.
  - intros. apply (mt_from_tm rdef rd true true). apply tm_tree_leaf_ok.
  - discriminate.
Qed.

End Whole.

(** * transmute_with_transmuted *)
Definition lo_mm (a b : nat) : Prop := (3 <= a /\ 3 <= b)%nat.
Definition hi_mm (a b : nat) : Prop := (2 <= a /\ 3 <= b \/ 3 <= a /\ 2 <= b)%nat.
Lemma lo_mm_pos a b : lo_mm a b -> a <> O /\ b <> O.
Proof. unfold lo_mm. lia. Qed.
Lemma hi_mm_pos a b : hi_mm a b -> a <> O /\ b <> O.
Proof. unfold hi_mm. lia. Qed.

Section MMNode.
Context {E : Env} {K V L W S X R : Type} {KK : Key K} {KL : Key L} {KS : Key S}.
Context (rdef : R) (rd : R -> R -> R).

Definition sp_mm (both : transmute_op ((K * V) * (L * W)) S X R) (lop : transmute_op (K * V) S X R)
  (rop : transmute_op (L * W) S X R) : @jspec K V L W S X R :=
  fspec (mm_bi both) (mm_li lop) (mm_ri rop) (mm_gen lop rop) lo_mm hi_mm.

Lemma sp_mm_ok both lop rop : spec_ok (sp_mm both lop rop).
Proof. apply fspec_ok; [exact lo_mm_pos|exact hi_mm_pos]. Qed.

Context (both : transmute_op ((K * V) * (L * W)) S X R) (lop : transmute_op (K * V) S X R)
  (rop : transmute_op (L * W) S X R).
Notation bi := (mm_bi both).
Notation li := (mm_li lop).
Notation ri := (mm_ri rop).
Notation g := (mm_gen lop rop).
Notation jok := (jok rdef rd (sp_mm both lop rop) rr_mm).
Notation joint_ok := (joint_ok rdef rd (sp_mm both lop rop) rr_mm).

Lemma mm_fine d p n right t :
  fine rdef rd bi li ri g lo_mm hi_mm d p (m_visit n) (m_visit right) (nnode t) (nred t) ->
  ~ (exists h, lo_mm (cnt h (m_visit n)) (cnt h (m_visit right))) -> jok d p (Some n) (Some right) (Ret t).
Proof.
  intros (H1 & H2 & H3) H4. split; [|exact H4]. split; [|split; [exact H3|exact I]]. intros o ->. split; assumption.
Qed.

Lemma mm_apart_ok d p (this : lnext K V) (right : lnext L W) :
  wf d p (next_mnode this) -> wf d p (next_mnode right) -> hashk (next_key this) <> hashk (next_key right) ->
  jkeeps bi li ri (m_visit (next_mnode this)) (m_visit (next_mnode right)) ->
  jok d p (Some (next_mnode this)) (Some (next_mnode right)) (mm_apart rd lop rop this right d).
Proof.
  intros HW HWr Hh HK.
  destruct (leaf_entries _ _ _ HW) as (_ & _ & Hn & _). destruct (leaf_entries _ _ _ HWr) as (_ & _ & Hnr & _).
  pose proof (y_transmute rdef rd lop this Hn) as Hl. pose proof (y_transmute rdef rd rop right Hnr) as Hr.
  destruct (apart_ok rdef rd bi li ri g lo_mm hi_mm d p this right _ _ _ _ _ _
    HW HWr Hh HK (fun H => H) Hl Hr) as (lf & rf & Hf & HF).
  assert (HC := cnt_apart d p this right lo_mm HW HWr lo_mm_pos Hh).
  unfold mm_apart. rewrite Hf. cbn [bind]. cbn zeta in HF.
  destruct (nnode (n_transmute rd lop this)) as [a|] eqn:Ha; destruct (nnode (n_transmute rd rop right)) as [b|] eqn:Hb.
  - destruct HF as (c & -> & HF). cbn [bind]. apply mm_fine; assumption.
  - apply mm_fine; [|assumption]. rewrite nnode_with, nred_with, Ha. assumption.
  - apply mm_fine; [|assumption]. rewrite nnode_with, nred_with, Hb. assumption.
  - apply mm_fine; [|assumption]. rewrite nnode_with, nred_with, Hb. assumption.
Qed.

Lemma mm_same d p (this : lnext K V) (right : lnext L W) t :
  wf d p (next_mnode this) -> wf d p (next_mnode right) -> hashk (next_key this) = hashk (next_key right) ->
  jkeeps bi li ri (m_visit (next_mnode this)) (m_visit (next_mnode right)) ->
  ~ lo_mm (length (m_visit (next_mnode this))) (length (m_visit (next_mnode right))) ->
  yield rdef rd g (nnode t) (nred t) (items bi li ri (m_visit (next_mnode this)) (m_visit (next_mnode right))) ->
  jok d p (Some (next_mnode this)) (Some (next_mnode right)) (Ret t).
Proof.
  intros HW HWr Hh HK Hc Hy. apply mm_fine; [apply leaf_same; assumption|].
  rewrite (cnt_same d p this right lo_mm) by (assumption || exact lo_mm_pos). assumption.
Qed.

Lemma mm_lnode_jok d p (l : lnode K V) (r : lnode L W) : joint_ok d p (ML l) (ML r) (mm_lnode rd both lop rop l r d).
Proof.
  intros HW HWr HD. destruct (leaf_entries _ _ (NL l) HW) as (HU & HH & Hl & _). destruct (leaf_entries _ _ (NL r) HWr) as (HUr & HHr & Hr & _).
  destruct (N.eq_dec (hashk (l_key l)) (hashk (l_key r))) as [Hh|Hh].
  - pose proof (mm_lnode_ok rdef rd both lop rop l r d Hh Hl HU HUr) as H.
    destruct (mm_lnode rd both lop rop l r d) as [t| |]; [|contradiction|].
    + destruct H as [Hlen Hy]. apply (mm_same d p (NL l) (NL r)); try assumption.
      cbn [next_mnode m_visit]. unfold lo_mm. lia.
    + cbn [JointP.jok ovisit]. apply (cnt_same d p (NL l) (NL r) hi_mm HW HWr hi_mm_pos Hh). cbn [next_mnode m_visit].
      left. split; [apply length_l|assumption].
  - unfold mm_lnode. apply N.eqb_neq in Hh. rewrite Hh. apply N.eqb_neq in Hh. apply (mm_apart_ok d p (NL l) (NL r)); assumption.
Qed.

Lemma mm_lsnode_jok d p (l : lnode K V) (r : snode L W) : joint_ok d p (ML l) (MS r) (mm_lsnode rd both lop rop l r d).
Proof.
  intros HW HWr HD. destruct (leaf_entries _ _ (NL l) HW) as (HU & HH & Hl & _). unfold mm_lsnode.
  destruct (N.eqb_spec (hashk (l_key l)) (hashk (s_key r))) as [Hh|Hh].
  - apply (mm_same d p (NL l) (NS r)); try assumption.
    + cbn. unfold lo_mm. lia.
    + apply mm_ls_impl_ok; assumption.
  - apply (mm_apart_ok d p (NL l) (NS r)); assumption.
Qed.

Lemma mm_snode_jok d p (l : snode K V) (r : snode L W) : joint_ok d p (MS l) (MS r) (mm_snode rd both lop rop l r d).
Proof.
  intros HW HWr HD. unfold mm_snode.
  destruct (N.eqb_spec (hashk (s_key l)) (hashk (s_key r))) as [Hh|Hh].
  - apply (mm_same d p (NS l) (NS r)); try assumption.
    + cbn. unfold lo_mm. lia.
    + apply mm_values_items.
  - apply (mm_apart_ok d p (NS l) (NS r)); assumption.
Qed.

Lemma mm_keeps_left ln : uniq ln -> jkeeps bi li ri ln [] -> m_keeps (mcall lop) ln.
Proof.
  intros HU HK e k v r He Hc. apply (HK (ecls e) (k, v)). rewrite (in_lookup _ _ HU He). cbn. rewrite Hc. reflexivity.
Qed.
Lemma mm_keeps_right lr : uniq lr -> jkeeps bi li ri [] lr -> m_keeps (mcall rop) lr.
Proof.
  intros HU HK e k v r He Hc. apply (HK (ecls e) (k, v)). rewrite (in_lookup _ _ HU He). cbn. rewrite Hc. reflexivity.
Qed.

Lemma mm_lone_ok : lone_ok rdef rd (sp_mm both lop rop) rr_mm (m_transmute rdef rd lop).
Proof.
  intros d p n HW HD. pose proof (wf_uniq _ _ _ HW) as HU. pose proof (mm_keeps_left _ HU HD) as HK.
  destruct (m_transmute_any rdef rd lop d p n HW HK) as (t & H1 & H2 & H3 & H4).
  exists t. split; [assumption|]. split; [|split].
  - intros o ->. split; [assumption|]. intros c. rewrite H2, m_map_lookup by assumption. cbn [ovisit]. unfold joined.
    destruct (lookup c (m_visit n)); reflexivity.
  - intros [HM _] [Hg _]. cbn [rr_mm jr ovisit]. rewrite (H3 HM Hg). unfold sp_mm. rewrite <- items_reds, items_left, map_map. reflexivity.
  - exact I.
Qed.

Lemma mm_rone_ok : rone_ok rdef rd (sp_mm both lop rop) rr_mm (m_transmute rdef rd rop).
Proof.
  intros d p n HW HD. pose proof (wf_uniq _ _ _ HW) as HU. pose proof (mm_keeps_right _ HU HD) as HK.
  destruct (m_transmute_any rdef rd rop d p n HW HK) as (t & H1 & H2 & H3 & H4).
  exists t. split; [assumption|]. split; [|split].
  - intros o ->. split; [assumption|]. intros c. rewrite H2, m_map_lookup by assumption. cbn [ovisit]. unfold joined. cbn [lookup find].
    destruct (lookup c (m_visit n)); reflexivity.
  - intros [HM _] [_ Hg]. cbn [rr_mm jr ovisit]. rewrite (H3 HM Hg). unfold sp_mm. rewrite <- items_reds, items_right, map_map. reflexivity.
  - exact I.
Qed.

End MMNode.

Section MMWhole.
Context {E : Env} {S X R : Type} {KS : Key S}.
Context (rdef : R) (rd : R -> R -> R).

Lemma mm_from_mm {K V L W} {KK : Key K} {KL : Key L} (both : transmute_op ((K * V) * (L * W)) S X R) lop rop d p (n : mnode K V) (right : mnode L W) o :
  joint_ok rdef rd (sp_mm (mflip both) rop lop) rr_mm d p right n o ->
  joint_ok rdef rd (sp_mm both lop rop) rr_mm d p n right o.
Proof.
  intros H HW HWr HD.
  assert (HB : forall e e', mm_bi (mflip both) e' e = mm_bi both e e') by (intros; unfold mm_bi; rewrite mcall_flip; reflexivity).
  assert (HK := jkeeps_flip (mm_bi both) (mm_li lop) (mm_ri rop) (mm_bi (mflip both)) _ _ HB HD).
  specialize (H HWr HW HK). revert H.
  refine (jok_flip rdef rd (mm_bi both) (mm_li lop) (mm_ri rop) _ lo_mm hi_mm (mm_bi (mflip both)) _ lo_mm hi_mm
    rr_mm rr_mm d p n right o HB _ _ _ _ _ _ HW HWr).
  - intros [H1 H2]. split; assumption.
  - unfold lo_mm. lia.
  - unfold hi_mm. lia.
  - cbn. auto.
  - cbn. auto.
  - reflexivity.
Qed.

Lemma mm_leaf_ok {K V L W} {KK : Key K} {KL : Key L} (both : transmute_op ((K * V) * (L * W)) S X R) lop rop :
  leaf_ok2 rdef rd (sp_mm both lop rop) rr_mm (mm_leaf rd both lop rop).
Proof.
  intros d p [l|l] [r|r]; cbn [next_mnode mm_leaf].
  - apply mm_lnode_jok.
  - apply mm_lsnode_jok.
  - apply mm_from_mm. apply mm_lsnode_jok.
  - apply mm_snode_jok.
Qed.

Lemma mm_tree_leaf_ok {K V L W} {KK : Key K} {KL : Key L} (both : transmute_op ((K * V) * (L * W)) S X R) lop rop d p n right :
  joint_ok rdef rd (sp_mm both lop rop) rr_mm d p n (next_mnode right) (mm_tree_leaf rdef rd both lop rop right n d).
Proof.
  exact (m_leaf_ok rdef rd (sp_mm both lop rop) rr_mm no_read no_read (sp_mm_ok _ _ _) rr_mm_ok _ _ _ _ _
    (mm_add_ok rd) (mm_lone_ok rdef rd both lop rop) (mm_rone_ok rdef rd both lop rop) mm_done_ok (mm_leaf_ok both lop rop) n d p right).
Qed.

Theorem m_mm_ok {K V L W} {KK : Key K} {KL : Key L} (both : transmute_op ((K * V) * (L * W)) S X R) lop rop d p (n : mnode K V) (right : mnode L W) :
  joint_ok rdef rd (sp_mm both lop rop) rr_mm d p n right (m_mm rdef rd both lop rop n right d).
Proof.
  apply (m_joint_ok rdef rd (sp_mm both lop rop) rr_mm no_read no_read (sp_mm_ok _ _ _) rr_mm_ok _ _ _ _ _
    (mm_add_ok rd) (mm_lone_ok rdef rd both lop rop) (mm_rone_ok rdef rd both lop rop) mm_done_ok (mm_leaf_ok both lop rop)).
  - intros. apply mm_tree_leaf_ok.
  - intros. apply mm_from_mm. apply mm_tree_leaf_ok.
  - discriminate.
Qed.

End MMWhole.
