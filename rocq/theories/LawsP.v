(** Laws of bulk operations. *)
From Coq Require Import NArith Arith List Bool Lia Permutation.
From Verif Require Import Base Words Flag Bia BiaP Node Spec SpecP SpecJ SpecS SpecT Inv Api ApiP Reach ReachP MapP Trans Transform Joint JointT
  TransMapP JoinP JointMapP JointTMapP Sets SetP Fnv FnvMapP FnvSetP Brackets SpecLaws Laws.
Import ListNotations.
Open Scope N_scope.

(** * Set expressions *)
Section SetExpr.
Context {E : Env} {K : Type} {KK : Key K} (st : strategy) (env : nat -> tset K) (HE : forall i, reachable (env i)).

Definition okc (s : tset K) (g : forall Q (KQ : Key Q), Q -> bool) : Prop :=
  reachable s /\ forall Q (KQ : Key Q) (q : Q), contains s q = g Q KQ q.

Lemma combine_inv both lop rop o1 o2 s : combine (KK := KK) st both lop rop o1 o2 = Ret s ->
  exists s1 s2 r o, o1 = Ret s1 /\ o2 = Ret s2 /\ set_tt tt (fun _ _ => tt) st both lop rop s1 s2 = Ret (s, r, o).
Proof.
  unfold combine. destruct o1 as [s1| |]; cbn [bind]; try discriminate. destruct o2 as [s2| |]; cbn [bind]; try discriminate.
  destruct (set_tt _ _ _ _ _ _ s1 s2) as [[[s' r] o]| |] eqn:H; cbn [bind]; try discriminate.
  intros [= <-]. exists s1, s2, r, o. auto.
Qed.

Theorem xeval_contains x : forall s, xeval st env x = Ret s ->
  reachable s /\ forall Q (KQ : Key Q) (q : Q), contains s q = xholds (fun i => contains (env i) q) x.
Proof.
  induction x as [i|x IHx y IHy|x IHx y IHy|x IHx y IHy|x IHx y IHy]; intros s H; cbn [xeval xholds] in *.
  - injection H as <-. auto.
  - apply combine_inv in H. destruct H as (s1 & s2 & r & o & H1 & H2 & H). destruct (IHx _ H1) as [R1 C1], (IHy _ H2) as [R2 C2].
    destruct (set_union _ _ st tt tt tt s1 s2 s r o R1 R2 H) as (HR & HC & _). split; [assumption|]. intros Q KQ q. rewrite HC, C1, C2. reflexivity.
  - apply combine_inv in H. destruct H as (s1 & s2 & r & o & H1 & H2 & H). destruct (IHx _ H1) as [R1 C1], (IHy _ H2) as [R2 C2].
    destruct (set_intersection _ _ st tt tt tt s1 s2 s r o R1 R2 H) as (HR & HC & _). split; [assumption|]. intros Q KQ q. rewrite HC, C1, C2. reflexivity.
  - apply combine_inv in H. destruct H as (s1 & s2 & r & o & H1 & H2 & H). destruct (IHx _ H1) as [R1 C1], (IHy _ H2) as [R2 C2].
    destruct (set_difference _ _ st tt tt tt s1 s2 s r o R1 R2 H) as (HR & HC & _). split; [assumption|]. intros Q KQ q. rewrite HC, C1, C2. reflexivity.
  - apply combine_inv in H. destruct H as (s1 & s2 & r & o & H1 & H2 & H). destruct (IHx _ H1) as [R1 C1], (IHy _ H2) as [R2 C2].
    destruct (set_symmetric_difference _ _ st tt tt tt s1 s2 s r o R1 R2 H) as (HR & HC & _). split; [assumption|]. intros Q KQ q. rewrite HC, C1, C2. reflexivity.
Qed.
End SetExpr.

Section Members.
Context {E : Env} {K : Type} {KK : Key K}.

Lemma set_classes (s : tset K) : reachable s -> NoDup (map cls (set_visit s)) /\
  (forall c : C, contains s c = true <-> In c (map cls (set_visit s))) /\ set_size s = N.of_nat (length (map cls (set_visit s))).
Proof.
  intros HR. pose proof (reachable_mwf _ HR) as HW. unfold set_visit. rewrite map_map. split; [exact (mwf_uniq _ HW)|]. split.
  - intros c. rewrite contains_has, has_lookup by assumption. change (cls c) with c. rewrite in_map_iff. split.
    + destruct (lookup c (map_visit s)) as [e|] eqn:H; [|discriminate]. intros _. apply lookup_in in H. exists e. split; apply H.
    + intros (e & He & Hi). rewrite <- He. change (cls (fst e)) with (ecls e). rewrite (in_lookup _ _ (mwf_uniq _ HW) Hi). reflexivity.
  - rewrite map_length. exact (mwf_size _ HW).
Qed.

Lemma members_le (s t : tset K) : reachable s -> reachable t -> (forall c : C, contains s c = true -> contains t c = true) ->
  set_size s <= set_size t.
Proof.
  intros HR HRt H. destruct (set_classes s HR) as (N1 & I1 & S1), (set_classes t HRt) as (_ & I2 & S2). rewrite S1, S2.
  assert (length (map cls (set_visit s)) <= length (map cls (set_visit t)))%nat; [|lia].
  apply NoDup_incl_length; [assumption|]. intros c Hc. apply I2, H, I1, Hc.
Qed.
Lemma members_eq (s t : tset K) : reachable s -> reachable t -> (forall c : C, contains s c = contains t c) ->
  set_size s = set_size t /\ Permutation (map cls (set_visit s)) (map cls (set_visit t)).
Proof.
  intros HR HRt H. split.
  - apply N.le_antisymm; apply members_le; try assumption; intros c; rewrite H; auto.
  - destruct (set_classes s HR) as (N1 & I1 & _), (set_classes t HRt) as (N2 & I2 & _).
    apply NoDup_Permutation; [assumption..|]. intros c. rewrite <- I1, <- I2, H. reflexivity.
Qed.

Theorem set_identities st st' (env : nat -> tset K) x y s t : (forall i, reachable (env i)) ->
  xeval st env x = Ret s -> xeval st' env y = Ret t -> (forall b, xholds b x = xholds b y) ->
  (forall Q (KQ : Key Q) (q : Q), contains s q = contains t q) /\ set_size s = set_size t /\
  Permutation (map cls (set_visit s)) (map cls (set_visit t)).
Proof.
  intros HE Hs Ht H. destruct (xeval_contains st env HE x s Hs) as [R1 C1], (xeval_contains st' env HE y t Ht) as [R2 C2].
  assert (HC : forall Q (KQ : Key Q) (q : Q), contains s q = contains t q) by (intros; rewrite C1, C2; apply H).
  split; [exact HC|]. apply members_eq; try assumption. intros c. apply HC.
Qed.
Theorem set_inclusions st st' (env : nat -> tset K) x y s t : (forall i, reachable (env i)) ->
  xeval st env x = Ret s -> xeval st' env y = Ret t -> (forall b, xholds b x = true -> xholds b y = true) ->
  (forall Q (KQ : Key Q) (q : Q), contains s q = true -> contains t q = true) /\ set_size s <= set_size t.
Proof.
  intros HE Hs Ht H. destruct (xeval_contains st env HE x s Hs) as [R1 C1], (xeval_contains st' env HE y t Ht) as [R2 C2].
  assert (HC : forall Q (KQ : Key Q) (q : Q), contains s q = true -> contains t q = true) by (intros Q KQ q; rewrite C1, C2; apply H).
  split; [exact HC|]. apply members_le; try assumption. intros c. apply HC.
Qed.

Theorem xeval_default {size} (HK : default_keys size) (Hs : (size <= 4)%nat) st (env : nat -> tset K) x :
  (forall i, reachable (env i)) -> exists s, xeval st env x = Ret s.
Proof.
  intros HE.
  assert (HC : forall both lop rop o1 o2 s1 s2, o1 = Ret s1 -> o2 = Ret s2 -> reachable s1 -> reachable s2 ->
    exists s, combine (KK := KK) st both lop rop o1 o2 = Ret s).
  { intros both lop rop o1 o2 s1 s2 -> -> R1 R2. destruct (dks_tt HK Hs tt (fun _ _ => tt) st both lop rop s1 s2 R1 R2) as (s & r & o & H & _).
    exists s. unfold combine. cbn [bind]. rewrite H. reflexivity. }
  induction x as [i|x [s1 H1] y [s2 H2]|x [s1 H1] y [s2 H2]|x [s1 H1] y [s2 H2]|x [s1 H1] y [s2 H2]]; cbn [xeval]; [eauto|..];
    eapply HC; try eassumption; eapply xeval_contains; eassumption.
Qed.
End Members.

(** * Merging many maps *)
Section UnionWith.
Context {E : Env} {K V : Type} {KK : Key K} (f : V -> V -> V).

Lemma got_lookup {Q} {KQ : Key Q} (m : trie K V) (q : Q) : reachable m -> got m q = lookup (cls q) (map_visit m).
Proof. intros HR. unfold got. rewrite map_find_ok by (apply reachable_mwf; assumption). destruct (lookup _ _); reflexivity. Qed.
Lemma find_got {Q} {KQ : Key Q} (m : trie K V) (q : Q) : reachable m ->
  map_find m q = Ret (match got m q with Some e => Ok e | None => Err NotFound end).
Proof. intros HR. rewrite got_lookup by assumption. apply map_find_ok, reachable_mwf, HR. Qed.

Lemma union_with_ok st (m right m' : trie K V) : reachable m -> reachable right -> union_with st f m right = Ret m' ->
  reachable m' /\ forall Q (KQ : Key Q) (q : Q), got m' q = ounion f (got m q) (got right q).
Proof.
  intros HR HRr H. unfold union_with in H. destruct (map_tf _ _ _ _ _ _ m right) as [[[m1 r] o]| |] eqn:HT; cbn [bind] in H; try discriminate.
  injection H as <-. destruct (tf_exact _ _ _ _ _ _ m right m1 r o HR HRr HT) as [HM _]. split; [apply HM|].
  intros Q KQ q. unfold got at 1. rewrite (im_find _ _ _ _ _ _ HM). rewrite !find_got by assumption. unfold jfound.
  destruct (got m q) as [e|], (got right q) as [[k' v']|]; reflexivity.
Qed.

Theorem merge_all_got st t : forall m, Forall reachable (bleaves t) -> merge_all st f t = Ret m ->
  reachable m /\ ((forall a b c, f a (f b c) = f (f a b) c) ->
    forall Q (KQ : Key Q) (q : Q), got m q = fold_right (fun m o => ounion f (got m q) o) None (bleaves t)).
Proof.
  induction t as [|m0|l IHl r IHr]; intros m HF H; cbn [merge_all bleaves] in *.
  - injection H as <-. split; [apply reach_new|]. intros _ Q KQ q. cbn [fold_right]. rewrite got_lookup by apply reach_new. reflexivity.
  - injection H as <-. inversion HF as [|? ? H1 _]; subst. split; [assumption|]. intros _ Q KQ q. cbn [fold_right]. destruct (got m0 q); reflexivity.
  - apply Forall_app in HF. destruct HF as [Fl Fr].
    destruct (merge_all st f l) as [ml| |]; cbn [bind] in H; try discriminate.
    destruct (merge_all st f r) as [mr| |]; cbn [bind] in H; try discriminate.
    destruct (IHl ml Fl eq_refl) as [Rl Gl], (IHr mr Fr eq_refl) as [Rr Gr].
    destruct (union_with_ok st ml mr m Rl Rr H) as [HR HG]. split; [assumption|].
    intros Ha Q KQ q. rewrite HG, Gl, Gr by assumption. rewrite fold_right_app.
    generalize (fold_right (fun m o => ounion f (got m q) o) None (bleaves r)) as z. intros z. clear - Ha.
    induction (bleaves l) as [|a la IH]; [reflexivity|]. cbn [fold_right]. rewrite <- IH.
    destruct (got a q) as [[k1 v1]|]; [|reflexivity].
    destruct (fold_right _ None la) as [[k2 v2]|], z as [[k3 v3]|]; cbn; rewrite ?Ha; reflexivity.
Qed.

Theorem merge_all_brackets st st' t t' m m' : (forall a b c, f a (f b c) = f (f a b) c) ->
  Forall reachable (bleaves t) -> bleaves t = bleaves t' ->
  merge_all st f t = Ret m -> merge_all st' f t' = Ret m' -> same m m'.
Proof.
  intros Ha HF He H H'. destruct (merge_all_got st t m HF H) as [HR HG].
  rewrite He in HF. destruct (merge_all_got st' t' m' HF H') as [HR' HG'].
  apply same_lookup; [apply reachable_mwf; assumption..|]. intros c.
  rewrite !find_got by assumption. rewrite HG, HG', He by assumption. reflexivity.
Qed.

(** The combined value alone does not depend on the order if [f] is commutative. *)
Theorem merge_all_order st st' t t' m m' : (forall a b c, f a (f b c) = f (f a b) c) -> (forall a b, f a b = f b a) ->
  Forall reachable (bleaves t) -> Permutation (bleaves t) (bleaves t') ->
  merge_all st f t = Ret m -> merge_all st' f t' = Ret m' ->
  map_size m = map_size m' /\
  forall Q (KQ : Key Q) (q : Q), option_map snd (got m q) = option_map snd (got m' q).
Proof.
  intros Ha Hc HF HP H H'. destruct (merge_all_got st t m HF H) as [HR HG].
  assert (HF' : Forall reachable (bleaves t')).
  { apply Forall_forall. intros x Hx. rewrite Forall_forall in HF. apply HF. eapply Permutation_in; [symmetry; exact HP|exact Hx]. }
  destruct (merge_all_got st' t' m' HF' H') as [HR' HG'].
  assert (HV : forall Q (KQ : Key Q) (q : Q), option_map snd (got m q) = option_map snd (got m' q)).
  { intros Q KQ q. rewrite HG, HG' by assumption. clear - Ha Hc HP. revert HP. generalize (bleaves t) (bleaves t'). intros l l' HP.
    induction HP as [|x l l' HP IH|x y l|l1 l2 l3 _ IH1 _ IH2]; cbn [fold_right]; [reflexivity| | |congruence].
    - destruct (got x q) as [[k v]|]; [|exact IH].
      destruct (fold_right _ None l) as [[k1 v1]|], (fold_right _ None l') as [[k2 v2]|]; cbn in IH |- *; congruence.
    - destruct (got x q) as [[k v]|], (got y q) as [[k' v']|], (fold_right _ None l) as [[k1 v1]|]; cbn; try reflexivity;
        f_equal; [|apply Hc]. rewrite (Ha v'), (Ha v), (Hc v' v). reflexivity. }
  split; [|exact HV].
  pose proof (reachable_mwf _ HR) as HW. pose proof (reachable_mwf _ HR') as HW'.
  rewrite !mwf_size by assumption. unfold lenN. f_equal.
  rewrite <- (map_length ecls (map_visit m)), <- (map_length ecls (map_visit m')).
  apply Permutation_length, NoDup_Permutation; [apply mwf_uniq; assumption..|]. intros c. specialize (HV C _ c).
  rewrite !got_lookup in HV by assumption. change (cls c) with c in HV. rewrite !in_map_iff.
  split; intros (e & He & Hi).
  - pose proof (in_lookup _ _ (mwf_uniq _ HW) Hi) as HL. rewrite He in HL. rewrite HL in HV.
    destruct (lookup c (map_visit m')) as [e'|] eqn:HL'; [|discriminate]. apply lookup_in in HL'. exists e'. split; apply HL'.
  - pose proof (in_lookup _ _ (mwf_uniq _ HW') Hi) as HL. rewrite He in HL. rewrite HL in HV.
    destruct (lookup c (map_visit m)) as [e'|] eqn:HL'; [|discriminate]. apply lookup_in in HL'. exists e'. split; apply HL'.
Qed.

Theorem merge_all_default {size} (HK : default_keys size) (Hs : (size <= 4)%nat) st t : Forall reachable (bleaves t) ->
  exists m, merge_all st f t = Ret m.
Proof.
  induction t as [|m0|l IHl r IHr]; intros HF; cbn [merge_all bleaves] in *; [eauto..|].
  apply Forall_app in HF. destruct HF as [Fl Fr]. destruct (IHl Fl) as [ml Hl], (IHr Fr) as [mr Hr].
  rewrite Hl, Hr. cbn [bind]. pose proof (proj1 (merge_all_got st l ml Fl Hl)) as Rl. pose proof (proj1 (merge_all_got st r mr Fr Hr)) as Rr.
  unfold union_with.
  destruct (dk_tf HK Hs tt (fun _ _ => tt) st (TGeneric (fun p => VTransformed (f (snd (fst p)) (snd (snd p))) tt)) (TUnchanged tt)
    (SMGeneric (fun e => SKTransmuted (snd e) tt)) ml mr Rl Rr) as (m' & x & o & H & _).
  rewrite H. cbn [bind]. eauto.
Qed.
End UnionWith.

(** * Two operations in a row *)
Section Fusion.
Context {E : Env} {K V : Type} {KK : Key K}.

Lemma t_entry_to {R} (o : vres V R) (e : K * V) : t_entry o e = opt (t_to o e).
Proof. destruct o; reflexivity. Qed.
Lemma m_entry_to {S X R} (o : kres S X R) : m_entry o = opt (m_to o).
Proof. destruct o; reflexivity. Qed.

Lemma flat_map_opt {A B D} (g : A -> option B) (h : B -> option D) (k : A -> option D) l :
  (forall a, In a l -> k a = obind (g a) h) ->
  flat_map (fun b => opt (h b)) (flat_map (fun a => opt (g a)) l) = flat_map (fun a => opt (k a)) l.
Proof.
  induction l as [|a l IH]; intros H; [reflexivity|]. cbn [flat_map]. rewrite flat_map_app, IH by (intros; apply H; right; assumption).
  f_equal. rewrite H by (left; reflexivity). destruct (g a) as [b|]; cbn [opt flat_map obind]; [apply app_nil_r|reflexivity].
Qed.

Lemma visit_same (m n : trie K V) : reachable m -> reachable n -> map_visit m = map_visit n -> same m n /\ map_visit m = map_visit n.
Proof. intros HR HR' H. split; [|assumption]. apply same_perm; [apply reachable_mwf; assumption..|]. rewrite H. reflexivity. Qed.

Theorem transform_transform {R R' R''} (rdef : R) rd (rdef' : R') rd' (rdef'' : R'') rd'' st st' st'' op op' op''
    (m m1 m2 m3 : trie K V) r r' r'' o o' o'' : reachable m ->
  (forall e, In e (map_visit m) -> t_to (tcall op'' e) e = obind (t_to (tcall op e) e) (fun e1 => t_to (tcall op' e1) e1)) ->
  map_transform rdef rd st op m = Ret (m1, r, o) -> map_transform rdef' rd' st' op' m1 = Ret (m2, r', o') ->
  map_transform rdef'' rd'' st'' op'' m = Ret (m3, r'', o'') ->
  same m2 m3 /\ map_visit m2 = map_visit m3.
Proof.
  intros HR HC H1 H2 H3.
  destruct (transform_exact rdef rd st op m HR) as (n1 & ? & ? & G1 & R1 & V1 & _). rewrite H1 in G1. injection G1 as <- _ _.
  destruct (transform_exact rdef' rd' st' op' m1 R1) as (n2 & ? & ? & G2 & R2 & V2 & _). rewrite H2 in G2. injection G2 as <- _ _.
  destruct (transform_exact rdef'' rd'' st'' op'' m HR) as (n3 & ? & ? & G3 & R3 & V3 & _). rewrite H3 in G3. injection G3 as <- _ _.
  apply visit_same; try assumption. rewrite V2, V1, V3.
  rewrite (flat_map_ext _ (fun e => opt (t_to (tcall op' e) e))) by (intros; apply t_entry_to).
  rewrite (flat_map_ext (fun e => t_entry (tcall op e) e) (fun e => opt (t_to (tcall op e) e))) by (intros; apply t_entry_to).
  rewrite (flat_map_ext (fun e => t_entry (tcall op'' e) e) (fun e => opt (t_to (tcall op'' e) e))) by (intros; apply t_entry_to).
  apply flat_map_opt. exact HC.
Qed.
End Fusion.

Section Fusion2.
Context {E : Env} {K V S X Z Y : Type} {KK : Key K} {KS : Key S} {KZ : Key Z}.

Theorem transmute_transmute {R R' R''} (rdef : R) rd (rdef' : R') rd' (rdef'' : R'') rd''
    (op : transmute_op (K * V) S X R) (op' : transmute_op (S * X) Z Y R') (op'' : transmute_op (K * V) Z Y R'')
    (m : trie K V) (m1 : trie S X) (m2 m3 : trie Z Y) r r' r'' : reachable m ->
  (forall e k v x, In e (map_visit m) -> mcall op e = KTransmuted k v x -> cls k = cls (fst e)) ->
  (forall e k v x, In e (map_visit m1) -> mcall op' e = KTransmuted k v x -> cls k = cls (fst e)) ->
  (forall e, In e (map_visit m) -> m_to (mcall op'' e) = obind (m_to (mcall op e)) (fun e1 => m_to (mcall op' e1))) ->
  map_transmute rdef rd op m = Ret (m1, r) -> map_transmute rdef' rd' op' m1 = Ret (m2, r') ->
  map_transmute rdef'' rd'' op'' m = Ret (m3, r'') ->
  same m2 m3 /\ map_visit m2 = map_visit m3.
Proof.
  intros HR HK HK' HC H1 H2 H3.
  destruct (transmute_exact rdef rd op m HR HK) as (n1 & ? & G1 & R1 & V1 & _). rewrite H1 in G1. injection G1 as <- _.
  destruct (transmute_exact rdef' rd' op' m1 R1 HK') as (n2 & ? & G2 & R2 & V2 & _). rewrite H2 in G2. injection G2 as <- _.
  assert (HK'' : forall e k v x, In e (map_visit m) -> mcall op'' e = KTransmuted k v x -> cls k = cls (fst e)).
  { intros e k v z He Hk. specialize (HC e He). rewrite Hk in HC. cbn [m_to] in HC.
    destruct (mcall op e) as [k1 v1 x1|x1] eqn:Hop; cbn [m_to obind] in HC; [|discriminate].
    rewrite <- (HK e k1 v1 x1 He Hop).
    assert (Hi : In (k1, v1) (map_visit m1)).
    { rewrite V1. apply in_flat_map. exists e. split; [assumption|]. rewrite Hop. left. reflexivity. }
    destruct (mcall op' (k1, v1)) as [k2 v2 x2|x2] eqn:Hop'; cbn [m_to] in HC; [|discriminate]. injection HC as -> ->.
    exact (HK' (k1, v1) k2 v2 x2 Hi Hop'). }
  destruct (transmute_exact rdef'' rd'' op'' m HR HK'') as (n3 & ? & G3 & R3 & V3 & _). rewrite H3 in G3. injection G3 as <- _.
  apply visit_same; try assumption. rewrite V2, V1, V3.
  rewrite (flat_map_ext _ (fun e => opt (m_to (mcall op' e)))) by (intros; apply m_entry_to).
  rewrite (flat_map_ext (fun e => m_entry (mcall op e)) (fun e => opt (m_to (mcall op e)))) by (intros; apply m_entry_to).
  rewrite (flat_map_ext (fun e => m_entry (mcall op'' e)) (fun e => opt (m_to (mcall op'' e)))) by (intros; apply m_entry_to).
  apply flat_map_opt. exact HC.
Qed.
End Fusion2.

Section Fusion3.
Context {E : Env} {K V : Type} {KK : Key K} {L W : Type} {KL : Key L}.

(** A transform after a merge is a merge. *)
Theorem tm_transform {R R' R''} (rdef : R) rd (rdef' : R') rd' (rdef'' : R'') rd'' st st' st'' both lop rop op both' lop' rop'
    (m : trie K V) (right : trie L W) m1 m2 m3 r r' r'' o o' o'' : reachable m -> reachable right ->
  (forall e k v x, In e (map_visit right) -> mcall rop e = KTransmuted k v x -> cls k = cls (fst e)) ->
  (forall e k v x, In e (map_visit right) -> mcall rop' e = KTransmuted k v x -> cls k = cls (fst e)) ->
  (forall e e', In e (map_visit m) -> In e' (map_visit right) -> cls (fst e) = cls (fst e') ->
     t_to (tcall both' (e, e')) e = obind (t_to (tcall both (e, e')) e) (fun x => t_to (tcall op x) x)) ->
  (forall e, In e (map_visit m) -> t_to (tcall lop' e) e = obind (t_to (tcall lop e) e) (fun x => t_to (tcall op x) x)) ->
  (forall e', In e' (map_visit right) -> m_to (mcall rop' e') = obind (m_to (mcall rop e')) (fun x => t_to (tcall op x) x)) ->
  map_tm rdef rd st both lop rop m right = Ret (m1, r, o) -> map_transform rdef' rd' st' op m1 = Ret (m2, r', o') ->
  map_tm rdef'' rd'' st'' both' lop' rop' m right = Ret (m3, r'', o'') -> same m2 m3.
Proof.
  intros HR HRr HK HK' HB HL HRr' H1 H2 H3.
  destruct (tm_exact rdef rd st both lop rop m right m1 r o HR HRr HK H1) as [M1 _].
  destruct (tm_exact rdef'' rd'' st'' both' lop' rop' m right m3 r'' o'' HR HRr HK' H3) as [M3 _].
  destruct (transform_exact rdef' rd' st' op m1 (im_reach _ _ _ _ _ _ M1)) as (n2 & ? & ? & G2 & R2 & V2 & _ & F2). rewrite H2 in G2. injection G2 as <- _ _.
  apply same_lookup; [apply reachable_mwf; first [assumption|apply M3]..|]. intros c.
  rewrite F2, (im_find _ _ _ _ _ _ M1), (im_find _ _ _ _ _ _ M3). rewrite !map_find_ok by (apply reachable_mwf; assumption).
  unfold jfound. change (cls c) with c.
  destruct (lookup c (map_visit m)) as [e|] eqn:H4; [apply lookup_in in H4; destruct H4 as [H4 H4']|];
  (destruct (lookup c (map_visit right)) as [e'|] eqn:H5; [apply lookup_in in H5; destruct H5 as [H5 H5']|]); unfold ecls in *; cbn [find_res].
  - rewrite (HB e e') by congruence. destruct (t_to (tcall both (e, e')) e) as [e1|]; cbn [obind found]; [|reflexivity].
    rewrite t_entry_to. destruct (t_to (tcall op e1) e1); reflexivity.
  - rewrite (HL e) by assumption. destruct (t_to (tcall lop e) e) as [e1|]; cbn [obind found]; [|reflexivity].
    rewrite t_entry_to. destruct (t_to (tcall op e1) e1); reflexivity.
  - rewrite (HRr' e') by assumption. destruct (m_to (mcall rop e')) as [e1|]; cbn [obind found]; [|reflexivity].
    rewrite t_entry_to. destruct (t_to (tcall op e1) e1); reflexivity.
  - reflexivity.
Qed.
End Fusion3.
