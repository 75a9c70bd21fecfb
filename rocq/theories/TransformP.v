(** transform and transmute do to every entry what the operation says. *)
From Coq Require Import NArith Arith List Bool Lia ZifyBool ZifyN ZifyNat Permutation.
From Verif Require Import Base Words WordsP Flag FlagP Bia BiaP Node Spec SpecP Inv NodeP InsertP TrieP Api ApiP
  Trans Transform LoopP SpecT.
Import ListNotations.
Open Scope N_scope.

Lemma forallb_flat_map {A B} (p : B -> bool) (f : A -> list B) l :
  forallb p (flat_map f l) = forallb (fun a => forallb p (f a)) l.
Proof. induction l; cbn; [reflexivity|]. rewrite forallb_app, IHl. reflexivity. Qed.

Lemma flat_map_flat_map {A B D} (f : A -> list B) (g : B -> list D) l :
  flat_map g (flat_map f l) = flat_map (fun a => flat_map g (f a)) l.
Proof. induction l; cbn; [reflexivity|]. rewrite flat_map_app, IHl. reflexivity. Qed.

Lemma map_flat_map {A B D} (f : A -> list B) (g : B -> D) l :
  map g (flat_map f l) = flat_map (fun a => map g (f a)) l.
Proof. induction l; cbn; [reflexivity|]. rewrite map_app, IHl. reflexivity. Qed.

Lemma forallb_ext_in {A} (f g : A -> bool) l : (forall a, In a l -> f a = g a) -> forallb f l = forallb g l.
Proof. induction l; cbn; intros H; [reflexivity|]. rewrite H, IHl by auto. reflexivity. Qed.

(** * Keeping classes *)
Section Classes.
Context {E : Env} {K V S X : Type} {KK : Key K} {KS : Key S}.

(** A map on entries that keeps classes and never duplicates. *)
Definition cls_map (f : K * V -> list (S * X)) (l : list (K * V)) : Prop :=
  forall e, In e l -> f e = [] \/ exists e', f e = [e'] /\ ecls e' = ecls e.

Lemma cls_map_in f l e' : cls_map f l -> In e' (flat_map f l) -> exists e, In e l /\ f e = [e'] /\ ecls e' = ecls e.
Proof.
  intros H Hin. apply in_flat_map in Hin. destruct Hin as (e & He & Hin). exists e.
  destruct (H e He) as [H0|(e'' & H1 & H2)].
  - rewrite H0 in Hin. destruct Hin.
  - rewrite H1 in Hin. destruct Hin as [->|[]]. auto.
Qed.

Lemma cls_map_uniq f l : cls_map f l -> uniq l -> uniq (flat_map f l).
Proof.
  induction l as [|e l IH]; intros H HU; cbn [flat_map]; [constructor|].
  apply uniq_cons in HU. destruct HU as [Hn HU].
  assert (H' : cls_map f l) by (intros e0 He0; apply H; right; assumption).
  apply uniq_app.
  - destruct (H e (or_introl eq_refl)) as [->|(e' & -> & _)]; [constructor|]. apply uniq_cons. split; [reflexivity|constructor].
  - auto.
  - intros e1 e2 He1 He2 Hc.
    destruct (H e (or_introl eq_refl)) as [H0|(e' & H1 & H2)]; [rewrite H0 in He1; destruct He1|].
    rewrite H1 in He1. destruct He1 as [<-|[]].
    destruct (cls_map_in f l e2 H' He2) as (e3 & He3 & _ & Hc3).
    rewrite lookup_none in Hn. apply (Hn e3 He3). congruence.
Qed.

Lemma cls_map_lookup f l c : cls_map f l -> uniq l ->
  lookup c (flat_map f l) = match lookup c l with Some e => hd_error (f e) | None => None end.
Proof.
  induction l as [|e l IH]; intros H HU; cbn [flat_map]; [reflexivity|].
  apply uniq_cons in HU. destruct HU as [Hn HU].
  assert (H' : cls_map f l) by (intros e0 He0; apply H; right; assumption).
  rewrite lookup_app, IH, lookup_cons by assumption.
  destruct (ceqb_spec (ecls e) c) as [<-|Hc].
  - rewrite Hn. destruct (H e (or_introl eq_refl)) as [->|(e' & -> & He)]; [reflexivity|].
    rewrite lookup_cons, He, ceqb_refl. reflexivity.
  - destruct (H e (or_introl eq_refl)) as [->|(e' & -> & He)]; [reflexivity|].
    rewrite lookup_cons, He. destruct (ceqb_spec (ecls e) c); [contradiction|]. reflexivity.
Qed.

End Classes.

Section Leaf.
Context {E : Env} {S X : Type} {KS : Key S}.

(** A leaf or a collision list with exact sizes. *)
Definition leaf_ok (n : mnode S X) : Prop :=
  match n with MC _ => False | ML l => lok l | MS _ => True end.

Lemma leaf_ok_wf d p h (n : mnode S X) : leaf_ok n -> uniq (m_visit n) ->
  (forall e, In e (m_visit n) -> hash (ecls e) = h) -> pre d h = p -> wf d p n.
Proof.
  destruct n as [c|l|s]; cbn [leaf_ok m_visit]; intros Hl HU Hh Hp; [contradiction| |].
  - eapply wf_L; [|exact Hp]. split; [assumption|split; assumption].
  - constructor. rewrite <- Hp. f_equal. exact (Hh _ (or_introl eq_refl)).
Qed.
End Leaf.

Lemma visit_C_sub {E : Env} {K V} bits (values : list (mnode K V)) x i c : okv (max_ones fw) bits values -> getv bits values i = Some c ->
  forall e, In e (m_visit c) -> In e (m_visit (MC (BIA bits values x))).
Proof.
  intros Hok Hg e He. rewrite (visit_C _ _ _ _ Hok). apply in_flat_map. exists i. split.
  - apply range_in. pose proof (okv_lt _ _ _ _ _ Hok Hg). lia.
  - rewrite Hg. exact He.
Qed.

Lemma g_count {E : Env} {K' V' R'} (g : N -> cont K' V' R') r :
  (lenN (a_values (total g r)) =? count_ones (a_bits (total g r))) = true.
Proof.
  unfold total. cbn [a_values a_bits]. destruct (g_ok g (max_ones fw)) as [[_ H] _]. rewrite H. apply N.eqb_refl.
Qed.

(** * transform *)
Section TransformP.
Context {E : Env} {K V R : Type} {KK : Key K}.
Context (rdef : R) (rd : R -> R -> R).

(** The effect of [op] on a list of entries. *)
Definition t_map (op : transform_op (K * V) V R) (l : list (K * V)) : list (K * V) :=
  flat_map (fun e => t_entry (tcall op e) e) l.

Lemma t_cls (op : transform_op (K * V) V R) l : cls_map (fun e => t_entry (tcall op e) e) l.
Proof. intros e _. destruct (tcall op e); cbn [t_entry]; [right; eauto|right|left; reflexivity]. eexists. split; reflexivity. Qed.

Lemma t_map_uniq op l : uniq l -> uniq (t_map op l).
Proof. apply cls_map_uniq. apply t_cls. Qed.

Lemma t_map_hash op l h : (forall e, In e l -> hash (ecls e) = h) -> forall e, In e (t_map op l) -> hash (ecls e) = h.
Proof.
  intros H e He. destruct (cls_map_in _ _ e (t_cls op l) He) as (e0 & He0 & _ & Hc). rewrite Hc. auto.
Qed.

Definition t_spec (op : transform_op (K * V) V R) (n : mnode K V) (t : tres K V R) : Prop :=
  ovisit (tout n t) = t_map op (m_visit n) /\
  tu t = forallb (fun e => t_unchanged (tcall op e)) (m_visit n) /\
  (monoid rdef rd -> tred t = msum rdef rd (map (fun e => t_red (tcall op e)) (m_visit n))).

Lemma s_transform_ok op (s : snode K V) : t_spec op (MS s) (s_transform op s) /\
  match tout (MS s) (s_transform op s) with Some n => leaf_ok n | None => True end.
Proof.
  unfold t_spec, s_transform, t_map. cbn [m_visit]. unfold s_visit. cbn [flat_map forallb map].
  destruct (tcall op (s_key s, s_value s)); cbn; repeat split; intros (_ & _ & H); rewrite H; reflexivity.
Qed.

Lemma l_transform_ok f (l : lnode K V) : lok l -> t_spec (TGeneric f) (ML l) (l_transform rd (TGeneric f) l) /\
  match tout (ML l) (l_transform rd (TGeneric f) l) with Some n => leaf_ok n | None => True end.
Proof.
  unfold t_spec, t_map.
  assert (HS : forall k v (nx : lnext K V) t, match nx with NL l => lok l | NS _ => True end ->
    ovisit (tout (next_mnode nx) t) = flat_map (fun e => t_entry (f e) e) (m_visit (next_mnode nx)) ->
    tu t = forallb (fun e => t_unchanged (f e)) (m_visit (next_mnode nx)) ->
    (monoid rdef rd -> tred t = msum rdef rd (map (fun e => t_red (f e)) (m_visit (next_mnode nx)))) ->
    match tout (next_mnode nx) t with Some n => leaf_ok n | None => True end ->
    let r := l_transform_result rd (l_new k v nx) (f (k, v)) t in
    (ovisit (tout (ML (l_new k v nx)) r) = t_entry (f (k, v)) (k, v) ++ flat_map (fun e => t_entry (f e) e) (m_visit (next_mnode nx)) /\
     tu r = t_unchanged (f (k, v)) && forallb (fun e => t_unchanged (f e)) (m_visit (next_mnode nx)) /\
     (monoid rdef rd -> tred r = rd (t_red (f (k, v))) (msum rdef rd (map (fun e => t_red (f e)) (m_visit (next_mnode nx)))))) /\
    match tout (ML (l_new k v nx)) r with Some n => leaf_ok n | None => True end).
  { intros k v nx t Hlok Hv Hu Hr Hl. cbn zeta. rewrite <- Hv, <- Hu. clear Hv Hu.
    assert (Hr' : monoid rdef rd -> msum rdef rd (map (fun e => t_red (f e)) (m_visit (next_mnode nx))) = tred t)
      by (intros; symmetry; auto). clear Hr.
    assert (Hk : l_key (l_new k v nx) = k) by (destruct nx; reflexivity).
    assert (Hw : l_value (l_new k v nx) = v) by (destruct nx; reflexivity).
    assert (Hn : l_next (l_new k v nx) = nx) by (destruct nx; reflexivity).
    unfold l_transform_result. rewrite Hk, Hw, Hn.
    destruct (f (k, v)) as [r|w r|r] eqn:Hf; destruct t as [r2|[c r2|l2 r2|s2 r2|r2]];
      try (cbn in Hl; contradiction);
      cbn [tout tu tred nnode nred ovisit t_entry t_unchanged t_red m_visit app leaf_ok] in *;
      try (destruct nx; cbn [tout tu tred nnode nred ovisit m_visit leaf_ok next_mnode app] in *);
      repeat split; try assumption; try (intros HM; rewrite Hr' by assumption; reflexivity); auto. }
  induction l as [k v n IH z|k v s z]; cbn [lok]; intros Hl.
  - destruct Hl as [-> Hl]. destruct (IH Hl) as ((H1 & H2 & H3) & H4).
    exact (HS k v (NL n) _ Hl H1 H2 H3 H4).
  - subst z. destruct (s_transform_ok (TGeneric f) s) as ((H1 & H2 & H3) & H4).
    exact (HS k v (NS s) _ I H1 H2 H3 H4).
Qed.

Lemma leaf_t_wf d p n op (t : tres K V R) h : (forall e, In e (m_visit n) -> hash (ecls e) = h) -> pre d h = p ->
  uniq (m_visit n) -> ovisit (tout n t) = t_map op (m_visit n) ->
  match tout n t with Some n' => leaf_ok n' | None => True end ->
  forall n', tout n t = Some n' -> wf d p n'.
Proof.
  intros Hh Hp HU Hv Hl n' Hn. rewrite Hn in *. cbn [ovisit] in Hv. eapply leaf_ok_wf; try eassumption.
  - rewrite Hv. apply t_map_uniq. assumption.
  - rewrite Hv. apply t_map_hash. assumption.
Qed.

(** The contribution of one slot. *)
Definition t_slot (o : option (mnode K V)) (t : mnode K V -> outcome (tres K V R)) : outcome (cont K V R) :=
  match o with
  | Some c => let* r := t c in Ret (Some (tout c r, tred r, tu r, true))
  | None => Ret None
  end.

Lemma c_transform_steps bits values x t : okv (max_ones fw) bits values ->
  steps rd (c_transform_step rd (BIA bits (map (fun c => (c, t c)) values) x)) (fun i => t_slot (getv bits values i) t).
Proof.
  intros Hok a i Hi Ha. unfold c_transform_step.
  rewrite bat_bit_index_slot by assumption. cbn [bind]. unfold t_slot.
  destruct (getv bits values i) as [c|]; cbn [option_map bind]; [|rewrite after_nil_cont; reflexivity].
  destruct (t c) as [[r|n]| |]; cbn [bind]; try reflexivity.
  - rewrite push_ok by assumption. reflexivity.
  - rewrite push_new_ok by assumption. cbn [bind]. rewrite set_ul_after. reflexivity.
Qed.

Lemma m_transform_ok st f d p n : wf d p n ->
  exists t, m_transform rdef rd st (TGeneric f) n = Ret t /\ t_spec (TGeneric f) n t /\
    (forall n', tout n t = Some n' -> wf d p n').
Proof.
  intros HW. induction HW as [d p s Hs|d p l g HL Hl|d p bits values x Ho Hp Hok Hne Hx Hch IH].
  - cbn [m_transform]. eexists. split; [reflexivity|]. destruct (s_transform_ok (TGeneric f) s) as [H1 H2].
    split; [assumption|]. destruct H1 as (H1 & _). eapply leaf_t_wf; try eassumption.
    + intros e [<-|[]]. reflexivity.
    + cbn. apply uniq_cons. split; [reflexivity|constructor].
  - cbn [m_transform]. eexists. split; [reflexivity|]. destruct HL as (HL1 & HL2 & HL3).
    destruct (l_transform_ok f l HL1) as [H1 H2]. split; [assumption|]. destruct H1 as (H1 & _).
    eapply leaf_t_wf; try eassumption.
  - cbn [m_transform].
    set (g := fun i => got (t_slot (getv bits values i) (m_transform rdef rd st (TGeneric f)))).
    assert (Hg : forall i, t_slot (getv bits values i) (m_transform rdef rd st (TGeneric f)) = Ret (g i)).
    { intros i. unfold g, t_slot. destruct (getv bits values i) as [c|] eqn:Hc; [|reflexivity].
      destruct (IH i c Hc) as (t & -> & _). reflexivity. }
    rewrite (run_ret rdef rd st _ _ g (c_transform_steps _ _ x _ Hok) (fun i _ => Hg i)). cbn [bind].
    assert (Hgs : forall i, match getv bits values i with
      | Some c => exists t, g i = Some (tout c t, tred t, tu t, true) /\ t_spec (TGeneric f) c t /\
          (forall n', tout c t = Some n' -> wf (d + 1) (p + i * 2 ^ off d) n')
      | None => g i = None end).
    { intros i. pose proof (Hg i) as Hgi. unfold t_slot in Hgi. destruct (getv bits values i) as [c|] eqn:Hc; [|congruence].
      destruct (IH i c Hc) as (t & Ht & H1 & H2). rewrite Ht in Hgi. exists t. injection Hgi as Hgi. auto. }
    clearbody g. clear Hg.
    assert (Hvis : flat_map (fun i => ovisit (cn (g i))) (range 0 (max_ones fw)) = t_map (TGeneric f) (m_visit (MC (BIA bits values x)))).
    { rewrite (visit_C _ _ _ _ Hok). unfold t_map. rewrite flat_map_flat_map. apply flat_map_ext_in. intros i _.
      specialize (Hgs i). destruct (getv bits values i) as [c|].
      - destruct Hgs as (t & -> & (H1 & _) & _). exact H1.
      - rewrite Hgs. reflexivity. }
    assert (Hul : gl g (range 0 (max_ones fw)) = forallb (fun e => t_unchanged (f e)) (m_visit (MC (BIA bits values x)))).
    { rewrite (visit_C _ _ _ _ Hok). rewrite forallb_flat_map. apply forallb_ext_in. intros i _.
      specialize (Hgs i). destruct (getv bits values i) as [c|].
      - destruct Hgs as (t & -> & (_ & H2 & _) & _). exact H2.
      - rewrite Hgs. reflexivity. }
    assert (Hred : monoid rdef rd -> sred rdef rd st g = msum rdef rd (map (fun e => t_red (f e)) (m_visit (MC (BIA bits values x))))).
    { intros HM. rewrite (sred_msum _ _ HM). rewrite (visit_C _ _ _ _ Hok). rewrite map_flat_map.
      unfold greds. rewrite !(msum_flat_map _ _ HM). f_equal. apply map_ext. intros i.
      specialize (Hgs i). destruct (getv bits values i) as [c|].
      - destruct Hgs as (t & -> & (_ & _ & H3) & _). cbn [cr]. rewrite (msum_one _ _ HM). apply H3. assumption.
      - rewrite Hgs. reflexivity. }
    destruct (finish_ok d p g (sred rdef rd st g) Ho Hp) as (nn & Hf & Hr & Hv & Hw).
    { intros i n Hi Hn. specialize (Hgs i). destruct (getv bits values i) as [c|].
      - destruct Hgs as (t & Ht & _ & H). rewrite Ht in Hn. apply H. exact Hn.
      - rewrite Hgs in Hn. discriminate. }
    assert (Hau : a_ul (total g (sred rdef rd st g)) = gl g (range 0 (max_ones fw))) by reflexivity.
    rewrite Hau. destruct (gl g (range 0 (max_ones fw))) eqn:Hu.
    + eexists. split; [reflexivity|]. split.
      * split; [|split]; cbn [tout ovisit tu tred]; [|exact Hul|exact Hred].
        symmetry in Hul. clear - Hul. unfold t_map. induction (m_visit (MC (BIA bits values x))) as [|e l IH]; [reflexivity|].
        cbn [forallb flat_map tcall] in *. apply andb_prop in Hul. destruct Hul as [He Hl]. rewrite <- IH by assumption.
        destruct (f e); try discriminate. reflexivity.
      * intros n' [= <-]. econstructor; eassumption.
    + rewrite Hf. cbn [bind]. eexists. split; [reflexivity|]. split.
      * split; [|split]; cbn [tout ovisit tu tred]; [rewrite Hv; exact Hvis|exact Hul|]. rewrite Hr. exact Hred.
      * exact Hw.
Qed.

End TransformP.

(** * The strategies agree *)
Section Strategy.
Context {E : Env} {K V R : Type} {KK : Key K}.
Context (rdef : R) (rd : R -> R -> R).

(** Equal up to the reduction, which is equal too for monoids. *)
Definition t_same (t t' : tres K V R) : Prop :=
  tu t = tu t' /\ (forall n, tout n t = tout n t') /\ (monoid rdef rd -> tred t = tred t').

Lemma t_same_refl t : t_same t t.
Proof. split; [|split]; reflexivity. Qed.

Lemma m_transform_strategy op st st' d p n : wf d p n ->
  exists t t', m_transform rdef rd st op n = Ret t /\ m_transform rdef rd st' op n = Ret t' /\ t_same t t'.
Proof.
  intros HW. destruct op as [f|r|r].
  2-3: destruct n as [[bits values x]|l|s]; cbn; do 2 eexists; (split; [reflexivity|]); (split; [reflexivity|]); apply t_same_refl.
  induction HW as [d p s Hs|d p l g HL Hl|d p bits values x Ho Hp Hok Hne Hx Hch IH].
  1-2: cbn [m_transform]; do 2 eexists; (split; [reflexivity|]); (split; [reflexivity|]); apply t_same_refl.
  cbn [m_transform].
  set (g := fun s i => got (t_slot (getv bits values i) (m_transform rdef rd s (TGeneric f)))).
  assert (Hg : forall s i, i < max_ones fw -> t_slot (getv bits values i) (m_transform rdef rd s (TGeneric f)) = Ret (g s i)).
  { intros s i _. unfold g, t_slot. destruct (getv bits values i) as [c|] eqn:Hc; [|reflexivity].
    destruct (m_transform_ok rdef rd s f _ _ _ (Hch i c Hc)) as (t & -> & _). reflexivity. }
  rewrite !(run_ret rdef rd _ _ _ (g _) (c_transform_steps rd _ _ x _ Hok) (Hg _)). cbn [bind].
  assert (Hgs : forall i, cn (g st i) = cn (g st' i) /\ cl (g st i) = cl (g st' i) /\ cu (g st i) = cu (g st' i) /\
    (monoid rdef rd -> cr (g st i) = cr (g st' i))).
  { intros i. unfold g, t_slot. destruct (getv bits values i) as [c|] eqn:Hc; [|auto].
    destruct (IH i c Hc) as (t & t' & -> & -> & H1 & H2 & H3). cbn. rewrite H1, H2. repeat split.
    intros HM. rewrite H3 by assumption. reflexivity. }
  assert (Hred : monoid rdef rd -> sred rdef rd st (g st) = sred rdef rd st' (g st')).
  { intros HM. rewrite !(sred_msum _ _ HM). f_equal. apply flat_map_ext_in. intros i _. apply Hgs. assumption. }
  destruct (g_ext (g st) (g st')) as (H1 & H2 & H3 & H4 & H5).
  { intros i _. destruct (Hgs i) as (? & ? & ? & _). auto. }
  assert (HT : forall r, total (g st) r = total (g st') r) by (intros r; unfold total; rewrite H1, H2, H3, H4, H5; reflexivity).
  rewrite HT. set (r := sred rdef rd st (g st)) in *. set (r' := sred rdef rd st' (g st')) in *. clearbody r r'.
  assert (Hul : forall r, a_ul (total (g st') r) = gl (g st') (range 0 (max_ones fw))) by reflexivity. rewrite !Hul.
  destruct (gl (g st') (range 0 (max_ones fw))).
  - do 2 eexists. split; [reflexivity|]. split; [reflexivity|]. split; [reflexivity|]. split; [reflexivity|exact Hred].
  - assert (HF : forall r, exists n, finish (total (g st') r) = Ret n /\ nred n = r).
    { intros r0. destruct (finish_ok d p (g st') r0 Ho Hp) as (nn & Hf & Hr & _); [|eauto].
      intros i n Hi Hn. specialize (Hg st' i Hi). unfold t_slot in Hg.
      destruct (getv bits values i) as [c|] eqn:Hc.
      - destruct (m_transform_ok rdef rd st' f _ _ _ (Hch i c Hc)) as (t & Ht & _ & HW). rewrite Ht in Hg. cbn [bind] in Hg.
        injection Hg as Hg. rewrite <- Hg in Hn. apply HW. exact Hn.
      - injection Hg as Hg. rewrite <- Hg in Hn. discriminate. }
    destruct (HF r) as (n & Hn & Hnr). destruct (HF r') as (n' & Hn' & Hnr').
    rewrite Hn, Hn'. cbn [bind]. do 2 eexists. split; [reflexivity|]. split; [reflexivity|].
    split; [reflexivity|]. split.
    + intros n0. cbn [tout]. destruct (finish_red (g st') r r') as (n1 & n2 & [(G1 & G2 & G3)|(G1 & _)]); [|congruence].
      congruence.
    + cbn [tred]. intros HM. rewrite Hnr, Hnr'. auto.
Qed.

End Strategy.

(** * transmute *)
Section TransmuteP.
Context {E : Env} {K V S X R : Type} {KK : Key K} {KS : Key S}.
Context (rdef : R) (rd : R -> R -> R).

Definition m_map (f : K * V -> kres S X R) (l : list (K * V)) : list (S * X) := flat_map (fun e => m_entry (f e)) l.

Lemma m_cls (f : K * V -> kres S X R) l : m_keeps f l -> cls_map (fun e => m_entry (f e)) l.
Proof.
  intros H e He. destruct (f e) as [k v r|r] eqn:Hf; cbn [m_entry]; [right|left; reflexivity].
  eexists. split; [reflexivity|]. exact (H e k v r He Hf).
Qed.

Lemma m_map_hash (f : K * V -> kres S X R) l h : m_keeps f l -> (forall e, In e l -> hash (ecls e) = h) -> forall e, In e (m_map f l) -> hash (ecls e) = h.
Proof.
  intros HK H e He. destruct (cls_map_in _ _ e (m_cls f l HK) He) as (e0 & He0 & _ & Hc). rewrite Hc. auto.
Qed.

Definition m_spec (f : K * V -> kres S X R) (n : mnode K V) (t : nres S X R) : Prop :=
  ovisit (nnode t) = m_map f (m_visit n) /\
  (monoid rdef rd -> nred t = msum rdef rd (map (fun e => m_red (f e)) (m_visit n))).

Definition nleaf (t : nres S X R) : Prop := match nnode t with Some n => leaf_ok n | None => True end.

Lemma s_transmute_ok f (s : snode K V) : m_spec f (MS s) (s_transmute (MGeneric f) s) /\ nleaf (s_transmute (MGeneric f) s).
Proof.
  unfold m_spec, nleaf, s_transmute, m_map. cbn [m_visit mcall]. unfold s_visit. cbn [flat_map map].
  destruct (f (s_key s, s_value s)); cbn; repeat split; intros (_ & _ & H); rewrite H; reflexivity.
Qed.

Lemma l_transmute_ok f (l : lnode K V) : lok l ->
  m_spec f (ML l) (l_transmute rd (MGeneric f) l) /\ nleaf (l_transmute rd (MGeneric f) l).
Proof.
  unfold m_spec, m_map.
  assert (HS : forall k v es t,
    ovisit (nnode t) = flat_map (fun e => m_entry (f e)) es ->
    (monoid rdef rd -> nred t = msum rdef rd (map (fun e => m_red (f e)) es)) -> nleaf t ->
    let r := l_transmute_result rd (f (k, v)) t in
    (ovisit (nnode r) = m_entry (f (k, v)) ++ flat_map (fun e => m_entry (f e)) es /\
     (monoid rdef rd -> nred r = rd (m_red (f (k, v))) (msum rdef rd (map (fun e => m_red (f e)) es)))) /\ nleaf r).
  { intros k v es t Hv Hr Hl. cbn zeta. rewrite <- Hv. clear Hv.
    assert (Hr' : monoid rdef rd -> msum rdef rd (map (fun e => m_red (f e)) es) = nred t)
      by (intros; symmetry; auto). clear Hr. unfold nleaf in *.
    destruct (f (k, v)) as [k' v' r|r] eqn:Hf; destruct t as [c r2|l2 r2|s2 r2|r2];
      try (cbn in Hl; contradiction);
      cbn [l_transmute_result nnode nred ovisit m_entry m_red m_visit app leaf_ok] in *;
      repeat split; try assumption; try (intros HM; rewrite Hr' by assumption; reflexivity); auto. }
  induction l as [k v n IH z|k v s z]; cbn [lok]; intros Hl.
  - destruct Hl as [-> Hl]. destruct (IH Hl) as ((H1 & H3) & H4).
    exact (HS k v _ _ H1 H3 H4).
  - subst z. destruct (s_transmute_ok f s) as ((H1 & H3) & H4).
    exact (HS k v _ _ H1 H3 H4).
Qed.

Lemma leaf_m_wf d p n f t h : (forall e, In e (m_visit n) -> hash (ecls e) = h) -> pre d h = p ->
  uniq (m_visit n) -> m_keeps f (m_visit n) -> m_spec f n t -> nleaf t ->
  forall n', nnode t = Some n' -> wf d p n'.
Proof.
  intros Hh Hp HU HK [Hv _] Hl n' Hn. unfold nleaf in Hl. rewrite Hn in *. cbn [ovisit] in Hv.
  eapply leaf_ok_wf; try eassumption.
  - rewrite Hv. apply cls_map_uniq; [apply m_cls|]; assumption.
  - rewrite Hv. apply m_map_hash; assumption.
Qed.

Definition m_slot (o : option (mnode K V)) (t : mnode K V -> outcome (nres S X R)) : outcome (cont S X R) :=
  match o with
  | Some c => let* r := t c in Ret (Some (nnode r, nred r, true, true))
  | None => Ret None
  end.

Lemma c_transmute_steps bits (values : list (mnode K V)) x t : okv (max_ones fw) bits values ->
  steps rd (c_transmute_step rd (BIA bits (map t values) x)) (fun i => m_slot (getv bits values i) t).
Proof.
  intros Hok a i Hi Ha. unfold c_transmute_step.
  rewrite bat_bit_index_slot by assumption. cbn [bind]. unfold m_slot.
  destruct (getv bits values i) as [c|]; cbn [bind]; [|rewrite after_nil_cont; reflexivity].
  destruct (t c) as [n| |]; cbn [bind]; try reflexivity.
  rewrite push_new_ok by assumption. reflexivity.
Qed.

Lemma m_keeps_sub (f : K * V -> kres S X R) l l' : (forall e, In e l' -> In e l) -> m_keeps f l -> m_keeps f l'.
Proof. intros Hs H e k v r He. eauto. Qed.

Lemma m_transmute_ok f d p n : wf d p n -> m_keeps f (m_visit n) ->
  exists t, m_transmute rdef rd (MGeneric f) n = Ret t /\ m_spec f n t /\
    (forall n', nnode t = Some n' -> wf d p n').
Proof.
  intros HW. induction HW as [d p s Hs|d p l g HL Hl|d p bits values x Ho Hp Hok Hne Hx Hch IH]; intros HK.
  - cbn [m_transmute]. eexists. split; [reflexivity|]. destruct (s_transmute_ok f s) as [H1 H2].
    split; [assumption|]. eapply leaf_m_wf; try eassumption.
    + intros e [<-|[]]. reflexivity.
    + cbn. apply uniq_cons. split; [reflexivity|constructor].
  - cbn [m_transmute]. eexists. split; [reflexivity|]. destruct HL as (HL1 & HL2 & HL3).
    destruct (l_transmute_ok f l HL1) as [H1 H2]. split; [assumption|].
    eapply (leaf_m_wf d p (ML l) f _ g); eassumption.
  - cbn [m_transmute].
    assert (HKi : forall i c, getv bits values i = Some c -> m_keeps f (m_visit c)).
    { intros i c Hc. eapply m_keeps_sub; [|exact HK]. eapply visit_C_sub; eassumption. }
    set (g := fun i => got (m_slot (getv bits values i) (m_transmute rdef rd (MGeneric f)))).
    assert (Hg : forall i, m_slot (getv bits values i) (m_transmute rdef rd (MGeneric f)) = Ret (g i)).
    { intros i. unfold g, m_slot. destruct (getv bits values i) as [c|] eqn:Hc; [|reflexivity].
      destruct (IH i c Hc (HKi i c Hc)) as (t & -> & _). reflexivity. }
    pose proof (run_ret rdef rd Sequential _ _ g (c_transmute_steps _ _ x _ Hok) (fun i _ => Hg i)) as HRun.
    cbn [run_loop] in HRun. rewrite HRun. clear HRun. cbn [bind]. rewrite g_count.
    assert (Hgs : forall i, match getv bits values i with
      | Some c => exists t, g i = Some (nnode t, nred t, true, true) /\ m_spec f c t /\
          (forall n', nnode t = Some n' -> wf (d + 1) (p + i * 2 ^ off d) n')
      | None => g i = None end).
    { intros i. pose proof (Hg i) as Hgi. unfold m_slot in Hgi. destruct (getv bits values i) as [c|] eqn:Hc; [|congruence].
      destruct (IH i c Hc (HKi i c Hc)) as (t & Ht & H1 & H2). rewrite Ht in Hgi. exists t. injection Hgi as Hgi. auto. }
    clearbody g. clear Hg.
    destruct (finish_ok d p g (sred rdef rd Sequential g) Ho Hp) as (nn & Hf & Hr & Hv & Hw).
    { intros i n Hi Hn. specialize (Hgs i). destruct (getv bits values i) as [c|].
      - destruct Hgs as (t & Ht & _ & H). rewrite Ht in Hn. apply H. exact Hn.
      - rewrite Hgs in Hn. discriminate. }
    rewrite Hf. eexists. split; [reflexivity|]. split; [|exact Hw]. split.
    + rewrite Hv. rewrite (visit_C _ _ _ _ Hok). unfold m_map. rewrite flat_map_flat_map. apply flat_map_ext_in. intros i _.
      specialize (Hgs i). destruct (getv bits values i) as [c|].
      * destruct Hgs as (t & -> & (H1 & _) & _). exact H1.
      * rewrite Hgs. reflexivity.
    + intros HM. rewrite Hr. rewrite (sred_msum _ _ HM). rewrite (visit_C _ _ _ _ Hok). rewrite map_flat_map.
      unfold greds. rewrite !(msum_flat_map _ _ HM). f_equal. apply map_ext. intros i.
      specialize (Hgs i). destruct (getv bits values i) as [c|].
      * destruct Hgs as (t & -> & (_ & H3) & _). cbn [cr]. rewrite (msum_one _ _ HM). apply H3. assumption.
      * rewrite Hgs. reflexivity.
Qed.

End TransmuteP.
