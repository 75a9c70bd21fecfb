(** What every map satisfies, even one that transform_with_transformed has
    given the same key twice. *)
From Coq Require Import NArith Arith List Bool Lia ZifyBool ZifyN ZifyNat Permutation.
From Verif Require Import Base Words WordsP Flag FlagP Bia BiaP Node Spec SpecP Inv NodeP InsertP TrieP Api Trans Transform Weak LoopP TransformP Joint JointNodeP.
Import ListNotations.
Open Scope N_scope.

Section Weak.
Context {E : Env} {K V : Type} {KK : Key K}.
(** A property of all entries. *)
Context (P : K * V -> Prop).

Definition lw (h : N) (l : lnode K V) : Prop :=
  lok l /\ forall e, In e (l_visit l) -> P e /\ hash (ecls e) = h.

(** As [wf], without distinct keys. *)
Inductive ww : N -> N -> mnode K V -> Prop :=
| ww_S d p s : P (s_key s, s_value s) -> pre d (hashk (s_key s)) = p -> ww d p (MS s)
| ww_L d p l h : lw h l -> pre d h = p -> ww d p (ML l)
| ww_C d p bits values x :
    off d < hbits -> p < 2 ^ off d ->
    okv (max_ones fw) bits values ->
    (values <> [] \/ d = 0) ->
    x = lenN (concat (map m_visit values)) ->
    (forall i c, getv bits values i = Some c -> ww (d + 1) (p + i * 2 ^ off d) c) ->
    ww d p (MC (BIA bits values x)).

Lemma ww_P d p n : ww d p n -> forall e, In e (m_visit n) -> P e.
Proof.
  induction 1; intros e He.
  - destruct He as [<-|[]]. exact H.
  - apply H. assumption.
  - destruct (visit_C_in _ _ _ _ _ H1 He) as (i & c & Hi & Hg & Hc). eapply H5; eassumption.
Qed.

Lemma ww_keys d p n : ww d p n -> forall e, In e (m_visit n) -> pre d (hash (ecls e)) = p.
Proof.
  induction 1; intros e He.
  - destruct He as [<-|[]]. exact H0.
  - destruct H as (_ & Hh). rewrite (proj2 (Hh e He)). assumption.
  - destruct (visit_C_in _ _ _ _ _ H1 He) as (i & c & Hi & Hg & Hc).
    eapply pre_idx; [exact H0|]. eapply H5; eassumption.
Qed.

Lemma ww_C_idx d p bits values x i c e :
  ww d p (MC (BIA bits values x)) -> getv bits values i = Some c -> In e (m_visit c) ->
  idx d (hash (ecls e)) = i.
Proof.
  intros H Hg He. inversion H; subst. eapply pre_idx; [eassumption|].
  eapply ww_keys; [|exact He]. eauto.
Qed.

Lemma ww_nonempty d p n : ww d p n -> d <> 0 -> m_visit n <> [].
Proof.
  induction 1; intros Hd.
  - discriminate.
  - apply l_visit_ne.
  - destruct H2 as [Hv|]; [|contradiction]. destruct values as [|c0 vs]; [contradiction|].
    destruct (in_values_get _ _ _ c0 H1 (or_introl eq_refl)) as (i & Hi & Hg).
    cbn [m_visit map concat]. intros Hc. apply app_eq_nil in Hc. destruct Hc as [Hc _].
    eapply H5; [exact Hg|lia|exact Hc].
Qed.

Lemma ww_size d p n : ww d p n -> m_size n = lenN (m_visit n).
Proof.
  destruct 1; cbn [m_size].
  - reflexivity.
  - apply l_size_len. apply H.
  - cbn [bextra m_visit]. assumption.
Qed.

Lemma ww_size_pos d p n : ww d p n -> d <> 0 -> 0 < m_size n.
Proof.
  intros H Hd. rewrite (ww_size _ _ _ H). pose proof (ww_nonempty _ _ _ H Hd) as Hn.
  destruct (m_visit n); [contradiction|]. rewrite lenN_cons. lia.
Qed.

Lemma sel_app c (l l' : list (K * V)) : sel c (l ++ l') = sel c l ++ sel c l'.
Proof. apply filter_app. Qed.

Lemma sel_none c (l : list (K * V)) : (forall e, In e l -> ecls e <> c) -> sel c l = [].
Proof.
  induction l as [|e l IH]; intros H; [reflexivity|]. cbn [sel filter]. fold (sel c l).
  destruct (ceqb_spec (ecls e) c) as [He|He]; [exfalso; apply (H e (or_introl eq_refl) He)|].
  apply IH. intros; apply H; right; assumption.
Qed.

Lemma sel_lookup c (l : list (K * V)) : lookup c l = hd_error (sel c l).
Proof.
  induction l as [|e l IH]; [reflexivity|]. rewrite lookup_cons. cbn [sel filter]. fold (sel c l).
  destruct (ceqb (ecls e) c); [reflexivity|exact IH].
Qed.

Lemma sel_flat c (f : N -> list (K * V)) (l : list N) : sel c (flat_map f l) = flat_map (fun i => sel c (f i)) l.
Proof. induction l; cbn [flat_map]; [reflexivity|]. rewrite sel_app, IHl. reflexivity. Qed.

Lemma flat_only {A} (f : N -> list A) (l : list N) j : NoDup l -> In j l -> (forall i, In i l -> i <> j -> f i = []) ->
  flat_map f l = f j.
Proof.
  induction l as [|a l IH]; intros Hn Hin H; [destruct Hin|]. inversion Hn; subst. cbn [flat_map].
  destruct Hin as [->|Hin].
  - replace (flat_map f l) with (@nil A); [apply app_nil_r|]. symmetry.
    clear IH Hn H3. induction l as [|b l IH]; [reflexivity|]. cbn [flat_map]. rewrite IH.
    + rewrite H; [reflexivity|right; left; reflexivity|]. intros ->. apply H2. left. reflexivity.
    + intros Hj. apply H2. right. assumption.
    + intros i [->|Hi]; apply H; [left; reflexivity|right; right; assumption].
  - rewrite (H a (or_introl eq_refl)) by (intros ->; contradiction). cbn [app]. apply IH; try assumption.
    intros i Hi. apply H. right. assumption.
Qed.

Lemma ww_slot_in d p bits values x : ww d p (MC (BIA bits values x)) ->
  forall j e, In e (ovisit (getv bits values j)) -> idx d (hash (ecls e)) = j.
Proof.
  intros H j e He. unfold ovisit in He. destruct (getv bits values j) eqn:Hg; [|destruct He].
  eapply ww_C_idx; eassumption.
Qed.

Lemma sel_C d p bits (values : list (mnode K V)) x c : ww d p (MC (BIA bits values x)) ->
  sel c (m_visit (MC (BIA bits values x))) = sel c (ovisit (getv bits values (idx d (hash c)))).
Proof.
  intros H. pose proof (ww_slot_in _ _ _ _ _ H) as HI. inversion H; subst.
  rewrite (visit_C _ _ _ _ H5), sel_flat.
  apply (flat_only (fun i => sel c (ovisit (getv bits values i)))); [apply range_nodup| |].
  - apply range_in. pose proof (idx_lt d (hash c)). lia.
  - intros i _ Hi. apply sel_none. intros e He Hc. apply Hi. rewrite <- Hc. symmetry. apply HI. assumption.
Qed.

(** Changing one slot of a branch. *)
Lemma ww_change d p bits (values : list (mnode K V)) x i bits' values' :
  ww d p (MC (BIA bits values x)) -> i < max_ones fw -> okv (max_ones fw) bits' values' ->
  (forall j, j <> i -> getv bits' values' j = getv bits values j) ->
  (forall c, getv bits' values' i = Some c -> ww (d + 1) (p + i * 2 ^ off d) c) ->
  values' <> [] \/ d = 0 ->
  (lenN (concat (map m_visit values')) + lenN (ovisit (getv bits values i)) = x + lenN (ovisit (getv bits' values' i))) /\
  ww d p (MC (BIA bits' values' (lenN (concat (map m_visit values'))))).
Proof.
  intros HW Hi Hok' Hs Hc Hne. inversion HW; subst. split.
  - pose proof (visit_C _ _ 0 _ H4) as H1. pose proof (visit_C _ _ 0 _ Hok') as H1'. cbn [m_visit] in H1, H1'.
    rewrite H1, H1'. rewrite !(range_app 0 i (max_ones fw)) by lia. rewrite !(range_cons i) by lia.
    rewrite !flat_map_app. cbn [flat_map]. rewrite !lenN_app.
    rewrite (flat_map_ext_in (fun j => ovisit (getv bits' values' j)) (fun j => ovisit (getv bits values j)) (range 0 i)).
    2:{ intros j Hj. apply range_in in Hj. rewrite Hs by lia. reflexivity. }
    rewrite (flat_map_ext_in (fun j => ovisit (getv bits' values' j)) (fun j => ovisit (getv bits values j)) (range (N.succ i) (max_ones fw))).
    2:{ intros j Hj. apply range_in in Hj. rewrite Hs by lia. reflexivity. }
    lia.
  - constructor; try assumption; [reflexivity|]. intros j c Hg. destruct (N.eq_dec j i) as [->|Hj]; [auto|].
    rewrite Hs in Hg by assumption. eauto.
Qed.

Lemma getv_ne {A} bits (values : list A) i a : getv bits values i = Some a -> values <> [].
Proof.
  intros Hg ->. unfold getv in Hg. destruct (N.testbit bits i); [|discriminate].
  unfold nthN in Hg. destruct (N.to_nat (rank bits i)); discriminate.
Qed.

Lemma ww_update d p bits (values : list (mnode K V)) x i c c' x' :
  ww d p (MC (BIA bits values x)) -> getv bits values i = Some c ->
  ww (d + 1) (p + i * 2 ^ off d) c' ->
  x' + lenN (m_visit c) = x + lenN (m_visit c') ->
  exists b', bupdated (BIA bits values x) (2 ^ i) c' x' = Ok b' /\ ww d p (MC b') /\
    forall k, sel k (m_visit (MC b')) = if idx d (hash k) =? i then sel k (m_visit c') else sel k (m_visit (MC (BIA bits values x))).
Proof.
  intros HW Hg HW' Hx. assert (Hok0 : okv (max_ones fw) bits values) by (inversion HW; assumption).
  assert (Hi : i < max_ones fw) by (eapply okv_lt; eassumption).
  destruct (bupdated_ok fw (BIA bits values x) i c' c x' Hok0 Hg) as ([bits' values' x''] & Hb & Hok & Hex & Hget).
  cbn [bextra] in Hex. subst x''. exists (BIA bits' values' x'). split; [exact Hb|].
  unfold get in Hget. cbn [bbits bvalues] in Hget. unfold bia_ok in Hok. cbn [bbits bvalues] in Hok.
  assert (Hgi : getv bits' values' i = Some c') by (rewrite Hget, N.eqb_refl; reflexivity).
  destruct (ww_change d p bits values x i bits' values' HW Hi Hok) as [Hlen HWb].
  { intros j Hj. rewrite Hget. destruct (N.eqb_spec i j); [congruence|reflexivity]. }
  { intros c0 Hc0. rewrite Hgi in Hc0. injection Hc0 as <-. assumption. }
  { left. eapply getv_ne. exact Hgi. }
  rewrite Hg, Hgi in Hlen. cbn [ovisit] in Hlen.
  replace (lenN (concat (map m_visit values'))) with x' in HWb by lia. split; [exact HWb|].
  intros k. rewrite (sel_C _ _ _ _ _ _ HWb). rewrite Hget, N.eqb_sym. destruct (N.eqb_spec (idx d (hash k)) i) as [He|He]; [reflexivity|].
  rewrite (sel_C _ _ _ _ _ _ HW). reflexivity.
Qed.

Lemma ww_insert_slot d p bits (values : list (mnode K V)) x i c' x' :
  ww d p (MC (BIA bits values x)) -> i < max_ones fw -> getv bits values i = None ->
  ww (d + 1) (p + i * 2 ^ off d) c' ->
  x' = x + lenN (m_visit c') ->
  exists b', binserted (BIA bits values x) (2 ^ i) c' x' = Ok b' /\ ww d p (MC b') /\
    forall k, sel k (m_visit (MC b')) = if idx d (hash k) =? i then sel k (m_visit c') else sel k (m_visit (MC (BIA bits values x))).
Proof.
  intros HW Hi Hg HW' Hx. assert (Hok0 : okv (max_ones fw) bits values) by (inversion HW; assumption).
  destruct (binserted_ok fw (BIA bits values x) i c' x' Hok0 Hi Hg) as ([bits' values' x''] & Hb & Hok & Hex & Hget).
  cbn [bextra] in Hex. subst x''. exists (BIA bits' values' x'). split; [exact Hb|].
  unfold get in Hget. cbn [bbits bvalues] in Hget. unfold bia_ok in Hok. cbn [bbits bvalues] in Hok.
  assert (Hgi : getv bits' values' i = Some c') by (rewrite Hget, N.eqb_refl; reflexivity).
  destruct (ww_change d p bits values x i bits' values' HW Hi Hok) as [Hlen HWb].
  { intros j Hj. rewrite Hget. destruct (N.eqb_spec i j); [congruence|reflexivity]. }
  { intros c0 Hc0. rewrite Hgi in Hc0. injection Hc0 as <-. assumption. }
  { left. eapply getv_ne. exact Hgi. }
  rewrite Hg, Hgi in Hlen. cbn [ovisit] in Hlen. change (lenN (@nil (K * V))) with 0 in Hlen.
  replace (lenN (concat (map m_visit values'))) with x' in HWb by lia. split; [exact HWb|].
  intros k. rewrite (sel_C _ _ _ _ _ _ HWb). rewrite Hget, N.eqb_sym. destruct (N.eqb_spec (idx d (hash k)) i) as [He|He]; [reflexivity|].
  rewrite (sel_C _ _ _ _ _ _ HW). reflexivity.
Qed.

Lemma ww_remove_slot d p bits (values : list (mnode K V)) x i c x' :
  ww d p (MC (BIA bits values x)) -> getv bits values i = Some c ->
  x' + lenN (m_visit c) = x -> 0 < x' ->
  exists b', bremoved (BIA bits values x) (2 ^ i) x' = Ok b' /\ ww d p (MC b') /\
    forall k, sel k (m_visit (MC b')) = if idx d (hash k) =? i then [] else sel k (m_visit (MC (BIA bits values x))).
Proof.
  intros HW Hg Hx Hx0. assert (Hok0 : okv (max_ones fw) bits values) by (inversion HW; assumption).
  assert (Hi : i < max_ones fw) by (eapply okv_lt; eassumption).
  destruct (bremoved_ok fw (BIA bits values x) i c x' Hok0 Hg) as ([bits' values' x''] & Hb & Hok & Hex & Hget).
  cbn [bextra] in Hex. subst x''. exists (BIA bits' values' x'). split; [exact Hb|].
  unfold get in Hget. cbn [bbits bvalues] in Hget. unfold bia_ok in Hok. cbn [bbits bvalues] in Hok.
  assert (Hgi : getv bits' values' i = None) by (rewrite Hget, N.eqb_refl; reflexivity).
  assert (Hsame : forall j, j <> i -> getv bits' values' j = getv bits values j).
  { intros j Hj. rewrite Hget. destruct (N.eqb_spec i j); [congruence|reflexivity]. }
  assert (Hlen : lenN (concat (map m_visit values')) = x').
  { pose proof (visit_C _ _ 0 _ Hok0) as H1. pose proof (visit_C _ _ 0 _ Hok) as H1'. cbn [m_visit] in H1, H1'.
    assert (Hx1 : x = lenN (concat (map m_visit values))) by (inversion HW; assumption).
    rewrite H1 in Hx1. rewrite H1'. rewrite !(range_app 0 i (max_ones fw)) in * by lia. rewrite !(range_cons i) in * by lia.
    rewrite !flat_map_app in *. cbn [flat_map] in *. rewrite !lenN_app in *. rewrite Hg in Hx1. rewrite Hgi. cbn [ovisit] in *.
    rewrite (flat_map_ext_in (fun j => ovisit (getv bits' values' j)) (fun j => ovisit (getv bits values j)) (range 0 i)).
    2:{ intros j Hj. apply range_in in Hj. rewrite Hsame by lia. reflexivity. }
    rewrite (flat_map_ext_in (fun j => ovisit (getv bits' values' j)) (fun j => ovisit (getv bits values j)) (range (N.succ i) (max_ones fw))).
    2:{ intros j Hj. apply range_in in Hj. rewrite Hsame by lia. reflexivity. }
    change (lenN (@nil (K * V))) with 0. lia. }
  destruct (ww_change d p bits values x i bits' values' HW Hi Hok Hsame) as [_ HWb].
  { rewrite Hgi. discriminate. }
  { left. intros ->. cbn in Hlen. lia. }
  rewrite Hlen in HWb. split; [exact HWb|].
  intros k. rewrite (sel_C _ _ _ _ _ _ HWb). rewrite Hget, N.eqb_sym. destruct (N.eqb_spec (idx d (hash k)) i) as [He|He]; [reflexivity|].
  rewrite (sel_C _ _ _ _ _ _ HW). reflexivity.
Qed.

(** A leaf or collision list all of whose keys have hash [h]. *)
Definition leafw (h : N) (n : mnode K V) : Prop :=
  match n with
  | MC _ => False
  | ML l => lw h l
  | MS s => P (s_key s, s_value s) /\ hashk (s_key s) = h
  end.

Lemma leafw_ww d h n : leafw h n -> ww d (pre d h) n.
Proof.
  destruct n; cbn; intros H; [contradiction| |].
  - apply ww_L with (h := h); [assumption|reflexivity].
  - destruct H. constructor; congruence.
Qed.

Lemma leafw_in h n e : leafw h n -> In e (m_visit n) -> P e /\ hash (ecls e) = h.
Proof.
  destruct n; cbn; intros H He; [contradiction| |].
  - apply H. assumption.
  - destruct He as [<-|[]]. exact H.
Qed.

Lemma leafw_size h n : leafw h n -> m_size n = lenN (m_visit n).
Proof. intros H. eapply ww_size. eapply (leafw_ww 0); eassumption. Qed.

Lemma ww_leafw d p (n : lnext K V) : ww d p (next_mnode n) ->
  leafw (hashk (next_key n)) (next_mnode n) /\ pre d (hashk (next_key n)) = p.
Proof.
  destruct n as [l|s]; cbn [next_mnode next_key]; intros H; inversion H; subst.
  - assert (Hh : hashk (l_key l) = h).
    { apply (proj2 H1 (l_key l, l_value l)). destruct l; left; reflexivity. }
    rewrite Hh. split; [exact H1|reflexivity].
  - split; [split; [assumption|]|]; reflexivity.
Qed.

Lemma leafw_new h k v (nx : lnext K V) : leafw h (next_mnode nx) -> P (k, v) -> hashk k = h -> leafw h (ML (l_new k v nx)).
Proof.
  intros H HP Hh. split.
  - apply lok_new. destruct nx; [apply H|exact I].
  - rewrite l_visit_next. intros e [<-|He]; [split; [assumption|exact Hh]|]. apply (leafw_in h (next_mnode nx)); assumption.
Qed.

Lemma c_lift_w fuel : forall d h1 h2 this tf right rf,
  leafw h1 this -> leafw h2 right -> h1 <> h2 -> h1 < 2 ^ hbits -> h2 < 2 ^ hbits ->
  pre d h1 = pre d h2 -> flag_for d h1 tf -> flag_for d h2 rf ->
  hbits <= off d + N.of_nat fuel * log_b fw ->
  exists c, c_lift fuel this tf right rf = Ret c /\ ww d (pre d h1) (MC c) /\
    (m_visit (MC c) = m_visit this ++ m_visit right \/ m_visit (MC c) = m_visit right ++ m_visit this).
Proof.
  induction fuel as [|fuel IH]; intros d h1 h2 this tf right rf HL1 HL2 Hne Hh1 Hh2 Hp Ht Hr Hf.
  - exfalso. apply Hne. rewrite <- (pre_full d h1), <- (pre_full d h2) by (cbn in *; lia). assumption.
  - pose proof (neq_off d h1 h2 Hne Hh1 Hh2 Hp) as Hd.
    cbn [c_lift].
    rewrite (proj2 (proj2 Ht) Hd), (proj2 (proj2 Hr) Hd), pow2_eqb.
    rewrite (leafw_size h1) by assumption. rewrite (leafw_size h2) by assumption.
    destruct (N.eqb_spec (idx d h1) (idx d h2)) as [Hi|Hi].
    + assert (Hp' : pre (d + 1) h1 = pre (d + 1) h2) by (rewrite !pre_succ, Hp, Hi; reflexivity).
      pose proof (neq_off (d + 1) h1 h2 Hne Hh1 Hh2 Hp') as Hd'.
      rewrite (flag_next_ok d h1) by assumption. cbn [bind unwrap].
      rewrite (flag_next_ok d h2) by assumption. cbn [bind unwrap].
      destruct (IH (d + 1) h1 h2 this (mkFlag h1 (d + 1) (2 ^ idx (d + 1) h1)) right (mkFlag h2 (d + 1) (2 ^ idx (d + 1) h2)))
        as (c & Hc & HW & HP); try assumption; try (apply flag_for_at; assumption).
      { rewrite off_succ. lia. }
      rewrite Hc. cbn [bind].
      destruct (single_ok (max_ones fw) (idx d h1) (MC c) (idx_lt _ _)) as [Hok Hget].
      rewrite (new_bia_ok fw) by exact Hok. cbn [unwrap_ok].
      eexists. split; [reflexivity|]. split.
      * constructor; try assumption.
        -- apply pre_lt.
        -- left. discriminate.
        -- cbn [map concat]. rewrite app_nil_r. destruct HP as [HP|HP]; rewrite HP, lenN_app; lia.
        -- intros i c1. rewrite Hget. destruct (N.eqb_spec (idx d h1) i) as [<-|]; [|discriminate].
           intros [= <-]. rewrite <- pre_succ. assumption.
      * cbn [m_visit map concat]. rewrite app_nil_r. exact HP.
    + rewrite bit_insert_pow2. rewrite N.pow2_bits_eqb. destruct (N.eqb_spec (idx d h1) (idx d h2)); [contradiction|].
      cbn [unwrap_ok bind].
      rewrite bit_index_pow2, testbit_lor_pow2, N.pow2_bits_true. cbn [orb unwrap_ok bind].
      rewrite rank_lor_pow2, rank_pow2 by (rewrite N.pow2_bits_eqb; apply N.eqb_neq; assumption).
      rewrite N.ltb_irrefl, N.add_0_l.
      assert (Hgen : forall i1 i2 c1 c2 g1 g2, i1 < i2 -> i2 < max_ones fw ->
        leafw g1 c1 -> leafw g2 c2 -> pre d g1 = pre d h1 -> pre d g2 = pre d h1 -> idx d g1 = i1 -> idx d g2 = i2 ->
        forall size bits, size = lenN (m_visit c1) + lenN (m_visit c2) -> bits = N.lor (2 ^ i1) (2 ^ i2) ->
        exists c, unwrap_ok (new_bia bits [c1; c2] size) = Ret c /\ ww d (pre d h1) (MC c) /\
          m_visit (MC c) = m_visit c1 ++ m_visit c2).
      { intros i1 i2 c1 c2 g1 g2 Hlt Hi2 HLa HLb Hpa Hpb Hia Hib size bits Hs Hbits. subst bits.
        destruct (pair_ok (max_ones fw) i1 i2 c1 c2 Hlt Hi2) as [Hok Hget].
        rewrite (new_bia_ok fw) by exact Hok. cbn [unwrap_ok].
        eexists. split; [reflexivity|]. split.
        - constructor; try assumption.
          + apply pre_lt.
          + left. discriminate.
          + cbn [map concat]. rewrite app_nil_r, lenN_app. assumption.
          + intros i c0. rewrite Hget. destruct (N.eqb_spec i2 i) as [<-|]; [|destruct (N.eqb_spec i1 i) as [<-|]; [|discriminate]];
              intros [= <-].
            * rewrite <- Hpb, <- Hib, <- pre_succ. apply leafw_ww. assumption.
            * rewrite <- Hpa, <- Hia, <- pre_succ. apply leafw_ww. assumption.
        - cbn [m_visit map concat]. rewrite app_nil_r. reflexivity. }
      destruct (N.ltb_spec (idx d h2) (idx d h1)).
      * change (1 =? 0) with false. cbn iota.
        edestruct (Hgen (idx d h2) (idx d h1) right this h2 h1) as (c & Hc & HW & HV);
          [assumption|apply idx_lt|assumption|assumption|auto|auto|auto|auto| | |].
        3:{ exists c. split; [exact Hc|]. split; [exact HW|]. right. exact HV. }
        -- lia.
        -- apply N.lor_comm.
      * change (0 =? 0) with true. cbn iota.
        edestruct (Hgen (idx d h1) (idx d h2) this right h1 h2) as (c & Hc & HW & HV);
          [lia|apply idx_lt|assumption|assumption|auto|auto|auto|auto| | |].
        3:{ exists c. split; [exact Hc|]. split; [exact HW|]. left. exact HV. }
        -- lia.
        -- reflexivity.
Qed.

Lemma cnode_lift_w d h1 h2 this tf right rf :
  leafw h1 this -> leafw h2 right -> h1 <> h2 -> h1 < 2 ^ hbits -> h2 < 2 ^ hbits ->
  pre d h1 = pre d h2 -> flag_for d h1 tf -> flag_for d h2 rf ->
  exists c, cnode_lift this tf right rf = Ret c /\ ww d (pre d h1) (MC c) /\
    (m_visit (MC c) = m_visit this ++ m_visit right \/ m_visit (MC c) = m_visit right ++ m_visit this).
Proof. intros. eapply c_lift_w; try eassumption. apply lift_fuel_ok. Qed.

(** The end of a loop. *)
Lemma finish_w {R} d p (g : N -> cont K V R) r : off d < hbits -> p < 2 ^ off d ->
  (forall i n, i < max_ones fw -> cn (g i) = Some n -> ww (d + 1) (p + i * 2 ^ off d) n) ->
  forall n n', finish (total g r) = Ret n -> nnode n = Some n' -> ww d p n'.
Proof.
  intros Hd Hp Hw. destruct (g_ok g (max_ones fw)) as [Hok Hget].
  set (l := range 0 (max_ones fw)) in *.
  assert (Hsz : gsize g l = lenN (flat_map (fun i => ovisit (cn (g i))) l)).
  { apply gsize_len. intros i n Hi Hc. apply range_in in Hi. eapply ww_size. apply (Hw i n); [lia|assumption]. }
  assert (HC : gvals g l <> [] -> ww d p (MC (BIA (gbits g l) (gvals g l) (gsize g l)))).
  { intros Hne. constructor; try assumption.
    - left. assumption.
    - rewrite Hsz. unfold l. rewrite gvals_visit. reflexivity.
    - intros i c Hc. rewrite Hget in Hc. destruct (N.ltb_spec i (max_ones fw)); [|discriminate].
      apply Hw; assumption. }
  unfold finish, total. fold l. cbn [a_values a_bits a_size a_red].
  assert (Hbig : gvals g l <> [] -> forall n n',
    (let* b := unwrap_ok (new_bia (gbits g l) (gvals g l) (gsize g l)) in Ret (NRC b r)) = Ret n -> nnode n = Some n' -> ww d p n').
  { intros Hne n n'. rewrite (new_bia_ok fw) by assumption. cbn [unwrap_ok bind]. intros [= <-] [= <-]. auto. }
  assert (Hleaf : forall n, gvals g l = [n] -> (match n with MC _ => False | _ => True end) -> ww d p n).
  { intros n Hn Hl.
    assert (Hin : In n (gvals g l)) by (rewrite Hn; left; reflexivity).
    apply in_flat_map in Hin. destruct Hin as (i & Hi & Hin). apply range_in in Hi.
    destruct (cn (g i)) eqn:Hc; [|destruct Hin]. destruct Hin as [<-|[]].
    pose proof (Hw i m ltac:(lia) Hc) as HW. inversion HW; subst; [| |contradiction].
    - constructor; [assumption|]. eapply pre_idx; [exact Hp|]. eassumption.
    - eapply ww_L; [eassumption|]. eapply pre_idx; [exact Hp|]. eassumption. }
  destruct (gvals g l) as [|n0 vs] eqn:Hv.
  - intros n n' [= <-]. discriminate.
  - destruct n0 as [c|l0|s0]; destruct vs as [|n1 vs]; try (apply Hbig; discriminate);
      intros n n' [= <-] [= <-]; apply Hleaf; [reflexivity|exact I|reflexivity|exact I].
Qed.

End Weak.

Section Mono.
Context {E : Env} {K V : Type} {KK : Key K}.

Lemma ww_mono (P Q : K * V -> Prop) d p n : (forall e, In e (m_visit n) -> P e -> Q e) -> ww P d p n -> ww Q d p n.
Proof.
  intros HPQ H. induction H.
  - constructor; [|assumption]. apply HPQ; [left; reflexivity|assumption].
  - eapply ww_L; [|eassumption]. destruct H as [Hl Hh]. split; [assumption|]. intros e He. specialize (Hh e He). split; [apply HPQ; tauto|tauto].
  - constructor; try assumption. intros i c Hc. apply (H5 i c Hc). intros e He. apply HPQ.
    apply visit_C_sub with (i := i) (c := c); assumption.
Qed.

Lemma wf_ww d p (n : mnode K V) : wf d p n -> ww (fun _ => True) d p n.
Proof.
  induction 1.
  - constructor; auto.
  - eapply ww_L; [|eassumption]. destruct H as (H1 & H2 & H3). split; auto.
  - constructor; auto.
Qed.

Lemma ww_self (P : K * V -> Prop) d p (n : mnode K V) : ww P d p n -> ww (fun e => In e (m_visit n)) d p n.
Proof. intros H. apply (ww_mono P); auto. Qed.

End Mono.
