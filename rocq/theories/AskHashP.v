(** Maps whose keys hash as they should but compare as they like. *)
From Coq Require Import NArith Arith List Bool Lia ZifyBool ZifyN ZifyNat Permutation.
From Verif Require Import Base Words WordsP Flag FlagP Bia BiaP Node Spec SpecP Inv NodeP InsertP Api Profile Eff EffP Ask SpecAsk AskP AskOpP AskInsP.
Import ListNotations.
Open Scope N_scope.

Section Gs.
Context {Q : Type} {A : Q -> Type} (S : event (A := A) -> Prop).

(** Every run of [p] all of whose calls are [S] meets [G]. *)
Definition gs {X} (p : prog A X) (G : list (event (A := A)) -> outcome X -> Prop) : Prop :=
  forall tr o, exec p tr o -> Forall S tr -> G tr o.

Lemma gs_gives {X} (p : prog A X) G : gives p G -> gs p G.
Proof. intros H tr o He _. auto. Qed.
Lemma gs_and {X} (p : prog A X) (G H : _ -> _ -> Prop) : gs p G -> gs p H -> gs p (fun tr o => G tr o /\ H tr o).
Proof. intros H1 H2 tr o He HS. split; auto. Qed.
Lemma gs_ret {X} (x : X) (G : _ -> _ -> Prop) : G [] (Ret x) -> gs (PRet x) G.
Proof. intros H tr o [-> ->] _. assumption. Qed.
Lemma gs_panic {X} (G : _ -> outcome X -> Prop) : G [] Panic -> gs PPanic G.
Proof. intros H tr o [-> ->] _. assumption. Qed.
Lemma gs_ask {X} q (k : A q -> prog A X) (G : _ -> _ -> Prop) :
  G [broke q] Panic -> (forall a, S (answer q a) -> gs (k a) (fun tr o => G (answer q a :: tr) o)) -> gs (PAsk q k) G.
Proof.
  intros H1 H2 tr o [(a & tr' & -> & He)|[-> ->]] HS; [|assumption]. inversion HS as [|e l Ha Hl]; subst.
  apply H2; assumption.
Qed.
Lemma gs_bind {X Y} (p : prog A X) (k : X -> prog A Y) (P G : _ -> _ -> Prop) :
  gs p P -> (forall tr x, Forall S tr -> P tr (Ret x) -> gs (k x) (fun tr' o => G (tr ++ tr') o)) ->
  (forall tr, P tr Panic -> G tr Panic) -> (forall tr, P tr Diverge -> G tr Diverge) -> gs (pbind p k) G.
Proof.
  intros Hp Hk H1 H2 tr o He HS. apply exec_bind in He. destruct He as [(t1 & t2 & x & -> & He1 & He2)|[[He ->]|[He ->]]].
  - apply Forall_app in HS. destruct HS as [HS1 HS2]. eapply Hk; [exact HS1|apply Hp; [exact He1|exact HS1]|exact He2|exact HS2].
  - apply H1, Hp; assumption.
  - apply H2, Hp; assumption.
Qed.
Lemma gs_lift {X Y} (o : outcome X) (k : X -> prog A Y) (G : _ -> _ -> Prop) :
  (forall x, o = Ret x -> gs (k x) G) -> (o = Panic -> G [] Panic) -> (o = Diverge -> G [] Diverge) -> gs (pbind (lift o) k) G.
Proof. intros H1 H2 H3. destruct o; cbn [lift pbind]; [apply H1; reflexivity|intros tr o [-> ->]; auto..]. Qed.
Lemma gs_weak {X} (p : prog A X) (P G : _ -> _ -> Prop) : gs p P -> (forall tr o, P tr o -> G tr o) -> gs p G.
Proof. intros H1 H2 tr o He HS. apply H2, H1; assumption. Qed.

End Gs.

Section AskHashP.
Context {E : Env} {K V L W : Type} {KK : Key K} {KL : Key L}.
Notation event := (event (A := @reply E K V L W)).
Notation trace := (list event).
Notation said := (@answer _ (@reply E K V L W)).
Implicit Types tr : trace.

(** Every key lies where its hash belongs; keys may be equal. *)
Inductive placed : N -> N -> mnode K V -> Prop :=
| placed_S d p s : pre d (hashk (s_key s)) = p -> placed d p (MS s)
| placed_L d p l h : lok l -> (forall e, In e (l_visit l) -> hash (ecls e) = h) -> pre d h = p -> placed d p (ML l)
| placed_C d p bits values x :
    off d < hbits -> p < 2 ^ off d ->
    okv (max_ones fw) bits values ->
    (values <> [] \/ d = 0) ->
    x = lenN (concat (map m_visit values)) ->
    (forall i c, getv bits values i = Some c -> placed (d + 1) (p + i * 2 ^ off d) c) ->
    placed d p (MC (BIA bits values x)).

Lemma wf_placed d p n : wf d p n -> placed d p n.
Proof.
  intros H. induction H as [d p s Hs|d p l h HL Hl|d p bits values x Ho Hp Hok Hne Hx Hch IH].
  - constructor. assumption.
  - destruct HL as (H1 & _ & H2). econstructor; eassumption.
  - constructor; assumption.
Qed.

Lemma placed_usable d : off d < hbits -> usable d.
Proof. intros H. split; [unfold hbits in *; lia|auto]. Qed.

Lemma placed_loose d p n : placed d p n -> loose d n.
Proof.
  intros H. induction H as [d p s Hs|d p l h H1 H2 H3|d p bits values x Ho Hp Hok Hne Hx Hch IH].
  - constructor.
  - constructor. assumption.
  - constructor; try assumption; [apply placed_usable; assumption|]. intros c Hc.
    destruct (in_values_get _ _ _ _ Hok Hc) as (i & _ & Hg). eapply IH. eassumption.
Qed.

Lemma placed_branches n : forall d p, placed d p n -> branches n = 0 \/ off (d + branches n - 1) < hbits.
Proof.
  induction n as [bits values x IH|l|s] using mnode_ind'; intros d p H; [|left; reflexivity..].
  right. inversion H as [| |? ? ? ? ? Ho Hp Hok Hne Hx Hch]; subst. cbn [branches bvalues].
  rewrite Forall_forall in IH.
  assert (HB : forall vs, (forall c, In c vs -> In c values) ->
    fold_right N.max 0 (map branches vs) = 0 \/ off (d + fold_right N.max 0 (map branches vs)) < hbits).
  { induction vs as [|c vs IHv]; intros Hs; [left; reflexivity|]. cbn [map fold_right].
    assert (Hc : In c values) by (apply Hs; left; reflexivity). destruct (in_values_get _ _ _ _ Hok Hc) as (i & _ & Hg).
    destruct (IHv (fun y Hy => Hs y (or_intror Hy))) as [->|Hv]; destruct (IH c Hc _ _ (Hch _ _ Hg)) as [Hz|Hz].
    - left. rewrite Hz. reflexivity.
    - destruct (N.eq_dec (branches c) 0) as [H0|H0]; [left; rewrite H0; reflexivity|]. right.
      rewrite N.max_0_r. replace (d + branches c) with (d + 1 + branches c - 1) by lia. assumption.
    - right. rewrite Hz, N.max_0_l. assumption.
    - right. destruct (N.max_spec (branches c) (fold_right N.max 0 (map branches vs))) as [[Hlt ->]|[Hle ->]]; [assumption|].
      destruct (N.eq_dec (branches c) 0) as [H0|H0].
      + assert (fold_right N.max 0 (map branches vs) = 0) as HH by lia. rewrite HH in Hv. rewrite H0. assumption.
      + replace (d + branches c) with (d + 1 + branches c - 1) by lia. assumption. }
  destruct (HB values (fun y Hy => Hy)) as [H0|H0].
  - rewrite H0. replace (d + (1 + 0) - 1) with d by lia. assumption.
  - replace (d + (1 + fold_right N.max 0 (map branches values)) - 1) with (d + fold_right N.max 0 (map branches values)) by lia. assumption.
Qed.

Lemma placed_shallow n : placed 0 0 n -> off (0 + branches n) < 8 * hbits.
Proof.
  intros H. rewrite N.add_0_l. destruct (placed_branches _ _ _ H) as [->|Hb].
  - unfold off, hbits. pose proof (max_ones_ge hw). lia.
  - destruct (N.eq_dec (branches n) 0) as [->|Hne]; [unfold off, hbits; pose proof (max_ones_ge hw); lia|].
    replace (branches n) with (branches n - 1 + 1) at 1 by lia. rewrite off_succ, N.add_0_l in *.
    pose proof (log_b_le fw). pose proof (max_ones_ge hw). unfold hbits in *. lia.
Qed.

(** The entries of a node at depth [d] share the slices above it. *)
Lemma placed_keys d p n : placed d p n -> forall e, In e (m_visit n) -> pre d (hash (ecls e)) = p.
Proof.
  intros H. induction H as [d p s Hs|d p l h H1 H2 H3|d p bits values x Ho Hp Hok Hne Hx Hch IH]; intros e He.
  - destruct He as [<-|[]]. exact Hs.
  - rewrite (H2 e He). assumption.
  - cbn [m_visit] in He. apply in_concat in He. destruct He as (vs & Hvs & He). apply in_map_iff in Hvs. destruct Hvs as (c & <- & Hc).
    destruct (in_values_get _ _ _ _ Hok Hc) as (i & _ & Hg). specialize (IH _ _ Hg e He).
    apply (pre_idx d _ p i Hp IH).
Qed.

(** A leaf or list of keys with hash [h]. *)
Definition hoard (h : N) (n : mnode K V) : Prop :=
  leafish n /\ forall e, In e (m_visit n) -> hash (ecls e) = h.

Lemma hoard_placed d h n : hoard h n -> placed d (pre d h) n.
Proof.
  intros [H1 H2]. destruct n as [|l|s]; [destruct H1|..].
  - econstructor; [exact H1|exact H2|reflexivity].
  - constructor. f_equal. apply (H2 (s_key s, s_value s)). left. reflexivity.
Qed.

Lemma placed_hoard d p n : placed d p n -> leafish n -> exists h, hoard h n /\ pre d h = p.
Proof.
  intros [d' p' s Hs|d' p' l h H1 H2 H3|] HL; [| |destruct HL].
  - exists (hashk (s_key s)). split; [|assumption]. split; [exact I|]. intros e [<-|[]]. reflexivity.
  - exists h. split; [|assumption]. split; assumption.
Qed.

Lemma hoard_key h (nx : lnext K V) : hoard h (next_mnode nx) -> hashk (next_key nx) = h.
Proof.
  intros [_ H]. destruct nx as [l|s]; cbn [next_mnode next_key] in *.
  - apply (H (l_key l, l_value l)). destruct l; left; reflexivity.
  - apply (H (s_key s, s_value s)). left. reflexivity.
Qed.

Lemma c_lift_placed fuel : forall d h1 h2 this tf right rf,
  hoard h1 this -> hoard h2 right -> h1 <> h2 -> h1 < 2 ^ hbits -> h2 < 2 ^ hbits ->
  pre d h1 = pre d h2 -> flag_for d h1 tf -> flag_for d h2 rf ->
  hbits <= off d + N.of_nat fuel * log_b fw ->
  exists c, c_lift fuel this tf right rf = Ret c /\ placed d (pre d h1) (MC c) /\
    Permutation (m_visit (MC c)) (m_visit this ++ m_visit right).
Proof.
  induction fuel as [|fuel IH]; intros d h1 h2 this tf right rf HL1 HL2 Hne Hh1 Hh2 Hp Ht Hr Hf.
  - exfalso. apply Hne. rewrite <- (pre_full d h1), <- (pre_full d h2) by (cbn in *; lia). assumption.
  - assert (Hd : off d < hbits) by (eapply neq_off; eassumption).
    cbn [c_lift].
    rewrite (proj2 (proj2 Ht) Hd), (proj2 (proj2 Hr) Hd), pow2_eqb.
    rewrite (loose_size d this) by (apply leafish_loose, HL1). rewrite (loose_size d right) by (apply leafish_loose, HL2).
    destruct (N.eqb_spec (idx d h1) (idx d h2)) as [Hi|Hi].
    + assert (Hp' : pre (d + 1) h1 = pre (d + 1) h2) by (rewrite !pre_succ, Hp, Hi; reflexivity).
      assert (Hd' : off (d + 1) < hbits) by (eapply neq_off; eassumption).
      rewrite (flag_next_ok d h1) by assumption. cbn [bind unwrap].
      rewrite (flag_next_ok d h2) by assumption. cbn [bind unwrap].
      destruct (IH (d + 1) h1 h2 this (mkFlag h1 (d + 1) (2 ^ idx (d + 1) h1)) right (mkFlag h2 (d + 1) (2 ^ idx (d + 1) h2)))
        as (c & Hc & HW & HP); try assumption; try (apply flag_for_at; assumption).
      { rewrite off_succ. lia. }
      rewrite Hc. cbn [bind].
      destruct (single_ok (max_ones fw) (idx d h1) (MC c) (idx_lt _ _)) as [Hok Hget].
      rewrite (new_bia_ok fw) by exact Hok. cbn [unwrap_ok].
      eexists. split; [reflexivity|]. split.
      * constructor; try assumption.
        -- apply pre_lt.
        -- left. discriminate.
        -- cbn [map concat]. rewrite app_nil_r. rewrite <- lenN_app. symmetry. apply lenN_perm. exact HP.
        -- intros i c1. rewrite Hget. destruct (N.eqb_spec (idx d h1) i) as [<-|]; [|discriminate].
           intros [= <-]. rewrite <- pre_succ. assumption.
      * cbn [m_visit map concat]. rewrite app_nil_r. exact HP.
    + rewrite bit_insert_pow2. rewrite N.pow2_bits_eqb. destruct (N.eqb_spec (idx d h1) (idx d h2)); [contradiction|].
      cbn [unwrap_ok bind].
      rewrite bit_index_pow2, testbit_lor_pow2, N.pow2_bits_true. cbn [orb unwrap_ok bind].
      rewrite rank_lor_pow2, rank_pow2 by (rewrite N.pow2_bits_eqb; apply N.eqb_neq; assumption).
      rewrite N.ltb_irrefl, N.add_0_l.
      assert (Hgen : forall i1 i2 c1 c2 g1 g2, i1 < i2 -> i2 < max_ones fw ->
        hoard g1 c1 -> hoard g2 c2 -> pre d g1 = pre d h1 -> pre d g2 = pre d h1 -> idx d g1 = i1 -> idx d g2 = i2 ->
        forall size bits, size = lenN (m_visit c1) + lenN (m_visit c2) -> bits = N.lor (2 ^ i1) (2 ^ i2) ->
        exists c, unwrap_ok (new_bia bits [c1; c2] size) = Ret c /\ placed d (pre d h1) (MC c) /\
          m_visit (MC c) = m_visit c1 ++ m_visit c2).
      { intros i1 i2 c1 c2 g1 g2 Hlt Hi2 HLa HLb Hpa Hpb Hia Hib size bits Hs Hbits. subst bits.
        destruct (pair_ok (max_ones fw) i1 i2 c1 c2 Hlt Hi2) as [Hok Hget].
        rewrite (new_bia_ok fw) by exact Hok. cbn [unwrap_ok].
        eexists. split; [reflexivity|]. split.
        - constructor; try assumption.
          + apply pre_lt.
          + left. discriminate.
          + cbn [map concat]. rewrite app_nil_r, lenN_app. assumption.
          + intros i c0. rewrite Hget. destruct (N.eqb_spec i2 i) as [<-|]; [|destruct (N.eqb_spec i1 i) as [<-|]; [|discriminate]];
              intros [= <-].
            * rewrite <- Hpb, <- Hib, <- pre_succ. apply hoard_placed. assumption.
            * rewrite <- Hpa, <- Hia, <- pre_succ. apply hoard_placed. assumption.
        - cbn [m_visit map concat]. rewrite app_nil_r. reflexivity. }
      destruct (N.ltb_spec (idx d h2) (idx d h1)).
      * change (1 =? 0) with false. cbn iota.
        edestruct (Hgen (idx d h2) (idx d h1) right this h2 h1) as (c & Hc & HW & HV);
          [assumption|apply idx_lt|assumption|assumption|auto|auto|auto|auto| | |].
        3:{ exists c. split; [exact Hc|]. split; [exact HW|]. rewrite HV. apply Permutation_app_comm. }
        -- lia.
        -- apply N.lor_comm.
      * change (0 =? 0) with true. cbn iota.
        edestruct (Hgen (idx d h1) (idx d h2) this right h1 h2) as (c & Hc & HW & HV);
          [lia|apply idx_lt|assumption|assumption|auto|auto|auto|auto| | |].
        3:{ exists c. split; [exact Hc|]. split; [exact HW|]. rewrite HV. reflexivity. }
        -- lia.
        -- reflexivity.
Qed.

(** ** Copies keep the hash *)

Lemma steady_in tr e : Forall steady tr -> In e tr -> steady e.
Proof. intros H Hi. rewrite Forall_forall in H. auto. Qed.

Lemma copied_hash tr (e e' : K * V) : Forall steady tr -> copied tr e e' -> hash (ecls e') = hash (ecls e).
Proof. intros HS [->|[H _]]; [reflexivity|]. exact (steady_in _ _ HS H). Qed.

Lemma copies_hash tr (l l' : list (K * V)) h : Forall steady tr -> Forall2 (copied tr) l l' ->
  (forall e, In e l -> hash (ecls e) = h) -> forall e, In e l' -> hash (ecls e) = h.
Proof.
  intros HS HF. induction HF as [|a b l l' Hab HF IH]; intros Hl e He; [destruct He|]. destruct He as [<-|He].
  - rewrite (copied_hash _ _ _ HS Hab). apply Hl. left. reflexivity.
  - apply IH; [|assumption]. intros y Hy. apply Hl. right. assumption.
Qed.

Lemma taken_hash old new e q tr h : Forall steady tr -> taken old new e q tr ->
  (forall a, In a old -> hash (ecls a) = h) -> forall a, In a new -> hash (ecls a) = h.
Proof.
  intros HS (_ & l & l' & HP & HF & HQ) Ho a Ha. eapply copies_hash; [exact HS|exact HF| |].
  - intros y Hy. apply Ho. eapply Permutation_in; [apply Permutation_sym, HP|]. right. assumption.
  - eapply Permutation_in; eassumption.
Qed.

(** ** remove *)

Definition rem_placed (d p : N) tr (o : outcome (remove_result K V)) : Prop :=
  match o with
  | Ret r => match left_by r with Some (Some n', _) => placed d p n' | _ => True end
  | _ => True
  end.

Lemma leaf_rem_placed d p n q (pr : prog (@reply E K V L W) (remove_result K V)) : placed d p n -> leafish n ->
  (forall tr r n' e, exec pr tr (Ret r) -> left_by r = Some (Some n', e) -> leafish n') ->
  gives pr (rem_post d n q) -> gs steady pr (rem_placed d p).
Proof.
  intros HP HL Hlf Hg tr o He HS. specialize (Hg _ _ He). destruct o as [r| |]; cbn [rem_post rem_placed] in *; try exact I.
  destruct Hg as [_ Hg]. destruct (left_by r) as [[[n'|] e]|] eqn:Hr; try exact I.
  destruct Hg as (_ & _ & Ht). destruct (placed_hoard _ _ _ HP HL) as (h & [_ Hh] & <-). apply hoard_placed. split.
  - eapply Hlf; eassumption.
  - eapply taken_hash; eassumption.
Qed.

Lemma as_remove_placed d p s q : placed d p (MS s) -> gs steady (as_remove s q) (rem_placed d p).
Proof.
  intros H. eapply leaf_rem_placed; [exact H|exact I| |apply as_remove_post].
  intros tr r n' e He Hr. unfold as_remove, ask in He. cbn [pbind exec] in He.
  destruct He as [(a & tr' & -> & He)|[_ He]]; [|discriminate]. destruct a; destruct He as [_ [= ->]]; discriminate Hr.
Qed.

Lemma al_remove_placed d p l q : placed d p (ML l) -> gs steady (al_remove l q) (rem_placed d p).
Proof.
  intros H. assert (Hl : lok l) by (inversion H; assumption). eapply leaf_rem_placed; [exact H|exact Hl| |apply al_remove_post; assumption].
  intros tr r n' e He Hr. pose proof (al_remove_post d l q Hl _ _ He) as (_ & Hp). rewrite Hr in Hp. destruct Hp as (Hlo & _).
  unfold al_remove in He. apply exec_bind in He. destruct He as [(t1 & t2 & x & _ & _ & [_ He])|[[_ He]|[_ He]]]; [|discriminate..].
  injection He as ->. destruct x; cbn [left_by] in Hr; [discriminate|..]; injection Hr as <- _; [inversion Hlo; assumption|exact I].
Qed.

(** A branch that is loose and whose slots hold what they should. *)
Lemma placed_of_loose d p (b : bia (mnode K V)) : loose d (MC b) -> off d < hbits -> p < 2 ^ off d ->
  (forall i c, get b i = Some c -> placed (d + 1) (p + i * 2 ^ off d) c) -> placed d p (MC b).
Proof.
  destruct b as [bits values x]. intros HL Ho Hp Hg. inversion HL as [| |? ? ? ? HU Hok Hne Hx Hch]; subst. constructor; auto.
Qed.

Lemma slot_of bits values x d p h : placed d p (MC (BIA bits values x)) -> p = pre d h -> forall c,
  bat (BIA bits values x) (2 ^ idx d h) = Ok c -> getv bits values (idx d h) = Some c /\ placed (d + 1) (pre (d + 1) h) c.
Proof.
  intros H -> c Hb. inversion H as [| |? ? ? ? ? Ho Hp Hok Hne Hx Hch]; subst. rewrite (bat_get fw) in Hb by exact Hok.
  unfold get in Hb. cbn [bbits bvalues] in Hb. destruct (getv bits values (idx d h)) as [c'|] eqn:Hg; [|discriminate]. injection Hb as ->.
  split; [reflexivity|]. rewrite pre_succ. apply Hch. assumption.
Qed.

Lemma flag_for_next d h f nx : flag_for d h f -> flag_next f = Ret nx -> off d < hbits -> exists g, nx = Some g /\ flag_for (d + 1) h g.
Proof.
  intros (Hh & Hd & _) Hn Ho. unfold flag_next in Hn. rewrite Hh, Hd in Hn.
  destruct (N.lt_ge_cases (off (d + 1)) hbits) as [Hlt|Hge].
  - rewrite flag_at_ok in Hn by assumption. injection Hn as <-. eexists. split; [reflexivity|]. apply flag_for_at. assumption.
  - rewrite flag_past in Hn by assumption. destruct checked; [discriminate|]. injection Hn as <-.
    eexists. split; [reflexivity|]. repeat split. intros Habs. lia.
Qed.

Lemma flag_for_at_depth d h f : flag_for d h f -> off d < hbits -> flag_at d f.
Proof. intros (Hh & Hd & Hf) Ho. split; [assumption|]. exists (idx d h). split; [apply idx_lt|auto]. Qed.

Lemma updated_placed d p bits values x i c n' size b : placed d p (MC (BIA bits values x)) -> getv bits values i = Some c ->
  bupdated (BIA bits values x) (2 ^ i) n' size = Ok b -> loose d (MC b) -> placed (d + 1) (p + i * 2 ^ off d) n' -> placed d p (MC b).
Proof.
  intros H Hg Hb Hlo Hn'. inversion H as [| |? ? ? ? ? Ho Hp Hok Hne Hx Hch]; subst.
  destruct (bupdated_ok fw (BIA bits values (lenN (concat (map m_visit values)))) i n' c size Hok Hg) as (b' & Hb' & _ & _ & Hget).
  rewrite Hb in Hb'. injection Hb' as <-. apply placed_of_loose; try assumption. intros j a Hj. rewrite Hget in Hj.
  destruct (N.eqb_spec i j) as [<-|Hne']; [injection Hj as <-; assumption|]. apply Hch. exact Hj.
Qed.

Lemma am_remove_placed n : forall d h q f, placed d (pre d h) n -> flag_for d h f ->
  gs steady (am_remove n q (Some f)) (rem_placed d (pre d h)).
Proof.
  induction n as [bits values x IH|l|s] using mnode_ind'; intros d h q f HP Hf.
  - intros tr o He HS.
    assert (Ho : off d < hbits) by (inversion HP; assumption).
    pose proof (am_remove_post (MC (BIA bits values x)) d q (Some f) (placed_loose _ _ _ HP)
      (fun _ _ _ _ => ex_intro _ f (conj eq_refl (flag_for_at_depth _ _ _ Hf Ho))) tr o He) as Hpost.
    revert tr o He HS Hpost. cbn [am_remove]. rewrite Forall_forall in IH.
    assert (Hok : okv (max_ones fw) bits values) by (inversion HP; assumption).
    assert (Hpl : pre d h < 2 ^ off d) by apply pre_lt.
    assert (Hch : forall i c, getv bits values i = Some c -> placed (d + 1) (pre d h + i * 2 ^ off d) c) by (inversion HP; assumption).
    cbn [unwrap lift pbind]. rewrite (proj2 (proj2 Hf) Ho). rewrite bat_map.
    destruct (bat (BIA bits values x) (2 ^ idx d h)) as [c|e] eqn:Hb.
    2:{ intros tr o [-> ->] _ _. exact I. }
    destruct (slot_of _ _ _ _ _ _ HP eq_refl _ Hb) as (Hg & Hpc).
    pose proof (bat_in _ _ _ Hb) as Hin. cbn [bvalues] in Hin.
    intros tr o He HS Hpost. apply exec_bind in He. destruct He as [(t1 & t2 & nx & -> & He1 & He2)|[[_ ->]|[_ ->]]]; [|exact I..].
    apply exec_lift in He1. destruct He1 as [-> Hnx]. symmetry in Hnx. destruct (flag_for_next _ _ _ _ Hf Hnx Ho) as (g & -> & Hfg).
    cbn [app] in *. apply exec_bind in He2. destruct He2 as [(t3 & t4 & r & -> & He3 & He4)|[[_ ->]|[_ ->]]]; [|exact I..].
    apply Forall_app in HS. destruct HS as [HS3 HS4].
    pose proof (IH _ Hin (d + 1) h q g Hpc Hfg _ _ He3 HS3) as Hr. cbn [rem_placed] in Hr.
    assert (Hup : forall n' k v, placed (d + 1) (pre (d + 1) h) n' -> exec (A := @reply E K V L W) (let+ size := lift (usub x 1) in
             let+ b := lift (unwrap_ok (bupdated (BIA bits values x) (2 ^ idx d h) n' size)) in PRet (RC b k v)) t4 o -> rem_placed d (pre d h) (t3 ++ t4) o).
    { intros n' k v Hn' Hx4. apply exec_bind in Hx4. destruct Hx4 as [(u1 & u2 & size & -> & _ & Hx4)|[[_ ->]|[_ ->]]]; [|exact I..].
      apply exec_bind in Hx4. destruct Hx4 as [(u3 & u4 & b & -> & Hx3 & [_ Hx4])|[[_ ->]|[_ ->]]]; [|exact I..]. subst o.
      apply exec_lift in Hx3. destruct Hx3 as [_ Hx3]. destruct (bupdated _ _ _ _) as [b'|] eqn:Hbu; [|discriminate]. injection Hx3 as <-.
      cbn [rem_placed left_by rem_post] in *. destruct Hpost as (_ & Hlo & _).
      eapply updated_placed; [exact HP|exact Hg|exact Hbu|exact Hlo|]. rewrite <- pre_succ. assumption. }
    destruct r as [|c' k v|l' k v|s' k v|k v]; cbn [left_by] in Hr.
    + destruct He4 as [_ ->]. exact I.
    + destruct (bextra c' =? 0); [destruct He4 as [_ ->]; exact I|]. eapply Hup; eassumption.
    + eapply Hup; eassumption.
    + eapply Hup; eassumption.
    + destruct (x =? 1); [destruct He4 as [_ ->]; exact I|].
      apply exec_bind in He4. destruct He4 as [(u1 & u2 & size & -> & _ & Hx4)|[[_ ->]|[_ ->]]]; [|exact I..].
      apply exec_bind in Hx4. destruct Hx4 as [(u3 & u4 & b & -> & Hx3 & [_ Hx4])|[[_ ->]|[_ ->]]]; [|exact I..]. subst o.
      apply exec_lift in Hx3. destruct Hx3 as [_ Hx3]. destruct (bremoved _ _ _) as [b'|] eqn:Hbr; [|discriminate]. injection Hx3 as <-.
      cbn [rem_placed left_by rem_post] in *. destruct Hpost as (_ & Hlo & _).
      destruct (bremoved_ok fw (BIA bits values x) (idx d h) c size Hok Hg) as (b2 & Hb2 & _ & _ & Hget).
      rewrite Hbr in Hb2. injection Hb2 as <-. apply placed_of_loose; try assumption. intros j a Hj. rewrite Hget in Hj.
      destruct (N.eqb_spec (idx d h) j) as [<-|]; [discriminate|]. apply Hch. exact Hj.
  - apply al_remove_placed. assumption.
  - apply as_remove_placed. assumption.
Qed.

(** ** insert *)

Definition ins_placed (d p : N) tr (o : outcome (insert_result K V)) : Prop :=
  match o with
  | Ret r => match ires r with Some (n', _, _) => placed d p n' | None => True end
  | _ => True
  end.

Lemma lift_placed d h1 h (nx : lnext K V) g (a : K) (b : V) f : hoard h1 (next_mnode nx) -> hashk a = h -> h1 <> h ->
  h1 < 2 ^ hbits -> h < 2 ^ hbits -> pre d h1 = pre d h -> flag_for d h1 g -> flag_for d h f ->
  exists c, cnode_lift (next_mnode nx) g (MS (SN a b)) f = Ret c /\ placed d (pre d h) (MC c).
Proof.
  intros H1 Ha Hne Hl1 Hl Hp Hg Hf.
  destruct (c_lift_placed lift_fuel d h1 h (next_mnode nx) g (MS (SN a b)) f) as (c & Hc & HP & _); try assumption.
  - split; [exact I|]. intros e [<-|[]]. exact Ha.
  - apply lift_fuel_ok.
  - exists c. split; [exact Hc|]. rewrite <- Hp. exact HP.
Qed.

Lemma al_lift_placed d h1 (nx : lnext K V) (q : L) (w : W) f : hoard h1 (next_mnode nx) -> pre d h1 = pre d (hashk q) ->
  flag_for d (hashk q) f -> gs steady (al_lift nx q w f) (ins_placed d (pre d (hashk q))).
Proof.
  intros HH Hp Hf. pose proof (hoard_key _ _ HH) as Hk.
  assert (Hl1 : h1 < 2 ^ hbits) by (rewrite <- Hk; apply hash_lt).
  unfold al_lift, ask. cbn [pbind]. apply gs_ask; [exact I|]. intros hh Hhh.
  assert (Hh1 : proj1_sig (hh : word) = h1) by (rewrite <- Hk; exact Hhh). rewrite Hh1.
  pose proof Hf as (Hfh & Hfd & _). rewrite Hfh, Hfd. destruct (N.eqb_spec h1 (hashk q)) as [He|Hne].
  - unfold into, ask. cbn [pbind]. apply gs_ask; [exact I|]. intros a Ha. apply gs_ask; [exact I|]. intros b _. apply gs_ret.
    cbn [ins_placed ires]. apply hoard_placed. split.
    + apply lok_new. destruct HH as [HH _]. destruct nx; exact HH.
    + cbn [m_visit]. rewrite l_visit_next. intros e [<-|Hin]; [exact Ha|]. rewrite <- He. apply HH. assumption.
  - assert (Hd : off d < hbits) by (eapply (neq_off d h1 (hashk q)); try assumption; apply hash_lt).
    rewrite flag_at_ok by assumption. cbn [lift pbind unwrap].
    unfold into, ask. cbn [pbind]. apply gs_ask; [exact I|]. intros a Ha. apply gs_ask; [exact I|]. intros b _.
    destruct (lift_placed d h1 (hashk q) nx (mkFlag h1 d (2 ^ idx d h1)) a b f) as (c & Hc & HP); try assumption.
    { apply hash_lt. }
    { apply flag_for_at. assumption. }
    rewrite Hc. cbn [lift pbind]. apply gs_ret. exact HP.
Qed.

Lemma as_insert_placed d s (q : L) (w : W) f rep : placed d (pre d (hashk q)) (MS s) -> flag_for d (hashk q) f ->
  gs steady (as_insert s q w (Some f) rep) (ins_placed d (pre d (hashk q))).
Proof.
  intros HP Hf. unfold as_insert, ask. cbn [pbind]. apply gs_ask; [exact I|]. intros [|] Hb.
  - destruct rep; [|apply gs_ret; exact I].
    unfold into, ask. cbn [pbind]. apply gs_ask; [exact I|]. intros a Ha. apply gs_ask; [exact I|]. intros b _. apply gs_ret.
    cbn [ins_placed ires]. constructor. cbn [s_key]. f_equal. exact Ha.
  - cbn [unwrap lift pbind]. destruct (placed_hoard _ _ _ HP I) as (h1 & HH & Hp).
    eapply gs_weak; [apply (al_lift_placed d h1 (NS s)); assumption|]. intros tr o H. exact H.
Qed.

Lemma al_insert_placed d l (q : L) (w : W) f rep : placed d (pre d (hashk q)) (ML l) -> flag_for d (hashk q) f ->
  gs steady (al_insert l q w (Some f) rep) (ins_placed d (pre d (hashk q))).
Proof.
  intros HP Hf. assert (Hl : lok l) by (inversion HP; assumption). destruct (placed_hoard _ _ _ HP Hl) as (h1 & HH & Hp).
  unfold al_insert. eapply gs_bind; [apply gs_gives, al_find_post| | |]; [|intros; exact I..].
  intros tr [[fk fv]|] HS Hpo.
  - destruct rep; [|apply gs_ret; exact I].
    eapply gs_bind; [apply gs_gives, al_remove_from_post; assumption| | |]; [|intros; exact I..].
    assert (Hrest : forall new e (tr0 : trace), Forall steady tr0 -> taken (l_visit l) new e q tr0 ->
      forall a, In a new -> hash (ecls a) = hashk q).
    { intros new e tr0 HS0 Ht. assert (Hq : h1 = hashk q).
      { destruct Ht as (Ht & l0 & l0' & HP0 & _). pose proof (steady_in _ _ HS0 Ht) as Hs. rewrite <- Hs. symmetry. apply HH.
        cbn [m_visit]. eapply Permutation_in; [apply Permutation_sym, HP0|]. left. reflexivity. }
      rewrite <- Hq. eapply taken_hash; [exact HS0|exact Ht|]. apply HH. }
    intros tr' r HS' Hr. destruct r as [|n rk rv|s rk rv]; [apply gs_panic; exact I|..]; cbn [lrem_post] in Hr.
    + destruct Hr as (Hn & Ht & _). unfold into, ask. cbn [pbind]. apply gs_ask; [exact I|]. intros a Ha. apply gs_ask; [exact I|]. intros b _. apply gs_ret.
      cbn [ins_placed ires]. apply hoard_placed. split; [apply lok_new; assumption|]. cbn [m_visit l_new l_visit].
      intros e [<-|Hin]; [exact Ha|]. eapply Hrest; eassumption.
    + destruct Hr as (Ht & _). unfold into, ask. cbn [pbind]. apply gs_ask; [exact I|]. intros a Ha. apply gs_ask; [exact I|]. intros b _. apply gs_ret.
      cbn [ins_placed ires]. apply hoard_placed. split; [apply lok_new; exact I|]. cbn [m_visit l_new l_visit].
      intros e [<-|Hin]; [exact Ha|]. eapply Hrest; eassumption.
  - cbn [unwrap lift pbind]. eapply gs_weak; [apply (al_lift_placed d h1 (NL l)); assumption|]. intros tr' o H. exact H.
Qed.

Lemma am_insert_placed n : forall d (q : L) (w : W) f rep, placed d (pre d (hashk q)) n -> flag_for d (hashk q) f ->
  gs steady (am_insert n q w (Some f) rep) (ins_placed d (pre d (hashk q))).
Proof.
  induction n as [bits values x IH|l|s] using mnode_ind'; intros d q w f rep HP Hf.
  - intros tr o He HS. set (h := hashk q) in *.
    assert (Ho : off d < hbits) by (inversion HP; assumption).
    assert (Hff : f = mkFlag h d (2 ^ idx d h)).
    { destruct f as [fh fd ff]. destruct Hf as (H1 & H2 & H3). cbn [fl_hash fl_depth fl_flag] in *. rewrite H1, H2, (H3 Ho). reflexivity. }
    pose proof (am_insert_post (MC (BIA bits values x)) d q w (Some f) h rep (placed_loose _ _ _ HP)) as Hpost.
    assert (Hfg0 : flag_new_at_depth h d = Ret (Some f)) by (rewrite Hff; apply flag_at_ok; assumption).
    specialize (Hpost (conj Hfg0 (conj (flag_for_at_depth _ _ _ Hf Ho) (conj (proj1 Hf) (placed_usable _ Ho)))) tr o He).
    revert tr o He HS Hpost. cbn [am_insert]. rewrite Forall_forall in IH.
    assert (Hok : okv (max_ones fw) bits values) by (inversion HP; assumption).
    assert (Hpl : pre d h < 2 ^ off d) by apply pre_lt.
    assert (Hch : forall i c, getv bits values i = Some c -> placed (d + 1) (pre d h + i * 2 ^ off d) c) by (inversion HP; assumption).
    cbn [unwrap lift pbind]. rewrite (proj2 (proj2 Hf) Ho). rewrite bat_map.
    destruct (bat (BIA bits values x) (2 ^ idx d h)) as [c|e] eqn:Hb.
    2:{ intros tr o He HS Hpost. apply exec_bind in He. destruct He as [(t1 & t2 & [a b] & -> & He1 & He2)|[[_ ->]|[_ ->]]]; [|exact I..].
        apply exec_bind in He2. destruct He2 as [(t3 & t4 & b' & -> & He3 & [_ He4])|[[_ ->]|[_ ->]]]; [|exact I..]. subst o.
        apply exec_lift in He3. destruct He3 as [_ He3]. destruct (binserted _ _ _ _) as [b2|] eqn:Hbi; [|discriminate]. injection He3 as <-.
        cbn [ins_placed ires ins_post] in *. destruct Hpost as (Hlo & _).
        assert (Ha : hashk a = h).
        { apply Forall_app in HS. destruct HS as [HS _]. unfold into, ask in He1. cbn [pbind exec] in He1.
          destruct He1 as [(a1 & u & -> & [(b1 & u' & -> & [-> He1])|[_ He1]])|[_ He1]]; [|discriminate..].
          injection He1 as -> ->. inversion HS as [|? ? Hs _]; subst. exact Hs. }
        assert (Hg : get (BIA bits values x) (idx d h) = None).
        { rewrite (bat_get fw) in Hb by exact Hok. destruct (get (BIA bits values x) (idx d h)); [discriminate|reflexivity]. }
        destruct (binserted_ok fw (BIA bits values x) (idx d h) (MS (SN a b)) (x + 1) Hok (idx_lt _ _) Hg) as (b3 & Hb3 & _ & _ & Hget).
        rewrite Hbi in Hb3. injection Hb3 as <-. apply placed_of_loose; try assumption. intros j c Hj. rewrite Hget in Hj.
        destruct (N.eqb_spec (idx d h) j) as [<-|]; [|apply Hch; exact Hj]. injection Hj as <-.
        rewrite <- pre_succ. constructor. cbn [s_key]. rewrite Ha. reflexivity. }
    destruct (slot_of _ _ _ _ _ _ HP eq_refl _ Hb) as (Hg & Hpc).
    pose proof (bat_in _ _ _ Hb) as Hin. cbn [bvalues] in Hin.
    assert (Hup : forall n' k v prev size t3 t4 o, placed (d + 1) (pre (d + 1) h) n' ->
      ins_post d (MC (BIA bits values x)) q w h rep (t3 ++ t4) o ->
      exec (A := @reply E K V L W) (let+ b := lift (unwrap_ok (bupdated (BIA bits values x) (2 ^ idx d h) n' size)) in PRet (IC b k v prev)) t4 o ->
      ins_placed d (pre d h) (t3 ++ t4) o).
    { intros n' k v prev size t3 t4 o Hn' Hpost Hx4.
      apply exec_bind in Hx4. destruct Hx4 as [(u3 & u4 & b & -> & Hx3 & [_ Hx4])|[[_ ->]|[_ ->]]]; [|exact I..]. subst o.
      apply exec_lift in Hx3. destruct Hx3 as [_ Hx3]. destruct (bupdated _ _ _ _) as [b'|] eqn:Hbu; [|discriminate]. injection Hx3 as <-.
      cbn [ins_placed ires ins_post] in *. destruct Hpost as (Hlo & _).
      eapply updated_placed; [exact HP|exact Hg|exact Hbu|exact Hlo|]. rewrite <- pre_succ. assumption. }
    assert (Hups : forall n' k v prev (os : outcome N) t3 t4 o, placed (d + 1) (pre (d + 1) h) n' ->
      ins_post d (MC (BIA bits values x)) q w h rep (t3 ++ t4) o ->
      exec (A := @reply E K V L W) (let+ size := lift os in let+ b := lift (unwrap_ok (bupdated (BIA bits values x) (2 ^ idx d h) n' size)) in PRet (IC b k v prev)) t4 o ->
      ins_placed d (pre d h) (t3 ++ t4) o).
    { intros n' k v prev os t3 t4 o Hn' Hpost Hx4. destruct os as [size| |]; cbn [lift pbind] in Hx4; [eapply Hup; eassumption|..];
        destruct Hx4 as [_ ->]; exact I. }
    destruct c as [c|l|s]; intros tr o He HS Hpost; (apply exec_bind in He; destruct He as [(t1 & t2 & nx & -> & He1 & He2)|[[_ ->]|[_ ->]]]; [|exact I..]);
      (apply exec_lift in He1; destruct He1 as [-> Hnx]; symmetry in Hnx; destruct (flag_for_next _ _ _ _ Hf Hnx Ho) as (g & -> & Hfg));
      cbn [app] in *; (apply exec_bind in He2; destruct He2 as [(t3 & t4 & r & -> & He3 & He4)|[[_ ->]|[_ ->]]]; [|exact I..]);
      apply Forall_app in HS; destruct HS as [HS3 HS4].
    + pose proof (IH _ Hin (d + 1) q w g rep Hpc Hfg _ _ He3 HS3) as Hr.
      destruct r as [k v|c2 k v prev|l2' k v prev|s2 k v prev]; cbn [ins_placed ires] in Hr; try (destruct He4 as [_ ->]; exact I).
      eapply Hups; eassumption.
    + pose proof (al_insert_placed (d + 1) l q w g rep Hpc Hfg _ _ He3 HS3) as Hr.
      destruct r as [k v|c2 k v prev|l2' k v prev|s2 k v prev]; cbn [ins_placed ires] in Hr; try (destruct He4 as [_ ->]; exact I).
      * eapply Hup; eassumption.
      * eapply Hups; eassumption.
    + pose proof (as_insert_placed (d + 1) s q w g rep Hpc Hfg _ _ He3 HS3) as Hr.
      destruct r as [k v|c2 k v prev|l2' k v prev|s2 k v prev]; cbn [ins_placed ires] in Hr; try (destruct He4 as [_ ->]; exact I);
        eapply Hup; eassumption.
  - apply al_insert_placed; assumption.
  - apply as_insert_placed; assumption.
Qed.

(** Hashes in order lead to keys that share the slices so far. *)
Lemma leads_placed h d n d' l : leads h d n d' l -> placed d (pre d h) n -> placed d' (pre d' h) l.
Proof.
  intros H. induction H as [d n|d bits values x f c d' l Hf Hb Hl IH]; intros HP; [assumption|]. apply IH.
  assert (Ho : off d < hbits) by (inversion HP; assumption). rewrite flag_at_ok in Hf by assumption. injection Hf as <-.
  cbn [fl_flag] in Hb. apply (slot_of _ _ _ _ _ _ HP eq_refl _ Hb).
Qed.

Lemma steady_not_elsewhere n (q : L) tr : placed 0 0 n -> Forall steady tr -> ~ elsewhere 0 n q (hashk q) tr.
Proof.
  intros HP HS (nx & h' & d' & f & g & a & b & Hl & Hh & Hne & Hf & Hg & Ha & Hc).
  assert (HP0 : placed 0 (pre 0 (hashk q)) n) by (rewrite pre_0; exact HP). pose proof (leads_placed _ _ _ _ _ Hl HP0) as HPl.
  assert (HLf : leafish (next_mnode nx)) by (destruct nx; [inversion HPl; assumption|exact I]).
  destruct (placed_hoard _ _ _ HPl HLf) as (h1 & HH & Hp).
  assert (Hh1 : proj1_sig (h' : word) = h1) by (rewrite <- (hoard_key _ _ HH); exact (steady_in _ _ HS Hh)).
  assert (Hl1 : h1 < 2 ^ hbits) by (rewrite <- (hoard_key _ _ HH); apply hash_lt).
  assert (Hak : hashk a = hashk q) by exact (steady_in _ _ HS Ha).
  rewrite Hh1 in *.
  assert (Hd : off d' < hbits) by (eapply (neq_off d' h1 (hashk q)); try assumption; apply hash_lt).
  rewrite flag_at_ok in Hf by assumption. rewrite flag_at_ok in Hg by assumption. injection Hf as <-. injection Hg as <-.
  destruct (lift_placed d' h1 (hashk q) nx (mkFlag h1 d' (2 ^ idx d' h1)) a b (mkFlag (hashk q) d' (2 ^ idx d' (hashk q)))) as (c & Hc' & _);
    try assumption; try apply hash_lt; try (apply flag_for_at; assumption). pose proof (eq_trans (eq_sym Hc') Hc) as Habs. discriminate Habs.
Qed.

(** ** find, when the answers are those of an honest key *)

Lemma l_find_placed (l : lnode K V) (q : L) :
  match l_find l q with Some e => In e (l_visit l) /\ ecls e = cls q | None => forall e, In e (l_visit l) -> ecls e <> cls q end.
Proof.
  induction l as [k v n IH z|k v s z]; cbn [l_find l_visit]; unfold keqb.
  - destruct (ceqb_spec (cls k) (cls q)) as [He|Hne]; [split; [left; reflexivity|exact He]|].
    destruct (l_find n q) as [e|]; [split; [right|]; apply IH|]. intros e [<-|Hin]; [exact Hne|apply IH; assumption].
  - destruct (ceqb_spec (cls k) (cls q)) as [He|Hne]; [split; [left; reflexivity|exact He]|].
    unfold s_find, keqb. destruct (ceqb_spec (cls (s_key s)) (cls q)) as [He|Hne2]; [split; [right; left; reflexivity|exact He]|].
    intros e [<-|[<-|[]]]; assumption.
Qed.

Lemma m_find_placed n : forall d (q : L) f, placed d (pre d (hashk q)) n -> flag_for d (hashk q) f ->
  exists r, m_find n q (Some f) = Ret r /\
  match r with Some e => In e (m_visit n) /\ ecls e = cls q | None => forall e, In e (m_visit n) -> ecls e <> cls q end.
Proof.
  induction n as [bits values x IH|l|s] using mnode_ind'; intros d q f HP Hf; cbn [m_find].
  - inversion HP as [| |? ? ? ? ? Ho Hp Hok Hne Hx Hch]; subst. rewrite Forall_forall in IH. cbn [unwrap bind].
    rewrite (proj2 (proj2 Hf) Ho). rewrite bat_map.
    assert (Hpath : forall e, In e (concat (map m_visit values)) -> ecls e = cls q ->
      exists c, getv bits values (idx d (hashk q)) = Some c /\ In e (m_visit c)).
    { intros e He Hc. apply in_concat in He. destruct He as (vs & Hvs & He). apply in_map_iff in Hvs. destruct Hvs as (c & <- & Hin).
      destruct (in_values_get _ _ _ _ Hok Hin) as (i & _ & Hg). exists c. split; [|assumption].
      pose proof (placed_keys _ _ _ (Hch _ _ Hg) e He) as Hk. destruct (pre_idx _ _ _ _ Hp Hk) as [_ Hi].
      unfold hashk. rewrite <- Hc. rewrite Hi. assumption. }
    destruct (bat (BIA bits values (lenN (concat (map m_visit values)))) (2 ^ idx d (hashk q))) as [c|e] eqn:Hb.
    + destruct (slot_of _ _ _ _ _ _ HP eq_refl _ Hb) as (Hg & Hpc). pose proof (bat_in _ _ _ Hb) as Hin. cbn [bvalues] in Hin.
      assert (Hres : forall r, match r with Some e => In e (m_visit c) /\ ecls e = cls q | None => forall e, In e (m_visit c) -> ecls e <> cls q end ->
        match r with Some e => In e (concat (map m_visit values)) /\ ecls e = cls q | None => forall e, In e (concat (map m_visit values)) -> ecls e <> cls q end).
      { intros [e|].
        - intros [H1 H2]. split; [|assumption]. apply in_concat. exists (m_visit c). split; [apply in_map; assumption|assumption].
        - intros H e He Hc. destruct (Hpath e He Hc) as (c' & Hg' & He'). rewrite Hg in Hg'. injection Hg' as <-. apply (H e He' Hc). }
      cbn [m_visit]. destruct c as [c|l|s].
      * assert (Ho' : off (d + 1) < hbits) by (inversion Hpc; assumption).
        rewrite (flag_next_ok d (hashk q) f) by assumption. cbn [bind].
        destruct (IH _ Hin (d + 1) q _ Hpc (flag_for_at _ _ Ho')) as (r & Hr & Hm). exists r. split; [exact Hr|]. apply Hres. exact Hm.
      * eexists. split; [reflexivity|]. apply Hres. apply l_find_placed.
      * eexists. split; [reflexivity|]. apply Hres. unfold s_find, keqb. destruct (ceqb_spec (cls (s_key s)) (cls q)) as [He|Hne2].
        -- split; [left; reflexivity|exact He].
        -- intros e [<-|[]]. exact Hne2.
    + eexists. split; [reflexivity|]. intros e' He' Hc. cbn [m_visit] in He'. destruct (Hpath e' He' Hc) as (c & Hg & _).
      rewrite (bat_get fw) in Hb by exact Hok. unfold get in Hb. cbn [bbits bvalues] in Hb. rewrite Hg in Hb. discriminate.
  - eexists. split; [reflexivity|]. apply l_find_placed.
  - eexists. split; [reflexivity|]. unfold s_find, keqb. destruct (ceqb_spec (cls (s_key s)) (cls q)) as [He|Hne2].
    + split; [left; reflexivity|exact He].
    + intros e [<-|[]]. exact Hne2.
Qed.

End AskHashP.
