(** The joint traversals merge two tries slot by slot.

    Everything here is generic in what a result looks like; JointMP.v and
    JointTP.v supply the four families. *)
From Coq Require Import NArith Arith List Bool Lia ZifyBool ZifyN ZifyNat Permutation.
From Verif Require Import Base Words WordsP Flag FlagP Bia BiaP Node Spec SpecP Inv NodeP InsertP TrieP Api ApiP
  Trans Transform LoopP SpecT TransformP Joint SpecJ JoinP.
Import ListNotations.
Open Scope N_scope.

(** * Entries spread over the slots of a branch *)
Section Spread.
Context {E : Env} {K V : Type} {KK : Key K}.

Definition owf (d p : N) (o : option (mnode K V)) : Prop := forall n, o = Some n -> wf d p n.

(** The entries [l] below depth [d] lie in the slots [os]. *)
Definition spread (d p : N) (l : list (K * V)) (os : N -> option (mnode K V)) : Prop :=
  l = flat_map (fun i => ovisit (os i)) (range 0 (max_ones fw)) /\
  forall i c, os i = Some c -> i < max_ones fw /\ wf (d + 1) (p + i * 2 ^ off d) c.

Lemma spread_C d p bits (values : list (mnode K V)) x : wf d p (MC (BIA bits values x)) ->
  spread d p (m_visit (MC (BIA bits values x))) (getv bits values).
Proof.
  intros HW. inversion HW; subst. split; [apply visit_C; assumption|].
  intros i c Hc. split; [eapply okv_lt; eassumption|auto].
Qed.

Lemma leafy_inv d p (n : lnext K V) : wf d p (next_mnode n) ->
  leafy (hashk (next_key n)) (next_mnode n) /\ pre d (hashk (next_key n)) = p.
Proof.
  destruct n as [l|s]; cbn [next_mnode]; intros HW;
    [inversion HW as [|? ? ? h HL Hp|]|inversion HW as [? ? ? Hp| |]]; subst; cbn [leafy next_key].
  - destruct HL as (H1 & H2 & H3).
    assert (Hk : hashk (l_key l) = h).
    { unfold hashk. destruct l as [k v l z|k v s z]; cbn [l_key]; rewrite <- (H3 (k, v)) by (left; reflexivity); reflexivity. }
    rewrite Hk. repeat split; assumption.
  - repeat split.
Qed.

Lemma spread_leaf d p (n : lnext K V) : wf d p (next_mnode n) ->
  spread d p (m_visit (next_mnode n))
    (fun i => if i =? idx d (hashk (next_key n)) then Some (next_mnode n) else None).
Proof.
  intros HW. destruct (leafy_inv _ _ _ HW) as [HL Hp]. split.
  - rewrite (flat_map_one _ _ (idx d (hashk (next_key n)))).
    + rewrite N.eqb_refl. reflexivity.
    + apply range_nodup.
    + apply range_in. pose proof (idx_lt d (hashk (next_key n))). lia.
    + intros i _ Hi. destruct (N.eqb_spec i (idx d (hashk (next_key n)))); [contradiction|reflexivity].
  - intros i c. destruct (N.eqb_spec i (idx d (hashk (next_key n)))) as [->|]; [|discriminate]. intros [= <-].
    split; [apply idx_lt|]. rewrite <- Hp, <- pre_succ. apply leafy_wf. assumption.
Qed.

Lemma spread_key d p l os i e : p < 2 ^ off d -> spread d p l os -> In e (ovisit (os i)) ->
  pre d (hash (ecls e)) = p /\ idx d (hash (ecls e)) = i.
Proof.
  intros Hp [_ H] He. destruct (os i) as [c|] eqn:Hc; [|destruct He]. destruct (H i c Hc) as [_ HW].
  apply (pre_idx _ _ _ _ Hp). eapply wf_keys; eassumption.
Qed.

Lemma spread_lookup d p l os c : p < 2 ^ off d -> spread d p l os ->
  lookup c l = lookup c (ovisit (os (idx d (hash c)))).
Proof.
  intros Hp HS. pose proof HS as [-> _].
  assert (H : forall I, lookup c (flat_map (fun i => ovisit (os i)) I) =
    if existsb (N.eqb (idx d (hash c))) I then lookup c (ovisit (os (idx d (hash c)))) else None).
  { induction I as [|i I IH]; cbn [flat_map existsb]; [reflexivity|]. rewrite lookup_app, IH.
    destruct (N.eqb_spec (idx d (hash c)) i) as [<-|Hi]; cbn [orb].
    - destruct (lookup c (ovisit (os (idx d (hash c))))); [reflexivity|]. destruct (existsb _ I); reflexivity.
    - destruct (lookup c (ovisit (os i))) as [e|] eqn:He; [|reflexivity].
      apply lookup_in in He. destruct He as [He <-]. destruct (spread_key d p _ os i e Hp HS He). congruence. }
  rewrite H. assert (HE : existsb (N.eqb (idx d (hash c))) (range 0 (max_ones fw)) = true).
  { apply existsb_exists. exists (idx d (hash c)). split; [|apply N.eqb_refl]. apply range_in.
    pose proof (idx_lt d (hash c)). lia. }
  rewrite HE. reflexivity.
Qed.

Lemma spread_cnt d p l os h : p < 2 ^ off d -> spread d p l os ->
  cnt h l = cnt h (ovisit (os (idx d h))).
Proof.
  intros Hp HS. pose proof HS as [-> _]. unfold cnt. rewrite filter_flat_map.
  rewrite (flat_map_one _ _ (idx d h)); [reflexivity|apply range_nodup| |].
  - apply range_in. pose proof (idx_lt d h). lia.
  - intros i _ Hi. destruct (filter _ (ovisit (os i))) as [|e l'] eqn:Hf; [reflexivity|]. exfalso.
    assert (He : In e (filter (fun e => hash (ecls e) =? h) (ovisit (os i)))) by (rewrite Hf; left; reflexivity).
    apply filter_In in He. destruct He as [He Hh]. apply N.eqb_eq in Hh.
    destruct (spread_key d p _ os i e Hp HS He). congruence.
Qed.

Lemma cnt_in h (l : list (K * V)) : cnt h l <> O -> exists e, In e l /\ hash (ecls e) = h.
Proof.
  unfold cnt. destruct (filter _ l) as [|e l'] eqn:Hf; [contradiction|]. intros _. exists e.
  assert (He : In e (filter (fun e => hash (ecls e) =? h) l)) by (rewrite Hf; left; reflexivity).
  apply filter_In in He. destruct He as [He Hh]. apply N.eqb_eq in Hh. auto.
Qed.

Lemma cnt_all h (l : list (K * V)) : (forall e, In e l -> hash (ecls e) = h) -> cnt h l = length l.
Proof.
  unfold cnt. induction l as [|e l IH]; intros H; cbn; [reflexivity|].
  rewrite (H e) by (left; reflexivity). rewrite N.eqb_refl. cbn. rewrite IH; auto with datatypes.
Qed.

Lemma cnt_other h h' (l : list (K * V)) : (forall e, In e l -> hash (ecls e) = h) -> h' <> h -> cnt h' l = O.
Proof.
  intros H Hn. destruct (Nat.eq_dec (cnt h' l) 0) as [|Hc]; [assumption|].
  destruct (cnt_in _ _ Hc) as (e & He & Hh). rewrite (H e He) in Hh. congruence.
Qed.

End Spread.

(** * Results of a joint traversal *)
Section Good.
Context {E : Env} {K V L W S X R T : Type} {KK : Key K} {KL : Key L} {KS : Key S}.
Context (rdef : R) (rd : R -> R -> R).

(** The specification of one joint operation: per key, and reductions for
    generic operations [gen]; [dom] limits the maps, [lo] and [hi] say when the
    traversal must and may diverge. *)
Record jspec : Type := JSpec {
  sB : K * V -> L * W -> option (S * X) -> Prop;
  sL : K * V -> option (S * X);
  sR : L * W -> option (S * X);
  rB : K * V -> L * W -> R;
  rL : K * V -> R;
  rR : L * W -> R;
  gen : Prop;
  dom : list (K * V) -> list (L * W) -> Prop;
  lo : nat -> nat -> Prop;
  hi : nat -> nat -> Prop
}.

(** How results of type [T] are read: the nodes that may stand for a result,
    whether it fits the nodes present, its reduction, the node recorded for
    it, and whether it leaves the left and the right flag set. *)
Record jread : Type := JRead {
  reads : T -> option (mnode K V) -> option (mnode L W) -> option (mnode S X) -> Prop;
  fits : T -> option (mnode K V) -> option (mnode L W) -> Prop;
  jr : T -> R;
  pick : T -> option (mnode K V) -> option (mnode L W) -> option (mnode S X);
  fl : T -> bool;
  fr : T -> bool
}.

Context (sp : jspec) (rr : jread).

Definition merged (ln : list (K * V)) (lr : list (L * W)) (lo : list (S * X)) : Prop :=
  forall c, joined (sB sp) (sL sp) (sR sp) (lookup c ln) (lookup c lr) (lookup c lo).

Definition reds : list (K * V) -> list (L * W) -> list R :=
  merge (fun e e' => [rB sp e e']) (fun e => [rL sp e]) (fun e' => [rR sp e']).

Definition comm_monoid : Prop := monoid rdef rd /\ forall a b, rd a b = rd b a.

Definition good (d p : N) (ol : option (mnode K V)) (or : option (mnode L W)) (t : T) : Prop :=
  (forall o, reads rr t ol or o -> owf d p o /\ merged (ovisit ol) (ovisit or) (ovisit o)) /\
  (comm_monoid -> gen sp -> jr rr t = msum rdef rd (reds (ovisit ol) (ovisit or))) /\
  fits rr t ol or.

Definition jok (d p : N) (ol : option (mnode K V)) (or : option (mnode L W)) (o : outcome T) : Prop :=
  match o with
  | Ret t => good d p ol or t /\ ~ exists h, lo sp (cnt h (ovisit ol)) (cnt h (ovisit or))
  | Diverge => exists h, hi sp (cnt h (ovisit ol)) (cnt h (ovisit or))
  | Panic => False
  end.

(** A part of two maps that is closed under equality of keys. *)
Definition part (ln : list (K * V)) (lr : list (L * W)) (ln' : list (K * V)) (lr' : list (L * W)) : Prop :=
  forall c, lookup c ln' <> None \/ lookup c lr' <> None -> lookup c ln' = lookup c ln /\ lookup c lr' = lookup c lr.

(** A part closed under equality of hashes. *)
Definition hpart (ln : list (K * V)) (lr : list (L * W)) (ln' : list (K * V)) (lr' : list (L * W)) : Prop :=
  forall c, lookup c ln' <> None \/ lookup c lr' <> None ->
    forall c', hash c' = hash c -> lookup c' ln' = lookup c' ln /\ lookup c' lr' = lookup c' lr.

Lemma hpart_part ln lr ln' lr' : hpart ln lr ln' lr' -> part ln lr ln' lr'.
Proof. intros H c Hc. exact (H c Hc c eq_refl). Qed.

Lemma spread_part d p ln lr osl osr i : p < 2 ^ off d -> spread d p ln osl -> spread d p lr osr ->
  hpart ln lr (ovisit (osl i)) (ovisit (osr i)).
Proof.
  intros Hp Hl Hr c Hc c' Hh.
  assert (Hi : idx d (hash c) = i).
  { destruct Hc as [Hc|Hc].
    - destruct (lookup c (ovisit (osl i))) as [e|] eqn:He; [|contradiction].
      apply lookup_in in He. destruct He as [He <-]. apply (spread_key d p _ _ _ _ Hp Hl He).
    - destruct (lookup c (ovisit (osr i))) as [e|] eqn:He; [|contradiction].
      apply lookup_in in He. destruct He as [He <-]. apply (spread_key d p _ _ _ _ Hp Hr He). }
  rewrite (spread_lookup d p ln osl c' Hp Hl), (spread_lookup d p lr osr c' Hp Hr), Hh, Hi. auto.
Qed.

Record spec_ok : Prop := SpecOk {
  dom_part : forall ln lr ln' lr', hpart ln lr ln' lr' -> dom sp ln lr -> dom sp ln' lr';
  lo_pos : forall a b, lo sp a b -> a <> O /\ b <> O;
  hi_pos : forall a b, hi sp a b -> a <> O /\ b <> O
}.

(** Reading a result as the left or the right node itself. *)
Context (lread : option (mnode K V) -> option (mnode S X) -> Prop)
  (rread : option (mnode L W) -> option (mnode S X) -> Prop).

Record read_ok : Prop := ReadOk {
  pick_reads : forall t ol or, fits rr t ol or -> reads rr t ol or (pick rr t ol or);
  fl_reads : forall t ol or o, fits rr t ol or -> fl rr t = true -> lread ol o -> reads rr t ol or o;
  fr_reads : forall t ol or o, fits rr t ol or -> fr rr t = true -> rread or o -> reads rr t ol or o;
  lread_none : forall o, lread None o -> o = None;
  rread_none : forall o, rread None o -> o = None;
  lread_some : forall d p n o, lread (Some n) o -> wf d p n ->
    owf d p o /\ forall os, spread d p (m_visit n) os ->
      exists os', spread d p (ovisit o) os' /\ forall i, lread (os i) (os' i);
  rread_some : forall d p n o, rread (Some n) o -> wf d p n ->
    owf d p o /\ forall os, spread d p (m_visit n) os ->
      exists os', spread d p (ovisit o) os' /\ forall i, rread (os i) (os' i)
}.

(** How a loop ends. *)
Definition done_ok (done : acc S X R -> outcome T) : Prop :=
  forall g r nn, finish (total g r) = Ret nn -> nred nn = r ->
    exists t, done (total g r) = Ret t /\ jr rr t = r /\
      forall n rn, fits rr t (Some n) (Some rn) /\
        forall o, reads rr t (Some n) (Some rn) o ->
          o = nnode nn \/
          (gl g (range 0 (max_ones fw)) = true /\ lread (Some n) o) \/
          (gu g (range 0 (max_ones fw)) = true /\ rread (Some rn) o).

Context (HS : spec_ok) (HR : read_ok).

(** ** The slots lemma *)

(** What a slot contributes. *)
Definition jcont (o : outcome T) (ol : option (mnode K V)) (or : option (mnode L W)) : outcome (cont S X R) :=
  match ol, or with
  | None, None => Ret None
  | _, _ => let* t := o in Ret (Some (pick rr t ol or, jr rr t, fl rr t, fr rr t))
  end.

Lemma gl_all (g : N -> cont S X R) i : gl g (range 0 (max_ones fw)) = true -> i < max_ones fw -> cl (g i) = true.
Proof. unfold gl. rewrite forallb_forall. intros H Hi. apply H. apply range_in. lia. Qed.
Lemma gu_all (g : N -> cont S X R) i : gu g (range 0 (max_ones fw)) = true -> i < max_ones fw -> cu (g i) = true.
Proof. unfold gu. rewrite forallb_forall. intros H Hi. apply H. apply range_in. lia. Qed.

Lemma slots_ok done st step (f : N -> outcome (cont S X R)) d p n rn osl osr (os : N -> outcome T) :
  done_ok done -> off d < hbits -> p < 2 ^ off d -> wf d p n -> wf d p rn ->
  spread d p (m_visit n) osl -> spread d p (m_visit rn) osr ->
  steps rd step f ->
  (forall i, i < max_ones fw -> f i = jcont (os i) (osl i) (osr i)) ->
  (forall i, i < max_ones fw -> osl i <> None \/ osr i <> None ->
     jok (d + 1) (p + i * 2 ^ off d) (osl i) (osr i) (os i)) ->
  jok d p (Some n) (Some rn) (let* a := run_loop rdef rd st step in done a).
Proof.
  intros HD Ho Hp HWl HWr Hl Hr Hst Hf Hok.
  assert (Hcase : forall i, (osl i = None /\ osr i = None) \/ (osl i <> None \/ osr i <> None)).
  { intros i. destruct (osl i); [right; left; discriminate|]. destruct (osr i); [right; right; discriminate|]. auto. }
  assert (Hcont : forall o i, (osl i <> None \/ osr i <> None) ->
    jcont o (osl i) (osr i) = let* t := o in Ret (Some (pick rr t (osl i) (osr i), jr rr t, fl rr t, fr rr t))).
  { intros o i Hi. unfold jcont. destruct (osl i), (osr i); try reflexivity. destruct Hi; contradiction. }
  destruct (run_loop_ok rdef rd st step f Hst) as [[Hall Hrun]|Hfail].
  - (* every slot returns *)
    rewrite Hrun. cbn [bind]. set (g := fun i => got (f i)).
    assert (Hgs : forall i, i < max_ones fw -> (osl i = None /\ osr i = None /\ g i = None) \/
      ((osl i <> None \/ osr i <> None) /\
       exists t, g i = Some (pick rr t (osl i) (osr i), jr rr t, fl rr t, fr rr t) /\
        good (d + 1) (p + i * 2 ^ off d) (osl i) (osr i) t /\
        ~ exists h, lo sp (cnt h (ovisit (osl i))) (cnt h (ovisit (osr i))))).
    { intros i Hi. assert (HI : In i (range 0 (max_ones fw))) by (apply range_in; lia).
      destruct (Hall i HI) as [c Hc]. unfold g. rewrite Hf in * by assumption.
      destruct (Hcase i) as [[H1 H2]|H12].
      - left. rewrite H1, H2. auto.
      - right. split; [assumption|]. specialize (Hok i Hi H12). rewrite Hcont in * by assumption.
        destruct (os i) as [t| |]; try discriminate. exists t. cbn [jok bind got] in *. tauto. }
    clearbody g. clear Hf Hall Hrun.
    assert (Hwf : forall i c, i < max_ones fw -> cn (g i) = Some c -> wf (d + 1) (p + i * 2 ^ off d) c).
    { intros i c Hi Hc. destruct (Hgs i Hi) as [(_ & _ & Hg)|(_ & t & Hg & (Hgood & _ & Hfit) & _)]; rewrite Hg in Hc; [discriminate|].
      cbn [cn] in Hc. apply (Hgood (pick rr t (osl i) (osr i))); [|assumption]. apply (pick_reads HR). assumption. }
    destruct (finish_ok d p g (sred rdef rd st g) Ho Hp Hwf) as (nn & Hfin & Hred & Hvis & Hnw).
    destruct (HD g (sred rdef rd st g) nn Hfin Hred) as (t & Ht & Htr & Hrd).
    rewrite Ht. cbn [jok]. split.
    + destruct (Hrd n rn) as [Hfits Hreads]. split; [|split; [|exact Hfits]].
      * (* contents *)
        intros o Ho'. specialize (Hreads o Ho').
        assert (Hpicks : exists os', spread d p (ovisit o) os' /\ owf d p o /\
          forall i, i < max_ones fw ->
            (osl i = None /\ osr i = None /\ os' i = None) \/
            exists t, good (d + 1) (p + i * 2 ^ off d) (osl i) (osr i) t /\ reads rr t (osl i) (osr i) (os' i)).
        { destruct Hreads as [->|[[Hgl Hlr]|[Hgu Hrr]]].
          - exists (fun i => if i <? max_ones fw then cn (g i) else None). split; [|split].
            + split.
              * rewrite Hvis. apply flat_map_ext_in. intros i Hi. apply range_in in Hi.
                destruct (N.ltb_spec i (max_ones fw)); [reflexivity|lia].
              * intros i c Hc. destruct (N.ltb_spec i (max_ones fw)); [|discriminate]. split; [assumption|]. apply Hwf; assumption.
            + exact Hnw.
            + intros i Hi. destruct (N.ltb_spec i (max_ones fw)); [|lia].
              destruct (Hgs i Hi) as [(H1 & H2 & Hg)|(_ & ti & Hg & Hgood & _)]; rewrite Hg; cbn [cn]; [auto|].
              right. exists ti. split; [assumption|]. apply (pick_reads HR). apply Hgood.
          - destruct (lread_some HR d p n o Hlr HWl) as [Hw Hsp]. destruct (Hsp osl Hl) as (os' & Hs' & Hi').
            exists os'. split; [assumption|]. split; [assumption|]. intros i Hi.
            destruct (Hgs i Hi) as [(H1 & H2 & Hg)|(_ & ti & Hg & Hgood & _)].
            + left. split; [assumption|]. split; [assumption|]. apply (lread_none HR). rewrite <- H1. apply Hi'.
            + right. exists ti. split; [assumption|]. apply (fl_reads HR); [apply Hgood| |apply Hi'].
              pose proof (gl_all g i Hgl Hi) as Hcl. rewrite Hg in Hcl. exact Hcl.
          - destruct (rread_some HR d p rn o Hrr HWr) as [Hw Hsp]. destruct (Hsp osr Hr) as (os' & Hs' & Hi').
            exists os'. split; [assumption|]. split; [assumption|]. intros i Hi.
            destruct (Hgs i Hi) as [(H1 & H2 & Hg)|(_ & ti & Hg & Hgood & _)].
            + left. split; [assumption|]. split; [assumption|]. apply (rread_none HR). rewrite <- H2. apply Hi'.
            + right. exists ti. split; [assumption|]. apply (fr_reads HR); [apply Hgood| |apply Hi'].
              pose proof (gu_all g i Hgu Hi) as Hcu. rewrite Hg in Hcu. exact Hcu. }
        destruct Hpicks as (os' & Hs' & Hw & Hi'). split; [assumption|]. intros c. cbn [ovisit].
        rewrite (spread_lookup d p _ _ c Hp Hl), (spread_lookup d p _ _ c Hp Hr), (spread_lookup d p _ _ c Hp Hs').
        destruct (Hi' (idx d (hash c)) (idx_lt _ _)) as [(-> & -> & ->)|(ti & Hgood & Hri)].
        { reflexivity. }
        apply Hgood. assumption.
      * (* reductions *)
        intros HCM Hgen. rewrite Htr. destruct HCM as [HM HC]. rewrite (sred_msum _ _ HM).
        cbn [ovisit]. rewrite (proj1 Hl), (proj1 Hr). symmetry.
        transitivity (msum rdef rd (flat_map (fun i => reds (ovisit (osl i)) (ovisit (osr i))) (range 0 (max_ones fw)))).
        { apply (msum_perm _ _ HM _ _ HC). apply merge_slots; [apply range_nodup|].
          intros i j _ _ Hij e e' He He' Hc. apply Hij.
          destruct (spread_key d p _ _ _ _ Hp Hl He) as [_ <-]. destruct (spread_key d p _ _ _ _ Hp Hr He') as [_ <-]. congruence. }
        unfold greds. rewrite !(msum_flat_map _ _ HM). f_equal. apply map_ext_in. intros i Hi. apply range_in in Hi.
        destruct (Hgs i ltac:(lia)) as [(H1 & H2 & Hg)|(_ & ti & Hg & (_ & Hred' & _) & _)]; rewrite Hg; cbn [cr].
        { rewrite H1, H2. reflexivity. }
        rewrite (msum_one _ _ HM). symmetry. apply Hred'; [split|]; assumption.
    + (* no divergence condition *)
      cbn [ovisit]. intros [h Hlo]. rewrite (spread_cnt d p _ _ h Hp Hl), (spread_cnt d p _ _ h Hp Hr) in Hlo.
      destruct (Hgs (idx d h) (idx_lt _ _)) as [(H1 & H2 & Hg)|(_ & ti & Hg & _ & Hn)].
      * rewrite H1 in Hlo. destruct (lo_pos HS _ _ Hlo) as [Hz _]. apply Hz. reflexivity.
      * apply Hn. exists h. assumption.
  - (* a slot fails *)
    destruct Hfail as [(i & Hi & Hfi & Hrun)|(i & Hi & Hfi & Hrun)]; apply range_in in Hi; rewrite Hf in Hfi by lia;
      rewrite Hrun; cbn [bind jok].
    + destruct (Hcase i) as [[H1 H2]|H12]; [rewrite H1, H2 in Hfi; discriminate|].
      specialize (Hok i ltac:(lia) H12). rewrite Hcont in Hfi by assumption. destruct (os i); try discriminate. contradiction.
    + destruct (Hcase i) as [[H1 H2]|H12]; [rewrite H1, H2 in Hfi; discriminate|].
      specialize (Hok i ltac:(lia) H12). rewrite Hcont in Hfi by assumption. destruct (os i) as [t| |]; try discriminate.
      destruct Hok as [h Hh]. exists h. cbn [ovisit].
      assert (Hidx : idx d h = i).
      { destruct (hi_pos HS _ _ Hh) as [Hz _]. destruct (cnt_in _ _ Hz) as (e & He & <-).
        apply (spread_key d p _ _ _ _ Hp Hl He). }
      rewrite (spread_cnt d p _ _ h Hp Hl), (spread_cnt d p _ _ h Hp Hr), Hidx. assumption.
Qed.

(** ** The traversals *)

(** How a slot is recorded; a node passed as the right one although the right
    slot is empty is not looked at. *)
Definition add_ok (add : acc S X R -> N -> option (mnode K V) -> option (mnode L W) -> T -> outcome (acc S X R)) : Prop :=
  forall a i ol or or' t, i < max_ones fw -> okv i (a_bits a) (a_values a) -> fits rr t ol or -> (or' = or \/ or = None) ->
    add a i ol or' t = Ret (after rd (fun _ => Some (pick rr t ol or, jr rr t, fl rr t, fr rr t)) [i] a).

Definition lone_ok (lone : mnode K V -> outcome T) : Prop :=
  forall d p n, wf d p n -> dom sp (m_visit n) [] -> exists t, lone n = Ret t /\ good d p (Some n) None t.
Definition rone_ok (rone : mnode L W -> outcome T) : Prop :=
  forall d p n, wf d p n -> dom sp [] (m_visit n) -> exists t, rone n = Ret t /\ good d p None (Some n) t.
Definition leaf_ok2 (leaf : lnext K V -> lnext L W -> N -> outcome T) : Prop :=
  forall d p this right, wf d p (next_mnode this) -> wf d p (next_mnode right) ->
    dom sp (m_visit (next_mnode this)) (m_visit (next_mnode right)) ->
    jok d p (Some (next_mnode this)) (Some (next_mnode right)) (leaf this right d).
Definition joint_ok (d p : N) (n : mnode K V) (right : mnode L W) (o : outcome T) : Prop :=
  wf d p n -> wf d p right -> dom sp (m_visit n) (m_visit right) -> jok d p (Some n) (Some right) o.

Lemma lone_jok lone d p n : lone_ok lone -> wf d p n -> dom sp (m_visit n) [] -> jok d p (Some n) None (lone n).
Proof.
  intros H HW HD. destruct (H d p n HW HD) as (t & -> & Hg). cbn [jok]. split; [assumption|].
  intros [h Hh]. apply (lo_pos HS) in Hh. destruct Hh as [H1 H2]. (apply H1; reflexivity) || (apply H2; reflexivity).
Qed.
Lemma rone_jok rone d p n : rone_ok rone -> wf d p n -> dom sp [] (m_visit n) -> jok d p None (Some n) (rone n).
Proof.
  intros H HW HD. destruct (H d p n HW HD) as (t & -> & Hg). cbn [jok]. split; [assumption|].
  intros [h Hh]. apply (lo_pos HS) in Hh. destruct Hh as [H1 H2]. (apply H1; reflexivity) || (apply H2; reflexivity).
Qed.

Context (add : acc S X R -> N -> option (mnode K V) -> option (mnode L W) -> T -> outcome (acc S X R)).
Context (lone : mnode K V -> outcome T) (rone : mnode L W -> outcome T) (done : acc S X R -> outcome T).
Context (leaf : lnext K V -> lnext L W -> N -> outcome T).
Context (Hadd : add_ok add) (Hlone : lone_ok lone) (Hrone : rone_ok rone) (Hdone : done_ok done) (Hleaf : leaf_ok2 leaf).

Lemma m_leaf_ok n : forall d p right, joint_ok d p n (next_mnode right) (m_leaf rdef add lone rone done leaf right n d).
Proof.
  intros d p right HW. revert right.
  induction HW as [d p s Hs|d p l h HL Hl|d p bits values x Ho Hp Hok Hne Hx Hch IH]; intros right HWr HD.
  - apply (Hleaf d p (NS s) right); [constructor| |]; assumption.
  - apply (Hleaf d p (NL l) right); [econstructor| |]; eassumption.
  - assert (HWC : wf d p (MC (BIA bits values x))) by (constructor; assumption).
    pose proof (spread_C _ _ _ _ _ HWC) as Hsl. pose proof (spread_leaf _ _ _ HWr) as Hsr.
    destruct (leafy_inv _ _ _ HWr) as [HLr Hpr].
    cbn [m_leaf]. rewrite flag_at_ok by assumption. cbn [bind unwrap fl_flag].
    set (j := idx d (hashk (next_key right))) in *.
    set (osr := fun i => if i =? j then Some (next_mnode right) else None) in *.
    set (os := fun i => match getv bits values i with
                        | Some c => if i =? j then m_leaf rdef add lone rone done leaf right c (d + 1) else lone c
                        | None => rone (next_mnode right) end).
    assert (Hrun := fun f => slots_ok done Sequential
      (cl_step add lone rone (2 ^ j) (next_mnode right) d
        (BIA bits (map (fun c => (c, m_leaf rdef add lone rone done leaf right c)) values) x)) f d p
        (MC (BIA bits values x)) (next_mnode right) (getv bits values) osr os Hdone Ho Hp HWC HWr Hsl Hsr).
    cbn [run_loop] in Hrun.
    assert (Hslot : forall i, i < max_ones fw -> getv bits values i <> None \/ osr i <> None ->
      jok (d + 1) (p + i * 2 ^ off d) (getv bits values i) (osr i) (os i)).
    { intros i Hi Hsome.
      assert (HDi := dom_part HS _ _ _ _ (spread_part d p _ _ _ _ i Hp Hsl Hsr) HD).
      assert (HWri : i = j -> wf (d + 1) (p + i * 2 ^ off d) (next_mnode right)).
      { intros Hij. apply (proj2 Hsr). unfold osr. rewrite Hij, N.eqb_refl. reflexivity. }
      unfold osr, os in *. destruct (getv bits values i) as [c|] eqn:Hc; destruct (N.eqb_spec i j) as [Hij|Hij]; cbn [ovisit] in *.
      - apply (IH i c Hc right); auto.
      - apply lone_jok; [exact Hlone|auto|exact HDi].
      - apply rone_jok; [exact Hrone|auto|exact HDi].
      - destruct Hsome; contradiction. }
    assert (Hpow : forall i, (2 ^ j =? 2 ^ i) = (i =? j)) by (intros i; rewrite pow2_eqb; apply N.eqb_sym).
    apply (Hrun (fun i => jcont (os i) (getv bits values i) (osr i))); [|reflexivity|exact Hslot].
    intros a i Hi Ha. unfold cl_step. rewrite bat_bit_index_slot by assumption. cbn [bind].
    rewrite nth_bit_ok by assumption. cbn [unwrap_ok bind]. rewrite Hpow.
    specialize (Hslot i Hi). unfold osr, os, jcont in *.
    destruct (getv bits values i) as [c|] eqn:Hc; destruct (N.eqb_spec i j) as [Hij|Hij].
    + specialize (Hslot ltac:(left; discriminate)).
      destruct (m_leaf rdef add lone rone done leaf right c (d + 1)) as [t| |]; cbn [bind]; try reflexivity.
      apply Hadd; try assumption; [|left; reflexivity]. apply Hslot.
    + specialize (Hslot ltac:(left; discriminate)).
      destruct (lone c) as [t| |]; cbn [bind]; try reflexivity.
      apply Hadd; try assumption; [|right; reflexivity]. apply Hslot.
    + specialize (Hslot ltac:(right; discriminate)).
      destruct (rone (next_mnode right)) as [t| |]; cbn [bind]; try reflexivity.
      apply Hadd; try assumption; [|left; reflexivity]. apply Hslot.
    + cbn [bind]. rewrite after_nil_cont. reflexivity.
Qed.

Context (tree_leaf : lnext L W -> mnode K V -> N -> outcome T) (leaf_tree : lnext K V -> mnode L W -> N -> outcome T).
Context (short : option T) (st : strategy).
Context (Htree_leaf : forall d p n right, joint_ok d p n (next_mnode right) (tree_leaf right n d))
  (Hleaf_tree : forall d p n right, joint_ok d p (next_mnode n) right (leaf_tree n right d))
  (Hshort : forall t d p c rc, short = Some t -> wf d p (MC c) -> wf d p (MC rc) ->
     dom sp (m_visit (MC c)) (m_visit (MC rc)) -> jok d p (Some (MC c)) (Some (MC rc)) (Ret t)).

Lemma m_joint_ok n : forall d p right, joint_ok d p n right
  (m_joint rdef rd add lone rone done leaf tree_leaf leaf_tree short st n right d).
Proof.
  intros d p right HW. revert right.
  induction HW as [d p s Hs|d p l h HL Hl|d p bits values x Ho Hp Hok Hne Hx Hch IH]; intros right HWr HD.
  - assert (HWs : wf d p (MS s)) by (constructor; assumption).
    destruct right as [c|r|r]; cbn [m_joint].
    + apply (Hleaf_tree d p (NS s)); assumption.
    + apply (Hleaf d p (NS s) (NL r)); assumption.
    + apply (Hleaf d p (NS s) (NS r)); assumption.
  - assert (HWs : wf d p (ML l)) by (econstructor; eassumption).
    destruct right as [c|r|r]; cbn [m_joint].
    + apply (Hleaf_tree d p (NL l)); assumption.
    + apply (Hleaf d p (NL l) (NL r)); assumption.
    + apply (Hleaf d p (NL l) (NS r)); assumption.
  - assert (HWC : wf d p (MC (BIA bits values x))) by (constructor; assumption).
    destruct right as [[rbits rvalues rx]|r|r]; cbn [m_joint].
    2:{ apply (Htree_leaf d p _ (NL r)); assumption. }
    2:{ apply (Htree_leaf d p _ (NS r)); assumption. }
    destruct short as [t|] eqn:Hsh.
    { apply Hshort; [reflexivity|assumption..]. }
    set (M := m_joint rdef rd add lone rone done leaf tree_leaf leaf_tree None st) in *.
    pose proof (spread_C _ _ _ _ _ HWC) as Hsl. pose proof (spread_C _ _ _ _ _ HWr) as Hsr.
    assert (Hokr : okv (max_ones fw) rbits rvalues) by (inversion HWr; assumption).
    set (os := fun i => match getv bits values i with
                        | Some c => match getv rbits rvalues i with Some r => M c r (d + 1) | None => lone c end
                        | None => match getv rbits rvalues i with Some r => rone r | None => Panic end end).
    assert (Hrun := fun f => slots_ok done st
      (cc_step add lone rone (BIA bits (map (fun c => (c, fun r => M c r (d + 1))) values) x) (BIA rbits rvalues rx)) f d p
        (MC (BIA bits values x)) (MC (BIA rbits rvalues rx)) (getv bits values) (getv rbits rvalues) os Hdone Ho Hp HWC HWr Hsl Hsr).
    assert (Hslot : forall i, i < max_ones fw -> getv bits values i <> None \/ getv rbits rvalues i <> None ->
      jok (d + 1) (p + i * 2 ^ off d) (getv bits values i) (getv rbits rvalues i) (os i)).
    { intros i Hi Hsome.
      assert (HDi := dom_part HS _ _ _ _ (spread_part d p _ _ _ _ i Hp Hsl Hsr) HD).
      unfold os. destruct (getv bits values i) as [c|] eqn:Hc; destruct (getv rbits rvalues i) as [r|] eqn:Hrc; cbn [ovisit] in *.
      - apply (IH i c Hc r); [|exact HDi]. apply (proj2 Hsr). assumption.
      - apply lone_jok; [exact Hlone|auto|exact HDi].
      - apply rone_jok; [exact Hrone| |exact HDi]. apply (proj2 Hsr). assumption.
      - destruct Hsome; contradiction. }
    apply (Hrun (fun i => jcont (os i) (getv bits values i) (getv rbits rvalues i))); [|reflexivity|exact Hslot].
    intros a i Hi Ha. unfold cc_step. rewrite bat_bit_index_slot by assumption. cbn [bind].
    rewrite (bat_bit_index_get fw (BIA rbits rvalues rx)) by assumption. cbn [bind]. unfold get. cbn [bbits bvalues].
    specialize (Hslot i Hi). unfold os, jcont in *.
    destruct (getv bits values i) as [c|] eqn:Hc; destruct (getv rbits rvalues i) as [r|] eqn:Hrc.
    + specialize (Hslot ltac:(left; discriminate)).
      destruct (M c r (d + 1)) as [t| |]; cbn [bind]; try reflexivity.
      apply Hadd; try assumption; [|left; reflexivity]. apply Hslot.
    + specialize (Hslot ltac:(left; discriminate)).
      destruct (lone c) as [t| |]; cbn [bind]; try reflexivity.
      apply Hadd; try assumption; [|right; reflexivity]. apply Hslot.
    + specialize (Hslot ltac:(right; discriminate)).
      destruct (rone r) as [t| |]; cbn [bind]; try reflexivity.
      apply Hadd; try assumption; [|left; reflexivity]. apply Hslot.
    + cbn [bind]. rewrite after_nil_cont. reflexivity.
Qed.

End Good.
