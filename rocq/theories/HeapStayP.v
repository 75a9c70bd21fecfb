(** What the bulk operations leave in place: transform. *)
From Coq Require Import NArith Arith List Bool Lia ZifyBool ZifyN ZifyNat Permutation.
From Verif Require Import Base Words WordsP Flag FlagP Bia BiaP Node Spec SpecP Inv NodeP InsertP TrieP Api Trans Transform Joint JointT
  Heap SpecH SpecB HeapP HeapOpP HeapCostP HeapBulk HeapBulkP HeapBoundP.
Import ListNotations.
Open Scope N_scope.

(** * Runs only add cells *)
Section Grows.
Context {S X R : Type}.
Notation heap := (heap S X).
Implicit Types (w : heap).
Definition grows {A} w (o : outcome (A * heap)) : Prop := forall a w', o = Ret (a, w') -> ext w w'.
Lemma grows_ret {A} w (a : A) : grows w (Ret (a, w)).
Proof. intros b w' H. injection H as _ <-. apply ext_refl. Qed.
Lemma grows_panic {A} w : grows (A := A) w Panic.
Proof. intros b w' H. discriminate. Qed.
Lemma grows_diverge {A} w : grows (A := A) w Diverge.
Proof. intros b w' H. discriminate. Qed.
Lemma grows_bind {A B} w (o : outcome (A * heap)) (f : A * heap -> outcome (B * heap)) :
  grows w o -> (forall a w', grows w' (f (a, w'))) -> grows w (bind o f).
Proof.
  intros Ho Hf b w2 H. destruct o as [[a w1]| |]; try discriminate. cbn [bind] in H.
  eapply ext_trans; [apply (Ho a w1 eq_refl)|apply (Hf a w1 b w2 H)].
Qed.
Lemma grows_pure {A B} w (o : outcome A) (f : A -> outcome (B * heap)) : (forall a, grows w (f a)) -> grows w (bind o f).
Proof. intros Hf b w2 H. destruct o as [a| |]; try discriminate. exact (Hf a b w2 H). Qed.
Lemma ext_snoc w c : ext w (w ++ [c]).
Proof. exists [c]. reflexivity. Qed.
Lemma hl_new_cell w k v x b w' : hl_new w k v x = Ret (b, w') -> exists z, b = length w /\ w' = w ++ [CellL k v x z].
Proof.
  unfold hl_new. intros H. apply bind_ret in H. destruct H as (z & _ & H). cbn [alloc others noise quiet] in H. injection H as <- <-. eauto.
Qed.
Lemma hl_new_grows w k v x : grows w (hl_new w k v x).
Proof. intros b w' H. destruct (hl_new_cell _ _ _ _ _ _ H) as (z & _ & ->). apply ext_snoc. Qed.
End Grows.

Ltac gstep := repeat match goal with
  | |- grows _ (Ret _) => apply grows_ret
  | |- grows _ Panic => apply grows_panic
  | |- grows _ Diverge => apply grows_diverge
  | |- grows _ (hl_new _ _ _ _) => apply hl_new_grows
  | |- grows _ (bind _ _) => first [apply grows_bind; [|intros ? ?]|apply grows_pure; intros ?]
  end.

Section Leaf.
Context {S X R : Type}.
Notation heap := (heap S X).
Implicit Types (w : heap).
Lemma new_s_grows k v (r : R) w : grows w (new_s k v r w).
Proof. intros a w' H. unfold new_s in H. cbn [hs_new alloc others noise quiet] in H. injection H as _ <-. apply ext_snoc. Qed.
Lemma new_l_grows k v x (r : R) w : grows w (new_l k v x r w).
Proof. unfold new_l. gstep. Qed.
Lemma hn_cons_grows k v (n : hnres R) (r : R) w : grows w (hn_cons k v n r w).
Proof. unfold hn_cons. destruct n as [[c|l|s] z|z]; [gstep|gstep|gstep|apply new_s_grows]. Qed.
Lemma as_t_grows (o : outcome (hnres R * heap)) w : grows w o -> grows w (as_t o).
Proof. intros H. unfold as_t. apply grows_bind; [exact H|]. intros a w'. gstep. Qed.
Lemma as_j_grows (o : outcome (hnres R * heap)) w : grows w o -> grows w (as_j o).
Proof. intros H. unfold as_j. apply grows_bind; [exact H|]. intros a w'. gstep. Qed.
Lemma as_flip_grows (o : outcome (hjres R * heap)) w : grows w o -> grows w (as_flip o).
Proof. intros H. unfold as_flip. apply grows_bind; [exact H|]. intros a w'. gstep. Qed.
Lemma hfinish_grows {E : Env} (a : hacc R) w : grows w (hfinish a w).
Proof.
  intros t w' H. unfold hfinish in H.
  assert (Hd : forall vs, (let* b := unwrap_ok (new_bia (ha_bits a) vs (ha_size a)) in let (c, w) := alloc w (CellC b) in Ret (HNN (HC c) (ha_red a), w)) = Ret (t, w') -> ext w w').
  { intros vs Hv. apply bind_ret in Hv. destruct Hv as (b & _ & Hv). cbn [alloc others noise quiet] in Hv. injection Hv as _ <-. apply ext_snoc. }
  destruct (ha_values a) as [|[c|l|s] [|y vs]]; try (apply (Hd _ H)); injection H as _ <-; apply ext_refl.
Qed.
Lemma hloop_grows (step : hacc R -> N -> heap -> outcome (hacc R * heap)) l : forall a w,
  (forall i a w, In i l -> grows w (step a i w)) -> grows w (hloop step l a w).
Proof.
  induction l as [|i l IH]; intros a w Hs; cbn [hloop]; [gstep|]. apply grows_bind; [apply Hs; left; reflexivity|].
  intros a' w'. apply IH. intros j b v Hj. apply Hs. right. exact Hj.
Qed.
Lemma hrun_loop_grows {E : Env} (rdef : R) rd st (step : hacc R -> N -> heap -> outcome (hacc R * heap)) w :
  (forall i a w, i < max_ones fw -> grows w (step a i w)) -> grows w (hrun_loop rdef rd st step w).
Proof.
  intros Hs. assert (Hh : max_ones fw / 2 <= max_ones fw) by (apply N.div_le_upper_bound; lia).
  assert (Hl : forall x y w, y <= max_ones fw -> grows w (hloop step (range x y) (hacc0 rdef) w)).
  { intros x y v Hy. apply hloop_grows. intros i a u Hi. apply Hs. apply range_in in Hi. lia. }
  destruct st; cbn [hrun_loop]; [apply Hl; apply N.le_refl|]. unfold hhalves. apply grows_bind; [apply Hl, Hh|]. intros a w'.
  apply grows_bind; [apply Hl, N.le_refl|]. intros a' w2. gstep.
Qed.
End Leaf.

Section Transform.
Context {E : Env} {K V R : Type}.
Context (rdef : R) (rd : R -> R -> R).
Notation heap := (heap K V).
Implicit Types (w : heap).
Lemma hs_transform_grows (op : transform_op (K * V) V R) s w : grows w (hs_transform op s w).
Proof. unfold hs_transform. destruct (tcall op _); gstep. apply as_t_grows, new_s_grows. Qed.
Lemma hl_transform_result_grows l (r : vres V R) next w : grows w (hl_transform_result rd l r next w).
Proof.
  unfold hl_transform_result. destruct (dl_entry l) as [k v]. destruct r, next; gstep; apply as_t_grows; first [apply new_l_grows|apply hn_cons_grows].
Qed.
Lemma hl_transform_grows (op : transform_op (K * V) V R) l : forall w, grows w (hl_transform rd op l w).
Proof.
  induction l as [a k v n IH z|a k v s z]; intros w; cbn [hl_transform]; (destruct op; [|gstep|gstep]);
    (apply grows_bind; [|intros t w'; apply hl_transform_result_grows]); [apply IH|apply hs_transform_grows].
Qed.
Lemma h_transform_grows st (op : transform_op (K * V) V R) n : forall w, grows w (h_transform rdef rd st op n w).
Proof.
  induction n as [a bits values x IH|l|s] using dnode_ind'; intros w; cbn [h_transform]; [|apply hl_transform_grows|apply hs_transform_grows].
  destruct op as [f|r|r]; [|gstep|gstep]. apply grows_bind.
  - apply hrun_loop_grows. intros i acc v _. unfold hc_transform_step. unfold bat_bit_index.
    destruct (nth_bit fw i) as [bit|e]; [|cbn [bind]; gstep]. cbn [bbits bvalues]. destruct (bit_index bits bit) as [j|e]; [|cbn [bind]; gstep].
    unfold nthN. destruct (nth_error (map _ values) (N.to_nat j)) as [[c run]|] eqn:Hn; cbn [unwrap bind]; [|gstep].
    apply nth_error_In, in_map_iff in Hn. destruct Hn as (c' & Hc & Hin). injection Hc as <- <-.
    apply grows_bind; [apply (proj1 (Forall_forall _ _) IH c' Hin)|]. intros t v'. destruct t; gstep.
  - intros acc w'. destruct (ha_ul acc); [gstep|]. apply as_t_grows, hfinish_grows.
Qed.
End Transform.

(** * Handles below handles *)
Section Below.
Context {K V : Type}.
Notation heap := (heap K V).
Implicit Types (w h : heap).

Lemma ext_nth w w' a (c : cell K V) : ext w w' -> nth_error w a = Some c -> nth_error w' a = Some c.
Proof. intros (new & ->) H. rewrite nth_error_app1; [exact H|]. apply nth_error_Some. congruence. Qed.
Lemma below_ext w w' n m : ext w w' -> below w n m -> below w' n m.
Proof. intros He H. induction H; [apply be_self|eapply be_C|eapply be_L]; try eassumption; eapply ext_nth; eassumption. Qed.

Definition lies_s h (s : dleaf K V) : Prop := nth_error h (ds_addr s) = Some (CellS (fst (ds_entry s)) (snd (ds_entry s))).
Fixpoint lies_l h (l : dlist K V) : Prop :=
  match l with
  | DLL a k v n z => nth_error h a = Some (CellL k v (XL (dl_addr n)) z) /\ lies_l h n
  | DLS a k v s z => nth_error h a = Some (CellL k v (XS (ds_addr s)) z) /\ lies_s h s
  end.
Inductive lies h : dnode K V -> Prop :=
| li_C a bits vs x : nth_error h a = Some (CellC (BIA bits (map d_node vs) x)) -> Forall (lies h) vs -> lies h (DC a (BIA bits vs x))
| li_L l : lies_l h l -> lies h (DL l)
| li_S s : lies_s h s -> lies h (DS s).

Lemma lies_l_ext w w' l : ext w w' -> lies_l w l -> lies_l w' l.
Proof.
  intros He. induction l as [a k v n IH z|a k v s z]; cbn [lies_l]; intros (H1 & H2); (split; [eapply ext_nth; eassumption|]);
    [apply IH, H2|eapply ext_nth; eassumption].
Qed.
Lemma lies_ext w w' n : ext w w' -> lies w n -> lies w' n.
Proof.
  intros He. induction n as [a bits values x IH|l|s] using dnode_ind'; intros H; inversion H; subst; constructor.
  - eapply ext_nth; eassumption.
  - rewrite Forall_forall in *. auto.
  - eapply lies_l_ext; eassumption.
  - eapply ext_nth; eassumption.
Qed.

Inductive dbelow : dnode K V -> dnode K V -> Prop :=
| db_self d : dbelow d d
| db_C a bits vs x c m : In c vs -> dbelow c m -> dbelow (DC a (BIA bits vs x)) m
| db_L l m : dbelow (dn_node (dl_next l)) m -> dbelow (DL l) m.

Lemma lies_next w l : lies_l w l -> lies w (dn_node (dl_next l)).
Proof. destruct l; cbn; intros (_ & H); constructor; exact H. Qed.
Lemma next_cell w l : lies_l w l -> exists z, nth_error w (dl_addr l) = Some (CellL (fst (dl_entry l)) (snd (dl_entry l)) (dn_next (dl_next l)) z).
Proof. destruct l; cbn; intros (H & _); eauto. Qed.
Lemma next_handle (x : dnext K V) : hnext_node (dn_next x) = d_node (dn_node x).
Proof. destruct x; reflexivity. Qed.

Lemma dbelow_below w n m : dbelow n m -> lies w n -> below w (d_node n) (d_node m).
Proof.
  induction 1 as [d|a bits vs x c m Hi H IH|l m H IH]; intros HL.
  - apply be_self.
  - inversion HL; subst. eapply be_C; [eassumption|apply in_map, Hi|]. apply IH. rewrite Forall_forall in *. auto.
  - inversion HL as [|l0 Hl|]; subst. destruct (next_cell _ _ Hl) as (z & Hc). eapply be_L; [exact Hc|]. rewrite next_handle.
    apply IH. apply lies_next, Hl.
Qed.
Lemma below_dbelow w n m : below w n m -> forall d, lies w d -> d_node d = n -> exists c, dbelow d c /\ d_node c = m.
Proof.
  induction 1 as [n|a c child m Hn Hi H IH|a k v next z m Hn H IH]; intros d HL Hd.
  - exists d. split; [apply db_self|exact Hd].
  - destruct d as [a' [bits vs x]|l|s]; try discriminate. injection Hd as ->. inversion HL; subst.
    assert (c = BIA bits (map d_node vs) x) by congruence. subst c. cbn [bvalues] in Hi. apply in_map_iff in Hi. destruct Hi as (c & Hc & Hi).
    destruct (IH c) as (m' & Hm & He); [rewrite Forall_forall in *; auto|exact Hc|]. exists m'. split; [eapply db_C; eassumption|exact He].
  - destruct d as [a' [bits vs x]|l|s]; try discriminate. injection Hd as <-. inversion HL as [|l0 Hl|]; subst.
    destruct (next_cell _ _ Hl) as (z' & Hc). assert (Hx : next = dn_next (dl_next l)) by congruence. subst next.
    destruct (IH (dn_node (dl_next l))) as (m' & Hm & He); [apply lies_next, Hl|symmetry; apply next_handle|].
    exists m'. split; [apply db_L, Hm|exact He].
Qed.

Lemma hs_deref_lies h a s : hs_deref h a = Ret s -> lies_s h s /\ ds_addr s = a.
Proof.
  unfold hs_deref, get_s. destruct (nth_error h a) as [[b|k v x z|k v]|] eqn:Hn; try discriminate. cbn. intros H. injection H as <-. auto.
Qed.
Lemma hl_deref_lies h fuel : forall a l, hl_deref fuel h a = Ret l -> lies_l h l /\ dl_addr l = a.
Proof.
  induction fuel as [|fuel IH]; intros a l H; [discriminate|]. cbn [hl_deref] in H. unfold get_l in H.
  destruct (nth_error h a) as [[b|k v x z|k v]|] eqn:Hn; try discriminate. cbn in H. destruct x as [b|b]; apply bind_ret in H; destruct H as (l' & H1 & H); injection H as <-.
  - destruct (IH _ _ H1) as (H2 & <-). cbn. auto.
  - destruct (hs_deref_lies _ _ _ H1) as (H2 & <-). cbn. auto.
Qed.
Lemma h_deref_lies h fuel : forall n d, h_deref fuel h n = Ret d -> lies h d /\ d_node d = n.
Proof.
  induction fuel as [|fuel IH]; intros n d H; [discriminate|]. cbn [h_deref] in H. destruct n as [a|a|a].
  - unfold get_c in H. destruct (nth_error h a) as [[[bits hs x]|? ? ? ?|? ?]|] eqn:Hn; try discriminate. cbn in H.
    apply bind_ret in H. destruct H as (vs & Hv & H). injection H as <-.
    assert (Hm : map d_node vs = hs /\ Forall (lies h) vs).
    { clear Hn. revert vs Hv. induction hs as [|c hs IHl]; intros vs Hv; cbn [every] in Hv; [injection Hv as <-; split; constructor|].
      apply bind_ret in Hv. destruct Hv as (d & Hd & Hv). apply bind_ret in Hv. destruct Hv as (ds & Hds & Hv). injection Hv as <-.
      destruct (IH _ _ Hd) as (H1 & H2). destruct (IHl _ Hds) as (H3 & H4). cbn [map]. rewrite H2, H3. split; [reflexivity|constructor; assumption]. }
    destruct Hm as (<- & HF). split; [constructor; assumption|reflexivity].
  - apply bind_ret in H. destruct H as (l & H1 & H). injection H as <-. destruct (hl_deref_lies _ _ _ _ H1) as (H2 & <-). split; [constructor; exact H2|reflexivity].
  - apply bind_ret in H. destruct H as (s & H1 & H). injection H as <-. destruct (hs_deref_lies _ _ _ H1) as (H2 & <-). split; [constructor; exact H2|reflexivity].
Qed.
End Below.

(** * The loop *)
Section Loop.
Context {E : Env} {S X R : Type}.
Context (rdef : R) (rd : R -> R -> R).
Notation heap := (heap S X).
Implicit Types (w : heap) (a : hacc R).
(** What a loop has gathered stays. *)
Definition later a a' : Prop :=
  incl (ha_values a) (ha_values a') /\ (ha_ul a = false -> ha_ul a' = false) /\ (ha_ur a = false -> ha_ur a' = false).
Lemma later_refl a : later a a.
Proof. split; [apply incl_refl|auto]. Qed.
Lemma later_trans a b c : later a b -> later b c -> later a c.
Proof. intros (H1 & H2 & H3) (H4 & H5 & H6). split; [eapply incl_tran; eassumption|auto]. Qed.

Lemma hpush_later a i n z (r : R) a' : hpush rd a i n z r = Ret a' -> ha_values a' = ha_values a ++ [n] /\ ha_ul a' = ha_ul a /\ ha_ur a' = ha_ur a.
Proof.
  unfold hpush. intros H. apply bind_ret in H. destruct H as (bit & _ & H). apply bind_ret in H. destruct H as (bits & _ & H).
  injection H as <-. auto.
Qed.
Lemma hpush_new_later w a i (n : hnres R) a' : hpush_new rd w a i n = Ret a' ->
  ha_values a' = ha_values a ++ match n with HNN x _ => [x] | HNZ _ => [] end /\ ha_ul a' = ha_ul a /\ ha_ur a' = ha_ur a.
Proof.
  destruct n as [x r|r]; cbn [hpush_new]; intros H.
  - apply bind_ret in H. destruct H as (z & _ & H). apply hpush_later in H. exact H.
  - injection H as <-. cbn. rewrite app_nil_r. auto.
Qed.

Variable step : hacc R -> N -> heap -> outcome (hacc R * heap).
Hypothesis Hstep : forall i a w a' w', i < max_ones fw -> step a i w = Ret (a', w') -> later a a' /\ ext w w'.
Lemma hloop_later l : forall a w a' w', (forall i, In i l -> i < max_ones fw) -> hloop step l a w = Ret (a', w') -> later a a' /\ ext w w'.
Proof.
  induction l as [|i l IH]; intros a w a' w' Hl H; cbn [hloop] in H; [injection H as <- <-; split; [apply later_refl|apply ext_refl]|].
  apply bind_ret in H. destruct H as ([a1 w1] & H1 & H). apply Hstep in H1; [|apply Hl; left; reflexivity]. destruct H1 as (H2 & H3).
  apply IH in H; [|intros j Hj; apply Hl; right; exact Hj]. destruct H as (H4 & H5). split; [eapply later_trans|eapply ext_trans]; eassumption.
Qed.

Variable P : hacc R -> heap -> Prop.
Hypothesis HP : forall a w a' w', later a a' -> ext w w' -> P a w -> P a' w'.
Variables (i0 : N) (w0 : heap).
Hypothesis Hi0 : i0 < max_ones fw.
Hypothesis Hat : forall a w a' w', ext w0 w -> step a i0 w = Ret (a', w') -> P a' w'.
Lemma hloop_at l : forall a w a' w', (forall i, In i l -> i < max_ones fw) -> ext w0 w -> hloop step l a w = Ret (a', w') -> In i0 l -> P a' w'.
Proof.
  induction l as [|i l IH]; intros a w a' w' Hl He H Hi; [destruct Hi|]. cbn [hloop] in H.
  apply bind_ret in H. destruct H as ([a1 w1] & H1 & H). destruct (N.eq_dec i i0) as [->|Hne].
  - pose proof (Hat _ _ _ _ He H1) as Hp. apply hloop_later in H; [|intros j Hj; apply Hl; right; exact Hj]. destruct H as (H2 & H3). eapply HP; eassumption.
  - destruct Hi as [->|Hi]; [contradiction|]. assert (He1 : ext w0 w1). { apply Hstep in H1; [|apply Hl; left; reflexivity]. eapply ext_trans; [exact He|apply H1]. }
    refine (IH _ _ _ _ _ He1 H Hi). intros j Hj. apply Hl. right. exact Hj.
Qed.
Lemma range_lt x y i : In i (range x y) -> y <= max_ones fw -> i < max_ones fw.
Proof. intros H Hy. apply range_in in H. lia. Qed.
Lemma hrun_loop_at st a' w' : hrun_loop rdef rd st step w0 = Ret (a', w') -> P a' w'.
Proof.
  assert (Hh : max_ones fw / 2 <= max_ones fw) by (apply N.div_le_upper_bound; lia).
  intros H. destruct st; cbn [hrun_loop] in H.
  - apply hloop_at in H; [exact H| |apply ext_refl|apply range_in; lia]. intros i Hi. apply (range_lt _ _ _ Hi), N.le_refl.
  - unfold hhalves in H. apply bind_ret in H. destruct H as ([l w1] & H1 & H). apply bind_ret in H. destruct H as ([r w2] & H2 & H).
    apply bind_ret in H. destruct H as (bits & _ & H). injection H as <- <-.
    assert (Hb1 : forall i, In i (range 0 (max_ones fw / 2)) -> i < max_ones fw) by (intros i Hi; apply (range_lt _ _ _ Hi Hh)).
    assert (Hb2 : forall i, In i (range (max_ones fw / 2) (max_ones fw)) -> i < max_ones fw) by (intros i Hi; apply (range_lt _ _ _ Hi (N.le_refl _))).
    pose proof (hloop_later _ _ _ _ _ Hb1 H1) as (_ & He1). pose proof (hloop_later _ _ _ _ _ Hb2 H2) as (_ & He2).
    destruct (N.lt_ge_cases i0 (max_ones fw / 2)) as [Hlt|Hge].
    + apply hloop_at in H1; [|exact Hb1|apply ext_refl|apply range_in; lia]. eapply HP; [|exact He2|exact H1].
      split; [|split]; cbn [ha_values ha_ul ha_ur]; [apply incl_appl, incl_refl| |]; intros ->; reflexivity.
    + apply hloop_at in H2; [|exact Hb2|exact He1|apply range_in; lia]. eapply HP; [|apply ext_refl|exact H2].
      split; [|split]; cbn [ha_values ha_ul ha_ur]; [apply incl_appr, incl_refl| |]; intros ->; apply andb_false_r.
Qed.
End Loop.

Lemma hfinish_holds {E : Env} {S X R} (a : hacc R) (w : heap S X) x m t w' : In x (ha_values a) -> below w x m -> hfinish a w = Ret (t, w') ->
  exists y r, t = HNN y r /\ below w' y m.
Proof.
  intros Hi Hb H. unfold hfinish in H.
  assert (Hd : forall vs, In x vs -> (let* b := unwrap_ok (new_bia (ha_bits a) vs (ha_size a)) in let (c, w) := alloc w (CellC b) in Ret (HNN (HC c) (ha_red a), w)) = Ret (t, w') ->
    exists y r, t = HNN y r /\ below w' y m).
  { intros vs Hx Hv. apply bind_ret in Hv. destruct Hv as (b & Hbia & Hv). cbn [alloc others noise quiet] in Hv. injection Hv as <- <-.
    do 2 eexists. split; [reflexivity|]. eapply be_C; [rewrite nth_error_app2, Nat.sub_diag by lia; reflexivity| |eapply below_ext; [apply ext_snoc|exact Hb]].
    unfold new_bia in Hbia. destruct (negb _) in Hbia; [discriminate|]. destruct (_ <=? _) in Hbia; [|discriminate]. injection Hbia as <-. exact Hx. }
  destruct (ha_values a) as [|[c|l|s] [|y vs]]; try (apply (Hd _ Hi H)); [destruct Hi| |]; injection H as <- <-; destruct Hi as [<-|[]]; eauto.
Qed.


(** * transform *)
Section Stay.
Context {E : Env} {K V R : Type} {KK : Key K}.
Context (rdef : R) (rd : R -> R -> R).
Notation heap := (heap K V).
Implicit Types (w : heap).
Variable (f : K * V -> vres V R).
Notation op := (TGeneric f).

Definition untouched (m : dnode K V) : Prop := forall e, In e (dvisit m) -> changes op e = false.
(** The result, if it is not the operand, has the handle below it. *)
Definition holds (t : htres R) w (m : hnode) : Prop :=
  match t with HTU _ => True | HTN (HNN x _) => below w x m | HTN (HNZ _) => False end.
Definition no_C (t : htres R) : Prop := match t with HTN (HNN (HC _) _) => False | _ => True end.

Lemma hs_transform_stay s w t w' m : hs_transform op s w = Ret (t, w') -> no_C t /\ (dbelow (DS s) m -> untouched m -> holds t w' (d_node m)).
Proof.
  intros H. split.
  - unfold hs_transform in H. destruct (tcall op (ds_entry s)); cbn in H; injection H as <- <-; exact I.
  - intros Hb Hu. inversion Hb; subst. destruct (hs_transform_still op s w t w') as (-> & r & ->); [apply Hu; destruct s; left; reflexivity|exact H|exact I].
Qed.

Lemma new_l_stay k v x (r : R) w n w' m : new_l k v x r w = Ret (n, w') -> below w (hnext_node x) m ->
  exists b, n = HNN (HL b) r /\ below w' (HL b) m.
Proof.
  unfold new_l. intros H Hb. apply bind_ret in H. destruct H as ([b w1] & H1 & H). injection H as <- <-.
  destruct (hl_new_cell _ _ _ _ _ _ H1) as (z & -> & ->). eexists. split; [reflexivity|].
  eapply be_L; [rewrite nth_error_app2, Nat.sub_diag by lia; reflexivity|]. eapply below_ext; [apply ext_snoc|exact Hb].
Qed.
Lemma hn_cons_l k v x z (r : R) w : hn_cons k v (HNN (HL x) z) r w = new_l k v (XL x) r w.
Proof. reflexivity. Qed.
Lemma hn_cons_s k v x z (r : R) w : hn_cons k v (HNN (HS x) z) r w = new_l k v (XS x) r w.
Proof. reflexivity. Qed.

Lemma hn_cons_stay k v n (r0 : R) w t w' : as_t (hn_cons k v n r0 w) = Ret (t, w') -> no_C (HTN n) ->
  no_C t /\ forall m, holds (HTN n) w m -> holds t w' m.
Proof.
  intros Ht Hc. unfold as_t in Ht. apply bind_ret in Ht. destruct Ht as ([n' w1] & H1 & Ht). injection Ht as <- <-.
  destruct n as [[c|x|x] z|z]; [destruct Hc|rewrite hn_cons_l in H1|rewrite hn_cons_s in H1|]; try (split;
    [unfold new_l in H1; apply bind_ret in H1; destruct H1 as ([b w2] & _ & H1); injection H1 as <- <-; exact I
    |intros m Hm; cbn in Hm; destruct (new_l_stay _ _ _ _ _ _ _ m H1 Hm) as (b & -> & Hb); exact Hb]).
  cbn in H1. injection H1 as <- <-. split; [exact I|]. intros m [].
Qed.
Lemma new_l_as_t k v x (r : R) w t w' : as_t (new_l k v x r w) = Ret (t, w') -> no_C t /\ forall m, below w (hnext_node x) m -> holds t w' m.
Proof.
  intros Ht. unfold as_t in Ht. apply bind_ret in Ht. destruct Ht as ([n' w1] & H1 & Ht). injection Ht as <- <-. split.
  - unfold new_l in H1. apply bind_ret in H1. destruct H1 as ([b w2] & _ & H1). injection H1 as <- <-. exact I.
  - intros m Hm. destruct (new_l_stay _ _ _ _ _ _ _ m H1 Hm) as (b & -> & Hb). exact Hb.
Qed.
Lemma hl_transform_result_stay l (r : vres V R) next w t w' : hl_transform_result rd l r next w = Ret (t, w') -> no_C next ->
  no_C t /\ forall m, match next with HTU _ => below w (hnext_node (dn_next (dl_next l))) m | _ => holds next w m end -> holds t w' m.
Proof.
  unfold hl_transform_result. destruct (dl_entry l) as [k v]. intros H Hn. destruct r as [lr|lv lr|lr], next as [rr|n].
  - injection H as <- <-. split; [exact I|]. intros. exact I.
  - exact (hn_cons_stay _ _ _ _ _ _ _ H Hn).
  - exact (new_l_as_t _ _ _ _ _ _ _ H).
  - exact (hn_cons_stay _ _ _ _ _ _ _ H Hn).
  - injection H as <- <-. split; [|auto]. destruct (dn_next (dl_next l)); exact I.
  - injection H as <- <-. destruct n as [[c|x|x] z|z]; [destruct Hn| | |]; cbn; auto.
Qed.

Lemma hl_transform_stay l : forall w t w', hl_transform rd op l w = Ret (t, w') ->
  no_C t /\ (lies_l w l -> forall m, dbelow (DL l) m -> untouched m -> holds t w' (d_node m)).
Proof.
  assert (Hgen : forall l w t w' n w1, hl_transform rd op l w = Ret (t, w') ->
    match l with DLL _ _ _ n _ => hl_transform rd op n w | DLS _ _ _ s _ => hs_transform op s w end = Ret (n, w1) ->
    hl_transform_result rd l (tcall op (dl_entry l)) n w1 = Ret (t, w') ->
    no_C n /\ (lies w (dn_node (dl_next l)) -> forall m, dbelow (dn_node (dl_next l)) m -> untouched m -> holds n w1 (d_node m)) ->
    no_C t /\ (lies_l w l -> forall m, dbelow (DL l) m -> untouched m -> holds t w' (d_node m))).
  { clear l. intros l w t w' n w1 H Hn Hr (Hc & Hs). destruct (hl_transform_result_stay _ _ _ _ _ _ Hr Hc) as (Hc' & Hs'). split; [exact Hc'|].
    intros HL m Hb Hu. inversion Hb as [|? ? ? ? ? ? ? ?|? ? Hb']; subst.
    - destruct (hl_transform_still rd op l w t w') as (_ & r & ->); [exact Hu|exact H|exact I].
    - apply Hs'. specialize (Hs (lies_next _ _ HL) m Hb' Hu). destruct n as [rr|n]; [|exact Hs]. rewrite next_handle.
      assert (He : ext w w1). { destruct l; [apply (hl_transform_grows rd op _ _ _ _ Hn)|apply (hs_transform_grows op _ _ _ _ Hn)]. }
      eapply below_ext; [exact He|]. apply dbelow_below; [exact Hb'|apply lies_next, HL]. }
  induction l as [a k v n IH z|a k v s z]; intros w t w' H; pose proof H as H0; cbn [hl_transform] in H0;
    apply bind_ret in H0; destruct H0 as ([t1 w1] & H1 & H2); apply (Hgen _ _ _ _ _ _ H H1 H2).
  - destruct (IH _ _ _ H1) as (Hc & Hs). split; [exact Hc|]. intros HL. inversion HL; subst. apply Hs. assumption.
  - split; [apply (hs_transform_stay s w t1 w1 (DS s) H1)|]. intros _ m. apply (hs_transform_stay s w t1 w1 m H1).
Qed.

Lemma h_transform_same st a bits values x d p w t w' : wf d p (strip (DC a (BIA bits values x))) -> untouched (DC a (BIA bits values x)) ->
  h_transform rdef rd st op (DC a (BIA bits values x)) w = Ret (t, w') -> exists r, t = HTU r.
Proof.
  intros HW Hu H. destruct (dvisit (DC a (BIA bits values x))) as [|e l] eqn:Hd.
  - destruct (wf_kid _ _ _ _ _ _ HW) as (Ho & Hok & Hkid). cbn [h_transform] in H. apply bind_ret in H. destruct H as ([acc w1] & H1 & H).
    apply hrun_loop_ul in H1; [destruct H1 as (Hl & ->); rewrite Hl in H; injection H as <- <-; eauto|].
    intros i a1 v a2 v' Hi Ha Hs. unfold hc_transform_step in Hs. rewrite bat_bit_index_slot in Hs by assumption. cbn [bind] in Hs.
    destruct (getv bits values i) as [c|] eqn:Hg; [|injection Hs as <- <-; auto]. exfalso.
    destruct (Hkid i c Hg) as (_ & Hne). destruct (dvisit c) as [|e l] eqn:Hc; [contradiction|].
    assert (Hin : In e (dvisit (DC a (BIA bits values x)))); [|rewrite Hd in Hin; exact Hin].
    rewrite dvisit_C. apply in_flat_map. exists c. split; [eapply getv_in; exact Hg|rewrite Hc; left; reflexivity].
  - destruct (h_transform_still rdef rd op st _ d p w t w' HW Hu H) as (_ & Hr). apply Hr. rewrite Hd. discriminate.
Qed.

Lemma h_transform_stay st n : forall d p w t w', wf d p (strip n) -> lies w n -> h_transform rdef rd st op n w = Ret (t, w') ->
  forall m, dbelow n m -> untouched m -> holds t w' (d_node m).
Proof.
  induction n as [a bits values x IH|l|s] using dnode_ind'; intros d p w t w' HW HL H m Hb Hu.
  - inversion Hb as [|? ? ? ? c ? Hin Hb'|]; subst.
    { destruct (h_transform_same _ _ _ _ _ _ _ _ _ _ HW Hu H) as (r & ->). exact I. }
    destruct (wf_kid _ _ _ _ _ _ HW) as (Ho & Hok & Hkid). cbn [h_transform] in H. apply bind_ret in H. destruct H as ([acc w1] & H1 & H).
    destruct (ha_ul acc); [injection H as <- <-; exact I|].
    destruct (in_values_get _ bits values c Hok Hin) as (i0 & Hi0 & Hg0).
    assert (HLc : forall w2, ext w w2 -> lies w2 c).
    { intros w2 He. eapply lies_ext; [exact He|]. inversion HL; subst. rewrite Forall_forall in *. auto. }
    apply (hrun_loop_at rdef rd _) with (P := fun a w => exists y, In y (ha_values a) /\ below w y (d_node m)) (i0 := i0) in H1.
    + destruct H1 as (y & Hy & Hyb). unfold as_t in H. apply bind_ret in H. destruct H as ([t1 w2] & Hf & H). injection H as <- <-.
      destruct (hfinish_holds _ _ _ _ _ _ Hy Hyb Hf) as (y' & r & -> & Hb2). exact Hb2.
    + intros i a1 v a2 v' Hi Hs. unfold hc_transform_step in Hs. rewrite bat_bit_index_slot in Hs by assumption. cbn [bind] in Hs.
      destruct (getv bits values i) as [c1|] eqn:Hg; [|injection Hs as <- <-; split; [apply later_refl|apply ext_refl]].
      apply bind_ret in Hs. destruct Hs as ([t1 v1] & Hr & Hs). pose proof (h_transform_grows _ _ _ _ _ _ _ _ Hr) as He.
      destruct t1 as [r|nn]; apply bind_ret in Hs; destruct Hs as (a3 & Ha3 & Hs); injection Hs as <- <-; (split; [|exact He]).
      * apply hpush_later in Ha3. destruct Ha3 as (Hv & Hul & Hur). unfold later. rewrite Hv, Hul, Hur. split; [apply incl_appl, incl_refl|auto].
      * apply hpush_new_later in Ha3. destruct Ha3 as (Hv & Hul & Hur). unfold later. cbn. rewrite Hv, Hur. split; [apply incl_appl, incl_refl|auto].
    + intros a1 v a2 v' (Hl & _) He (y & Hy & Hyb). exists y. split; [apply Hl, Hy|eapply below_ext; eassumption].
    + exact Hi0.
    + intros a1 v a2 v' He Hs. unfold hc_transform_step in Hs. rewrite bat_bit_index_slot in Hs by assumption. cbn [bind] in Hs. rewrite Hg0 in Hs.
      apply bind_ret in Hs. destruct Hs as ([t1 v1] & Hr & Hs). pose proof (h_transform_grows _ _ _ _ _ _ _ _ Hr) as He1.
      destruct (Hkid i0 c Hg0) as (HWc & _).
      pose proof (proj1 (Forall_forall _ _) IH c Hin _ _ _ _ _ HWc (HLc _ He) Hr m Hb' Hu) as Hh.
      destruct t1 as [r|nn]; apply bind_ret in Hs; destruct Hs as (a3 & Ha3 & Hs); injection Hs as <- <-.
      * apply hpush_later in Ha3. destruct Ha3 as (Hv & _). exists (d_node c). rewrite Hv. split; [apply in_or_app; right; left; reflexivity|].
        apply dbelow_below; [exact Hb'|]. apply HLc. eapply ext_trans; eassumption.
      * apply hpush_new_later in Ha3. destruct Ha3 as (Hv & _). destruct nn as [y r|r]; [|destruct Hh]. exists y. cbn. rewrite Hv.
        split; [apply in_or_app; right; left; reflexivity|exact Hh].
  - inversion HL; subst. destruct (hl_transform_stay l w t w' H) as (_ & Hs). apply Hs; assumption.
  - apply (hs_transform_stay s w t w' m H); assumption.
Qed.
End Stay.
