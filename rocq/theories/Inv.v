(** The invariant of reachable tries. *)
From Coq Require Import NArith Arith List Bool Lia ZifyBool ZifyN ZifyNat Permutation.
From Verif Require Import Base Words WordsP Flag FlagP Bia BiaP Node Spec SpecP.
Import ListNotations.
Open Scope N_scope.

Section Inv.
Context {E : Env} {K V : Type} {KK : Key K}.

(** Stored sizes of a collision list are exact. *)
Fixpoint lok (l : lnode K V) : Prop :=
  match l with
  | LNL _ _ n z => z = 1 + l_size n /\ lok n
  | LNS _ _ _ z => z = 2
  end.

(** A collision list: exact sizes, pairwise different keys, one hash. *)
Definition lwf (h : N) (l : lnode K V) : Prop :=
  lok l /\ uniq (l_visit l) /\ forall e, In e (l_visit l) -> hash (ecls e) = h.

(** [wf d p n]: [n] may stand at depth [d] below the slices [p]. *)
Inductive wf : N -> N -> mnode K V -> Prop :=
| wf_S d p s : pre d (hashk (s_key s)) = p -> wf d p (MS s)
| wf_L d p l h : lwf h l -> pre d h = p -> wf d p (ML l)
| wf_C d p bits values x :
    off d < hbits -> p < 2 ^ off d ->
    okv (max_ones fw) bits values ->
    (values <> [] \/ d = 0) ->
    x = lenN (concat (map m_visit values)) ->
    (forall i c, getv bits values i = Some c -> wf (d + 1) (p + i * 2 ^ off d) c) ->
    wf d p (MC (BIA bits values x)).

(** Entries of a slot. *)
Definition ovisit (o : option (mnode K V)) : list (K * V) :=
  match o with Some c => m_visit c | None => [] end.

Lemma l_size_len l : lok l -> l_size l = lenN (l_visit l).
Proof.
  induction l; cbn [lok l_size l_visit].
  - intros [-> H]. rewrite lenN_cons, <- IHl by assumption. reflexivity.
  - intros ->. reflexivity.
Qed.

Lemma l_visit_next k v (nx : lnext K V) : l_visit (l_new k v nx) = (k, v) :: m_visit (next_mnode nx).
Proof. destruct nx; reflexivity. Qed.

Lemma lok_new k v nx : (match nx with NL l => lok l | NS _ => True end) -> lok (l_new k v nx).
Proof. destruct nx; cbn; auto. Qed.

Lemma visit_C bits (values : list (mnode K V)) x n : okv n bits values ->
  m_visit (MC (BIA bits values x)) = flat_map (fun i => ovisit (getv bits values i)) (range 0 n).
Proof.
  intros H. cbn [m_visit]. rewrite <- flat_map_concat_map. rewrite (values_slots _ _ _ H) at 1.
  rewrite flat_map_slots. apply flat_map_ext_in. intros i _. reflexivity.
Qed.

Lemma visit_C_in bits (values : list (mnode K V)) x n e : okv n bits values ->
  In e (m_visit (MC (BIA bits values x))) ->
  exists i c, i < n /\ getv bits values i = Some c /\ In e (m_visit c).
Proof.
  intros Hok Hin. rewrite (visit_C _ _ _ _ Hok) in Hin. apply in_flat_map in Hin.
  destruct Hin as (i & Hi & He). apply range_in in Hi. unfold ovisit in He.
  destruct (getv bits values i) eqn:Hg; [|destruct He]. exists i, m. repeat split; try assumption. lia.
Qed.

Lemma wf_C_inv d p bits (values : list (mnode K V)) x : wf d p (MC (BIA bits values x)) ->
  okv (max_ones fw) bits values /\ forall i c, getv bits values i = Some c -> wf (d + 1) (p + i * 2 ^ off d) c.
Proof. intros H. inversion H; subst. auto. Qed.

Lemma getv_in {A} bits (values : list A) i a : getv bits values i = Some a -> In a values.
Proof. unfold getv. destruct (N.testbit bits i); [|discriminate]. apply nth_error_In. Qed.

Lemma wf_keys d p n : wf d p n -> forall e, In e (m_visit n) -> pre d (hash (ecls e)) = p.
Proof.
  induction 1; intros e He.
  - destruct He as [<-|[]]. exact H.
  - destruct H as (_ & _ & Hh). rewrite Hh by assumption. assumption.
  - destruct (visit_C_in _ _ _ _ _ H1 He) as (i & c & Hi & Hg & Hc).
    eapply pre_idx; [exact H0|]. eapply H5; eassumption.
Qed.

Lemma wf_C_idx d p bits values x i c e :
  wf d p (MC (BIA bits values x)) -> getv bits values i = Some c -> In e (m_visit c) ->
  idx d (hash (ecls e)) = i.
Proof.
  intros H Hg He. inversion H; subst. eapply pre_idx; [eassumption|].
  eapply wf_keys; [|exact He]. eauto.
Qed.

Lemma uniq_flat_map (f : N -> list (K * V)) l :
  NoDup l -> (forall i, In i l -> uniq (f i)) ->
  (forall i j e e', In i l -> In j l -> i <> j -> In e (f i) -> In e' (f j) -> ecls e <> ecls e') ->
  uniq (flat_map f l).
Proof.
  induction l as [|a l IH]; intros Hn Hu Hd; cbn [flat_map]; [constructor|].
  inversion Hn; subst. apply uniq_app.
  - apply Hu. left; reflexivity.
  - apply IH; try assumption; intros.
    + apply Hu. right; assumption.
    + eapply (Hd i j); try (right; eassumption); eassumption.
  - intros e e' He He'. apply in_flat_map in He'. destruct He' as (j & Hj & He').
    eapply (Hd a j); try eassumption; [left; reflexivity|right; assumption|]. intros ->. contradiction.
Qed.

Lemma wf_uniq d p n : wf d p n -> uniq (m_visit n).
Proof.
  induction 1.
  - cbn. apply uniq_cons. split; [reflexivity|constructor].
  - apply H.
  - assert (HW : wf d p (MC (BIA bits values x))) by (econstructor; eassumption).
    rewrite (visit_C _ _ _ _ H1). apply uniq_flat_map.
    + apply range_nodup.
    + intros i _. unfold ovisit. destruct (getv bits values i) eqn:Hg; [|constructor]. eauto.
    + intros i j e e' _ _ Hn He He' Hc. unfold ovisit in *.
      destruct (getv bits values i) eqn:Hgi; [|destruct He].
      destruct (getv bits values j) eqn:Hgj; [|destruct He'].
      pose proof (wf_C_idx _ _ _ _ _ _ _ _ HW Hgi He).
      pose proof (wf_C_idx _ _ _ _ _ _ _ _ HW Hgj He').
      congruence.
Qed.

Lemma l_visit_ne l : l_visit l <> @nil (K * V).
Proof. destruct l; discriminate. Qed.

Lemma wf_nonempty d p n : wf d p n -> d <> 0 -> m_visit n <> [].
Proof.
  induction 1; intros Hd.
  - discriminate.
  - apply l_visit_ne.
  - destruct H2 as [Hv|]; [|contradiction]. destruct values as [|c0 vs]; [contradiction|].
    destruct (in_values_get _ _ _ c0 H1 (or_introl eq_refl)) as (i & Hi & Hg).
    cbn [m_visit map concat]. intros Hc. apply app_eq_nil in Hc. destruct Hc as [Hc _].
    eapply H5; [exact Hg|lia|exact Hc].
Qed.

Lemma wf_size d p n : wf d p n -> m_size n = lenN (m_visit n).
Proof.
  destruct 1; cbn [m_size].
  - reflexivity.
  - apply l_size_len. apply H.
  - cbn [bextra m_visit]. assumption.
Qed.

Lemma wf_size_pos d p n : wf d p n -> d <> 0 -> 0 < m_size n.
Proof.
  intros H Hd. rewrite (wf_size _ _ _ H). pose proof (wf_nonempty _ _ _ H Hd) as Hn.
  destruct (m_visit n); [contradiction|]. rewrite lenN_cons. lia.
Qed.

(** A leaf or a collision list may stand anywhere on the path of its hash. *)
Lemma wf_leaf_mono d d' n p : (match n with MC _ => False | _ => True end) -> wf d p n ->
  wf d' (match n with MC _ => 0 | ML l => pre d' (hashk (l_key l)) | MS s => pre d' (hashk (s_key s)) end) n.
Proof.
  intros Hn H. destruct H; [constructor; reflexivity| |contradiction].
  apply wf_L with (h := h); [assumption|]. destruct H as (_ & _ & Hh). f_equal.
  symmetry. apply (Hh (l_key l, l_value l)). destruct l; left; reflexivity.
Qed.

(** ** Changing one slot of a branch *)

Lemma slot_split d p bits values x i :
  wf d p (MC (BIA bits values x)) -> i < max_ones fw ->
  exists rest,
    (forall e, In e rest -> idx d (hash (ecls e)) <> i) /\
    forall bits' values' x',
      okv (max_ones fw) bits' values' ->
      (forall j, j <> i -> getv bits' values' j = getv bits values j) ->
      Permutation (m_visit (MC (BIA bits' values' x'))) (ovisit (getv bits' values' i) ++ rest).
Proof.
  intros HW Hi. pose proof HW as HW0. inversion HW; subst.
  exists (flat_map (fun j => ovisit (getv bits values j)) (range 0 i)
          ++ flat_map (fun j => ovisit (getv bits values j)) (range (N.succ i) (max_ones fw))).
  split.
  - intros e He Hx. apply in_app_or in He.
    assert (exists j, j <> i /\ In e (ovisit (getv bits values j))) as (j & Hj & Hej).
    { destruct He as [He|He]; apply in_flat_map in He; destruct He as (j & Hj & He);
        apply range_in in Hj; exists j; split; try assumption; lia. }
    unfold ovisit in Hej. destruct (getv bits values j) eqn:Hg; [|destruct Hej].
    pose proof (wf_C_idx _ _ _ _ _ _ _ _ HW0 Hg Hej). congruence.
  - intros bits' values' x' Hok' Hg'. rewrite (visit_C _ _ _ _ Hok').
    rewrite (range_app 0 i (max_ones fw)) by lia. rewrite (range_cons i) by lia.
    rewrite flat_map_app. cbn [flat_map].
    rewrite (flat_map_ext_in (fun j => ovisit (getv bits' values' j)) (fun j => ovisit (getv bits values j)) (range 0 i)).
    2:{ intros j Hj. apply range_in in Hj. rewrite Hg' by lia. reflexivity. }
    rewrite (flat_map_ext_in (fun j => ovisit (getv bits' values' j)) (fun j => ovisit (getv bits values j)) (range (N.succ i) (max_ones fw))).
    2:{ intros j Hj. apply range_in in Hj. rewrite Hg' by lia. reflexivity. }
    apply Permutation_app_swap_app.
Qed.

End Inv.
