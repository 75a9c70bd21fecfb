(** The two places of C60: anywhere a branch can be made, and by the hash. *)
From Coq Require Import NArith Arith List Bool Lia ZifyBool ZifyN ZifyNat Permutation.
From Verif Require Import Base Words WordsP Flag FlagP Spec Bia BiaP Node Inv InsertP Api Trans Transform Joint Profile Eff EffP EffTP EffApi Ask AskP AskInsP AskHashP AskT SpecAsk SpecAskT SpecAskJ JoinP JointLeafP LoopP TransformP
  PermP AskTP AskTTP AskTopP AskJ AskJP AskJOneP AskJLeafP AskJMLeafP AskJTravP AskJTreeP AskJTopP.
Import ListNotations.
Open Scope N_scope.

Lemma shaped_imp {E : Env} {K V} (leaf leaf' : N -> N -> list (K * V) -> Prop) deep d p n : (forall d p es, leaf d p es -> leaf' d p es) ->
  shaped leaf deep d p n -> shaped leaf' deep d p n.
Proof. intros H HS. induction HS; constructor; auto. Qed.

(** Any hash, anywhere. *)
Definition free {E : Env} {K V} : N -> N -> list (K * V) -> Prop := leaf_of (fun _ _ => True) (fun _ _ _ => True).
Lemma loose_free {E : Env} {K V} d p (n : mnode K V) : loose d n -> shaped free useful d p n.
Proof. intros H. eapply shaped_imp; [|apply loose_shaped, H]. intros d' p' es _. exists 0. split; [apply Forall_forall; auto|exact I]. Qed.
Lemma free_loose {E : Env} {K V} d p (n : mnode K V) : shaped free useful d p n -> loose d n.
Proof. intros H. eapply shaped_loose, shaped_imp; [|exact H]. intros d' p' es _. exact I. Qed.

(** By the hash. *)
Definition hashed {E : Env} {K V} {KK : Key K} (h : N) (e : K * V) : Prop := hash (ecls e) = h.
Definition onpath {E : Env} (d p h : N) : Prop := pre d h = p /\ h < 2 ^ hbits.
Definition near {E : Env} {K V} {KK : Key K} : N -> N -> list (K * V) -> Prop := leaf_of hashed onpath.
Lemma hashed_all {E : Env} {K V} {KK : Key K} h (es : list (K * V)) : Forall (hashed h) es <-> forall e, In e es -> hash (ecls e) = h.
Proof. apply Forall_forall. Qed.
Lemma near_placed {E : Env} {K V} {KK : Key K} d p (n : mnode K V) : shaped near within d p n -> placed d p n.
Proof. intros H. apply shaped_placed. eapply shaped_imp; [|exact H]. intros d' p' es (h & H1 & H2 & _). exists h. split; [apply hashed_all, H1|exact H2]. Qed.
Lemma placed_near {E : Env} {K V} {KK : Key K} d p (n : mnode K V) : placed d p n -> shaped near within d p n.
Proof.
  intros H. induction H as [d p s Hs|d p l h H1 H2 H3|d p bits values x Ho Hp Hok Hne Hx Hch IH].
  - constructor. exists (hashk (s_key s)). split; [|split; [exact Hs|apply hash_lt]]. repeat constructor.
  - constructor; [exact H1|]. exists h. split; [apply hashed_all, H2|]. split; [exact H3|].
    assert (HN : exists e, In e (l_visit l)). { destruct (l_visit l) as [|e es] eqn:He; [|exists e; left; reflexivity]. destruct l; cbn in He; discriminate He || (destruct (n_visit next); discriminate He). }
    destruct HN as (e & He). rewrite <- (H2 e He). apply hash_lt.
  - constructor; try assumption. split; assumption.
Qed.

Section Places.
Context {E : Env} {KL VL KR VR K V TB TL TR R S X : Type}.
Notation A := (jreply KL VL KR VR K V TB TL TR R).
Notation event := (event (A := A)).
Notation trace := (list event).
Implicit Types tr t : trace.

Lemma same_hash_false w w' : same_hash w w' = false -> proj1_sig w <> proj1_sig w'.
Proof. unfold same_hash. intros H He. apply N.eqb_eq in He. congruence. Qed.

Definition told_hash (e : event) (h : N) (w : word) : Prop := (exists k, e = answer (A := A) (JHash k) w) \/ exists k, e = answer (A := A) (JHash' k) w.

Lemma hash_said_incl t t' w : incl t t' -> hash_said t w -> hash_said t' w.
Proof. intros H [(k & Hk)|(k & Hk)]; [left|right]; exists k; apply H, Hk. Qed.
Lemma told_said e h w t : told_hash e h w -> In e t -> hash_said t w.
Proof. intros [(k & ->)|(k & ->)] Hi; [left|right]; exists k; exact Hi. Qed.

Definition free_place : place KL VL KR VR K V TB TL TR R S X.
Proof.
  refine (Place E KL VL KR VR K V TB TL TR R S X (fun _ => True) (fun t => broken t \/ hashes_differ t) (fun _ _ => True) (fun _ _ => True) (fun _ _ => True)
    told_hash (fun _ _ _ => True) useful _ _ _ _ _ _ _ _ _).
  - intros t H. left. exact H.
  - intros t t' Hi [(q & Hq)|(h & h' & H1 & H2 & H3)]; [left; exists q; apply Hi, Hq|].
    right. exists h, h'. split; [eapply hash_said_incl; eassumption|]. split; [eapply hash_said_incl; eassumption|exact H3].
  - auto.
  - intros d p h w e Hd _ _ _. destruct (flag_usable (proj1_sig w) d Hd) as (f & H1 & (_ & i & H2 & H3) & _). exists f, i. auto.
  - intros d p h h' w w' e e' _ _ Ht Ht' _ _ Hs.
    assert (HD : broken [e; e'] \/ hashes_differ [e; e']).
    { right. exists w, w'. split; [eapply told_said; [exact Ht|left; reflexivity]|]. split; [eapply told_said; [exact Ht'|right; left; reflexivity]|]. apply same_hash_false, Hs. }
    unfold aflags. destruct (flag_any (proj1_sig w) d) as [(f & -> & Hf & _ & HU)|[[-> _]|[-> _]]]; cbn; try exact HD.
    destruct (flag_any (proj1_sig w') d) as [(f' & -> & Hf' & _)|[[-> _]|[-> _]]]; cbn; try exact HD.
    intros a b [Ha _] [Hb _]. pose proof (cnode_lift_loose d a f b f' Ha Hb Hf Hf' HU) as H. destruct (cnode_lift a f b f') as [c| |]; [|exact HD|exact H].
    destruct H as [H1 H2]. split; [apply loose_free, H1|exact H2].
  - intros k w h v _ _. left. exists k. reflexivity.
  - intros k w h v _ _. right. exists k. reflexivity.
  - auto.
  - apply usable_0.
Defined.

Section Near.
Context {KKL : Key KL} {KKR : Key KR} {KKS : Key S}.
Context (good : event -> Prop).
Context (Hh : forall k w, good (answer (A := A) (JHash k) w) -> proj1_sig w = hashk k).
Context (Hh' : forall k w, good (answer (A := A) (JHash' k) w) -> proj1_sig w = hashk k).

Definition near_place : place KL VL KR VR K V TB TL TR R S X.
Proof.
  refine (Place E KL VL KR VR K V TB TL TR R S X good broken hashed hashed hashed (fun _ h w => proj1_sig w = h) onpath within _ _ _ _ _ _ _ _ _).
  - auto.
  - intros t t' Hi (q & Hq). exists q. apply Hi, Hq.
  - intros d p i h [_ Hp] [H1 H2]. split; [apply (pre_idx d h p i Hp H1)|exact H2].
  - intros d p h w e [Hd Hp] _ <- [H1 H2]. exists (mkFlag (proj1_sig w) d (2 ^ idx d (proj1_sig w))), (idx d (proj1_sig w)).
    split; [apply flag_at_ok, Hd|]. split; [reflexivity|]. split; [apply idx_lt|]. split; [rewrite pre_succ, H1; reflexivity|exact H2].
  - intros d p h h' w w' e e' _ _ <- <- [H1 H2] [H3 H4] Hs. apply same_hash_false in Hs.
    assert (Hd : off d < hbits) by (eapply (neq_off d (proj1_sig w) (proj1_sig w')); try assumption; congruence).
    unfold aflags. rewrite !flag_at_ok by exact Hd. cbn [bind unwrap]. intros a b [Ha Ha'] [Hb Hb'].
    destruct (c_lift_placed lift_fuel d (proj1_sig w) (proj1_sig w') a (mkFlag (proj1_sig w) d (2 ^ idx d (proj1_sig w))) b (mkFlag (proj1_sig w') d (2 ^ idx d (proj1_sig w'))))
      as (c & Hc & HP & HV); try assumption.
    + split; [exact Ha|apply hashed_all, Ha'].
    + split; [exact Hb|apply hashed_all, Hb'].
    + congruence.
    + apply flag_for_at, Hd.
    + apply flag_for_at, Hd.
    + apply lift_fuel_ok.
    + unfold cnode_lift. rewrite Hc. rewrite H1 in HP. split; [apply placed_near, HP|exact HV].
  - intros k w h v Hg Hk. unfold hashed, ecls in Hk. cbn in Hk. rewrite (Hh _ _ Hg). exact Hk.
  - intros k w h v Hg Hk. unfold hashed, ecls in Hk. cbn in Hk. rewrite (Hh' _ _ Hg). exact Hk.
  - intros e h x e' h' x' _ _ <- <- ->. auto.
  - apply within_0.
Defined.
End Near.
End Places.
