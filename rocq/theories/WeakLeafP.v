(** The joint operations on leaves and collision lists keep [ww]. *)
From Coq Require Import NArith Arith List Bool Lia ZifyBool ZifyN ZifyNat Permutation.
From Verif Require Import Base Words WordsP Flag FlagP Bia BiaP Node Spec SpecP Inv NodeP InsertP TrieP Api ApiP
  Trans Transform Weak LoopP SpecT TransformP Joint JointLeafP JointNodeP JointT StratP HangP KeepP WeakP WeakTransP WeakJointP.
Import ListNotations.
Open Scope N_scope.

Lemma rights_sub {E : Env} {L W} (right : lnode L W) : holds (fun rights => rights = l_visit right)
  (rights_loop fuel right right [(l_key right, l_value right)]).
Proof. rewrite rights_ok. intros t. destruct (l_next right); [discriminate|congruence]. Qed.

Lemma keqb_hash {E : Env} {K L} {KK : Key K} {KL : Key L} (k : K) (l : L) : keqb k l = true -> cls k = cls l.
Proof. unfold keqb. destruct (ceqb_spec (cls k) (cls l)); [auto|discriminate]. Qed.

(** Two leaves or lists of different hashes under one branch. *)
Section Apart.
Context {E : Env} {K V L W S X : Type} {KK : Key K} {KL : Key L} {KS : Key S}.
Context (P : K * V -> Prop) (P' : L * W -> Prop) (Q : S * X -> Prop).

Lemma apart_w d p (this : lnext K V) (right : lnext L W) a b h1 h2 : hashk (next_key this) = h1 -> hashk (next_key right) = h2 -> h1 <> h2 ->
  pre d h1 = p -> pre d h2 = p -> leafw Q h1 a -> leafw Q h2 b ->
  holds (fun c => ww Q d p (MC c)) (let* (lf, rf) := two_flags (next_key this) (next_key right) d in cnode_lift a lf b rf).
Proof.
  intros H1 H2 Hne Hp1 Hp2 Ha Hb.
  destruct (two_flags_ok (next_key this) (next_key right) d) as (lf & rf & -> & Hlf & Hrf); [congruence|congruence|].
  cbn [bind]. rewrite H1 in Hlf. rewrite H2 in Hrf.
  destruct (cnode_lift_w Q d h1 h2 a lf b rf) as (c & Hc & HW & _); try assumption.
  { rewrite <- H1. apply hashk_lt. }
  { rewrite <- H2. apply hashk_lt. }
  { congruence. }
  rewrite Hc. apply holds_ret. rewrite <- Hp1. assumption.
Qed.

Lemma apart_gen {T} (ok : T -> Prop) d p (this : lnext K V) (right : lnext L W) oa ob (mk : cnode S X -> T) t1 t2 :
  ww P d p (next_mnode this) -> ww P' d p (next_mnode right) ->
  hashk (next_key this) <> hashk (next_key right) ->
  (forall a, oa = Some a -> leafw Q (hashk (next_key this)) a) ->
  (forall b, ob = Some b -> leafw Q (hashk (next_key right)) b) ->
  (forall c, ww Q d p (MC c) -> ok (mk c)) -> ((forall a, oa = Some a -> ww Q d p a) -> ok t1) -> ((forall b, ob = Some b -> ww Q d p b) -> ok t2) ->
  holds ok (let* (lf, rf) := two_flags (next_key this) (next_key right) d in
    match oa, ob with
    | Some a, Some b => let* c := cnode_lift a lf b rf in Ret (mk c)
    | Some _, None => Ret t1
    | None, _ => Ret t2
    end).
Proof.
  intros HW HW' Hne Ha Hb Hmk H1 H2.
  destruct (ww_leafw _ _ _ _ HW) as [HL Hp]. destruct (ww_leafw _ _ _ _ HW') as [HL' Hp'].
  assert (Ha' : forall a, oa = Some a -> ww Q d p a) by (intros a He; rewrite <- Hp; apply leafw_ww; auto).
  assert (Hb' : forall b, ob = Some b -> ww Q d p b) by (intros b He; rewrite <- Hp'; apply leafw_ww; auto).
  destruct oa as [a|].
  - destruct ob as [b|].
    + pose proof (apart_w d p this right a b _ _ eq_refl eq_refl Hne Hp Hp' (Ha _ eq_refl) (Hb _ eq_refl)) as HA.
      destruct (two_flags (next_key this) (next_key right) d) as [[lf rf]| |]; cbn [bind] in *; try (intros z [=]; fail).
      eapply holds_bind; [exact HA|]. intros c Hc. apply holds_ret. auto.
    + destruct (two_flags (next_key this) (next_key right) d) as [[lf rf]| |]; cbn [bind] in *; [|intros z [=]..]. apply holds_ret. auto.
  - destruct (two_flags (next_key this) (next_key right) d) as [[lf rf]| |]; cbn [bind] in *; [|intros z [=]..]. apply holds_ret. auto.
Qed.
End Apart.

Lemma nnode_with {K V R} (n : nres K V R) r : nnode (n_with n r) = nnode n.
Proof. destruct n; reflexivity. Qed.

(** * transform_with_transformed *)
Section TT.
Context {E : Env} {K V R : Type} {KK : Key K}.
Context (rd : R -> R -> R).
Context (P P' Q : K * V -> Prop).
Context (Hl : forall e v, P e -> Q (fst e, v)) (Hr : forall e v, P' e -> Q (fst e, v)).

Lemma inl e : P e -> Q e.
Proof. intros H. specialize (Hl e (snd e) H). destruct e; assumption. Qed.
Lemma inr' e : P' e -> Q e.
Proof. intros H. specialize (Hr e (snd e) H). destruct e; assumption. Qed.

Context (both : joint_op (K * V) V R) (lop rop : transform_op (K * V) V R).

Lemma tt_s_impl_w h (this right : snode K V) : leafw P h (MS this) -> leafw P' h (MS right) ->
  jw Q h (tt_s_impl rd both lop rop this right).
Proof.
  intros [HP Hh] [HP' Hh'].
  assert (HL : forall v, Q (s_key this, v)) by (intros v; exact (Hl _ v HP)).
  assert (HR : forall v, Q (s_key right, v)) by (intros v; exact (Hr _ v HP')).
  assert (HLS : forall v, leafw Q h (MS (SN (s_key this) v))) by (intros v; split; [apply HL|assumption]).
  assert (HRS : forall v, leafw Q h (MS (SN (s_key right) v))) by (intros v; split; [apply HR|assumption]).
  assert (HLT : leafw Q h (MS this)) by (split; [apply HL|assumption]).
  assert (HRT : leafw Q h (MS right)) by (split; [apply HR|assumption]).
  unfold tt_s_impl. destruct (keqb (s_key this) (s_key right)).
  - destruct (jcall both _ _); cbn [jw]; try exact I; [apply nw_S; apply HLS|apply nw_Z].
  - destruct (tcall lop _); destruct (tcall rop _); cbn [jw]; try exact I; try apply nw_Z; try (apply nw_S; auto);
      apply nw_L; apply leafw_new; auto; exact (HLS _).
Qed.

Definition thatw (h : N) (that : option (K * V)) : Prop := match that with Some e => P' e /\ hash (ecls e) = h | None => True end.

Lemma jj_w h (this : lnode K V) result that next : leafw P h (ML this) -> thatw h that -> jw Q h next ->
  holds (jw Q h) (jj rd this result that next).
Proof.
  intros HL Hthat Hn. destruct (leafw_next P h this HL) as (Hnx & HP & Hh).
  assert (Hk : forall v, Q (l_key this, v)) by (intros v; exact (Hl _ v HP)).
  assert (Hnx' : leafw Q h (next_mnode (l_next this))) by (eapply leafw_mono; [apply inl|exact Hnx]).
  assert (Hun : forall f : K * V -> jres K V R, (forall e, Q e -> hash (ecls e) = h -> jw Q h (f e)) ->
    holds (jw Q h) (let* e := unwrap that in Ret (f e))).
  { intros f Hf. destruct that as [e|]; cbn [unwrap bind]; [|intros t [=]]. apply holds_ret. destruct Hthat as [He Hhe].
    apply Hf; [apply inr'|]; assumption. }
  assert (HS : forall e, Q e -> hash (ecls e) = h -> leafw Q h (MS (SN (fst e) (snd e)))).
  { intros e He Hhe. split; [destruct e; assumption|exact Hhe]. }
  unfold jj. destruct result; destruct next as [z|z|z|n]; cbn [jw] in *;
    try (apply holds_ret; cbn [jw]; try exact I);
    try (apply nw_cons; auto); try (apply nw_with; assumption); try (apply nw_next; assumption);
    try (apply nw_L; apply leafw_new; auto);
    try (apply Hun; intros e He Hhe; cbn [jw]).
  all: try (apply nw_L; apply leafw_new; [apply HS; assumption|auto|assumption]).
  all: try (apply nw_S; apply HS; assumption).
  - apply nw_L. apply leafw_new; [assumption|destruct e; assumption|exact Hhe].
  - destruct n as [c z|l' z|s z|z]; [| | |apply holds_ret; exact I];
      (apply Hun; intros e He Hhe; cbn [jw]; apply nw_cons; [assumption|destruct e; assumption|exact Hhe]).
Qed.

Lemma jt_w h (this : lnode K V) result that next : leafw P h (ML this) -> leafw P' h (MS that) -> tw Q h next ->
  jw Q h (jt rd this result that next).
Proof.
  intros HL [HP' Hh'] Hn. destruct (leafw_next P h this HL) as (Hnx & HP & Hh).
  assert (Hk : forall v, Q (l_key this, v)) by (intros v; exact (Hl _ v HP)).
  assert (Hk' : forall v, Q (s_key that, v)) by (intros v; exact (Hr _ v HP')).
  assert (Hnx' : leafw Q h (next_mnode (l_next this))) by (eapply leafw_mono; [apply inl|exact Hnx]).
  unfold jt. destruct result; destruct next as [z|n]; cbn [tw jw] in *; try exact I;
    try (apply nw_cons; auto); try (apply nw_with; assumption); try (apply nw_next; assumption);
    try (apply nw_L; apply leafw_new; auto).
  destruct n; try exact I; cbn [jw]; apply nw_cons; auto.
Qed.

Lemma tj_w h (this : lnode K V) result that next : leafw P h (ML this) -> leafw P' h (MS that) -> jw Q h next ->
  jw Q h (tj rd this result that next).
Proof.
  intros HL HR Hn. pose proof HR as [HP' Hh']. destruct (leafw_next P h this HL) as (Hnx & HP & Hh).
  assert (Hk : forall v, Q (l_key this, v)) by (intros v; exact (Hl _ v HP)).
  assert (Hk' : forall v, Q (s_key that, v)) by (intros v; exact (Hr _ v HP')).
  assert (Hnx' : leafw Q h (next_mnode (l_next this))) by (eapply leafw_mono; [apply inl|exact Hnx]).
  assert (HT : leafw Q h (ML this)) by (eapply leafw_mono; [apply inl|exact HL]).
  assert (HR' : leafw Q h (MS that)) by (eapply leafw_mono; [apply inr'|exact HR]).
  unfold tj. destruct result; destruct next as [z|z|z|n]; cbn [jw] in *; try exact I;
    try (apply nw_cons; auto); try (apply nw_with; assumption); try (apply nw_next; assumption);
    try (apply nw_L; apply leafw_new; auto).
Qed.

Definition rightsw (h : N) (rights : list (K * V)) : Prop := forall e, In e rights -> P' e /\ hash (ecls e) = h.

Lemma tt_l_impl_w h (this : lnode K V) : forall rights, leafw P h (ML this) -> rightsw h rights ->
  holds (fun tr => jw Q h (fst tr) /\ rightsw h (snd tr)) (tt_l_impl rd both lop rop this rights).
Proof.
  assert (HG : forall this nr that, leafw P h (ML this) -> thatw h that -> jw Q h (fst nr) -> rightsw h (snd nr) ->
    holds (fun tr => jw Q h (fst tr) /\ rightsw h (snd tr))
      (let (next, rights) := (nr : jres K V R * list (K * V)) in
       let (result, rights) :=
         match take_key (l_key this) rights with
         | Some (e, rights) => (jcall both (l_key this, l_value this) e, rights)
         | None => (v_left (tcall lop (l_key this, l_value this)), rights)
         end in
       let* t := jj rd this result that next in
       Ret (t, rights))).
  { intros th [next rights] that HL Ht Hn Hrs. cbn [fst snd] in *. destruct (take_key (l_key th) rights) as [[e rest]|] eqn:Hk.
    - destruct (take_key_sub _ _ _ _ Hk) as (_ & _ & Hsub).
      eapply holds_bind; [apply (jj_w h th _ that next HL Ht Hn)|]. intros t Hjt. apply holds_ret. cbn [fst snd].
      split; [assumption|]. intros x Hx. auto.
    - eapply holds_bind; [apply (jj_w h th _ that next HL Ht Hn)|]. intros t Hjt. apply holds_ret. split; assumption. }
  induction this as [k v n IH z|k v s z]; intros rights HL Hrs; destruct (leafw_next P h _ HL) as (Hnx & _ & _);
    cbn [l_next next_mnode] in Hnx; cbn [tt_l_impl].
  - destruct (tt_l_impl rd both lop rop n rights) as [nr| |] eqn:He; cbn [bind]; [|intros t [=]..].
    destruct (IH rights Hnx Hrs nr He) as [H1 H2]. apply (HG (LNL k v n z) nr None HL I H1 H2).
  - destruct (take_key (s_key s) rights) as [[e rest]|] eqn:Hk; cbn [bind].
    + destruct (take_key_sub _ _ _ _ Hk) as (He & _ & Hsub).
      apply (HG (LNS k v s z) (_, rest) (Some e) HL); [apply Hrs; assumption| |intros x Hx; auto].
      cbn [fst]. apply tt_s_impl_w; [assumption|]. destruct (Hrs e He). split; [destruct e; assumption|assumption].
    + apply (HG (LNS k v s z) (_, rights) None HL I); [|assumption]. cbn [fst].
      unfold s_transform. destruct Hnx as [HP Hh].
      destruct (tcall lop _); cbn [t_left jw]; [exact I| |apply nw_Z]. apply nw_S. split; [apply (Hl _ _ HP)|assumption].
Qed.

Lemma tt_rest_w h (this : lnode K V) rights : forall next, leafw P h (ML this) -> rightsw h rights -> jw Q h next ->
  holds (jw Q h) (tt_rest rd rop this rights next).
Proof.
  induction rights as [|e rights IH]; intros next HL Hrs Hn; [apply holds_ret; assumption|].
  cbn [tt_rest]. assert (HT : leafw Q h (ML this)) by (eapply leafw_mono; [apply inl|exact HL]).
  destruct (Hrs e (or_introl eq_refl)) as [He Hhe].
  assert (Hk : forall v, Q (fst e, v)) by (intros v; apply Hr; assumption).
  eapply (holds_bind (jw Q h)).
  2:{ intros nx Hnx. apply IH; [assumption| |assumption]. intros x Hx. apply Hrs. right. assumption. }
  destruct (tcall rop e); destruct next as [z|z|z|n]; cbn [jw] in *; try (intros t [=]; fail);
    apply holds_ret; cbn [jw]; try exact I; try (apply nw_with; assumption); try (apply nw_cons; auto);
    apply nw_L; apply leafw_new; auto.
Qed.

Lemma tt_ls_impl_w h (this : lnode K V) right : leafw P h (ML this) -> leafw P' h (MS right) ->
  jw Q h (tt_ls_impl rd both lop rop this right).
Proof.
  induction this as [k v n IH z|k v s z]; intros HL HR; destruct (leafw_next P h _ HL) as (Hnx & _ & _);
    cbn [tt_ls_impl]; destruct (keqb _ _).
  1,3: apply jt_w; try assumption; match goal with |- tw _ _ (n_transform ?rd ?op ?n) =>
    destruct (n_transform rd op n) as [r|t] eqn:Ht; cbn [tw]; [exact I|];
    intros x Hx; apply (n_transform_w (nred t) rd op P Q h n Hl Hnx); rewrite Ht; exact Hx end.
  - apply tj_w; try assumption. apply IH; assumption.
  - apply tj_w; try assumption. apply tt_s_impl_w; assumption.
Qed.

(** A new node is well formed. *)
Definition jww (d p : N) (t : jres K V R) : Prop :=
  match t with JN n => forall x, nnode n = Some x -> ww Q d p x | _ => True end.

Lemma jw_jww d h t : jw Q h t -> jww d (pre d h) t.
Proof. destruct t; cbn; auto. intros H x Hx. apply leafw_ww. auto. Qed.

Lemma tt_apart_w d p this right : ww P d p (next_mnode this) -> ww P' d p (next_mnode right) ->
  hashk (next_key this) <> hashk (next_key right) -> holds (jww d p) (tt_apart rd lop rop this right d).
Proof.
  intros HW HW' Hne. destruct (ww_leafw _ _ _ _ HW) as [HL Hp]. destruct (ww_leafw _ _ _ _ HW') as [HL' Hp'].
  unfold tt_apart. apply (apart_gen P P' Q (jww d p) d p); try assumption.
  - apply (n_transform_w (tred (n_transform rd lop this)) rd lop P Q _ _ Hl HL).
  - apply (n_transform_w (tred (n_transform rd lop this)) rd rop P' Q _ _ Hr HL').
  - intros c Hc x [= <-]. assumption.
  - intros H. destruct (n_transform rd lop this) as [r|t]; cbn [t_with t_left jww]; [exact I|]. rewrite nnode_with. exact H.
  - intros H. destruct (n_transform rd rop right) as [r|t]; cbn [t_with t_right jww]; [exact I|]. rewrite nnode_with. exact H.
Qed.

Lemma tt_lnode_w d p this right : ww P d p (ML this) -> ww P' d p (ML right) -> holds (jww d p) (tt_lnode rd both lop rop this right d).
Proof.
  intros HW HW'. destruct (ww_leafw P d p (NL this) HW) as [HL Hp]. destruct (ww_leafw P' d p (NL right) HW') as [HL' Hp'].
  cbn [next_mnode next_key] in *. unfold tt_lnode. destruct (N.eqb_spec (hashk (l_key this)) (hashk (l_key right))) as [He|He].
  2:{ apply (tt_apart_w d p (NL this) (NL right)); assumption. }
  eapply holds_bind; [apply rights_sub|]. intros rights ->.
  eapply holds_bind; [apply (tt_l_impl_w _ this _ HL)|].
  { intros e Hin. rewrite He. apply (leafw_in _ _ _ _ HL' Hin). }
  intros [next rights] [H1 H2]. cbn [fst snd] in *. intros t Ht. rewrite <- Hp. apply jw_jww.
  eapply tt_rest_w; [exact HL|exact H2|exact H1|exact Ht].
Qed.

Lemma tt_lsnode_w d p this right : ww P d p (ML this) -> ww P' d p (MS right) -> holds (jww d p) (tt_lsnode rd both lop rop this right d).
Proof.
  intros HW HW'. destruct (ww_leafw P d p (NL this) HW) as [HL Hp]. destruct (ww_leafw P' d p (NS right) HW') as [HL' Hp'].
  cbn [next_mnode next_key] in *. unfold tt_lsnode. destruct (N.eqb_spec (hashk (l_key this)) (hashk (s_key right))) as [He|He].
  2:{ apply (tt_apart_w d p (NL this) (NS right)); assumption. }
  apply holds_ret. rewrite <- Hp. apply jw_jww. apply tt_ls_impl_w; [assumption|]. rewrite He. assumption.
Qed.

Lemma tt_snode_w d p this right : ww P d p (MS this) -> ww P' d p (MS right) -> holds (jww d p) (tt_snode rd both lop rop this right d).
Proof.
  intros HW HW'. destruct (ww_leafw P d p (NS this) HW) as [HL Hp]. destruct (ww_leafw P' d p (NS right) HW') as [HL' Hp'].
  cbn [next_mnode next_key] in *. unfold tt_snode. destruct (N.eqb_spec (hashk (s_key this)) (hashk (s_key right))) as [He|He].
  2:{ apply (tt_apart_w d p (NS this) (NS right)); assumption. }
  apply holds_ret. rewrite <- Hp. apply jw_jww. apply tt_s_impl_w; [assumption|]. rewrite He. assumption.
Qed.

End TT.

(** A new node is well formed. *)
Definition nww {E : Env} {K V R} {KK : Key K} (Q : K * V -> Prop) (d p : N) (n : nres K V R) : Prop :=
  forall x, nnode n = Some x -> ww Q d p x.
Definition tww {E : Env} {K V R} {KK : Key K} (Q : K * V -> Prop) (d p : N) (t : tres K V R) : Prop :=
  match t with TN n => nww Q d p n | TU _ => True end.

Lemma nw_nww {E : Env} {K V R} {KK : Key K} (Q : K * V -> Prop) d h (n : nres K V R) : nw Q h n -> nww Q d (pre d h) n.
Proof. intros H x Hx. apply leafw_ww. auto. Qed.
Lemma tw_tww {E : Env} {K V R} {KK : Key K} (Q : K * V -> Prop) d h (t : tres K V R) : tw Q h t -> tww Q d (pre d h) t.
Proof. destruct t; cbn; auto. apply nw_nww. Qed.

Definition entw {E : Env} {K V} {KK : Key K} (P : K * V -> Prop) (h : N) (e : K * V) : Prop := P e /\ hash (ecls e) = h.

Lemma m_into_ent {E : Env} {K V S X R} {KK : Key K} {KS : Key S} (P : K * V -> Prop) (Q : S * X -> Prop)
  (op : transmute_op (K * V) S X R) h e k v r : m_into P Q op -> entw P h e -> mcall op e = KTransmuted k v r -> Q (k, v) /\ hashk k = h.
Proof. intros H [He Hh] Hc. destruct (H e k v r He Hc) as [H1 H2]. split; [assumption|]. unfold hashk, ecls in *. congruence. Qed.

Lemma nt_w {E : Env} {K V R} {KK : Key K} rd (op : transform_op (K * V) V R) (P Q : K * V -> Prop) h n :
  (forall e v, P e -> Q (fst e, v)) -> leafw P h (next_mnode n) -> tw Q h (n_transform rd op n).
Proof.
  intros Hl H. destruct (n_transform rd op n) as [r|t] eqn:Ht; cbn [tw]; [exact I|].
  intros x Hx. apply (n_transform_w (nred t) rd op P Q h n Hl H). rewrite Ht. exact Hx.
Qed.
Lemma nm_w {E : Env} {K V S X R} {KK : Key K} {KS : Key S} rd (op : transmute_op (K * V) S X R) (P : K * V -> Prop) (Q : S * X -> Prop) h n :
  m_into P Q op -> leafw P h (next_mnode n) -> nw Q h (n_transmute rd op n).
Proof. intros Hl H x Hx. eapply (n_transmute_w (nred (n_transmute rd op n)) rd op P Q); eassumption. Qed.

(** * transform_with_transmuted *)
Section TM.
Context {E : Env} {K V L W R : Type} {KK : Key K} {KL : Key L}.
Context (rd : R -> R -> R).
Context (P : K * V -> Prop) (P' : L * W -> Prop) (Q : K * V -> Prop).
Context (both : transform_op ((K * V) * (L * W)) V R) (lop : transform_op (K * V) V R) (rop : transmute_op (L * W) K V R).
Context (Hl : forall e v, P e -> Q (fst e, v)) (Hr : m_into P' Q rop).

Lemma tm_in e : P e -> Q e.
Proof. intros H. specialize (Hl e (snd e) H). destruct e; assumption. Qed.

Lemma tm_s_impl_w h (this : snode K V) (right : L * W) : leafw P h (MS this) -> entw P' h right ->
  tw Q h (tm_s_impl rd both lop rop this right).
Proof.
  intros [HP Hh] HR.
  assert (HL : forall v, Q (s_key this, v)) by (intros v; exact (Hl _ v HP)).
  assert (HLS : forall v, leafw Q h (MS (SN (s_key this) v))) by (intros v; split; [apply HL|assumption]).
  assert (HLT : leafw Q h (MS this)) by (split; [apply HL|assumption]).
  unfold tm_s_impl. destruct (keqb (s_key this) (fst right)).
  - destruct (tcall both _); cbn [tw]; try exact I; [apply nw_S; apply HLS|apply nw_Z].
  - destruct (tcall lop _); destruct (mcall rop _) eqn:Hm; cbn [tw]; try exact I; try apply nw_Z; try (apply nw_S; auto; fail);
      destruct (m_into_ent P' Q rop h right _ _ _ Hr HR Hm);
      first [apply nw_L; apply leafw_new; auto; exact (HLS _)|apply nw_S; split; assumption].
Qed.

Lemma tm_l_impl_w h (this : lnode K V) : forall rights, leafw P h (ML this) -> (forall e, In e rights -> entw P' h e) ->
  tw Q h (fst (tm_l_impl rd both lop rop this rights)) /\ (forall e, In e (snd (tm_l_impl rd both lop rop this rights)) -> entw P' h e).
Proof.
  assert (HG : forall this nr, leafw P h (ML this) -> tw Q h (fst nr) -> (forall e, In e (snd nr) -> entw P' h e) ->
    let x := (let (next, rights) := (nr : tres K V R * list (L * W)) in
       let (result, rights) :=
         match take_key (l_key this) rights with
         | Some (e, rights) => (tcall both ((l_key this, l_value this), e), rights)
         | None => (tcall lop (l_key this, l_value this), rights)
         end in
       (l_transform_result rd this result next, rights)) in
    tw Q h (fst x) /\ (forall e, In e (snd x) -> entw P' h e)).
  { intros th [next rights] HL Hn Hrs. cbn [fst snd] in *. destruct (leafw_next P h _ HL) as (Hnx & HP & Hh).
    assert (Hnx' : leafw Q h (next_mnode (l_next th))) by (eapply leafw_mono; [apply tm_in|exact Hnx]).
    assert (HQ : forall v, Q (l_key th, v)) by (intros v; exact (Hl _ v HP)).
    destruct (take_key (l_key th) rights) as [[e rest]|] eqn:Hk; cbn [fst snd]; (split; [apply l_result_w; assumption|]).
    - destruct (take_key_sub _ _ _ _ Hk) as (_ & _ & Hsub). auto.
    - assumption. }
  induction this as [k v n IH z|k v s z]; intros rights HL Hrs; destruct (leafw_next P h _ HL) as (Hnx & _ & _);
    cbn [l_next next_mnode] in Hnx; cbn [tm_l_impl].
  - destruct (IH rights Hnx Hrs) as [H1 H2]. exact (HG (LNL k v n z) _ HL H1 H2).
  - destruct (take_key (s_key s) rights) as [[e rest]|] eqn:Hk.
    + destruct (take_key_sub _ _ _ _ Hk) as (He & _ & Hsub).
      apply (HG (LNS k v s z) (_, rest) HL); [|cbn [snd]; auto].
      cbn [fst]. apply tm_s_impl_w; auto.
    + apply (HG (LNS k v s z) (_, rights) HL); [|assumption]. cbn [fst]. apply (nt_w rd lop P Q h (NS s)); assumption.
Qed.

Lemma tm_rest_w h (this : lnode K V) rights : forall next, leafw P h (ML this) -> (forall e, In e rights -> entw P' h e) -> tw Q h next ->
  tw Q h (tm_rest rd rop this rights next).
Proof.
  induction rights as [|e rights IH]; intros next HL Hrs Hn; [assumption|].
  cbn [tm_rest]. assert (HT : leafw Q h (ML this)) by (eapply leafw_mono; [apply tm_in|exact HL]).
  apply IH; [assumption|intros x Hx; apply Hrs; right; assumption|].
  destruct (mcall rop e) eqn:Hm; [|apply tw_with; assumption].
  destruct (m_into_ent P' Q rop h e _ _ _ Hr (Hrs e (or_introl eq_refl)) Hm). apply tw_cons; assumption.
Qed.

Lemma tm_ls_impl_w h (this : lnode K V) right : leafw P h (ML this) -> entw P' h (s_key right, s_value right) ->
  tw Q h (tm_ls_impl rd both lop rop this right).
Proof.
  assert (HG : forall (this : lnode K V) result next, leafw P h (ML this) -> tw Q h next -> tw Q h (l_transform_result rd this result next)).
  { intros th result next HL Hn. destruct (leafw_next P h _ HL) as (Hnx & HP & Hh).
    apply l_result_w; try assumption.
    - intros v. exact (Hl _ v HP).
    - eapply leafw_mono; [apply tm_in|exact Hnx]. }
  induction this as [k v n IH z|k v s z]; intros HL HR; destruct (leafw_next P h _ HL) as (Hnx & _ & _);
    cbn [tm_ls_impl]; destruct (keqb _ _); apply HG; try assumption.
  - apply (nt_w rd lop P Q); assumption.
  - apply IH; assumption.
  - apply (nt_w rd lop P Q); assumption.
  - apply tm_s_impl_w; assumption.
Qed.

Lemma tm_apart_w d p this right : ww P d p (next_mnode this) -> ww P' d p (next_mnode right) ->
  hashk (next_key this) <> hashk (next_key right) -> holds (tww Q d p) (tm_apart rd lop rop this right d).
Proof.
  intros HW HW' Hne. destruct (ww_leafw _ _ _ _ HW) as [HL Hp]. destruct (ww_leafw _ _ _ _ HW') as [HL' Hp'].
  unfold tm_apart. apply (apart_gen P P' Q (tww Q d p) d p); try assumption.
  - apply (n_transform_w (tred (n_transform rd lop this)) rd lop P Q _ _ Hl HL).
  - apply (nm_w rd rop P' Q); assumption.
  - intros c Hc x [= <-]. assumption.
  - intros H. destruct (n_transform rd lop this) as [r|t]; cbn [t_with tww]; [exact I|]. unfold nww. rewrite nnode_with. exact H.
  - intros H. cbn [tww]. unfold nww. rewrite nnode_with. exact H.
Qed.

Lemma tm_lnode_w d p this right : ww P d p (ML this) -> ww P' d p (ML right) -> holds (tww Q d p) (tm_lnode rd both lop rop this right d).
Proof.
  intros HW HW'. destruct (ww_leafw P d p (NL this) HW) as [HL Hp]. destruct (ww_leafw P' d p (NL right) HW') as [HL' Hp'].
  cbn [next_mnode next_key] in *. unfold tm_lnode. destruct (N.eqb_spec (hashk (l_key this)) (hashk (l_key right))) as [He|He].
  2:{ apply (tm_apart_w d p (NL this) (NL right)); assumption. }
  eapply holds_bind; [apply rights_sub|]. intros rights ->.
  destruct (tm_l_impl_w _ this (l_visit right) HL) as [H1 H2].
  { intros e Hin. rewrite He. apply (leafw_in _ _ _ _ HL' Hin). }
  destruct (tm_l_impl rd both lop rop this (l_visit right)) as [next rights]. apply holds_ret. rewrite <- Hp. apply tw_tww.
  apply tm_rest_w; assumption.
Qed.

Lemma tm_lsnode_w d p this right : ww P d p (ML this) -> ww P' d p (MS right) -> holds (tww Q d p) (tm_lsnode rd both lop rop this right d).
Proof.
  intros HW HW'. destruct (ww_leafw P d p (NL this) HW) as [HL Hp]. destruct (ww_leafw P' d p (NS right) HW') as [HL' Hp'].
  cbn [next_mnode next_key] in *. unfold tm_lsnode. destruct (N.eqb_spec (hashk (l_key this)) (hashk (s_key right))) as [He|He].
  2:{ apply (tm_apart_w d p (NL this) (NS right)); assumption. }
  apply holds_ret. rewrite <- Hp. apply tw_tww. apply tm_ls_impl_w; [assumption|]. rewrite He. assumption.
Qed.

Lemma tm_snode_w d p this right : ww P d p (MS this) -> ww P' d p (MS right) -> holds (tww Q d p) (tm_snode rd both lop rop this right d).
Proof.
  intros HW HW'. destruct (ww_leafw P d p (NS this) HW) as [HL Hp]. destruct (ww_leafw P' d p (NS right) HW') as [HL' Hp'].
  cbn [next_mnode next_key] in *. unfold tm_snode. destruct (N.eqb_spec (hashk (s_key this)) (hashk (s_key right))) as [He|He].
  2:{ apply (tm_apart_w d p (NS this) (NS right)); assumption. }
  apply holds_ret. rewrite <- Hp. apply tw_tww. apply tm_s_impl_w; [assumption|]. rewrite He. assumption.
Qed.

End TM.

(** * transmute_with_transformed *)
Section MT.
Context {E : Env} {K V L W R : Type} {KK : Key K} {KL : Key L}.
Context (rd : R -> R -> R).
Context (P : K * V -> Prop) (P' : L * W -> Prop) (Q : L * W -> Prop).
Context (both : transform_op ((K * V) * (L * W)) W R) (lop : transmute_op (K * V) L W R) (rop : transform_op (L * W) W R).
Context (Hl : m_into P Q lop) (Hr : forall e v, P' e -> Q (fst e, v)).

Lemma mt_in e : P' e -> Q e.
Proof. intros H. specialize (Hr e (snd e) H). destruct e; assumption. Qed.

Lemma mt_s_impl_w h (this : snode K V) (right : snode L W) : leafw P h (MS this) -> leafw P' h (MS right) ->
  tw Q h (mt_s_impl rd both lop rop this right).
Proof.
  intros HL [HP Hh].
  assert (HR : forall v, Q (s_key right, v)) by (intros v; exact (Hr _ v HP)).
  assert (HRS : forall v, leafw Q h (MS (SN (s_key right) v))) by (intros v; split; [apply HR|assumption]).
  assert (HRT : leafw Q h (MS right)) by (split; [apply HR|assumption]).
  unfold mt_s_impl. destruct (keqb (s_key this) (s_key right)).
  - destruct (tcall both _); cbn [tw]; try exact I; [apply nw_S; apply HRS|apply nw_Z].
  - destruct (mcall lop _) eqn:Hm; destruct (tcall rop _); cbn [tw]; try exact I; try apply nw_Z; try (apply nw_S; auto; fail);
      destruct (m_into_ent P Q lop h _ _ _ _ Hl HL Hm);
      first [apply nw_L; apply leafw_new; auto; exact (HRS _)|apply nw_S; split; assumption].
Qed.

Lemma mt_ls_impl_w h (this : lnode K V) right : leafw P h (ML this) -> leafw P' h (MS right) ->
  tw Q h (mt_ls_impl rd both lop rop this right).
Proof.
  intros HL HR. pose proof HR as [HP Hh].
  assert (HQ : forall v, Q (s_key right, v)) by (intros v; exact (Hr _ v HP)).
  assert (HRT : leafw Q h (MS right)) by (split; [apply HQ|assumption]).
  assert (Hhit : forall result next, nw Q h next -> nw Q h (mt_hit rd right result next)).
  { intros result next Hn. destruct result; cbn [mt_hit]; [apply nw_cons; auto..|apply nw_with; assumption]. }
  assert (Hmiss : forall (th : lnode K V) next, leafw P h (ML th) -> tw Q h next -> tw Q h (mt_miss rd right (mcall lop (l_key th, l_value th)) next)).
  { intros th next HL' Hn. destruct (leafw_next P h _ HL') as (_ & HPk & Hhk).
    destruct (mcall lop _) eqn:Hm; cbn [mt_miss].
    - destruct (m_into_ent P Q lop h _ _ _ _ Hl (conj HPk Hhk) Hm). apply tw_cons; assumption.
    - destruct next; cbn [tw]; [|apply nw_with; assumption]. apply nw_S. split; [apply HQ|assumption]. }
  induction this as [k v n IH z|k v s z]; destruct (leafw_next P h _ HL) as (Hnx & _ & _);
    cbn [mt_ls_impl]; destruct (keqb _ _); cbn [tw].
  - apply Hhit. apply (nm_w rd lop P Q); assumption.
  - apply (Hmiss (LNL k v n z)); auto.
  - apply Hhit. apply (nm_w rd lop P Q); assumption.
  - apply (Hmiss (LNS k v s z)); [assumption|]. apply mt_s_impl_w; assumption.
Qed.

Lemma mt_apart_w d p this right : ww P d p (next_mnode this) -> ww P' d p (next_mnode right) ->
  hashk (next_key this) <> hashk (next_key right) -> holds (tww Q d p) (mt_apart rd lop rop this right d).
Proof.
  intros HW HW' Hne. destruct (ww_leafw _ _ _ _ HW) as [HL Hp]. destruct (ww_leafw _ _ _ _ HW') as [HL' Hp'].
  unfold mt_apart. apply (apart_gen P P' Q (tww Q d p) d p); try assumption.
  - apply (nm_w rd lop P Q); assumption.
  - apply (n_transform_w (tred (n_transform rd rop right)) rd rop P' Q _ _ Hr HL').
  - intros c Hc x [= <-]. assumption.
  - intros H. cbn [tww]. unfold nww. rewrite nnode_with. exact H.
  - intros H. destruct (n_transform rd rop right) as [r|t]; cbn [t_with tww]; [exact I|]. unfold nww. rewrite nnode_with. exact H.
Qed.

Lemma mt_lsnode_w d p this right : ww P d p (ML this) -> ww P' d p (MS right) -> holds (tww Q d p) (mt_lsnode rd both lop rop this right d).
Proof.
  intros HW HW'. destruct (ww_leafw P d p (NL this) HW) as [HL Hp]. destruct (ww_leafw P' d p (NS right) HW') as [HL' Hp'].
  cbn [next_mnode next_key] in *. unfold mt_lsnode. destruct (N.eqb_spec (hashk (l_key this)) (hashk (s_key right))) as [He|He].
  2:{ apply (mt_apart_w d p (NL this) (NS right)); assumption. }
  apply holds_ret. rewrite <- Hp. apply tw_tww. apply mt_ls_impl_w; [assumption|]. rewrite He. assumption.
Qed.

Lemma mt_snode_w d p this right : ww P d p (MS this) -> ww P' d p (MS right) -> holds (tww Q d p) (mt_snode rd both lop rop this right d).
Proof.
  intros HW HW'. destruct (ww_leafw P d p (NS this) HW) as [HL Hp]. destruct (ww_leafw P' d p (NS right) HW') as [HL' Hp'].
  cbn [next_mnode next_key] in *. unfold mt_snode. destruct (N.eqb_spec (hashk (s_key this)) (hashk (s_key right))) as [He|He].
  2:{ apply (mt_apart_w d p (NS this) (NS right)); assumption. }
  apply holds_ret. rewrite <- Hp. apply tw_tww. apply mt_s_impl_w; [assumption|]. rewrite He. assumption.
Qed.

End MT.

(** * transmute_with_transmuted *)
Section MM.
Context {E : Env} {K V L W S X R : Type} {KK : Key K} {KL : Key L} {KS : Key S}.
Context (rd : R -> R -> R).
Context (P : K * V -> Prop) (P' : L * W -> Prop) (Q : S * X -> Prop).
Context (both : transmute_op ((K * V) * (L * W)) S X R) (lop : transmute_op (K * V) S X R) (rop : transmute_op (L * W) S X R).

(** What a joint transmute makes of two entries with equal keys. *)
Definition mm_into : Prop := forall e e' k v r, P e -> P' e' -> ecls e = ecls e' ->
  mcall both (e, e') = KTransmuted k v r -> Q (k, v) /\ cls k = cls (fst e).

Context (Hb : mm_into) (Hl : m_into P Q lop) (Hr : m_into P' Q rop).

Lemma mm_both_ent h e e' k v r : entw P h e -> entw P' h e' -> keqb (fst e) (fst e') = true ->
  mcall both (e, e') = KTransmuted k v r -> Q (k, v) /\ hashk k = h.
Proof.
  intros [He Hh] [He' _] Hk Hc. apply keqb_hash in Hk. destruct (Hb e e' k v r He He' Hk Hc) as [H1 H2].
  split; [assumption|]. unfold hashk, ecls in *. congruence.
Qed.

Lemma mm_values_w h (this : K * V) (right : L * W) : entw P h this -> entw P' h right ->
  nw Q h (mm_values rd both lop rop this right).
Proof.
  intros HL HR. unfold mm_values. destruct (keqb (fst this) (fst right)) eqn:Hk.
  - destruct (mcall both _) eqn:Hm; cbn [k_nres]; [|apply nw_Z].
    destruct (mm_both_ent h _ _ _ _ _ HL HR Hk Hm). apply nw_S. split; assumption.
  - destruct (mcall lop _) eqn:Hm1; destruct (mcall rop _) eqn:Hm2; try apply nw_Z.
    + destruct (m_into_ent _ _ _ _ _ _ _ _ Hl HL Hm1). destruct (m_into_ent _ _ _ _ _ _ _ _ Hr HR Hm2).
      apply nw_L. apply leafw_new; auto. split; assumption.
    + destruct (m_into_ent _ _ _ _ _ _ _ _ Hl HL Hm1). apply nw_S. split; assumption.
    + destruct (m_into_ent _ _ _ _ _ _ _ _ Hr HR Hm2). apply nw_S. split; assumption.
Qed.

Lemma lm_result_w h result (next : nres S X R) : (forall k v r, result = KTransmuted k v r -> Q (k, v) /\ hashk k = h) -> nw Q h next ->
  nw Q h (l_transmute_result rd result next).
Proof.
  intros Hres Hn. destruct result as [k v r|r]; [destruct (Hres k v r eq_refl)|];
    destruct next as [c z|l z|s z|z]; cbn [l_transmute_result]; try apply nw_Z; try exact Hn;
    try (apply nw_L; apply leafw_new; [apply (Hn _ eq_refl)|assumption|assumption]).
  - apply nw_S. split; assumption.
Qed.

Lemma mm_l_impl_w h (this : lnode K V) : forall rights, leafw P h (ML this) -> (forall e, In e rights -> entw P' h e) ->
  nw Q h (fst (mm_l_impl rd both lop rop this rights)) /\ (forall e, In e (snd (mm_l_impl rd both lop rop this rights)) -> entw P' h e).
Proof.
  assert (HG : forall this nr, leafw P h (ML this) -> nw Q h (fst nr) -> (forall e, In e (snd nr) -> entw P' h e) ->
    let x := (let (next, rights) := (nr : nres S X R * list (L * W)) in
       let (result, rights) :=
         match take_key (l_key this) rights with
         | Some (e, rights) => (mcall both ((l_key this, l_value this), e), rights)
         | None => (mcall lop (l_key this, l_value this), rights)
         end in
       (l_transmute_result rd result next, rights)) in
    nw Q h (fst x) /\ (forall e, In e (snd x) -> entw P' h e)).
  { intros th [next rights] HL Hn Hrs. cbn [fst snd] in *. destruct (leafw_next P h _ HL) as (_ & HP & Hh).
    assert (He : entw P h (l_key th, l_value th)) by (split; assumption).
    destruct (take_key (l_key th) rights) as [[e rest]|] eqn:Hk; cbn [fst snd].
    - destruct (take_key_sub _ _ _ _ Hk) as (Hin & Hkk & Hsub). split; [|auto].
      apply lm_result_w; [|assumption]. intros k v r. apply (mm_both_ent h _ _ k v r He); auto.
    - split; [|assumption]. apply lm_result_w; [|assumption]. intros k v r. apply (m_into_ent P Q lop h); assumption. }
  induction this as [k v n IH z|k v s z]; intros rights HL Hrs; destruct (leafw_next P h _ HL) as (Hnx & _ & _);
    cbn [l_next next_mnode] in Hnx; cbn [mm_l_impl].
  - destruct (IH rights Hnx Hrs) as [H1 H2]. exact (HG (LNL k v n z) _ HL H1 H2).
  - destruct (take_key (s_key s) rights) as [[e rest]|] eqn:Hk.
    + destruct (take_key_sub _ _ _ _ Hk) as (He & _ & Hsub).
      apply (HG (LNS k v s z) (_, rest) HL); [|cbn [snd]; auto].
      cbn [fst]. apply mm_values_w; auto.
    + apply (HG (LNS k v s z) (_, rights) HL); [|assumption]. cbn [fst]. apply (nm_w rd lop P Q h (NS s)); assumption.
Qed.

Lemma mm_rest_w h rights : forall next, (forall e, In e rights -> entw P' h e) -> nw Q h next -> nw Q h (mm_rest rd rop rights next).
Proof.
  induction rights as [|e rights IH]; intros next Hrs Hn; [assumption|].
  cbn [mm_rest]. apply IH; [intros x Hx; apply Hrs; right; assumption|].
  destruct (mcall rop e) eqn:Hm; [|apply nw_with; assumption].
  destruct (m_into_ent P' Q rop h e _ _ _ Hr (Hrs e (or_introl eq_refl)) Hm). apply nw_cons; assumption.
Qed.

Lemma mm_ls_impl_w h (this : lnode K V) right : leafw P h (ML this) -> entw P' h (s_key right, s_value right) ->
  nw Q h (mm_ls_impl rd both lop rop this right).
Proof.
  induction this as [k v n IH z|k v s z]; intros HL HR; destruct (leafw_next P h _ HL) as (Hnx & HPk & Hhk);
    pose proof (conj HPk Hhk : entw P h (k, v)) as HE; cbn [l_key l_value] in HE;
    cbn [mm_ls_impl l_key l_value]; destruct (keqb _ _) eqn:Hk; (apply lm_result_w;
      [intros k' v' r'; first [apply (m_into_ent P Q lop h _ _ _ _ Hl HE)
        |apply (mm_both_ent h (k, v) (s_key right, s_value right) k' v' r' HE HR Hk)]|]).
  - apply (nm_w rd lop P Q); assumption.
  - apply IH; assumption.
  - apply (nm_w rd lop P Q); assumption.
  - apply mm_values_w; assumption.
Qed.

Lemma mm_apart_w d p this right : ww P d p (next_mnode this) -> ww P' d p (next_mnode right) ->
  hashk (next_key this) <> hashk (next_key right) -> holds (nww Q d p) (mm_apart rd lop rop this right d).
Proof.
  intros HW HW' Hne. destruct (ww_leafw _ _ _ _ HW) as [HL Hp]. destruct (ww_leafw _ _ _ _ HW') as [HL' Hp'].
  unfold mm_apart. apply (apart_gen P P' Q (nww Q d p) d p); try assumption.
  - apply (nm_w rd lop P Q); assumption.
  - apply (nm_w rd rop P' Q); assumption.
  - intros c Hc x [= <-]. assumption.
  - intros H. unfold nww. rewrite nnode_with. exact H.
  - intros H. unfold nww. rewrite nnode_with. exact H.
Qed.

Lemma mm_lnode_w d p this right : ww P d p (ML this) -> ww P' d p (ML right) -> holds (nww Q d p) (mm_lnode rd both lop rop this right d).
Proof.
  intros HW HW'. destruct (ww_leafw P d p (NL this) HW) as [HL Hp]. destruct (ww_leafw P' d p (NL right) HW') as [HL' Hp'].
  cbn [next_mnode next_key] in *. unfold mm_lnode. destruct (N.eqb_spec (hashk (l_key this)) (hashk (l_key right))) as [He|He].
  2:{ apply (mm_apart_w d p (NL this) (NL right)); assumption. }
  eapply holds_bind; [apply rights_sub|]. intros rights ->.
  destruct (mm_l_impl_w _ this (l_visit right) HL) as [H1 H2].
  { intros e Hin. rewrite He. apply (leafw_in _ _ _ _ HL' Hin). }
  destruct (mm_l_impl rd both lop rop this (l_visit right)) as [next rights]. apply holds_ret. rewrite <- Hp. apply nw_nww.
  apply mm_rest_w; assumption.
Qed.

Lemma mm_lsnode_w d p this right : ww P d p (ML this) -> ww P' d p (MS right) -> holds (nww Q d p) (mm_lsnode rd both lop rop this right d).
Proof.
  intros HW HW'. destruct (ww_leafw P d p (NL this) HW) as [HL Hp]. destruct (ww_leafw P' d p (NS right) HW') as [HL' Hp'].
  cbn [next_mnode next_key] in *. unfold mm_lsnode. destruct (N.eqb_spec (hashk (l_key this)) (hashk (s_key right))) as [He|He].
  2:{ apply (mm_apart_w d p (NL this) (NS right)); assumption. }
  apply holds_ret. rewrite <- Hp. apply nw_nww. apply mm_ls_impl_w; [assumption|]. rewrite He. assumption.
Qed.

Lemma mm_snode_w d p this right : ww P d p (MS this) -> ww P' d p (MS right) -> holds (nww Q d p) (mm_snode rd both lop rop this right d).
Proof.
  intros HW HW'. destruct (ww_leafw P d p (NS this) HW) as [HL Hp]. destruct (ww_leafw P' d p (NS right) HW') as [HL' Hp'].
  cbn [next_mnode next_key] in *. unfold mm_snode. destruct (N.eqb_spec (hashk (s_key this)) (hashk (s_key right))) as [He|He].
  2:{ apply (mm_apart_w d p (NS this) (NS right)); assumption. }
  apply holds_ret. rewrite <- Hp. apply nw_nww. apply mm_values_w; [assumption|]. rewrite He. assumption.
Qed.

End MM.
