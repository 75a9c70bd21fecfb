(** transform_with_transformed on maps, whatever the client's code answers: where at most
    one of the two maps has collision lists. *)
From Coq Require Import NArith Arith List Bool Lia ZifyBool ZifyN ZifyNat Permutation.
From Verif Require Import Base Words WordsP Flag FlagP Spec Bia BiaP Node Inv InsertP Api Trans Transform Joint JointT Profile Eff EffP EffTP EffApi EffJ Ask AskP AskInsP AskHashP AskT SpecAsk SpecAskT SpecAskJ SpecAskTw JoinP JointLeafP LoopP TransformP
  PermP AskTP AskTTP AskTopP AskJ AskJP AskJOneP AskJLeafP AskJMLeafP AskJTravP AskJTreeP AskJTopP AskJPlaceP AskJLooseP AskTw AskTwLeafP AskTwTravP.
Import ListNotations.
Open Scope N_scope.

Section TT.
Context {E : Env} {K V R : Type}.
Notation A := (jreply K V K V K V (bres V R) (vres V R) (vres V R) R).
Notation event := (event (A := A)).
Notation trace := (list event).
Notation jitem := (jitem K V K V (bres V R) (vres V R) (vres V R)).
Notation ask q := (PAsk (A := A) q PRet).
Implicit Types tr t : trace.

(** * Closures of a temper *)
Definition fits (m : temper) (e : event) : Prop :=
  (no_drop m -> forall x r, e <> answer (A := A) (JLeft x) (VDropped r)) /\
  (no_keep m -> forall x r, e <> answer (A := A) (JLeft x) (VUnchanged r)) /\
  (no_both m -> forall x y r, e <> answer (A := A) (JBoth x y) (BUnchangedL r)) /\
  (no_drop' m -> forall x r, e <> answer (A := A) (JRight x) (VDropped r)) /\
  (no_keep' m -> forall x r, e <> answer (A := A) (JRight x) (VUnchanged r)) /\
  (no_both' m -> forall x y r, e <> answer (A := A) (JBoth x y) (BUnchangedR r)).
Definition temper_of tr : temper :=
  Temper (never_drops_left tr) (never_keeps_left tr) (never_both_left tr) (never_drops_right tr) (never_keeps_right tr) (never_both_right tr).
Lemma temper_fits tr : Forall (fits (temper_of tr)) tr.
Proof.
  apply Forall_forall. intros e He. repeat split; cbn; intros H; intros; intros ->.
  - exact (H _ _ He).
  - exact (H _ _ He).
  - exact (H _ _ _ He).
  - exact (H _ _ He).
  - exact (H _ _ He).
  - exact (H _ _ _ He).
Qed.

Definition place_temper (pl : place K V K V K V (bres V R) (vres V R) (vres V R) R K V) (m : temper) : place K V K V K V (bres V R) (vres V R) (vres V R) R K V.
Proof.
  refine (Place E K V K V K V (bres V R) (vres V R) (vres V R) R K V (fun e => pl_good pl e /\ fits m e) (pl_bad pl) (pl_hasL pl) (pl_hasR pl) (pl_has pl) (pl_tells pl) (pl_lies pl) (pl_deep pl)
    (pl_broken pl) (pl_incl pl) (pl_up pl) _ _ _ _ _ (pl_new pl)).
  - intros d p h w e Hd [Hg _]. apply (pl_route pl); assumption.
  - intros d p h h' w w' e e' [Hg _] [Hg' _]. apply (pl_apart pl); assumption.
  - intros k w h v [Hg _]. apply (pl_hash pl); assumption.
  - intros k w h v [Hg _]. apply (pl_hash' pl); assumption.
  - intros e h x e' h' x' [Hg _] [Hg' _]. apply (pl_one pl); assumption.
Defined.

(** * The world *)
Lemma kept_mono t t' (x : K * V) out : incl t t' -> tt_kept t x out -> tt_kept t' x out.
Proof. intros H [->|(k & v & H1 & H2 & ->)]; [left; reflexivity|]. right. exists k, v. split; [apply H; exact H1|]. split; [apply H; exact H2|reflexivity]. Qed.
Lemma tjbec_mono t t' (x : K * V) (o : vres V R) out : incl t t' -> jbecomes t x o out -> jbecomes t' x o out.
Proof.
  intros H. destruct o as [r|v r|r]; cbn; [apply (kept_mono t t'), H|intros (k & H1 & ->); exists k; split; [apply H; exact H1|reflexivity]|auto].
Qed.
Lemma tt_mono t t' (i : jitem) out : incl t t' -> tt_becomes t i out -> tt_becomes t' i out.
Proof.
  intros H [H1 H2]. split; [eapply called_mono; eassumption|]. destruct i as [x y o|x o|y o]; try (eapply tjbec_mono; eassumption).
  destruct o as [r|r|r|v r|r]; cbn in *; try (eapply kept_mono; eassumption); [destruct H2; [left|right]; eapply kept_mono; eassumption| |assumption].
  destruct H2 as (k & [H2|H2] & ->); exists k; (split; [|reflexivity]); [left|right]; apply H, H2.
Qed.

Context (pl : place K V K V K V (bres V R) (vres V R) (vres V R) R K V) (stuck : Prop) (m : temper).
Context (sameL : forall h x, pl_has pl h x <-> pl_hasL pl h x) (sameR : forall h x, pl_has pl h x <-> pl_hasR pl h x).
Context (Hclone : forall h k k' v v', pl_good pl (answer (JKey k) k') -> pl_has pl h (k, v) -> pl_has pl h (k', v')).
Notation plt := (place_temper pl m).

Lemma kept_owns t h (x : K * V) out : Forall (pl_good plt) t -> tt_kept t x out -> pl_has pl h x -> Forall (pl_has pl h) out.
Proof.
  intros Hg Hb Hh. rewrite Forall_forall in Hg. destruct x as [k0 v0].
  destruct Hb as [->|(k & v & H1 & H2 & ->)]; repeat constructor; [assumption|]. eapply Hclone; [exact (proj1 (Hg _ H1))|exact Hh].
Qed.
Lemma tjbec_owns t h (x : K * V) (o : vres V R) out : Forall (pl_good plt) t -> jbecomes t x o out -> pl_has pl h x -> Forall (pl_has pl h) out.
Proof.
  intros Hg Hb Hh. destruct o as [r|v r|r]; cbn in Hb.
  - eapply kept_owns; eassumption.
  - rewrite Forall_forall in Hg. destruct x as [k0 v0]. destruct Hb as (k & H1 & ->). repeat constructor. eapply Hclone; [exact (proj1 (Hg _ H1))|exact Hh].
  - subst out. constructor.
Qed.
Lemma tt_owns t (i : jitem) out h : Forall (pl_good plt) t -> tt_becomes t i out -> j_ihas plt h i -> Forall (pl_has plt h) out.
Proof.
  intros Hg [Hc Hb] Hh. destruct i as [x y o|x o|y o]; cbn in Hh, Hc.
  - destruct Hh as [Hx Hy]. apply sameL in Hx. apply sameR in Hy. destruct o as [r|r|r|v r|r]; cbn in Hb.
    + destruct Hb as [Hb|Hb]; eapply kept_owns; eassumption.
    + eapply kept_owns; eassumption.
    + eapply kept_owns; eassumption.
    + rewrite Forall_forall in Hg. destruct x as [k0 v0], y as [k1 v1]. destruct Hb as (k & [H1|H1] & ->); repeat constructor;
        (eapply Hclone; [exact (proj1 (Hg _ H1))|]); [exact Hx|exact Hy].
    + subst out. constructor.
  - eapply tjbec_owns; [exact Hg|exact Hb|]. apply sameL, Hh.
  - eapply tjbec_owns; [exact Hg|exact Hb|]. apply sameR, Hh.
Qed.

Definition tt_world := j_world plt stuck tt_red tt_cost tt_becomes tt_mono tt_owns.

(** What was said of the left entry. *)
Definition bleft (o : bres V R) : vres V R -> Prop :=
  match o with
  | BUnchangedLR r | BUnchangedL r => eq (VUnchanged r)
  | BUnchangedR _ => fun _ => False
  | BTransformed v r => eq (VTransformed v r)
  | BDropped r => eq (VDropped r)
  end.
Definition tt_viL (i : jitem) (x : K * V) (o : vres V R) : Prop := i = ILeft x o \/ exists y o', i = IBoth x y o' /\ bleft o' o.
Definition tt_viR (i : jitem) (y : K * V) (o : vres V R) : Prop := i = IRight y o \/ exists x o', i = IBoth x y o' /\ bleft (bres_flip o') o.

Ltac tt_cases Hv := destruct Hv as [->|(y & o' & -> & Hb)]; [|destruct o'; cbn in Hb; try contradiction; inversion Hb; subst].

Definition tt_tl : tside tt_world.
Proof.
  refine (Tside E _ A K V R jitem (K + V) _ tt_world inl tt_viL (fun x => ask (JLeft x)) (fun k => ask (JKey k)) (fun v => ask (JValue v)) inl inr
    (fun e k k' => e = answer (A := A) (JKey k) k') (fun e v v' => e = answer (A := A) (JValue v) v') _ _ _ _ _ _ _ _ _).
  - intros x. eapply calls_weak; [|apply (j_left plt stuck tt_red tt_cost tt_becomes tt_mono tt_owns x)]. intros o e _ (H1 & H2 & H3). exists (ILeft x o).
    split; [exact H1|]. split; [left; reflexivity|]. split; [exact H2|]. intros h Hh. apply H3, sameL, Hh.
  - intros k. eapply calls_weak; [|apply (calls_ask (pl_good plt) (JKey k) []); reflexivity]. intros y e _ ->. split; reflexivity.
  - intros v. eapply calls_weak; [|apply (calls_ask (pl_good plt) (JValue v) []); reflexivity]. intros y e _ ->. split; reflexivity.
  - intros i x o Hv. tt_cases Hv; reflexivity.
  - intros i x o Hv. tt_cases Hv; try (eexists; cbn; reflexivity). exists []. destruct o; reflexivity.
  - intros t i x r Hc Hv. tt_cases Hv; (split; [exact Hc|]); cbn; unfold tt_kept; auto.
  - intros t i k v r k' v' e e' Hc Hv H1 -> H2 ->. assert (Hk : tt_kept t (k, v) [(k', v')]) by (right; exists k', v'; auto).
    tt_cases Hv; (split; [exact Hc|]); cbn; auto.
  - intros t i k v v' r k' e Hc Hv H1 ->. assert (Hk : jkey_clone t k k') by exact H1.
    tt_cases Hv; (split; [exact Hc|]); cbn; eauto.
  - intros t i x r Hc Hv. tt_cases Hv; (split; [exact Hc|]); reflexivity.
Defined.

Definition tt_tr : tside tt_world.
Proof.
  refine (Tside E _ A K V R jitem (K + V) _ tt_world inr tt_viR (fun x => ask (JRight x)) (fun k => ask (JKey k)) (fun v => ask (JValue v)) inl inr
    (fun e k k' => e = answer (A := A) (JKey k) k') (fun e v v' => e = answer (A := A) (JValue v) v') _ _ _ _ _ _ _ _ _).
  - intros x. eapply calls_weak; [|apply (j_right plt stuck tt_red tt_cost tt_becomes tt_mono tt_owns x)]. intros o e _ (H1 & H2 & H3). exists (IRight x o).
    split; [exact H1|]. split; [left; reflexivity|]. split; [exact H2|]. intros h Hh. apply H3, sameR, Hh.
  - intros k. eapply calls_weak; [|apply (calls_ask (pl_good plt) (JKey k) []); reflexivity]. intros y e _ ->. split; reflexivity.
  - intros v. eapply calls_weak; [|apply (calls_ask (pl_good plt) (JValue v) []); reflexivity]. intros y e _ ->. split; reflexivity.
  - intros i x o Hv. tt_cases Hv; reflexivity.
  - intros i x o Hv. tt_cases Hv; try (eexists; cbn; reflexivity); [exists []; destruct o; reflexivity|..].
    + exists [inl (fst y); inr (snd y)]. cbn. apply Permutation_app_comm with (l := [_; _]) (l' := [_; _]).
    + exists [inl (fst y)]. cbn. apply perm_swap.
  - intros t i x r Hc Hv. tt_cases Hv; (split; [exact Hc|]); cbn; unfold tt_kept; auto.
  - intros t i k v r k' v' e e' Hc Hv H1 -> H2 ->. assert (Hk : tt_kept t (k, v) [(k', v')]) by (right; exists k', v'; auto).
    tt_cases Hv; (split; [exact Hc|]); cbn; auto.
  - intros t i k v v' r k' e Hc Hv H1 ->. assert (Hk : jkey_clone t k k') by exact H1.
    tt_cases Hv; (split; [exact Hc|]); cbn; eauto.
  - intros t i x r Hc Hv. tt_cases Hv; (split; [exact Hc|]); reflexivity.
Defined.

Notation f := (fun x y : K * V => ask (JBoth x y)).
Lemma tt_laws : ttlaws tt_world tt_tl tt_tr jkeyed (EJGeneric f false) said_equal m.
Proof.
  constructor.
  - intros x y. cbn [ejcall]. eapply calls_weak; [|apply calls_both; [apply (j_both plt stuck tt_red tt_cost tt_becomes tt_mono tt_owns x y)|
      apply (calls_ask (pl_good plt) (JBoth x y) [inl x; inr y]); reflexivity]].
    intros o e [_ Hf] [(H1 & H2 & H3) He]. exists (IBoth x y o). split; [exact H1|].
    split. { destruct o; cbn; unfold tt_viL, tt_viR; repeat split; right; do 2 eexists; (split; [reflexivity|]); reflexivity. }
    split; [exact H2|]. split; [intros h Hx Hy; apply H3; [apply sameL, Hx|apply sameR, Hy]|]. destruct Hf as (_ & _ & F1 & _ & _ & F2).
    split; [intros Hn r ->; exact (F2 Hn _ _ _ He)|intros Hn r ->; exact (F1 Hn _ _ _ He)].
  - intros k k'. apply (j_eq plt stuck tt_red tt_cost tt_becomes tt_mono tt_owns).
  - intros k k'. apply (j_eq' plt stuck tt_red tt_cost tt_becomes tt_mono tt_owns).
  - intros k. eapply calls_weak; [|apply (j_hash plt stuck tt_red tt_cost tt_becomes tt_mono tt_owns)]. intros x e _ [H1 H2]. split; [exact H1|]. intros h v Hh. apply (H2 h v), sameL, Hh.
  - intros k. eapply calls_weak; [|apply (j_hash' plt stuck tt_red tt_cost tt_becomes tt_mono tt_owns)]. intros x e _ [H1 H2]. split; [exact H1|]. intros h v Hh. apply (H2 h v), sameR, Hh.
  - reflexivity.
  - reflexivity.
  - intros e h x e' h' x' G1 G2 T1 T2 He y Hy. apply sameR. eapply (proj2 (pl_one plt e h x e' h' x' G1 G2 T1 T2 He)). apply sameR, Hy.
  - intros x. eapply calls_weak; [|apply (calls_ask (pl_good plt) (JLeft x) [inl x]); reflexivity]. intros o e [_ (F1 & F2 & _)] He.
    split; intros Hn r ->; [exact (F1 Hn _ _ He)|exact (F2 Hn _ _ He)].
  - intros x. eapply calls_weak; [|apply (calls_ask (pl_good plt) (JRight x) [inr x]); reflexivity]. intros o e [_ (_ & _ & _ & F1 & F2 & _)] He.
    split; intros Hn r ->; [exact (F1 Hn _ _ He)|exact (F2 Hn _ _ He)].
Qed.

Lemma ask_tt_any st (n right : trie K V) : shaped (leaf_of (pl_has pl) (pl_lies pl)) (pl_deep pl) 0 0 n ->
  shaped (leaf_of (pl_has pl) (pl_lies pl)) (pl_deep pl) 0 0 right ->
  longest n < 2 \/ longest right < 2 -> (2 <= longest n -> tame m) -> (2 <= longest right -> tame (tm_other m)) ->
  gs (pl_good plt) (ask_tt st JwClosure TwClosure TwClosure n right) (fun tr o =>
    exists rest, Permutation (jtold_all tr ++ rest) (map inl (map_visit n) ++ map inr (map_visit right)) /\
    match o with
    | Ret (m', r, og) => rest = [] /\ shaped (leaf_of (pl_has pl) (pl_lies pl)) (pl_deep pl) 0 0 m' /\ (og = Self -> m' = n) /\ (og = Right -> m' = right) /\
        exists is outs, settled jsee tt_red tt_cost tr is r /\ Forall2 (tt_becomes tr) is outs /\ Permutation (map_visit m') (concat outs)
    | Panic => pl_bad pl tr
    | Diverge => stuck
    end).
Proof.
  intros Hm Hr Hone HL HR.
  assert (H : jfull tt_world (map inl (m_visit n) ++ map inr (m_visit right)) (ask_tt st JwClosure TwClosure TwClosure n right) (fun tr y =>
    shaped (leaf_of (pl_has pl) (pl_lies pl)) (pl_deep pl) 0 0 (fst (fst y)) /\ (snd y = Self -> fst (fst y) = n) /\ (snd y = Right -> fst (fst y) = right) /\
        exists is outs, settled jsee tt_red tt_cost tr is (snd (fst y)) /\ Forall2 (tt_becomes tr) is outs /\ Permutation (map_visit (fst (fst y))) (concat outs))).
  { eapply (jf_cut tt_world _ _ []); [exact (am_tt_j (w := tt_world) f tt_laws (PL := 2 <= longest n) (PR := 2 <= longest right) HL HR ltac:(lia) st n right 0 0 Hm Hr (fun x => x) (fun x => x))| |].
    { rewrite app_nil_r. reflexivity. }
    assert (Hkeep : forall q r t, sdone tt_world 0 0 (Some q) r t -> shaped (leaf_of (pl_has pl) (pl_lies pl)) (pl_deep pl) 0 0 q /\
      exists is outs, settled jsee tt_red tt_cost t is r /\ Forall2 (tt_becomes t) is outs /\ Permutation (map_visit q) (concat outs)).
    { intros q r t [(is & outs & D1 & D2 & D3) D4]. split; [apply D4; reflexivity|]. exists is, outs. auto. }
    intros t y _ HJ. change (jres K V R) in y. apply jf_ret. rewrite app_nil_r. destruct y as [r|r|r|x]; cbn [AskTwLeafP.jsaid] in HJ; cbn [fst snd].
    - destruct HJ as [[_ HJ] _]. apply Hkeep in HJ. destruct HJ. repeat split; (assumption || discriminate).
    - destruct HJ as [_ HJ]. apply Hkeep in HJ. destruct HJ. repeat split; (assumption || discriminate).
    - destruct HJ as [_ HJ]. apply Hkeep in HJ. destruct HJ. repeat split; (assumption || discriminate).
    - destruct HJ as [(is & outs & D1 & D2 & D3) D4]. destruct (nres_shaped _ _ x (pl_new pl) D4) as (N1 & N2).
      split; [exact N1|]. split; [discriminate|]. split; [discriminate|].
      apply (N2 (fun v r => exists is outs, settled jsee tt_red tt_cost t is r /\ Forall2 (tt_becomes t) is outs /\ Permutation v (concat outs))).
      exists is, outs. auto. }
  intros tr o He Hg. destruct (H tr o He Hg) as (rest & H1 & H2). exists rest. split; [exact H1|]. destruct o as [[[m' r] og]| |]; exact H2.
Qed.

End TT.

(** * Loose maps, and maps placed by their hashes *)
Section Maps.
Context {E : Env} {K V R : Type}.
Notation A := (jreply K V K V K V (bres V R) (vres V R) (vres V R) R).
Implicit Types tr : list (event (A := A)).

Lemma loose_tt st (m right : trie K V) tr o : loose 0 m -> loose 0 right -> exec (ask_tt st JwClosure TwClosure TwClosure m right) tr o ->
  longest m < 2 \/ longest right < 2 -> (2 <= longest m -> calm_left tr) -> (2 <= longest right -> calm_right tr) ->
  exists rest, Permutation (jtold_all tr ++ rest) (map inl (map_visit m) ++ map inr (map_visit right)) /\
  match o with
  | Ret (m', r, og) => rest = [] /\ loose 0 m' /\ (og = Self -> m' = m) /\ (og = Right -> m' = right) /\
      exists is outs, settled jsee tt_red tt_cost tr is r /\ Forall2 (tt_becomes tr) is outs /\ Permutation (map_visit m') (concat outs)
  | Panic => broken tr \/ hashes_differ tr
  | Diverge => False
  end.
Proof.
  intros Hm Hr He Hone HL HR.
  destruct (ask_tt_any free_place False (temper_of tr) (fun _ _ => conj (fun x => x) (fun x => x)) (fun _ _ => conj (fun x => x) (fun x => x)) (fun _ _ _ _ _ _ _ => I)
    st m right (loose_free _ _ _ Hm) (loose_free _ _ _ Hr) Hone HL HR tr o He) as (rest & H1 & H2).
  { eapply Forall_impl; [|apply temper_fits]. intros e H. split; [exact I|exact H]. }
  exists rest. split; [exact H1|]. destruct o as [[[m' r] og]| |]; [|exact H2..]. destruct H2 as (H2 & H3 & H4). split; [exact H2|]. split; [eapply free_loose; exact H3|exact H4].
Qed.

Lemma placed_tt {KK : Key K} st (m right : trie K V) tr o : placed 0 0 m -> placed 0 0 right -> Forall jsteady tr ->
  exec (ask_tt st JwClosure TwClosure TwClosure m right) tr o ->
  longest m < 2 \/ longest right < 2 -> (2 <= longest m -> calm_left tr) -> (2 <= longest right -> calm_right tr) ->
  match o with
  | Ret (m', r, og) => placed 0 0 m'
  | Panic => broken tr
  | Diverge => False
  end.
Proof.
  intros Hm Hr HS He Hone HL HR.
  set (pl := near_place (KL := K) (VL := V) (KR := K) (VR := V) (K := K) (V := V) (TB := bres V R) (TL := vres V R) (TR := vres V R) (R := R) (X := V) (KKL := KK) (KKR := KK) (KKS := KK) jsteady (fun k w H => H) (fun k w H => H)).
  assert (H1 : forall h k k' v v', pl_good pl (answer (JKey k) k') -> pl_has pl h (k, v) -> pl_has pl h (k', v')).
  { intros h k k' v v' Hg Hk. unfold pl, near_place, pl_has, hashed, ecls in *. cbn in *. rewrite <- Hk. exact Hg. }
  destruct (ask_tt_any pl False (temper_of tr) (fun h x => conj (fun y => y) (fun y => y)) (fun h x => conj (fun y => y) (fun y => y)) H1
    st m right (placed_near _ _ _ Hm) (placed_near _ _ _ Hr) Hone HL HR tr o He) as (rest & _ & H3).
  { pose proof (temper_fits tr) as HF. rewrite Forall_forall in *. intros e Hi. split; [exact (HS e Hi)|exact (HF e Hi)]. }
  destruct o as [[[m' r] og]| |]; [|exact H3..]. destruct H3 as (_ & H3 & _). eapply near_placed. exact H3.
Qed.
End Maps.
