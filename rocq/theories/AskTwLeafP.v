(** Two leaves, or a collision list and a leaf, of the two maps of
    transform_with_transformed, whatever the client's code answers. *)
From Coq Require Import NArith Arith List Bool Lia ZifyBool ZifyN ZifyNat Permutation.
From Verif Require Import Base Words WordsP Flag FlagP Bia BiaP Node Inv InsertP Api Trans Transform Joint JointT Profile Eff EffP EffTP EffApi EffJ Ask AskP AskHashP AskT SpecAskT JoinP JointLeafP JointTLeafP LoopP TransformP
  PermP AskTP AskTTP AskJ AskJP AskJOneP AskJLeafP AskTw.
Import ListNotations.
Open Scope N_scope.

(** What an item of an entry in both maps says of either. *)
Definition bacts {E : Env} {Q : Type} {A : Q -> Type} {K V R I C U : Type} {w : world A K V R I C U} (tl tr : tside w) (i : I) (x y : K * V) (o : bres V R) : Prop :=
  match o with
  | BUnchangedLR r => t_vi tl i x (VUnchanged r) /\ t_vi tr i y (VUnchanged r)
  | BUnchangedL r => t_vi tl i x (VUnchanged r)
  | BUnchangedR r => t_vi tr i y (VUnchanged r)
  | BTransformed v r => t_vi tl i x (VTransformed v r) /\ t_vi tr i y (VTransformed v r)
  | BDropped r => t_vi tl i x (VDropped r) /\ t_vi tr i y (VDropped r)
  end.

(** What the closures never answer: that an entry of the left map is dropped, that it is
    kept, that an entry of both is kept as in the left map; and for the right map. *)
Record temper : Type := Temper { no_drop : Prop; no_keep : Prop; no_both : Prop; no_drop' : Prop; no_keep' : Prop; no_both' : Prop }.
Definition tm_other (m : temper) : temper := Temper (no_drop' m) (no_keep' m) (no_both' m) (no_drop m) (no_keep m) (no_both m).
(** Nothing of the right map is kept in place of what is dropped of the left one. *)
Definition tame1 (m : temper) : Prop := no_both' m /\ (no_drop m \/ no_keep' m).
(** That, or nothing of the left map is kept. *)
Definition tame (m : temper) : Prop := no_keep m \/ tame1 m.

(** What the two maps' keys and the closures are asked. *)
Record ttlaws {E : Env} {Q : Type} {A : Q -> Type} {K V R I C U : Type} (w : world A K V R I C U) (tl tr : tside w)
  (ky : keyed A K K) (both : ejoint A (K * V) V R) (yes : list (event (A := A)) -> K -> K -> Prop) (m : temper) : Prop := {
  tt_both : forall x y, calls (w_good w) (w_told w) (ejcall both x y) [t_inj tl x; t_inj tr y] (fun o e => exists i, w_see w e = ItOp i /\ bacts tl tr i x y o /\
    (forall t, In e t -> yes t (fst x) (fst y) -> w_called w t i) /\ (forall h, w_has w h x -> w_has w h y -> w_ihas w h i) /\
    (no_both' m -> forall r, o <> BUnchangedR r) /\ (no_both m -> forall r, o <> BUnchangedL r));
  tt_eq : forall k k', calls (w_good w) (w_told w) (ky_eq ky k k') [] (fun b e => w_see w e = ItNone /\ (b = true -> forall t, In e t -> yes t k k'));
  tt_eq' : forall k k', calls (w_good w) (w_told w) (ky_eq' ky k' k) [] (fun b e => w_see w e = ItNone /\ (b = true -> forall t, In e t -> yes t k k'));
  tt_hash : forall k, calls (w_good w) (w_told w) (ky_hash ky k) [] (fun x e => w_see w e = ItNone /\ forall h v, w_has w h (k, v) -> w_tells w e h x);
  tt_hash' : forall k, calls (w_good w) (w_told w) (ky_hash' ky k) [] (fun x e => w_see w e = ItNone /\ forall h v, w_has w h (k, v) -> w_tells w e h x);
  tt_ck : t_ck tr = t_ck tl;
  tt_cv : t_cv tr = t_cv tl;
  tt_moved : forall e h x e' h' x', w_good w e -> w_good w e' -> w_tells w e h x -> w_tells w e' h' x' -> proj1_sig x = proj1_sig x' ->
    forall y, w_has w h y -> w_has w h' y;
  tt_nL : forall x, calls (w_good w) (w_told w) (t_f tl x) [t_inj tl x] (fun o _ => (no_drop m -> forall r, o <> VDropped r) /\ (no_keep m -> forall r, o <> VUnchanged r));
  tt_nR : forall x, calls (w_good w) (w_told w) (t_f tr x) [t_inj tr x] (fun o _ => (no_drop' m -> forall r, o <> VDropped r) /\ (no_keep' m -> forall r, o <> VUnchanged r))
}.
Arguments tt_both {E Q A K V R I C U w tl tr ky both yes m}.
Arguments tt_eq {E Q A K V R I C U w tl tr ky both yes m}.
Arguments tt_eq' {E Q A K V R I C U w tl tr ky both yes m}.
Arguments tt_hash {E Q A K V R I C U w tl tr ky both yes m}.
Arguments tt_hash' {E Q A K V R I C U w tl tr ky both yes m}.
Arguments tt_ck {E Q A K V R I C U w tl tr ky both yes m}.
Arguments tt_cv {E Q A K V R I C U w tl tr ky both yes m}.
Arguments tt_moved {E Q A K V R I C U w tl tr ky both yes m}.
Arguments tt_nL {E Q A K V R I C U w tl tr ky both yes m}.
Arguments tt_nR {E Q A K V R I C U w tl tr ky both yes m}.

Section Call.
Context {Q : Type} {A : Q -> Type} {U : Type} (good : event (A := A) -> Prop) (told : event (A := A) -> list U).
Lemma calls_both {Y} (p : prog A Y) us (P P' : Y -> event (A := A) -> Prop) : calls good told p us P -> calls good told p us P' ->
  calls good told p us (fun y e => P y e /\ P' y e).
Proof.
  intros H H' tr o He Hg. destruct (H tr o He Hg) as [H1 H2], (H' tr o He Hg) as [_ H4]. split; [assumption|]. destruct o; try assumption.
  destruct H2 as (e & -> & Hi), H4 as (e' & [= <-] & Hi'). exists e. auto.
Qed.
Lemma calls_map {Y Z} (p : prog A Y) us (g : Y -> Z) (P : Y -> event (A := A) -> Prop) (P' : Z -> event (A := A) -> Prop) :
  calls good told p us P -> (forall y e, P y e -> P' (g y) e) -> calls good told (let+ y := p in PRet (g y)) us P'.
Proof.
  intros H H' tr o He Hg. apply exec_bind in He. destruct He as [(t1 & t2 & y & -> & He1 & [-> ->])|[[He1 ->]|[He1 ->]]]; [|exact (H _ _ He1 Hg)..].
  rewrite app_nil_r in *. destruct (H _ _ He1 Hg) as [H1 (e & -> & Hi)]. split; [assumption|]. exists e. auto.
Qed.
Lemma calls_unmap {Y Z} (p : prog A Y) us (g : Y -> Z) (P : Z -> event (A := A) -> Prop) :
  calls good told (let+ y := p in PRet (g y)) us P -> calls good told p us (fun y e => P (g y) e).
Proof.
  intros H tr o He Hg. specialize (H tr (match o with Ret y => Ret (g y) | Panic => Panic | Diverge => Diverge end)). destruct H as [H1 H2]; [|exact Hg|].
  - apply exec_bind. destruct o as [y| |]; [|auto..]. left. exists tr, [], y. rewrite app_nil_r. cbn. auto.
  - split; [assumption|]. destruct o; assumption.
Qed.
End Call.

Lemma bres_flip_flip {V R} (o : bres V R) : bres_flip (bres_flip o) = o.
Proof. destruct o; reflexivity. Qed.

Lemma ttlaws_flip {E : Env} {Q : Type} {A : Q -> Type} {K V R I C U : Type} (w : world A K V R I C U) (tl tr : tside w) ky f b yes m :
  ttlaws w tl tr ky (EJGeneric f b) yes m ->
  ttlaws w tr tl (ky_flip ky) (ejflip (EJGeneric f b)) (fun t k k' => yes t k' k) (tm_other m).
Proof.
  intros [H1 H2 H3 H4 H5 H6 H7 H8 H9 H10]. constructor; try (cbn [ky_flip ky_eq ky_eq' ky_hash ky_hash']; assumption).
  - intros x y. specialize (H1 y x). cbn [ejflip ejcall] in *.
    set (P := fun (o : bres V R) e => exists i, w_see w e = ItOp i /\ bacts tl tr i y x o /\
      (forall t, In e t -> yes t (fst y) (fst x) -> w_called w t i) /\ (forall h, w_has w h y -> w_has w h x -> w_ihas w h i) /\
      (no_both' m -> forall r, o <> BUnchangedR r) /\ (no_both m -> forall r, o <> BUnchangedL r)) in *.
    set (P' := fun (o : bres V R) e => exists i, w_see w e = ItOp i /\ bacts tr tl i x y o /\
      (forall t, In e t -> yes t (fst y) (fst x) -> w_called w t i) /\ (forall h, w_has w h x -> w_has w h y -> w_ihas w h i) /\
      (no_both m -> forall r, o <> BUnchangedR r) /\ (no_both' m -> forall r, o <> BUnchangedL r)) in *.
    assert (HP : forall o e, P o e -> P' (bres_flip o) e).
    { intros o e (i & P1 & P2 & P3 & P4 & P5 & P6). exists i. split; [exact P1|]. split; [destruct o; cbn in *; tauto|]. split; [exact P3|]. split; [auto|].
      split; intros T r Hr; [apply (P6 T r)|apply (P5 T r)]; destruct o; try discriminate; injection Hr as ->; reflexivity. }
    intros t o He Hg. assert (HPerm : Permutation [t_inj tl y; t_inj tr x] [t_inj tr x; t_inj tl y]) by apply perm_swap.
    destruct b; cbn [negb] in *.
    + apply calls_unmap in H1. destruct (H1 t o He Hg) as [G1 G2]. split; [rewrite G1; exact HPerm|]. destruct o; try assumption.
      destruct G2 as (e & -> & G2). exists e. split; [reflexivity|]. apply HP in G2. rewrite bres_flip_flip in G2. exact G2.
    + destruct (calls_map _ _ _ _ bres_flip P P' H1 HP t o He Hg) as [G1 G2]. split; [rewrite G1; exact HPerm|exact G2].
  - intros k k'. cbn [ky_flip ky_eq]. apply H3.
  - intros k k'. cbn [ky_flip ky_eq']. apply H2.
  - symmetry. assumption.
  - symmetry. assumption.
Qed.

Section TT.
Context {E : Env} {Q : Type} {A : Q -> Type} {K V R I C U : Type} {w : world A K V R I C U} {tl tr : tside w}.
Notation event := (event (A := A)).
Notation trace := (list event).
Implicit Types t : trace.
Notation good := (w_good w).
Notation see := (w_see w).
Notation red := (w_red w).
Notation ck := (t_ck tl).
Notation cv := (t_cv tl).
Notation none := (none w).
Notation jfull := (jfull w).
Notation jpast := (jpast w).
Notation hdone := (hdone w).
Notation ldone := (ldone w).
Notation sdone := (sdone w).
Notation iL := (t_inj tl).
Notation iR := (t_inj tr).
Notation has := (w_has w).
Notation fresh := (hfresh (ts := tr)).
Context {ky : keyed A K K} {both : ejoint A (K * V) V R} {yes : trace -> K -> K -> Prop} {m : temper} (laws : ttlaws w tl tr ky both yes m).

Lemma ckR k : calls good (w_told w) (ck k) [] (fun k' e => see e = ItClone (t_kc tr k) /\ t_Kc tr e k k').
Proof. rewrite <- (tt_ck laws). apply (t_calls_ck tr). Qed.
Lemma cvR v : calls good (w_told w) (cv v) [] (fun v' e => see e = ItClone (t_vc tr v) /\ t_Vc tr e v v').
Proof. rewrite <- (tt_cv laws). apply (t_calls_cv tr). Qed.

(** What the closure for both answered of either entry. *)
Definition bsaid (h : N) (n : trace) (e : event) (i : I) (x y : K * V) (o : bres V R) : Prop :=
  match o with
  | BUnchangedLR r => vsaid w tl h n e i x (VUnchanged r) /\ vsaid w tr h n e i y (VUnchanged r)
  | BUnchangedL r => vsaid w tl h n e i x (VUnchanged r)
  | BUnchangedR r => vsaid w tr h n e i y (VUnchanged r)
  | BTransformed v r => vsaid w tl h n e i x (VTransformed v r)
  | BDropped r => vsaid w tl h n e i x (VDropped r)
  end.

Lemma bsaid_both h x y o n e i : good e -> see e = ItOp i -> bacts tl tr i x y o -> (forall t, In e t -> yes t (fst x) (fst y) -> w_called w t i) -> w_ihas w h i ->
  Forall none n -> Forall good n -> (forall t, incl n t -> yes t (fst x) (fst y)) -> bsaid h n e i x y o.
Proof.
  intros H1 H2 H3 H4 H5 H6 H7 H8.
  assert (HV : forall (ts : tside w) z o', t_vi ts i z o' -> vsaid w ts h n e i z o').
  { intros ts z o' Hv. split; [assumption|]. split; [assumption|]. split; [assumption|]. split; [|split; [assumption|]].
    - intros t Ht. apply H4; [apply Ht, in_or_app; right; left; reflexivity|]. apply H8. intros x' Hx'. apply Ht, in_or_app. left. assumption.
    - apply Forall_app. split; [assumption|]. repeat constructor. assumption. }
  destruct o; cbn in *; try (split; apply HV; tauto); apply HV; tauto.
Qed.

(** What is left of a leaf or list [n] and a leaf [s] of the other map. *)
Definition lsaid (h : N) (n : mnode K V) (s : snode K V) (y : jres K V R) t : Prop :=
  ldone h (jout n (MS s) y) (jred y) t /\ (forall r, y = JLR r -> ldone h (Some (MS s)) r t) /\
  (forall r, y = JR r -> fresh h (s_key s, s_value s) r t /\ ~ tame1 m).

Lemma fresh_join h y x r z t1 t2 e t : fresh h y r t2 -> hdone h [] x t1 -> see e = ItReduce x r z -> Permutation t (t1 ++ t2 ++ [e]) -> fresh h y z t.
Proof.
  intros HF HD He Ht e1 e2 k' v' G1 G2 G3 F1 F2 F3. eapply hd_join; [exact HD|exact (HF e1 e2 k' v' G1 G2 G3 F1 F2 F3)|exact He|rewrite Ht; permut|reflexivity].
Qed.
Lemma fresh_join' h y x r z t1 t2 e t : fresh h y r t2 -> hdone h [] x t1 -> see e = ItReduce r x z -> Permutation t (t1 ++ t2 ++ [e]) -> fresh h y z t.
Proof.
  intros HF HD He Ht e1 e2 k' v' G1 G2 G3 F1 F2 F3. eapply hd_join; [exact (HF e1 e2 k' v' G1 G2 G3 F1 F2 F3)|exact HD|exact He|rewrite Ht; permut|reflexivity].
Qed.

Ltac leafy1 := let n' := fresh "n'" in intros n' [= <-]; exact Logic.I.
Ltac quiet_red z e He := eapply jf_quiet; [apply w_calls_red|]; intros z e _ He; apply jf_ret.
Ltac quiet_ck k e G1 G2 G3 := eapply jf_quiet; [apply (t_calls_ck tl)|]; intros k e G1 [G2 G3].
Ltac quiet_cv k e G1 G2 G3 := eapply jf_quiet; [apply (t_calls_cv tl)|]; intros k e G1 [G2 G3].
Ltac quiet_ckR k e G1 G2 G3 := eapply jf_quiet; [apply ckR|]; intros k e G1 [G2 G3].
Ltac quiet_cvR k e G1 G2 G3 := eapply jf_quiet; [apply cvR|]; intros k e G1 [G2 G3].

Lemma att_s_impl_j h s s' : has h (s_key s, s_value s) -> has h (s_key s', s_value s') ->
  jfull [iL (s_key s, s_value s); iR (s_key s', s_value s')] (att_s_impl red ck cv ky both (EGeneric (t_f tl)) (EGeneric (t_f tr)) s s')
    (fun t z => lsaid h (MS s) s' z t).
Proof.
  intros H1 H2. set (x := (s_key s, s_value s)) in *. set (y := (s_key s', s_value s')) in *. unfold att_s_impl. fold x y.
  eapply jf_quiet; [apply (tt_eq laws)|]. intros b e0 G0 [N0 Y0]. destruct b.
  - eapply (jf_call w _ _ []); [apply (tt_both laws)|reflexivity|]. intros o e Ge (i & I1 & I2 & I3 & I4 & I5 & I6).
    assert (HS : bsaid h [e0] e i x y o).
    { apply bsaid_both; auto. intros t Ht. apply Y0; [reflexivity|]. apply Ht. left. reflexivity. }
    destruct o as [r|r|r|v r|r]; cbn [bsaid] in HS.
    + apply jf_ret. destruct HS as [HL HR]. split; [|split; [|discriminate]].
      * split; [exact (v_same _ _ _ _ _ _ _ _ HL)|leafy1].
      * intros r' [= <-]. split; [exact (v_same _ _ _ _ _ _ _ _ HR)|leafy1].
    + apply jf_ret. split; [|split; discriminate]. split; [exact (v_same _ _ _ _ _ _ _ _ HS)|leafy1].
    + apply jf_ret. split; [|split; [discriminate|]].
      * split; [exact (v_same _ _ _ _ _ _ _ _ HS)|leafy1].
      * intros r' [= <-]. split; [exact (fresh_call h [e0] e i _ _ HS)|]. intros [T _]. exact (I5 T r eq_refl).
    + quiet_ck k' e1 G1 G2 G3. apply jf_ret. split; [|split; discriminate].
      split; [exact (v_new _ _ _ _ _ _ _ _ _ _ _ _ HS G1 G2 G3)|leafy1].
    + apply jf_ret. split; [|split; discriminate]. split; [exact (v_drop _ _ _ _ _ _ _ _ HS)|discriminate].
  - cbn [etcall].
    eapply (jf_call w _ _ [iR y]); [apply calls_both; [apply (t_calls_f tl)|apply (tt_nL laws)]|reflexivity|]. intros o e Ge [(i & I1 & I2 & I3 & I4) [I5 I6]].
    eapply (jf_call w _ _ []); [apply calls_both; [apply (t_calls_f tr)|apply (tt_nR laws)]|reflexivity|]. intros o' e' Ge' [(i' & J1 & J2 & J3 & J4) [J5 J6]].
    pose proof (vsaid_call w tl h _ _ _ _ Ge I1 I2 I3 (I4 h H1)) as HL. pose proof (vsaid_call w tr h _ _ _ _ Ge' J1 J2 J3 (J4 h H2)) as HR.
    assert (HU : forall cs cs' cs'' out out' lr rr z e3 r, hdone h out lr (e :: cs) -> hdone h out' rr (e' :: cs') -> see e3 = ItReduce lr rr z -> Permutation cs'' (cs ++ cs') ->
      Permutation (ovisit (jout (MS s) (MS s') r)) (out ++ out') -> jred r = z -> (forall n', jout (MS s) (MS s') r = Some n' -> leafy n') ->
      ldone h (jout (MS s) (MS s') r) (jred r) (e0 :: e :: e' :: cs'' ++ [e3])).
    { intros cs cs' cs'' out out' lr rr z e3 r D1 D2 D3 D4 D5 D6 D7. split; [|exact D7]. rewrite D6. apply (hd_none w h [e0] _ _ (e :: e' :: cs'' ++ [e3])); [repeat constructor; assumption|].
      eapply hd_join; [exact D1|exact D2|exact D3|rewrite D4; cbn [app]; permut|exact D5]. }
    destruct o as [lr|lv lr|lr], o' as [rr|rv rr|rr].
    + quiet_ckR k' e1 G1 G2 G3. quiet_cvR v' e2 F1 F2 F3. quiet_red z e3 He3. split; [|split; discriminate].
      eapply (HU [] [e1; e2] [e1; e2]); [apply (v_same _ _ _ _ _ _ _ _ HL)|apply (v_clone _ _ _ _ _ _ _ _ _ _ _ _ _ HR G1 G2 G3 F1 F2 F3)|exact He3|reflexivity|apply perm_swap|reflexivity|].
      intros n' [= <-]. apply (l_new_leafy k' v' (NS s)). exact Logic.I.
    + quiet_ckR k' e1 G1 G2 G3. quiet_red z e3 He3. split; [|split; discriminate].
      eapply (HU [] [e1] [e1]); [apply (v_same _ _ _ _ _ _ _ _ HL)|apply (v_new _ _ _ _ _ _ _ _ _ _ _ _ HR G1 G2 G3)|exact He3|reflexivity|apply perm_swap|reflexivity|].
      intros n' [= <-]. apply (l_new_leafy k' rv (NS s)). exact Logic.I.
    + quiet_red z e3 He3. split; [|split; discriminate].
      eapply (HU [] [] []); [apply (v_same _ _ _ _ _ _ _ _ HL)|apply (v_drop _ _ _ _ _ _ _ _ HR)|exact He3|reflexivity|reflexivity|reflexivity|leafy1].
    + quiet_ck k' e1 G1 G2 G3. quiet_red z e3 He3. split; [|split; discriminate].
      eapply (HU [e1] [] [e1]); [apply (v_new _ _ _ _ _ _ _ _ _ _ _ _ HL G1 G2 G3)|apply (v_same _ _ _ _ _ _ _ _ HR)|exact He3|reflexivity|reflexivity|reflexivity|].
      intros n' [= <-]. apply (l_new_leafy k' lv (NS s')). exact Logic.I.
    + quiet_ckR k2 e2 F1 F2 F3. quiet_ck k' e1 G1 G2 G3. quiet_red z e3 He3. split; [|split; discriminate].
      eapply (HU [e1] [e2] [e2; e1]); [apply (v_new _ _ _ _ _ _ _ _ _ _ _ _ HL G1 G2 G3)|apply (v_new _ _ _ _ _ _ _ _ _ _ _ _ HR F1 F2 F3)|exact He3|apply perm_swap|apply perm_swap|reflexivity|].
      intros n' [= <-]. apply (l_new_leafy k2 rv (NS (SN k' lv))). exact Logic.I.
    + quiet_ck k' e1 G1 G2 G3. quiet_red z e3 He3. split; [|split; discriminate].
      eapply (HU [e1] [] [e1]); [apply (v_new _ _ _ _ _ _ _ _ _ _ _ _ HL G1 G2 G3)|apply (v_drop _ _ _ _ _ _ _ _ HR)|exact He3|reflexivity|reflexivity|reflexivity|leafy1].
    + quiet_red z e3 He3. split; [|split; [discriminate|]].
      * eapply (HU [] [] []); [apply (v_drop _ _ _ _ _ _ _ _ HL)|apply (v_same _ _ _ _ _ _ _ _ HR)|exact He3|reflexivity|reflexivity|reflexivity|leafy1].
      * intros r' [= <-]. split.
        -- assert (HF : fresh h y z ([e; e'; e3])).
           { eapply fresh_join; [exact (fresh_call h [] e' i' _ _ HR)|exact (v_drop _ _ _ _ _ _ _ _ HL)|exact He3|reflexivity]. }
           intros a1 a2 k' v' A1 A2 A3 A4 A5 A6. apply (hd_none w h [e0] _ _ ([e; e'; e3] ++ [a1; a2])); [repeat constructor; assumption|]. exact (HF a1 a2 k' v' A1 A2 A3 A4 A5 A6).
        -- intros [_ [T|T]]; [exact (I5 T lr eq_refl)|exact (J6 T rr eq_refl)].
    + quiet_ckR k' e1 G1 G2 G3. quiet_red z e3 He3. split; [|split; discriminate].
      eapply (HU [] [e1] [e1]); [apply (v_drop _ _ _ _ _ _ _ _ HL)|apply (v_new _ _ _ _ _ _ _ _ _ _ _ _ HR G1 G2 G3)|exact He3|reflexivity|reflexivity|reflexivity|leafy1].
    + quiet_red z e3 He3. split; [|split; discriminate].
      eapply (HU [] [] []); [apply (v_drop _ _ _ _ _ _ _ _ HL)|apply (v_drop _ _ _ _ _ _ _ _ HR)|exact He3|reflexivity|reflexivity|reflexivity|discriminate].
Qed.

Lemma n_cons_said (k : K) (v : V) (n : nres K V R) z : (forall c, nnode n = Some c -> leafy c) ->
  ovisit (nnode (n_cons k v n z)) = (k, v) :: ovisit (nnode n) /\ nred (n_cons k v n z) = z /\ (forall c, nnode (n_cons k v n z) = Some c -> leafy c).
Proof.
  intros H. destruct n as [c r|l r|s r|r]; cbn [n_cons nnode nred ovisit] in *; try (exfalso; exact (H _ eq_refl)); (split; [reflexivity|split; [reflexivity|]]); intros c [= <-].
  - apply (l_new_leafy k v (NL l)). apply (H _ eq_refl).
  - apply (l_new_leafy k v (NS s)). exact Logic.I.
  - exact Logic.I.
Qed.

Section Result.
Context (h : N) (l : lnode K V) (s : snode K V) (t n : trace) (e : event) (i : I) (Hl : lok l).
Notation xl := (l_key l, l_value l).
Notation ys := (s_key s, s_value s).

(** This entry's calls after the rest's. *)
Lemma res_done cs out out' lr rr z e3 r : hdone h out lr (n ++ e :: cs) -> hdone h out' rr t -> see e3 = ItReduce lr rr z ->
  Permutation (ovisit (jout (ML l) (MS s) r)) (out ++ out') -> jred r = z -> (forall n', jout (ML l) (MS s) r = Some n' -> leafy n') ->
  ldone h (jout (ML l) (MS s) r) (jred r) (t ++ (n ++ [e]) ++ cs ++ [e3]).
Proof.
  intros D1 D2 D3 D5 D6 D7. split; [|exact D7]. rewrite D6. eapply hd_join; [exact D1|exact D2|exact D3|permut|exact D5].
Qed.
Lemma next_nres_done out lr rr z e3 : hdone h out lr (n ++ [e]) -> out = [] -> hdone h (m_visit (lrest l)) rr t -> see e3 = ItReduce lr rr z ->
  ldone h (jout (ML l) (MS s) (JN (next_nres (l_next l) z))) (jred (JN (next_nres (l_next l) z))) (t ++ (n ++ [e]) ++ [e3]).
Proof.
  intros D1 -> D2 D3. pose proof (lrest_leafy l Hl) as Hn. eapply (res_done []); [exact D1|exact D2|exact D3|..].
  - unfold lrest. destruct (l_next l); reflexivity.
  - destruct (l_next l); reflexivity.
  - unfold lrest in Hn. destruct (l_next l); intros n' [= <-]; exact Hn.
Qed.

Lemma ajt_j o next : ldone h (tout (lrest l) next) (tred next) t -> bsaid h n e i xl ys o -> (tame1 m -> forall r, o <> BUnchangedR r) ->
  jfull [] (ajt red ck cv l o s next) (fun t' y => lsaid h (ML l) s y (t ++ (n ++ [e]) ++ t')).
Proof.
  intros [HD HL] HS HT. pose proof (lrest_leafy l Hl) as Hn.
  assert (HLR : forall r, vsaid w tl h n e i xl (VUnchanged r) -> jfull []
    (match next with
      | TU rr => let+ z := red r rr in PRet (JL z)
      | TN n =>
          let+ k := ck (l_key l) in
          let+ v := cv (l_value l) in
          let+ z := red r (nred n) in PRet (JN (n_cons k v n z))
      end) (fun t' y => lsaid h (ML l) s y (t ++ (n ++ [e]) ++ t'))).
  { intros r HV. destruct next as [rr|nn]; cbn [tout tred] in *.
    - quiet_red z e3 He3. split; [|split; discriminate]. eapply (res_done []); [exact (v_same _ _ _ _ _ _ _ _ HV)|exact HD|exact He3| |reflexivity|].
      + cbn [jout ovisit m_visit]. rewrite lrest_visit. reflexivity.
      + intros n' [= <-]. exact Hl.
    - quiet_ck k' e1 G1 G2 G3. quiet_cv v' e2 F1 F2 F3. quiet_red z e3 He3. split; [|split; discriminate].
      destruct (n_cons_said k' v' nn z HL) as (C1 & C2 & C3).
      eapply (res_done [e1; e2]); [exact (v_clone _ _ _ _ _ _ _ _ _ _ _ _ _ HV G1 G2 G3 F1 F2 F3)|exact HD|exact He3| |exact C2|exact C3].
      cbn [jout]. rewrite C1. reflexivity. }
  destruct o as [r|r|r|v r|r]; cbn [ajt bsaid] in *.
  - apply HLR. tauto.
  - apply HLR. assumption.
  - assert (HC : forall (nn : nres K V R), (forall c, nnode nn = Some c -> leafy c) -> hdone h (ovisit (nnode nn)) (nred nn) t ->
      jfull [] (let+ k := ck (s_key s) in let+ v := cv (s_value s) in let+ z := red r (nred nn) in PRet (JN (n_cons k v nn z)))
        (fun t' y => lsaid h (ML l) s y (t ++ (n ++ [e]) ++ t'))).
    { intros nn HL' HD'. quiet_ckR k' e1 G1 G2 G3. quiet_cvR v' e2 F1 F2 F3. quiet_red z e3 He3. split; [|split; discriminate].
      destruct (n_cons_said k' v' nn z HL') as (C1 & C2 & C3).
      eapply (res_done [e1; e2]); [exact (v_clone _ _ _ _ _ _ _ _ _ _ _ _ _ HS G1 G2 G3 F1 F2 F3)|exact HD'|exact He3| |exact C2|exact C3].
      cbn [jout]. rewrite C1. reflexivity. }
    destruct next as [rr|[c rr|l2 rr|s2 rr|rr]]; cbn [tout tred] in *; try (apply HC; assumption).
    + quiet_ckR k' e1 G1 G2 G3. quiet_cvR v' e2 F1 F2 F3. quiet_red z e3 He3. split; [|split; discriminate].
      eapply (res_done [e1; e2]); [exact (v_clone _ _ _ _ _ _ _ _ _ _ _ _ _ HS G1 G2 G3 F1 F2 F3)|exact HD|exact He3| |reflexivity|].
      * cbn [jout nnode ovisit m_visit]. rewrite l_new_visit. reflexivity.
      * intros n' [= <-]. apply (l_new_leafy k' v' (l_next l)). exact Hn.
    + quiet_red z e3 He3. split; [|split; [discriminate|]].
      * eapply (res_done []); [exact (v_same _ _ _ _ _ _ _ _ HS)|exact HD|exact He3|reflexivity|reflexivity|leafy1].
      * intros r' [= <-]. split.
        -- eapply fresh_join'; [exact (fresh_call h n e i _ _ HS)|exact HD|exact He3|reflexivity].
        -- intros T. exact (HT T r eq_refl).
  - quiet_ck k' e1 G1 G2 G3. destruct next as [rr|nn]; cbn [tout tred] in *.
    + quiet_red z e3 He3. split; [|split; discriminate].
      eapply (res_done [e1]); [exact (v_new _ _ _ _ _ _ _ _ _ _ _ _ HS G1 G2 G3)|exact HD|exact He3| |reflexivity|].
      * cbn [jout nnode ovisit m_visit]. rewrite l_new_visit. reflexivity.
      * intros n' [= <-]. apply (l_new_leafy k' v (l_next l)). exact Hn.
    + quiet_red z e3 He3. split; [|split; discriminate]. destruct (n_cons_said k' v nn z HL) as (C1 & C2 & C3).
      eapply (res_done [e1]); [exact (v_new _ _ _ _ _ _ _ _ _ _ _ _ HS G1 G2 G3)|exact HD|exact He3| |exact C2|exact C3].
      cbn [jout]. rewrite C1. reflexivity.
  - destruct next as [rr|nn]; cbn [tout tred] in *.
    + quiet_red z e3 He3. split; [|split; discriminate]. eapply next_nres_done; [exact (v_drop _ _ _ _ _ _ _ _ HS)|reflexivity|exact HD|exact He3].
    + quiet_red z e3 He3. split; [|split; discriminate].
      eapply (res_done []); [exact (v_drop _ _ _ _ _ _ _ _ HS)|exact HD|exact He3| | |]; cbn [jout jred]; rewrite ?nnode_with, ?nred_with; [reflexivity|reflexivity|exact HL].
Qed.

Lemma atj_j o next : lsaid h (lrest l) s next t -> vsaid w tl h n e i xl o -> (tame1 m \/ forall r, o <> VUnchanged r) ->
  jfull [] (atj red ck cv l o s next) (fun t' y => lsaid h (ML l) s y (t ++ (n ++ [e]) ++ t')).
Proof.
  intros ([HD HL] & _ & HF) HS HT. pose proof (lrest_leafy l Hl) as Hn.
  assert (Hlr : forall rr, hdone h (m_visit (lrest l)) rr t -> jfull []
    (match o with
     | VUnchanged lr => let+ z := red lr rr in PRet (JL z)
     | VTransformed lv lr => let+ k := ck (l_key l) in let+ z := red lr rr in PRet (JN (NRL (l_new k lv (l_next l)) z))
     | VDropped lr => let+ z := red lr rr in PRet (JN (next_nres (l_next l) z))
     end) (fun t' y => lsaid h (ML l) s y (t ++ (n ++ [e]) ++ t'))).
  { intros rr HD'. destruct o as [lr|lv lr|lr].
    - quiet_red z e3 He3. split; [|split; discriminate]. eapply (res_done []); [exact (v_same _ _ _ _ _ _ _ _ HS)|exact HD'|exact He3| |reflexivity|].
      + cbn [jout ovisit m_visit]. rewrite lrest_visit. reflexivity.
      + intros n' [= <-]. exact Hl.
    - quiet_ck k' e1 G1 G2 G3. quiet_red z e3 He3. split; [|split; discriminate].
      eapply (res_done [e1]); [exact (v_new _ _ _ _ _ _ _ _ _ _ _ _ HS G1 G2 G3)|exact HD'|exact He3| |reflexivity|].
      * cbn [jout nnode ovisit m_visit]. rewrite l_new_visit. reflexivity.
      * intros n' [= <-]. apply (l_new_leafy k' lv (l_next l)). exact Hn.
    - quiet_red z e3 He3. split; [|split; discriminate]. eapply next_nres_done; [exact (v_drop _ _ _ _ _ _ _ _ HS)|reflexivity|exact HD'|exact He3]. }
  destruct next as [rr|rr|rr|nn]; cbn [jout jred] in *.
  - specialize (Hlr rr HD). destruct o; exact Hlr.
  - specialize (Hlr rr HD). destruct o; exact Hlr.
  - destruct (HF rr eq_refl) as [HF1 HF2]. destruct HT as [HT|HT]; [contradiction|]. destruct o as [lr|lv lr|lr]; cbn [atj]; [exfalso; exact (HT lr eq_refl)|..].
    + quiet_ck k' e1 G1 G2 G3. quiet_red z e3 He3. split; [|split; discriminate].
      eapply (res_done [e1]); [exact (v_new _ _ _ _ _ _ _ _ _ _ _ _ HS G1 G2 G3)|exact HD|exact He3|reflexivity|reflexivity|].
      intros n' [= <-]. apply (l_new_leafy k' lv (NS s)). exact Logic.I.
    + quiet_red z e3 He3. split; [|split; [discriminate|]].
      * eapply (res_done []); [exact (v_drop _ _ _ _ _ _ _ _ HS)|exact HD|exact He3|reflexivity|reflexivity|leafy1].
      * intros r' [= <-]. split; [|assumption]. eapply fresh_join; [exact HF1|exact (v_drop _ _ _ _ _ _ _ _ HS)|exact He3|permut].
  - destruct o as [lr|lv lr|lr]; cbn [atj].
    + quiet_ck k' e1 G1 G2 G3. quiet_cv v' e2 F1 F2 F3. quiet_red z e3 He3. split; [|split; discriminate].
      destruct (n_cons_said k' v' nn z HL) as (C1 & C2 & C3).
      eapply (res_done [e1; e2]); [exact (v_clone _ _ _ _ _ _ _ _ _ _ _ _ _ HS G1 G2 G3 F1 F2 F3)|exact HD|exact He3| |exact C2|exact C3].
      cbn [jout]. rewrite C1. reflexivity.
    + quiet_ck k' e1 G1 G2 G3. quiet_red z e3 He3. split; [|split; discriminate]. destruct (n_cons_said k' lv nn z HL) as (C1 & C2 & C3).
      eapply (res_done [e1]); [exact (v_new _ _ _ _ _ _ _ _ _ _ _ _ HS G1 G2 G3)|exact HD|exact He3| |exact C2|exact C3].
      cbn [jout]. rewrite C1. reflexivity.
    + quiet_red z e3 He3. split; [|split; discriminate].
      eapply (res_done []); [exact (v_drop _ _ _ _ _ _ _ _ HS)|exact HD|exact He3| | |]; cbn [jout jred]; rewrite ?nnode_with, ?nred_with; [reflexivity|reflexivity|exact HL].
Qed.
End Result.

Lemma att_ls_impl_j h l s : has h (s_key s, s_value s) -> lok l -> Forall (has h) (l_visit l) -> tame m ->
  jfull (map iL (l_visit l) ++ [iR (s_key s, s_value s)]) (att_ls_impl red ck cv ky both (EGeneric (t_f tl)) (EGeneric (t_f tr)) l s)
    (fun t y => lsaid h (ML l) s y t).
Proof.
  intros Hm. set (y := (s_key s, s_value s)) in *. intros Hl Hh HT. revert Hl Hh.
  assert (Hyes : forall l, lok l -> Forall (has h) (l_visit l) -> forall e0, good e0 -> none e0 -> (forall t, In e0 t -> yes t (l_key l) (s_key s)) ->
    jfull (map iL (l_visit l) ++ [iR y]) (let+ next := an_transform red ck cv (EGeneric (t_f tl)) (l_next l) in
      let+ o := ejcall both (l_key l, l_value l) y in ajt red ck cv l o s next)
      (fun t z => lsaid h (ML l) s z (e0 :: t))).
  { intros l0 Hl Hh e0 G0 N0 Y0. rewrite lrest_visit in Hh |- *. inversion Hh as [|? ? Hk Hh']; subst. cbn [map].
    eapply (jf_cut w _ _ [iL (l_key l0, l_value l0); iR y]); [apply (an_transform_j w tl h (l_next l0)); split; [apply lrest_leafy; assumption|exact Hh']|unfold lrest; permut|].
    intros t next _ Hn. cbn beta in Hn. eapply (jf_call w _ _ []); [apply (tt_both laws)|reflexivity|]. intros o e Ge (i & I1 & I2 & I3 & I4 & I5 & I6).
    assert (HS : bsaid h [e0] e i (l_key l0, l_value l0) y o).
    { apply bsaid_both; auto. intros t' Ht'. apply Y0, Ht'. left. reflexivity. }
    eapply jf_weak; [apply (ajt_j h l0 s t [e0] e i Hl o next Hn HS); intros [T _]; apply I5, T|].
    intros t' z _ ([D1 D2] & D3 & D4). assert (HP : Permutation (t ++ ([e0] ++ [e]) ++ t') (e0 :: t ++ e :: t')) by permut.
    split; [|split].
    - split; [|exact D2]. eapply hd_perm; [exact HP|exact D1].
    - intros r Hr. destruct (D3 r Hr) as [D5 D6]. split; [|exact D6]. eapply hd_perm; [exact HP|exact D5].
    - intros r Hr. destruct (D4 r Hr) as [D5 D6]. split; [|exact D6]. intros a1 a2 k' v' A1 A2 A3 A4 A5 A6. eapply hd_perm; [|exact (D5 a1 a2 k' v' A1 A2 A3 A4 A5 A6)].
      apply Permutation_app_tail. exact HP. }
  assert (Hno : forall l next t, lok l -> has h (l_key l, l_value l) -> lsaid h (lrest l) s next t -> forall e0, good e0 -> none e0 ->
    jfull [iL (l_key l, l_value l)] (let+ o := etcall (EGeneric (t_f tl)) (l_key l, l_value l) in atj red ck cv l o s next)
      (fun t' z => lsaid h (ML l) s z (e0 :: t ++ t'))).
  { intros l0 next t Hl Hk Hn e0 G0 N0. cbn [etcall]. eapply (jf_call w _ _ []); [apply calls_both; [apply (t_calls_f tl)|apply (tt_nL laws)]|reflexivity|].
    intros o e Ge [(i & I1 & I2 & I3 & I4) [I5 I6]].
    eapply jf_weak; [apply (atj_j h l0 s t [] e i Hl o next Hn)|].
    - apply vsaid_call; auto.
    - destruct HT as [T|T]; [right; apply I6, T|left; exact T].
    - intros t' z _ ([D1 D2] & D3 & D4). split; [|split].
      + split; [|exact D2]. apply (hd_none w h [e0]); [repeat constructor; assumption|]. exact D1.
      + intros r Hr. destruct (D3 r Hr) as [D5 D6]. split; [|exact D6]. apply (hd_none w h [e0]); [repeat constructor; assumption|]. exact D5.
      + intros r Hr. destruct (D4 r Hr) as [D5 D6]. split; [|exact D6]. intros a1 a2 k' v' A1 A2 A3 A4 A5 A6.
        apply (hd_none w h [e0] _ _ ((t ++ ([] ++ [e]) ++ t') ++ [a1; a2])); [repeat constructor; assumption|]. exact (D5 a1 a2 k' v' A1 A2 A3 A4 A5 A6). }
  induction l as [k v n IH sz|k v s1 sz]; intros Hl Hh.
  - cbn [att_ls_impl]. eapply jf_quiet; [apply (tt_eq laws)|]. intros b e0 G0 [N0 Y0]. destruct b.
    + apply (Hyes (LNL k v n sz) Hl Hh e0 G0 N0). auto.
    + cbn [l_visit map] in *. inversion Hh as [|? ? Hk Hh']; subst.
      eapply (jf_cut w _ _ [iL (k, v)]); [apply IH; [apply Hl|assumption]|permut|]. intros t next _ Hn.
      exact (Hno (LNL k v n sz) next t Hl Hk Hn e0 G0 N0).
  - cbn [att_ls_impl]. eapply jf_quiet; [apply (tt_eq laws)|]. intros b e0 G0 [N0 Y0]. destruct b.
    + apply (Hyes (LNS k v s1 sz) Hl Hh e0 G0 N0). auto.
    + change (l_visit (LNS k v s1 sz)) with ((k, v) :: [(s_key s1, s_value s1)]) in *. inversion Hh as [|? ? Hk Hh']; subst. inversion Hh' as [|? ? Hs1 _]; subst. cbn [map].
      eapply (jf_cut w _ _ [iL (k, v)]); [apply (att_s_impl_j h s1 s); assumption|unfold y; permut|]. intros t next _ Hn.
      exact (Hno (LNS k v s1 sz) next t Hl Hk Hn e0 G0 N0).
Qed.

(** What is left of a slot of the two maps, where the answer says that it is as in one
    of them, or in either. *)
Definition jsaid (d p : N) (ol or : option (mnode K V)) (y : jres K V R) t : Prop :=
  match y with
  | JLR r => (ol <> None /\ sdone d p ol r t) /\ (or <> None /\ sdone d p or r t)
  | JL r => ol <> None /\ sdone d p ol r t
  | JR r => or <> None /\ sdone d p or r t
  | JN n => sdone d p (nnode n) (nred n) t
  end.

Lemma jsaid_none d p ol or y n t : Forall none n -> jsaid d p ol or y t -> jsaid d p ol or y (n ++ t).
Proof. intros Hn. destruct y; cbn; intuition auto using s_none. Qed.

Lemma lsaid_j d p h n s y t : w_lies w d p h -> lsaid h n s y t -> jsaid d p (Some n) (Some (MS s)) y t.
Proof.
  intros Hl (D1 & D2 & _). apply (l_s_done w d p h _ _ _ Hl) in D1. destruct y as [r|r|r|nn]; cbn [jout jred jsaid] in *; try (split; [discriminate|assumption]); [|assumption].
  split; (split; [discriminate|]); [assumption|]. apply (l_s_done w d p h _ _ _ Hl). apply D2. reflexivity.
Qed.

Lemma an_right_j h nx : hleaf has h (next_mnode nx) ->
  jfull (map iR (m_visit (next_mnode nx))) (an_transform red ck cv (EGeneric (t_f tr)) nx) (fun t y => ldone h (tout (next_mnode nx) y) (tred y) t).
Proof. intros H. rewrite <- (tt_ck laws), <- (tt_cv laws). apply (an_transform_j w tr h). exact H. Qed.

Lemma att_apart_j n d p h h' wd wd' this right : told_apart w n d p h h' wd wd' -> hleaf has h (next_mnode this) -> hleaf has h' (next_mnode right) ->
  jpast n (map iL (m_visit (next_mnode this)) ++ map iR (m_visit (next_mnode right)))
    (att_apart red ck cv (EGeneric (t_f tl)) (EGeneric (t_f tr)) this right wd wd' d)
    (fun t y => jsaid d p (Some (next_mnode this)) (Some (next_mnode right)) y t).
Proof.
  intros HT H1 H2. unfold att_apart. eapply jp_cut; [apply jp_full, (an_transform_j w tl h); assumption|reflexivity|]. intros t1 l G1 D1.
  eapply (jp_cut w _ _ _ []); [apply jp_full, (an_right_j h'); assumption|rewrite app_nil_r; reflexivity|]. intros t2 r G2 D2. rewrite <- app_assoc.
  apply (aflags_j w n (t1 ++ t2) d p h h' _ _ _ _ _ HT). intros lf rf Hf. cbn beta in D1, D2.
  pose proof (ta_l _ _ _ _ _ _ _ _ HT) as L1. pose proof (ta_l' _ _ _ _ _ _ _ _ HT) as L2.
  destruct (tout (next_mnode this) l) as [a|] eqn:Ha; [destruct (tout (next_mnode right) r) as [b|] eqn:Hb|].
  - eapply (jp_cut w _ _ [] []); [apply (apair_j w n d p h h' wd wd' a b _ _ _ _ (t1 ++ t2) lf rf HT Hf D1 D2)|reflexivity|].
    intros t3 z _ HZ. apply jp_full, jf_ret. rewrite app_nil_r. exact HZ.
  - eapply jp_quiet; [apply w_calls_red|]. intros z e3 _ He3. apply jp_full, jf_ret.
    pose proof (one_done w d p h h' (Some a) None _ _ _ _ _ _ L1 L2 D1 D2 He3 (or_intror eq_refl)) as HO. cbn [orelse] in HO.
    destruct l as [lr|nn]; cbn [t_with t_left tout] in *; [injection Ha as <-; split; [discriminate|exact HO]|].
    cbn [jsaid]. rewrite nnode_with, nred_with, Ha. exact HO.
  - eapply jp_quiet; [apply w_calls_red|]. intros z e3 _ He3. apply jp_full, jf_ret.
    pose proof (one_done w d p h h' None _ _ _ _ _ _ _ L1 L2 D1 D2 He3 (or_introl eq_refl)) as HO. cbn [orelse] in HO.
    destruct r as [lr|nn]; cbn [t_with t_right tout] in *; [split; [discriminate|exact HO]|].
    cbn [jsaid]. rewrite nnode_with, nred_with. exact HO.
Qed.

Lemma tell k v h : has h (k, v) -> calls good (w_told w) (ky_hash ky k) [] (fun x e => see e = ItNone /\ w_tells w e h x).
Proof. intros H. eapply calls_weak; [|apply (tt_hash laws)]. intros y e _ [H1 H2]. split; [assumption|]. eapply H2. exact H. Qed.
Lemma tell' k v h : has h (k, v) -> calls good (w_told w) (ky_hash' ky k) [] (fun x e => see e = ItNone /\ w_tells w e h x).
Proof. intros H. eapply calls_weak; [|apply (tt_hash' laws)]. intros y e _ [H1 H2]. split; [assumption|]. eapply H2. exact H. Qed.

Lemma att_lsnode_j d p h h' l s : lok l -> Forall (has h) (l_visit l) -> has h' (s_key s, s_value s) -> w_lies w d p h -> w_lies w d p h' -> tame m ->
  jfull (map iL (l_visit l) ++ [iR (s_key s, s_value s)]) (att_lsnode red ck cv ky both (EGeneric (t_f tl)) (EGeneric (t_f tr)) l s d)
    (fun t y => jsaid d p (Some (ML l)) (Some (MS s)) y t).
Proof.
  intros Hl Hh Hm L1 L2 HT. unfold att_lsnode. eapply jf_weak.
  - eapply (hashes_j w d p h h' _ _ _ _ _ (fun t y => jsaid d p (Some (ML l)) (Some (MS s)) y t)).
    + eapply tell. exact (l_first l _ Hh).
    + eapply tell'. exact Hm.
    + assumption.
    + assumption.
    + intros e e' wd wd' G1 G2 T1 T2 Heq. eapply jf_weak; [apply (att_ls_impl_j h l s); [|assumption..]|].
      * exact (tt_moved laws _ _ _ _ _ _ G2 G1 T2 T1 (eq_sym Heq) _ Hm).
      * intros t y _ Hy. exact (lsaid_j d p h _ _ _ _ L1 Hy).
    + intros n wd wd' HA. apply (att_apart_j n d p h h' wd wd' (NL l) (NS s) HA); split; try assumption; [exact Logic.I|]. repeat constructor. exact Hm.
  - intros t y _ (n & t' & Hn & -> & Hd). apply jsaid_none; assumption.
Qed.

Lemma att_snode_j d p h h' s1 s : has h (s_key s1, s_value s1) -> has h' (s_key s, s_value s) -> w_lies w d p h -> w_lies w d p h' ->
  jfull [iL (s_key s1, s_value s1); iR (s_key s, s_value s)] (att_snode red ck cv ky both (EGeneric (t_f tl)) (EGeneric (t_f tr)) s1 s d)
    (fun t y => jsaid d p (Some (MS s1)) (Some (MS s)) y t).
Proof.
  intros Hh Hm L1 L2. unfold att_snode. eapply jf_weak.
  - eapply (hashes_j w d p h h' _ _ _ _ _ (fun t y => jsaid d p (Some (MS s1)) (Some (MS s)) y t)).
    + eapply tell. exact Hh.
    + eapply tell'. exact Hm.
    + assumption.
    + assumption.
    + intros e e' wd wd' G1 G2 T1 T2 Heq. eapply jf_weak; [apply (att_s_impl_j h s1 s); [assumption|]|].
      * exact (tt_moved laws _ _ _ _ _ _ G2 G1 T2 T1 (eq_sym Heq) _ Hm).
      * intros t y _ Hy. exact (lsaid_j d p h _ _ _ _ L1 Hy).
    + intros n wd wd' HA. apply (att_apart_j n d p h h' wd wd' (NS s1) (NS s) HA); split; try exact Logic.I; repeat constructor; assumption.
  - intros t y _ (n & t' & Hn & -> & Hd). apply jsaid_none; assumption.
Qed.

End TT.
