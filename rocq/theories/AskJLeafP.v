(** Two leaves or collision lists of the two maps of a joint operation, whatever the
    client's code answers: transform_with_transmuted and transmute_with_transformed. *)
From Coq Require Import NArith Arith List Bool Lia ZifyBool ZifyN ZifyNat Permutation.
From Verif Require Import Base Words WordsP Flag FlagP Bia BiaP Node Inv InsertP Api Trans Transform Joint Profile Eff EffP EffTP EffApi Ask AskP AskHashP AskT SpecAskT JoinP JointLeafP LoopP TransformP
  PermP AskTP AskTTP AskJ AskJP AskJOneP.
Import ListNotations.
Open Scope N_scope.

(** * Panics explained by earlier calls *)
Section Past.
Context {E : Env} {Q : Type} {A : Q -> Type} {S X R I C U : Type} (w : world A S X R I C U).
Notation event := (event (A := A)).
Notation trace := (list event).
Implicit Types tr t : trace.
Notation good := (w_good w).
Notation see := (w_see w).
Notation none := (none w).

Definition jpast {Y} (n : trace) (us : list U) (p : prog A Y) (G : trace -> Y -> Prop) : Prop :=
  gs good p (fun tr o => exists rest, Permutation (flat_map (w_told w) tr ++ rest) us /\
    match o with Ret y => rest = [] /\ G tr y | Panic => w_bad w (n ++ tr) | Diverge => w_stuck w end).

Lemma jp_full {Y} n us (p : prog A Y) G : jfull w us p G -> jpast n us p G.
Proof.
  intros H tr o He Hg. destruct (H tr o He Hg) as (rest & H1 & H2). exists rest. split; [assumption|].
  destruct o; [assumption|apply bad_app; assumption|assumption].
Qed.
Lemma jf_past {Y} us (p : prog A Y) G : jpast [] us p G -> jfull w us p G.
Proof. intros H. exact H. Qed.

Lemma jp_cut {Y Z} n us us1 us2 (p : prog A Y) (k : Y -> prog A Z) (P : trace -> Y -> Prop) G : jpast n us1 p P -> Permutation us (us1 ++ us2) ->
  (forall t y, Forall good t -> P t y -> jpast (n ++ t) us2 (k y) (fun t' => G (t ++ t'))) -> jpast n us (pbind p k) G.
Proof.
  intros H1 HP H2. eapply gs_bind; [exact H1|..].
  - intros t y Ht (rest & Hr & -> & HPy). rewrite app_nil_r in Hr. eapply gs_weak; [apply (H2 t y Ht HPy)|].
    intros t' o (rest' & Hr' & Ho). exists rest'. split; [rewrite flat_map_app, <- app_assoc, Hr', Hr; symmetry; exact HP|].
    destruct o; [assumption|rewrite app_assoc; assumption|assumption].
  - intros t (rest & Hr & Hb). exists (rest ++ us2). split; [rewrite app_assoc, Hr; symmetry; exact HP|]. assumption.
  - intros t (rest & Hr & Hb). exists (rest ++ us2). split; [rewrite app_assoc, Hr; symmetry; exact HP|]. assumption.
Qed.
Lemma jp_quiet {Y Z} n us (p : prog A Y) (k : Y -> prog A Z) it G : calls good (w_told w) p [] it ->
  (forall y e, good e -> it y e -> jpast (n ++ [e]) us (k y) (fun t' => G (e :: t'))) -> jpast n us (pbind p k) G.
Proof.
  intros H1 H2. eapply (jp_cut n us [] us); [apply jp_full, calls_full; exact H1|reflexivity|].
  intros t y Ht (e & -> & Hi). inversion Ht. apply H2; assumption.
Qed.
Lemma jp_weak {Y} n us (p : prog A Y) (P G : trace -> Y -> Prop) : jpast n us p P -> (forall t y, Forall good t -> P t y -> G t y) -> jpast n us p G.
Proof.
  intros H1 H2 t o He Ht. destruct (H1 t o He Ht) as (rest & Hr & Ho). exists rest. split; [assumption|].
  destruct o; [|assumption..]. destruct Ho. auto.
Qed.
Lemma jp_lift {Y Z} n us (o : outcome Y) (k : Y -> prog A Z) G :
  match o with Ret y => jpast n us (k y) G | Panic => w_bad w n | Diverge => w_stuck w end -> jpast n us (pbind (lift o) k) G.
Proof.
  destruct o as [y| |]; cbn [lift pbind]; intros H; [exact H|..]; intros tr o He Hg.
  - destruct He as [-> ->]. exists us. rewrite app_nil_r. auto.
  - destruct He as [-> ->]. exists us. auto.
Qed.

Lemma js_cut0 {Y Z} us (p : prog A Y) (k : Y -> prog A Z) (P : trace -> Y -> Prop) G : jfull w [] p P ->
  (forall t y, Forall good t -> P t y -> jspec w us (k y) (fun t' => G (t ++ t'))) -> jspec w us (pbind p k) G.
Proof. intros H1 H2. apply (js_cut w us [] us p k P G H1); [reflexivity|exact H2]. Qed.
Lemma js_frame {Y} us us2 (p : prog A Y) (P : trace -> Y -> list U -> Prop) : jspec w us p P ->
  jspec w (us ++ us2) p (fun t y rest => exists rest1, rest = rest1 ++ us2 /\ P t y rest1).
Proof.
  intros H tr o He Hg. destruct (H tr o He Hg) as (rest & H1 & H2). exists (rest ++ us2). split; [rewrite app_assoc, H1; reflexivity|].
  destruct o; [|assumption..]. exists rest. auto.
Qed.

(** * Two leaves apart *)
Lemma s_none d p n on r t : Forall none n -> sdone w d p on r t -> sdone w d p on r (n ++ t).
Proof. intros Hn [H1 H2]. split; [apply jd_none; assumption|assumption]. Qed.

Definition orelse {B} (a b : option B) : option B := match a with Some _ => a | None => b end.

Lemma one_done d p h h' oa ob x y z t1 t2 e : w_lies w d p h -> w_lies w d p h' -> ldone w h oa x t1 -> ldone w h' ob y t2 -> see e = ItReduce x y z ->
  oa = None \/ ob = None -> sdone w d p (orelse oa ob) z (t1 ++ t2 ++ [e]).
Proof.
  intros Hl Hl' D1 D2 He Hn. apply (l_s_done _ d p) in D1; [|assumption]. apply (l_s_done _ d p) in D2; [|assumption].
  destruct D1 as [D1 L1], D2 as [D2 L2]. split.
  - eapply jd_join; [exact D1|exact D2|exact He|reflexivity|]. destruct Hn as [-> | ->]; [reflexivity|]. destruct oa; cbn [orelse ovisit]; rewrite ?app_nil_r; reflexivity.
  - destruct oa; cbn [orelse]; assumption.
Qed.

(** The two leaves' hashes as they were told, and the leaves placed by them. *)
Record told_apart (n : trace) (d p h h' : N) (wd wd' : word) : Prop := {
  ta_e : exists e e', In e n /\ In e' n /\ good e /\ good e' /\ w_tells w e h wd /\ w_tells w e' h' wd';
  ta_l : w_lies w d p h;
  ta_l' : w_lies w d p h';
  ta_neq : same_hash wd wd' = false
}.

Lemma incl2 (e e' : event) n m : In e n -> In e' n -> incl [e; e'] (n ++ m).
Proof. intros H H' x [<-|[<-|[]]]; apply in_or_app; auto. Qed.

Lemma apair_j n d p h h' wd wd' a b x y t1 t2 m lf rf : told_apart n d p h h' wd wd' -> aflags wd wd' d = Ret (lf, rf) ->
  ldone w h (Some a) x t1 -> ldone w h' (Some b) y t2 ->
  jpast (n ++ m) [] (apair (w_red w) a lf b rf x y) (fun t r => sdone w d p (nnode r) (nred r) (t1 ++ t2 ++ t)).
Proof.
  intros [(e & e' & I1 & I2 & G1 & G2 & T1 & T2) L1 L2 Hne] Hf [[D1 F1] Y1] [[D2 F2] Y2]. unfold apair. apply jp_lift.
  pose proof (w_apart w _ _ _ _ _ _ _ _ G1 G2 T1 T2 L1 L2 Hne) as H. rewrite Hf in H.
  specialize (H a b (conj (Y1 _ eq_refl) F1) (conj (Y2 _ eq_refl) F2)). destruct (cnode_lift a lf b rf) as [c| |]; [|eapply (w_incl w); [apply (incl2 e e'); assumption|exact H]|destruct H].
  destruct H as [H1 H2]. eapply jp_quiet; [apply w_calls_red|]. intros z e3 _ He3. apply jp_full, jf_ret. cbn [nnode nred]. split.
  - eapply jd_join; [exact D1|exact D2|exact He3|reflexivity|]. exact H2.
  - intros n' [= <-]. exact H1.
Qed.

Lemma aflags_j {Y} n m d p h h' wd wd' us (k : Flag -> Flag -> prog A Y) G : told_apart n d p h h' wd wd' ->
  (forall lf rf, aflags wd wd' d = Ret (lf, rf) -> jpast (n ++ m) us (k lf rf) G) ->
  jpast (n ++ m) us (let+ (lf, rf) := lift (aflags wd wd' d) in k lf rf) G.
Proof.
  intros [(e & e' & I1 & I2 & G1 & G2 & T1 & T2) L1 L2 Hne] H. apply jp_lift.
  pose proof (w_apart w _ _ _ _ _ _ _ _ G1 G2 T1 T2 L1 L2 Hne) as HA.
  destruct (aflags wd wd' d) as [[lf rf]| |]; [apply H; reflexivity|eapply (w_incl w); [apply (incl2 e e'); assumption|exact HA]|destruct HA].
Qed.

(** Both hashes are asked for first. *)
Lemma hashes_j {Y} d p ha hb us (ph ph' : prog A word) (same : prog A Y) (apart : word -> word -> prog A Y) G :
  calls good (w_told w) ph [] (fun x e => see e = ItNone /\ w_tells w e ha x) ->
  calls good (w_told w) ph' [] (fun x e => see e = ItNone /\ w_tells w e hb x) ->
  w_lies w d p ha -> w_lies w d p hb ->
  (forall e e' wd wd', good e -> good e' -> w_tells w e ha wd -> w_tells w e' hb wd' -> proj1_sig wd = proj1_sig wd' -> jfull w us same G) ->
  (forall n wd wd', told_apart n d p ha hb wd wd' -> jpast n us (apart wd wd') G) ->
  jfull w us (let+ wd := ph in let+ wd' := ph' in if same_hash wd wd' then same else apart wd wd')
    (fun t y => exists n t', Forall none n /\ t = n ++ t' /\ G t' y).
Proof.
  intros H1 H2 L1 L2 Hs Ha. apply jf_past. eapply jp_quiet; [exact H1|]. intros wd e Ge [Ne Te]. eapply jp_quiet; [exact H2|]. intros wd' e' Ge' [Ne' Te'].
  cbn [app]. assert (Hw : forall p', jpast [e; e'] us p' G -> jpast [e; e'] us p' (fun t y => exists n t', Forall none n /\ e :: e' :: t = n ++ t' /\ G t' y)).
  { intros p' H. eapply jp_weak; [exact H|]. intros t y _ Hy. exists [e; e'], t. split; [|auto]. constructor; [exact Ne|]. constructor; [exact Ne'|constructor]. }
  apply Hw. unfold same_hash. destruct (N.eqb_spec (proj1_sig wd) (proj1_sig wd')) as [He|He].
  - apply jp_full. exact (Hs e e' wd wd' Ge Ge' Te Te' He).
  - apply Ha. split; [|assumption|assumption|].
    + exists e, e'. split; [left; reflexivity|]. split; [right; left; reflexivity|]. auto.
    + unfold same_hash. apply N.eqb_neq. assumption.
Qed.

Lemma tout_with (n : mnode S X) (t : tres S X R) z : tout n (t_with t z) = tout n t.
Proof. destruct t as [|[]]; reflexivity. Qed.
Lemma tred_with (t : tres S X R) z : tred (t_with t z) = z.
Proof. destruct t as [|[]]; reflexivity. Qed.
Lemma nnode_with (t : nres S X R) z : nnode (n_with t z) = nnode t.
Proof. destruct t; reflexivity. Qed.
Lemma nred_with (t : nres S X R) z : nred (n_with t z) = z.
Proof. destruct t; reflexivity. Qed.

(** * Looking for a key *)
Section Take.
Context {L W : Type} (eq : L -> prog A bool) (yes : trace -> L -> Prop).
Context (Heq : forall k, calls good (w_told w) (eq k) [] (fun b e => see e = ItNone /\ (b = true -> forall t, In e t -> yes t k))).

Lemma aposition_j (rights : list (L * W)) :
  jfull w [] (aposition (fun e => eq (fst e)) rights) (fun t o => Forall none t /\
    match o with Some j => exists y, nth_error rights j = Some y /\ forall t', incl t t' -> yes t' (fst y) | None => True end).
Proof.
  induction rights as [|y rights IH]; cbn [aposition]; [apply jf_ret; split; [constructor|exact Logic.I]|].
  eapply jf_quiet; [apply Heq|]. intros b e0 G0 [N0 Y0]. destruct b.
  - apply jf_ret. split; [repeat constructor; assumption|]. exists y. split; [reflexivity|]. intros t' Ht'. apply Y0; [reflexivity|]. apply Ht'. left. reflexivity.
  - eapply (jf_cut w _ [] []); [exact IH|reflexivity|]. intros t o Ht [Hn Ho]. apply jf_ret. rewrite app_nil_r. split; [constructor; assumption|].
    destruct o as [j|]; cbn [option_map]; [|exact Logic.I]. destruct Ho as (z & Hz & Hy). exists z. split; [exact Hz|]. intros t' Ht'. apply Hy. intros x Hx. apply Ht'. right. assumption.
Qed.

Lemma take_j (rights : list (L * W)) :
  jfull w [] (atake_key eq rights) (fun t o => Forall none t /\
    match o with Some (y, rest) => Permutation rights (y :: rest) /\ forall t', incl t t' -> yes t' (fst y) | None => True end).
Proof.
  unfold atake_key. eapply (jf_cut w _ [] []); [apply aposition_j|reflexivity|]. intros t o Ht [Hn Ho]. apply jf_ret. rewrite app_nil_r. split; [assumption|].
  destruct o as [j|]; [|exact Logic.I]. destruct Ho as (y & Hy & Hyes). destruct (swap_remove j rights) as [[z rest]|] eqn:Hs; [|exact Logic.I].
  assert (z = y) as ->.
  { unfold swap_remove in Hs. rewrite Hy in Hs. injection Hs as <- _. reflexivity. }
  split; [eapply swap_remove_perm; eassumption|assumption].
Qed.
End Take.

End Past.

(** * What the two maps' keys and the closure for both are asked *)
Record tmlaws {E : Env} {Q : Type} {A : Q -> Type} {K V R I C U : Type} (w : world A K V R I C U) (ts : tside w) {L W : Type} (ms : mside w L W)
  (ky : keyed A K L) (both : (K * V) * (L * W) -> prog A (vres V R)) (yes : list (event (A := A)) -> K -> L -> Prop) : Prop := {
  tj_both : forall x y, calls (w_good w) (w_told w) (both (x, y)) [t_inj ts x; m_inj ms y] (fun o e => exists i, w_see w e = ItOp i /\ t_vi ts i x o /\
    (forall t, In e t -> yes t (fst x) (fst y) -> w_called w t i) /\ (forall h, w_has w h x -> m_has ms h y -> w_ihas w h i));
  tj_eq : forall k k', calls (w_good w) (w_told w) (ky_eq ky k k') [] (fun b e => w_see w e = ItNone /\ (b = true -> forall t, In e t -> yes t k k'));
  tj_eq' : forall k k', calls (w_good w) (w_told w) (ky_eq' ky k' k) [] (fun b e => w_see w e = ItNone /\ (b = true -> forall t, In e t -> yes t k k'));
  tj_hash : forall k, calls (w_good w) (w_told w) (ky_hash ky k) [] (fun x e => w_see w e = ItNone /\ forall h v, w_has w h (k, v) -> w_tells w e h x);
  tj_hash' : forall k, calls (w_good w) (w_told w) (ky_hash' ky k) [] (fun x e => w_see w e = ItNone /\ forall h v, m_has ms h (k, v) -> w_tells w e h x)
}.
Arguments tj_both {E Q A K V R I C U w ts L W ms ky both yes}.
Arguments tj_eq {E Q A K V R I C U w ts L W ms ky both yes}.
Arguments tj_eq' {E Q A K V R I C U w ts L W ms ky both yes}.
Arguments tj_hash {E Q A K V R I C U w ts L W ms ky both yes}.
Arguments tj_hash' {E Q A K V R I C U w ts L W ms ky both yes}.

Section TM.
Context {E : Env} {Q : Type} {A : Q -> Type} {K V R I C U : Type} {w : world A K V R I C U} {ts : tside w} {L W : Type} {ms : mside w L W}.
Notation event := (event (A := A)).
Notation trace := (list event).
Implicit Types tr t : trace.
Notation good := (w_good w).
Notation see := (w_see w).
Notation red := (w_red w).
Notation ck := (t_ck ts).
Notation cv := (t_cv ts).
Notation none := (none w).
Notation jspec := (jspec w).
Notation jfull := (jfull w).
Notation jpast := (jpast w).
Notation hdone := (hdone w).
Notation ldone := (ldone w).
Notation sdone := (sdone w).
Notation vsaid := (vsaid w ts).
Notation ksaid := (ksaid w).
Notation iT := (t_inj ts).
Notation iM := (m_inj ms).
Notation has := (w_has w).
Notation mhas := (m_has ms).

(** ** transform_with_transmuted *)
Section Laws.
Context {ky : keyed A K L} {both : (K * V) * (L * W) -> prog A (vres V R)} {yes : trace -> K -> L -> Prop} (laws : tmlaws w ts ms ky both yes).

Lemma vsaid_both h x (y : L * W) o n e i : good e -> see e = ItOp i -> t_vi ts i x o -> (forall t, In e t -> yes t (fst x) (fst y) -> w_called w t i) -> w_ihas w h i ->
  Forall none n -> Forall good n -> (forall t, incl n t -> yes t (fst x) (fst y)) -> vsaid h n e i x o.
Proof.
  intros H1 H2 H3 H4 H5 H6 H7 H8. split; [assumption|]. split; [assumption|]. split; [assumption|]. split; [|split; [assumption|]].
  - intros t Ht. apply H4; [apply Ht, in_or_app; right; left; reflexivity|]. apply H8. intros x' Hx'. apply Ht, in_or_app. left. assumption.
  - apply Forall_app. split; [assumption|]. repeat constructor. assumption.
Qed.

(** The order in which two entries are answered does not matter to what they become. *)
Lemma two_said h x o (y : L * W) o' n e i e' i' : Forall none n -> Forall good n -> vsaid h [] e i x o -> ksaid h [] e' i' o' ->
  forall s, x = (s_key s, s_value s) ->
  jfull [] (match o, o' with
    | VUnchanged lr, KTransmuted rk rv rr => let+ z := red lr rr in PRet (TN (NRL (l_new rk rv (NS s)) z))
    | VUnchanged lr, KDropped rr => let+ z := red lr rr in PRet (TU z)
    | VTransformed lv lr, KTransmuted rk rv rr =>
        let+ k := ck (s_key s) in
        let+ z := red lr rr in PRet (TN (NRL (l_new rk rv (NS (SN k lv))) z))
    | VTransformed lv lr, KDropped rr =>
        let+ k := ck (s_key s) in
        let+ z := red lr rr in PRet (TN (NRS (SN k lv) z))
    | VDropped lr, KTransmuted rk rv rr => let+ z := red lr rr in PRet (TN (NRS (SN rk rv) z))
    | VDropped lr, KDropped rr => let+ z := red lr rr in PRet (TN (NRZ z))
    end) (fun t r => ldone h (tout (MS s) r) (tred r) (n ++ [e; e'] ++ t)).
Proof.
  intros Hn Hg HV HK s ->. pose proof (k_said _ _ _ _ _ _ HK) as DK.
  assert (HU : forall cs out lr z e3 r, hdone h out lr (e :: cs) -> see e3 = ItReduce lr (kr o') z ->
    Permutation (ovisit (tout (MS s) r)) (out ++ kout o') -> tred r = z -> (forall n', tout (MS s) r = Some n' -> leafy n') ->
    ldone h (tout (MS s) r) (tred r) (n ++ [e; e'] ++ cs ++ [e3])).
  { intros cs out lr z e3 r H1 H2 H3 H4 H5. split; [|exact H5]. rewrite H4. apply hd_none; [assumption|].
    eapply hd_join; [exact H1|exact DK|exact H2|permut|exact H3]. }
  destruct o as [lr|lv lr|lr], o' as [rk rv rr|rr]; cbn [kr kout] in *.
  - eapply jf_quiet; [apply w_calls_red|]. intros z e3 _ He3. apply jf_ret.
    eapply (HU []); [apply (v_same _ _ _ _ _ _ _ _ HV)|exact He3|apply perm_swap|reflexivity|]. intros n' [= <-]. apply (l_new_leafy rk rv (NS s)). exact Logic.I.
  - eapply jf_quiet; [apply w_calls_red|]. intros z e3 _ He3. apply jf_ret.
    eapply (HU []); [apply (v_same _ _ _ _ _ _ _ _ HV)|exact He3|reflexivity|reflexivity|]. intros n' [= <-]. exact Logic.I.
  - eapply jf_quiet; [apply (t_calls_ck ts)|]. intros k' e1 G1 [G2 G3]. eapply jf_quiet; [apply w_calls_red|]. intros z e3 _ He3. apply jf_ret.
    eapply (HU [e1]); [apply (v_new _ _ _ _ _ _ _ _ _ _ _ _ HV G1 G2 G3)|exact He3|apply perm_swap|reflexivity|].
    intros n' [= <-]. apply (l_new_leafy rk rv (NS (SN k' lv))). exact Logic.I.
  - eapply jf_quiet; [apply (t_calls_ck ts)|]. intros k' e1 G1 [G2 G3]. eapply jf_quiet; [apply w_calls_red|]. intros z e3 _ He3. apply jf_ret.
    eapply (HU [e1]); [apply (v_new _ _ _ _ _ _ _ _ _ _ _ _ HV G1 G2 G3)|exact He3|reflexivity|reflexivity|]. intros n' [= <-]. exact Logic.I.
  - eapply jf_quiet; [apply w_calls_red|]. intros z e3 _ He3. apply jf_ret.
    eapply (HU []); [apply (v_drop _ _ _ _ _ _ _ _ HV)|exact He3|reflexivity|reflexivity|]. intros n' [= <-]. exact Logic.I.
  - eapply jf_quiet; [apply w_calls_red|]. intros z e3 _ He3. apply jf_ret.
    eapply (HU []); [apply (v_drop _ _ _ _ _ _ _ _ HV)|exact He3|reflexivity|reflexivity|]. discriminate.
Qed.

(** The closure for both, on a leaf. *)
Lemma one_said h s o n e i : vsaid h n e i (s_key s, s_value s) o ->
  jfull [] (match o with
    | VUnchanged r => PRet (TU r)
    | VTransformed v r => let+ k := ck (s_key s) in PRet (TN (NRS (SN k v) r))
    | VDropped r => PRet (TN (NRZ r))
    end) (fun t r => ldone h (tout (MS s) r) (tred r) ((n ++ [e]) ++ t)).
Proof.
  intros HS. destruct o as [r|v r|r].
  - apply jf_ret. rewrite app_nil_r. split; [apply (v_same _ _ _ _ _ _ _ _ HS)|intros n' [= <-]; exact Logic.I].
  - eapply jf_quiet; [apply (t_calls_ck ts)|]. intros k' e1 G1 [G2 G3]. apply jf_ret. rewrite <- app_assoc.
    split; [apply (v_new _ _ _ _ _ _ _ _ _ _ _ _ HS G1 G2 G3)|intros n' [= <-]; exact Logic.I].
  - apply jf_ret. rewrite app_nil_r. split; [apply (v_drop _ _ _ _ _ _ _ _ HS)|discriminate].
Qed.

Lemma atm_s_impl_j h s y : has h (s_key s, s_value s) -> mhas h y ->
  jfull [iT (s_key s, s_value s); iM y] (atm_s_impl red ck ky (EGeneric both) (EGeneric (t_f ts)) (EMGeneric (m_f ms)) s y)
    (fun t r => ldone h (tout (MS s) r) (tred r) t).
Proof.
  intros H1 H2. unfold atm_s_impl. eapply jf_quiet; [apply (tj_eq laws)|]. intros b e0 G0 [N0 Y0]. destruct b.
  - cbn [etcall]. eapply (jf_call w _ _ []); [apply (tj_both laws)|reflexivity|]. intros o e Ge (i & I1 & I2 & I3 & I4).
    apply (one_said h s o [e0] e i). apply (vsaid_both h (s_key s, s_value s) y); auto.
    intros t Ht. apply Y0; [reflexivity|]. apply Ht. left. reflexivity.
  - cbn [etcall emcall]. eapply (jf_call w _ _ [iM y]); [apply (t_calls_f ts)|reflexivity|]. intros o e Ge (i & I1 & I2 & I3 & I4).
    eapply (jf_call w _ _ []); [apply (m_calls_f ms)|reflexivity|]. intros o' e' Ge' (i' & J1 & J2 & J3 & J4).
    apply (two_said h (s_key s, s_value s) o y o' [e0] e i e' i'); auto.
    + apply vsaid_call; auto.
    + eapply ksaid_call; eauto.
Qed.

Lemma atake_j k (rights : list (L * W)) :
  jfull [] (atake_key (ky_eq ky k) rights) (fun t o => Forall none t /\
    match o with Some (y, rest) => Permutation rights (y :: rest) /\ forall t', incl t t' -> yes t' k (fst y) | None => True end).
Proof. apply (take_j w (ky_eq ky k) (fun t => yes t k)). intros k'. apply (tj_eq laws). Qed.

(** lnode.rs:533-536: this entry, after the rest of the list. *)
Lemma atm_l_tail_j h l next rights t0 : lok l -> has h (l_key l, l_value l) -> Forall (mhas h) rights -> ldone h (tout (lrest l) next) (tred next) t0 ->
  jspec (iT (l_key l, l_value l) :: map iM rights)
    (let+ o := atake_key (ky_eq ky (l_key l)) rights in
     let+ (result, rights) :=
       match o with
       | Some (e, rights) => let+ o := etcall (EGeneric both) ((l_key l, l_value l), e) in PRet (o, rights)
       | None => let+ o := etcall (EGeneric (t_f ts)) (l_key l, l_value l) in PRet (o, rights)
       end in
     let+ z := al_transform_result red ck cv l result next in
     PRet (z, rights))
    (fun t y rest => rest = map iM (snd y) /\ Forall (mhas h) (snd y) /\ ldone h (tout (ML l) (fst y)) (tred (fst y)) (t0 ++ t)).
Proof.
  intros Hl Hh Hr HD. eapply js_cut0; [apply atake_j|]. intros n o Hn [Nn Ho].
  apply (js_bind w _ _ _ (fun t y rest => exists e i, t = [e] /\ rest = map iM (snd y) /\ Forall (mhas h) (snd y) /\ vsaid h n e i (l_key l, l_value l) (fst y))).
  - destruct o as [[y rest]|]; cbn [etcall].
    + destruct Ho as [HP Hy]. apply (js_perm w ([iT (l_key l, l_value l); iM y] ++ map iM rest)).
      { rewrite (Permutation_map iM HP). reflexivity. }
      assert (Hr' : Forall (mhas h) (y :: rest)) by (eapply Permutation_Forall; eassumption). inversion Hr' as [|? ? Hmy Hrest]; subst.
      eapply js_call; [apply (tj_both laws)|reflexivity|]. intros o e Ge (i & I1 & I2 & I3 & I4). apply js_ret.
      exists e, i. split; [reflexivity|]. split; [reflexivity|]. split; [assumption|]. cbn [fst]. apply (vsaid_both h (l_key l, l_value l) y); auto.
    + eapply (js_call w _ _ (map iM rights)); [apply (t_calls_f ts)|reflexivity|]. intros o e Ge (i & I1 & I2 & I3 & I4). apply js_ret.
      exists e, i. split; [reflexivity|]. split; [reflexivity|]. split; [assumption|]. cbn [fst].
      split; [assumption|]. split; [assumption|]. split; [assumption|]. split; [|split; [auto|]].
      * intros t Ht. apply I3, Ht, in_or_app. right. left. reflexivity.
      * apply Forall_app. split; [assumption|]. repeat constructor. assumption.
  - intros t [result rights'] rest Ht (e & i & -> & -> & Hm & HS). cbn [fst snd] in *.
    eapply js_cut0; [apply (al_result_j w ts h l result next t0 n e i Hl HD HS)|]. intros t y _ Hy. apply js_ret.
    cbn [fst snd]. split; [reflexivity|]. split; [assumption|]. rewrite app_nil_r. cbn beta in Hy. rewrite <- app_assoc in Hy. exact Hy.
Qed.

Lemma atm_l_impl_j h l : forall rights, lok l -> Forall (has h) (l_visit l) -> Forall (mhas h) rights ->
  jspec (map iT (l_visit l) ++ map iM rights) (atm_l_impl red ck cv ky (EGeneric both) (EGeneric (t_f ts)) (EMGeneric (m_f ms)) l rights)
    (fun t y rest => rest = map iM (snd y) /\ Forall (mhas h) (snd y) /\ ldone h (tout (ML l) (fst y)) (tred (fst y)) t).
Proof.
  induction l as [k v n IH sz|k v s sz]; intros rights Hl Hh Hr.
  - cbn [l_visit map] in *. inversion Hh as [|? ? Hk Hh']; subst.
    apply (js_perm w ((map iT (l_visit n) ++ map iM rights) ++ [iT (k, v)])); [permut|]. cbn [atm_l_impl].
    eapply js_bind; [apply js_frame, IH; [apply Hl|assumption|assumption]|]. intros t [next rights'] rest Ht (rest1 & -> & -> & Hm & Hy). cbn [fst snd] in *.
    apply (js_perm w (iT (k, v) :: map iM rights')); [permut|].
    exact (atm_l_tail_j h (LNL k v n sz) next rights' t Hl Hk Hm Hy).
  - change (l_visit (LNS k v s sz)) with ((k, v) :: [(s_key s, s_value s)]) in *. inversion Hh as [|? ? Hk Hh']; subst. inversion Hh' as [|? ? Hs _]; subst.
    cbn [atm_l_impl map]. set (kv := (s_key s, s_value s)) in *.
    apply (js_bind w _ _ _ (fun t y rest => rest = map iM (snd y) ++ [iT (k, v)] /\ Forall (mhas h) (snd y) /\ ldone h (tout (MS s) (fst y)) (tred (fst y)) t)).
    + eapply js_cut0; [apply atake_j|]. intros n o Hn [Nn Ho]. destruct o as [[y rest]|].
      * destruct Ho as [HP Hy]. assert (Hr' : Forall (mhas h) (y :: rest)) by (eapply Permutation_Forall; eassumption). inversion Hr' as [|? ? Hmy Hrest]; subst.
        apply (js_perm w ([iT kv; iM y] ++ map iM rest ++ [iT (k, v)])).
        { rewrite (Permutation_map iM HP). cbn [map]. permut. }
        eapply (js_cut w _ _ (map iM rest ++ [iT (k, v)])); [apply (atm_s_impl_j h s y); assumption|reflexivity|]. intros t r _ [D1 D2]. apply js_ret. cbn [fst snd]. rewrite app_nil_r.
        split; [reflexivity|]. split; [assumption|]. split; [apply hd_none; assumption|assumption].
      * eapply (js_cut w _ [iT kv] (map iM rights ++ [iT (k, v)])); [apply (as_transform_j w ts h s); assumption|permut|]. intros t r _ [D1 D2]. apply js_ret. cbn [fst snd]. rewrite app_nil_r.
        split; [reflexivity|]. split; [assumption|]. split; [apply hd_none; assumption|assumption].
    + intros t [next rights'] rest Ht (-> & Hm & Hy). cbn [fst snd] in *.
      apply (js_perm w (iT (k, v) :: map iM rights')); [permut|].
      exact (atm_l_tail_j h (LNS k v s sz) next rights' t Hl Hk Hm Hy).
Qed.

Lemma atm_rest_j h l rights : lok l -> Forall (mhas h) rights -> Forall (has h) (l_visit l) -> forall next t0, ldone h (tout (ML l) next) (tred next) t0 ->
  jfull (map iM rights) (atm_rest red (EMGeneric (m_f ms)) l rights next) (fun t y => ldone h (tout (ML l) y) (tred y) (t0 ++ t)).
Proof.
  intros Hl Hm Hh. induction Hm as [|y rights Hy Hm IH]; intros next t0 [D1 D2]; cbn [atm_rest map].
  - apply jf_ret. rewrite app_nil_r. split; assumption.
  - cbn [emcall]. eapply (jf_call w _ _ (map iM rights)); [apply (m_calls_f ms)|reflexivity|]. intros o e Ge (i & I1 & I2 & I3 & I4).
    pose proof (k_said _ _ _ _ _ _ (ksaid_call w ms h _ _ _ Ge I1 I2 I3 (I4 h Hy))) as HK.
    eapply (jf_cut w _ [] (map iM rights) _ _ (fun t z => ldone h (tout (ML l) z) (tred z) (t0 ++ [e] ++ t))); [|reflexivity|].
    + destruct o as [rk rv rr|rr]; (eapply jf_quiet; [apply w_calls_red|]); intros z e3 _ He3; apply jf_ret.
      * assert (HT : ovisit (tout (ML l) (t_cons (NL l) rk rv next z)) = (rk, rv) :: ovisit (tout (ML l) next) /\ tred (t_cons (NL l) rk rv next z) = z /\
          forall n', tout (ML l) (t_cons (NL l) rk rv next z) = Some n' -> leafy n').
        { destruct next as [r|[c r|m r|s r|r]]; cbn [t_cons n_cons tout nnode tred nred ovisit] in *; try (exfalso; exact (D2 _ eq_refl));
            (split; [reflexivity|split; [reflexivity|]]); intros n' [= <-].
          - apply (l_new_leafy rk rv (NL l)). exact Hl.
          - apply (l_new_leafy rk rv (NL m)). apply (D2 _ eq_refl).
          - apply (l_new_leafy rk rv (NS s)). exact Logic.I.
          - exact Logic.I. }
        destruct HT as (H1 & H2 & H3). split; [|exact H3]. rewrite H1, H2. eapply hd_join; [exact HK|exact D1|exact He3|cbn [app]; permut|reflexivity].
      * rewrite tout_with, tred_with. split; [|exact D2]. eapply hd_join; [exact HK|exact D1|exact He3|cbn [app]; permut|reflexivity].
    + intros t z _ Hz. eapply jf_weak; [apply (IH z _ Hz)|]. intros t' z' _ Hz'. cbn beta in Hz'. rewrite <- !app_assoc in Hz'. exact Hz'.
Qed.

Lemma atm_apart_j n d p h h' wd wd' this right : told_apart w n d p h h' wd wd' -> hleaf has h (next_mnode this) -> hleaf mhas h' (next_mnode right) ->
  jpast n (map iT (m_visit (next_mnode this)) ++ map iM (m_visit (next_mnode right)))
    (atm_apart red ck cv (EGeneric (t_f ts)) (EMGeneric (m_f ms)) this right wd wd' d)
    (fun t y => sdone d p (tout (next_mnode this) y) (tred y) t).
Proof.
  intros HT H1 [H2 H3]. unfold atm_apart. eapply jp_cut; [apply jp_full, (an_transform_j w ts h); assumption|reflexivity|]. intros t1 l G1 D1.
  eapply (jp_cut w _ _ _ []); [apply jp_full, (an_transmute_j w ms h'); assumption|rewrite app_nil_r; reflexivity|]. intros t2 r G2 D2. rewrite <- app_assoc.
  apply (aflags_j w n (t1 ++ t2) d p h h' _ _ _ _ _ HT). intros lf rf Hf. cbn beta in D1, D2.
  destruct (tout (next_mnode this) l) as [a|] eqn:Ha; [destruct (nnode r) as [b|] eqn:Hb|].
  - eapply (jp_cut w _ _ [] []); [apply (apair_j w n d p h h' wd wd' a b _ _ _ _ (t1 ++ t2) lf rf HT Hf D1 D2)|reflexivity|].
    intros t3 z _ HZ. apply jp_full, jf_ret. rewrite app_nil_r. exact HZ.
  - eapply jp_quiet; [apply w_calls_red|]. intros z e3 _ He3. apply jp_full, jf_ret. rewrite tout_with, tred_with, Ha.
    exact (one_done w d p h h' (Some a) None _ _ _ _ _ _ (ta_l _ _ _ _ _ _ _ _ HT) (ta_l' _ _ _ _ _ _ _ _ HT) D1 D2 He3 (or_intror eq_refl)).
  - eapply jp_quiet; [apply w_calls_red|]. intros z e3 _ He3. apply jp_full, jf_ret. cbn [tout tred]. rewrite nnode_with, nred_with.
    exact (one_done w d p h h' None _ _ _ _ _ _ _ (ta_l _ _ _ _ _ _ _ _ HT) (ta_l' _ _ _ _ _ _ _ _ HT) D1 D2 He3 (or_introl eq_refl)).
Qed.

Lemma moved e e' h h' wd wd' : good e -> good e' -> w_tells w e h wd -> w_tells w e' h' wd' -> proj1_sig wd = proj1_sig wd' -> forall y, mhas h' y -> mhas h y.
Proof. intros G1 G2 T1 T2 Heq y. apply (m_same ms _ _ _ _ _ _ G2 G1 T2 T1). symmetry. assumption. Qed.
Lemma moved_all (l : list (L * W)) h h' : (forall y, mhas h' y -> mhas h y) -> Forall (mhas h') l -> Forall (mhas h) l.
Proof. intros H. apply Forall_impl. exact H. Qed.

Lemma tells_hash k v h : has h (k, v) -> calls good (w_told w) (ky_hash ky k) [] (fun x e => see e = ItNone /\ w_tells w e h x).
Proof. intros H. eapply calls_weak; [|apply (tj_hash laws)]. intros y e _ [H1 H2]. split; [assumption|]. eapply H2. exact H. Qed.
Lemma tells_hash' k v h : mhas h (k, v) -> calls good (w_told w) (ky_hash' ky k) [] (fun x e => see e = ItNone /\ w_tells w e h x).
Proof. intros H. eapply calls_weak; [|apply (tj_hash' laws)]. intros y e _ [H1 H2]. split; [assumption|]. eapply H2. exact H. Qed.

Lemma l_first {K' V'} (l : lnode K' V') (P : K' * V' -> Prop) : Forall P (l_visit l) -> P (l_key l, l_value l).
Proof. rewrite lrest_visit. inversion 1. assumption. Qed.

Lemma atm_lnode_j d p h h' l r : lok l -> Forall (has h) (l_visit l) -> Forall (mhas h') (l_visit r) -> lok r -> w_lies w d p h -> w_lies w d p h' ->
  (3 <= lenN (l_visit r) -> w_stuck w) ->
  jfull (map iT (l_visit l) ++ map iM (l_visit r)) (atm_lnode red ck cv ky (EGeneric both) (EGeneric (t_f ts)) (EMGeneric (m_f ms)) l r d)
    (fun t y => sdone d p (tout (ML l) y) (tred y) t).
Proof.
  intros Hl Hh Hm Hlr L1 L2 Hst. unfold atm_lnode. eapply jf_weak.
  - eapply (hashes_j w d p h h' _ _ _ _ _ (fun t y => sdone d p (tout (ML l) y) (tred y) t)).
    + eapply tells_hash. exact (l_first l _ Hh).
    + eapply tells_hash'. exact (l_first r _ Hm).
    + assumption.
    + assumption.
    + intros e e' wd wd' G1 G2 T1 T2 Heq. pose proof (moved_all _ _ _ (moved _ _ _ _ _ _ G1 G2 T1 T2 Heq) Hm) as Hm'. rewrite rights_ok.
      destruct r as [k v nx sz|k v s sz]; cbn [l_next].
      * intros tr o [-> ->] _. exists (map iT (l_visit l) ++ map iM (l_visit (LNL k v nx sz))). split; [reflexivity|]. apply Hst. destruct nx as [? ? [] ?|]; unfold lenN; cbn [l_visit s_visit length]; lia.
      * cbn [lift pbind]. eapply js_bind; [apply (atm_l_impl_j h); assumption|]. intros t [next rights'] rest _ (-> & Hr' & Hd). cbn [fst snd] in *.
        eapply jf_weak; [apply (atm_rest_j h l rights' Hl Hr' Hh next t Hd)|]. intros t' y _ Hy. exact (l_s_done w d p h _ _ _ L1 Hy).
    + intros n wd wd' HT. apply (atm_apart_j n d p h h' wd wd' (NL l) (NL r) HT); split; assumption.
  - intros t y _ (n & t' & Hn & -> & Hd). apply s_none; assumption.
Qed.

Lemma atm_ls_impl_j h l s : mhas h (s_key s, s_value s) -> lok l -> Forall (has h) (l_visit l) ->
  jfull (map iT (l_visit l) ++ [iM (s_key s, s_value s)]) (atm_ls_impl red ck cv ky (EGeneric both) (EGeneric (t_f ts)) (EMGeneric (m_f ms)) l s)
    (fun t y => ldone h (tout (ML l) y) (tred y) t).
Proof.
  intros Hm. set (y := (s_key s, s_value s)) in *.
  assert (Hyes : forall l, lok l -> Forall (has h) (l_visit l) -> forall e0, good e0 -> none e0 -> (forall t, In e0 t -> yes t (l_key l) (s_key s)) ->
    jfull (map iT (l_visit l) ++ [iM y]) (let+ next := an_transform red ck cv (EGeneric (t_f ts)) (l_next l) in
      let+ o := etcall (EGeneric both) ((l_key l, l_value l), y) in al_transform_result red ck cv l o next)
      (fun t z => ldone h (tout (ML l) z) (tred z) (e0 :: t))).
  { intros l0 Hl Hh e0 G0 N0 Y0. rewrite lrest_visit in Hh |- *. inversion Hh as [|? ? Hk Hh']; subst. cbn [map].
    eapply (jf_cut w _ _ [iT (l_key l0, l_value l0); iM y]); [apply (an_transform_j w ts h (l_next l0)); split; [apply lrest_leafy; assumption|exact Hh']|unfold lrest; permut|].
    intros t next _ Hn. cbn beta in Hn. cbn [etcall]. eapply (jf_call w _ _ []); [apply (tj_both laws)|reflexivity|]. intros o e Ge (i & I1 & I2 & I3 & I4).
    eapply jf_weak; [apply (al_result_j w ts h l0 o next t [e0] e i Hl Hn)|].
    - apply (vsaid_both h (l_key l0, l_value l0) y); auto. intros t' Ht'. apply Y0, Ht'. left. reflexivity.
    - intros t' z _ [D1 D2]. split; [|exact D2]. eapply hd_perm; [|exact D1]. permut. }
  assert (Hno : forall l next t, lok l -> has h (l_key l, l_value l) -> ldone h (tout (lrest l) next) (tred next) t -> forall e0, good e0 -> none e0 ->
    jfull [iT (l_key l, l_value l)] (let+ o := etcall (EGeneric (t_f ts)) (l_key l, l_value l) in al_transform_result red ck cv l o next)
      (fun t' z => ldone h (tout (ML l) z) (tred z) (e0 :: t ++ t'))).
  { intros l0 next t Hl Hk Hn e0 G0 N0. cbn [etcall]. eapply (jf_call w _ _ []); [apply (t_calls_f ts)|reflexivity|]. intros o e Ge (i & I1 & I2 & I3 & I4).
    eapply jf_weak; [apply (al_result_j w ts h l0 o next t [] e i Hl Hn); apply vsaid_call; auto|].
    intros t' z _ [D1 D2]. split; [|exact D2]. apply (hd_none w h [e0]); [repeat constructor; assumption|]. exact D1. }
  induction l as [k v n IH sz|k v s1 sz]; intros Hl Hh.
  - cbn [atm_ls_impl]. eapply jf_quiet; [apply (tj_eq laws)|]. intros b e0 G0 [N0 Y0]. destruct b.
    + apply (Hyes (LNL k v n sz) Hl Hh e0 G0 N0). auto.
    + cbn [l_visit map] in *. inversion Hh as [|? ? Hk Hh']; subst.
      eapply (jf_cut w _ _ [iT (k, v)]); [apply IH; [apply Hl|assumption]|permut|]. intros t next _ Hn.
      exact (Hno (LNL k v n sz) next t Hl Hk Hn e0 G0 N0).
  - cbn [atm_ls_impl]. eapply jf_quiet; [apply (tj_eq laws)|]. intros b e0 G0 [N0 Y0]. destruct b.
    + apply (Hyes (LNS k v s1 sz) Hl Hh e0 G0 N0). auto.
    + change (l_visit (LNS k v s1 sz)) with ((k, v) :: [(s_key s1, s_value s1)]) in *. inversion Hh as [|? ? Hk Hh']; subst. inversion Hh' as [|? ? Hs1 _]; subst. cbn [map].
      eapply (jf_cut w _ _ [iT (k, v)]); [apply (atm_s_impl_j h s1 y); assumption|permut|]. intros t next _ Hn.
      exact (Hno (LNS k v s1 sz) next t Hl Hk Hn e0 G0 N0).
Qed.

Lemma atm_lsnode_j d p h h' l s : lok l -> Forall (has h) (l_visit l) -> mhas h' (s_key s, s_value s) -> w_lies w d p h -> w_lies w d p h' ->
  jfull (map iT (l_visit l) ++ [iM (s_key s, s_value s)]) (atm_lsnode red ck cv ky (EGeneric both) (EGeneric (t_f ts)) (EMGeneric (m_f ms)) l s d)
    (fun t y => sdone d p (tout (ML l) y) (tred y) t).
Proof.
  intros Hl Hh Hm L1 L2. unfold atm_lsnode. eapply jf_weak.
  - eapply (hashes_j w d p h h' _ _ _ _ _ (fun t y => sdone d p (tout (ML l) y) (tred y) t)).
    + eapply tells_hash. exact (l_first l _ Hh).
    + eapply tells_hash'. exact Hm.
    + assumption.
    + assumption.
    + intros e e' wd wd' G1 G2 T1 T2 Heq. eapply jf_weak; [apply (atm_ls_impl_j h l s); [|assumption..]|].
      * exact (moved _ _ _ _ _ _ G1 G2 T1 T2 Heq _ Hm).
      * intros t y _ Hy. exact (l_s_done w d p h _ _ _ L1 Hy).
    + intros n wd wd' HT. apply (atm_apart_j n d p h h' wd wd' (NL l) (NS s) HT); split; try assumption; [exact Logic.I|]. repeat constructor. exact Hm.
  - intros t y _ (n & t' & Hn & -> & Hd). apply s_none; assumption.
Qed.

Lemma atm_snode_j d p h h' s1 s : has h (s_key s1, s_value s1) -> mhas h' (s_key s, s_value s) -> w_lies w d p h -> w_lies w d p h' ->
  jfull [iT (s_key s1, s_value s1); iM (s_key s, s_value s)] (atm_snode red ck cv ky (EGeneric both) (EGeneric (t_f ts)) (EMGeneric (m_f ms)) s1 s d)
    (fun t y => sdone d p (tout (MS s1) y) (tred y) t).
Proof.
  intros Hh Hm L1 L2. unfold atm_snode. eapply jf_weak.
  - eapply (hashes_j w d p h h' _ _ _ _ _ (fun t y => sdone d p (tout (MS s1) y) (tred y) t)).
    + eapply tells_hash. exact Hh.
    + eapply tells_hash'. exact Hm.
    + assumption.
    + assumption.
    + intros e e' wd wd' G1 G2 T1 T2 Heq. eapply jf_weak; [apply (atm_s_impl_j h s1 (s_key s, s_value s)); [assumption|]|].
      * exact (moved _ _ _ _ _ _ G1 G2 T1 T2 Heq _ Hm).
      * intros t y _ Hy. exact (l_s_done w d p h _ _ _ L1 Hy).
    + intros n wd wd' HT. apply (atm_apart_j n d p h h' wd wd' (NS s1) (NS s) HT); split; try exact Logic.I; repeat constructor; assumption.
  - intros t y _ (n & t' & Hn & -> & Hd). apply s_none; assumption.
Qed.

End Laws.

(** ** transmute_with_transformed: the other map is the one that is transformed *)
Section Laws'.
Context {ky : keyed A L K} {both : (L * W) * (K * V) -> prog A (vres V R)} {yes : trace -> K -> L -> Prop}
  (laws : tmlaws w ts ms (ky_flip ky) (fun p => both (snd p, fst p)) yes).

(** [x] was left as it is and could still be cloned. *)
Definition hfresh (h : N) (x : K * V) (r : R) (t : trace) : Prop :=
  forall e1 e2 k' v', good e1 -> see e1 = ItClone (t_kc ts (fst x)) -> t_Kc ts e1 (fst x) k' ->
    good e2 -> see e2 = ItClone (t_vc ts (snd x)) -> t_Vc ts e2 (snd x) v' -> hdone h [(k', v')] r (t ++ [e1; e2]).

Lemma fresh_call h n e i x r : vsaid h n e i x (VUnchanged r) -> hfresh h x r (n ++ [e]).
Proof.
  intros HS e1 e2 k' v' G1 G2 G3 F1 F2 F3. destruct x as [k v]. rewrite <- app_assoc. exact (v_clone _ _ _ _ _ _ _ _ _ _ _ _ _ HS G1 G2 G3 F1 F2 F3).
Qed.

Lemma two_said' h s o o' e0 e i e' i' : good e0 -> none e0 -> vsaid h [] e i (s_key s, s_value s) o -> ksaid h [] e' i' o' ->
  jfull [] (match o', o with
    | KTransmuted lk lv lr, VUnchanged rr => let+ z := red lr rr in PRet (TN (NRL (l_new lk lv (NS s)) z))
    | KTransmuted lk lv lr, VTransformed rv rr =>
        let+ k := ck (s_key s) in
        let+ z := red lr rr in PRet (TN (NRL (l_new lk lv (NS (SN k rv))) z))
    | KTransmuted lk lv lr, VDropped rr => let+ z := red lr rr in PRet (TN (NRS (SN lk lv) z))
    | KDropped lr, VUnchanged rr => let+ z := red lr rr in PRet (TU z)
    | KDropped lr, VTransformed rv rr =>
        let+ k := ck (s_key s) in
        let+ z := red lr rr in PRet (TN (NRS (SN k rv) z))
    | KDropped lr, VDropped rr => let+ z := red lr rr in PRet (TN (NRZ z))
    end) (fun t y => ldone h (tout (MS s) y) (tred y) (e0 :: e' :: e :: t) /\ forall r, y = TU r -> hfresh h (s_key s, s_value s) r (e0 :: e' :: e :: t)).
Proof.
  intros G0 N0 HV HK. pose proof (k_said _ _ _ _ _ _ HK) as DK.
  assert (HU : forall cs out lr z e3 r, hdone h out lr (e :: cs) -> see e3 = ItReduce (kr o') lr z ->
    Permutation (ovisit (tout (MS s) r)) (kout o' ++ out) -> tred r = z -> (forall n', tout (MS s) r = Some n' -> leafy n') ->
    ldone h (tout (MS s) r) (tred r) (e0 :: e' :: e :: cs ++ [e3])).
  { intros cs out lr z e3 r H1 H2 H3 H4 H5. split; [|exact H5]. rewrite H4. apply (hd_none w h [e0] _ _ (e' :: e :: cs ++ [e3])); [repeat constructor; assumption|].
    eapply hd_join; [exact DK|exact H1|exact H2|cbn [app]; permut|exact H3]. }
  destruct o' as [lk lv lr|lr], o as [rr|rv rr|rr]; cbn [kr kout] in *.
  - eapply jf_quiet; [apply w_calls_red|]. intros z e3 _ He3. apply jf_ret. split; [|discriminate].
    eapply (HU []); [apply (v_same _ _ _ _ _ _ _ _ HV)|exact He3|reflexivity|reflexivity|]. intros n' [= <-]. apply (l_new_leafy lk lv (NS s)). exact Logic.I.
  - eapply jf_quiet; [apply (t_calls_ck ts)|]. intros k' e1 G1 [G2 G3]. eapply jf_quiet; [apply w_calls_red|]. intros z e3 _ He3. apply jf_ret. split; [|discriminate].
    eapply (HU [e1]); [apply (v_new _ _ _ _ _ _ _ _ _ _ _ _ HV G1 G2 G3)|exact He3|reflexivity|reflexivity|].
    intros n' [= <-]. apply (l_new_leafy lk lv (NS (SN k' rv))). exact Logic.I.
  - eapply jf_quiet; [apply w_calls_red|]. intros z e3 _ He3. apply jf_ret. split; [|discriminate].
    eapply (HU []); [apply (v_drop _ _ _ _ _ _ _ _ HV)|exact He3|reflexivity|reflexivity|]. intros n' [= <-]. exact Logic.I.
  - eapply jf_quiet; [apply w_calls_red|]. intros z e3 _ He3. apply jf_ret. split.
    + eapply (HU []); [apply (v_same _ _ _ _ _ _ _ _ HV)|exact He3|reflexivity|reflexivity|]. intros n' [= <-]. exact Logic.I.
    + intros r [= <-] e1 e2 k' v' G1 G2 G3 F1 F2 F3. pose proof (fresh_call h [] e i _ _ HV e1 e2 k' v' G1 G2 G3 F1 F2 F3) as HF.
      apply (hd_none w h [e0] _ _ ([e'; e; e3] ++ [e1; e2])); [repeat constructor; assumption|].
      eapply hd_join; [exact DK|exact HF|exact He3|cbn [app]; permut|reflexivity].
  - eapply jf_quiet; [apply (t_calls_ck ts)|]. intros k' e1 G1 [G2 G3]. eapply jf_quiet; [apply w_calls_red|]. intros z e3 _ He3. apply jf_ret. split; [|discriminate].
    eapply (HU [e1]); [apply (v_new _ _ _ _ _ _ _ _ _ _ _ _ HV G1 G2 G3)|exact He3|reflexivity|reflexivity|]. intros n' [= <-]. exact Logic.I.
  - eapply jf_quiet; [apply w_calls_red|]. intros z e3 _ He3. apply jf_ret. split; [|discriminate].
    eapply (HU []); [apply (v_drop _ _ _ _ _ _ _ _ HV)|exact He3|reflexivity|reflexivity|]. discriminate.
Qed.

Lemma amt_s_impl_j h s1 s : mhas h (s_key s1, s_value s1) -> has h (s_key s, s_value s) ->
  jfull [iM (s_key s1, s_value s1); iT (s_key s, s_value s)] (amt_s_impl red ck ky (EGeneric both) (EMGeneric (m_f ms)) (EGeneric (t_f ts)) s1 s)
    (fun t y => ldone h (tout (MS s) y) (tred y) t /\ forall r, y = TU r -> hfresh h (s_key s, s_value s) r t).
Proof.
  intros H1 H2. unfold amt_s_impl. eapply jf_quiet; [apply (tj_eq' laws)|]. intros b e0 G0 [N0 Y0]. destruct b.
  - cbn [etcall]. eapply (jf_call w _ _ []); [apply (tj_both laws (s_key s, s_value s) (s_key s1, s_value s1))|apply perm_swap|]. intros o e Ge (i & I1 & I2 & I3 & I4).
    assert (HS : vsaid h [e0] e i (s_key s, s_value s) o).
    { apply (vsaid_both (yes := yes) h (s_key s, s_value s) (s_key s1, s_value s1)); auto.
      intros t Ht. apply Y0; [reflexivity|]. apply Ht. left. reflexivity. }
    eapply jf_weak.
    + eapply (jf_weak w [] _ (fun t y => ldone h (tout (MS s) y) (tred y) (([e0] ++ [e]) ++ t) /\ forall r, y = TU r -> o = VUnchanged r /\ t = [])).
      * intros tr oo He Hg. pose proof (one_said h s o [e0] e i HS tr oo He Hg) as (rest & R1 & R2). exists rest. split; [assumption|]. destruct oo as [y| |]; [|assumption..].
        destruct R2 as [-> R2]. split; [reflexivity|]. split; [assumption|]. intros r ->. destruct o as [r'|v r'|r']; cbn in He.
        -- destruct He as [-> [= <-]]. auto.
        -- apply exec_bind in He. destruct He as [(t1 & t2 & x & _ & _ & He2)|[[_ He]|[_ He]]]; [cbn in He2; destruct He2 as [_ He2]|..]; discriminate.
        -- destruct He as [_ He]. discriminate.
      * intros t y _ H. exact H.
    + intros t y _ [D F]. split; [exact D|]. intros r Hr. destruct (F r Hr) as [-> ->]. exact (fresh_call h [e0] e i _ _ HS).
  - cbn [etcall emcall]. eapply (jf_call w _ _ [iT (s_key s, s_value s)]); [apply (m_calls_f ms)|reflexivity|]. intros o' e' Ge' (i' & J1 & J2 & J3 & J4).
    eapply (jf_call w _ _ []); [apply (t_calls_f ts)|reflexivity|]. intros o e Ge (i & I1 & I2 & I3 & I4).
    apply (two_said' h s o o' e0 e i e' i' G0 N0).
    + apply vsaid_call; auto.
    + eapply ksaid_call; eauto.
Qed.

Lemma n_cons_ok (k : K) (v : V) (next : nres K V R) z : (forall n, nnode next = Some n -> leafy n) ->
  ovisit (nnode (n_cons k v next z)) = (k, v) :: ovisit (nnode next) /\ nred (n_cons k v next z) = z /\ (forall n, nnode (n_cons k v next z) = Some n -> leafy n).
Proof.
  intros D. destruct next as [c r|m r|s r|r]; cbn [n_cons nnode nred ovisit] in *; try (exfalso; exact (D _ eq_refl));
    (split; [reflexivity|split; [reflexivity|]]); intros n' [= <-].
  - apply (l_new_leafy k v (NL m)). apply (D _ eq_refl).
  - apply (l_new_leafy k v (NS s)). exact Logic.I.
  - exact Logic.I.
Qed.

Lemma amt_hit_j h s o next t n e i : ldone h (nnode next) (nred next) t -> vsaid h n e i (s_key s, s_value s) o ->
  jfull [] (amt_hit red ck cv s o next) (fun t' y => ldone h (nnode y) (nred y) (n ++ t ++ [e] ++ t')).
Proof.
  intros [D1 D2] HS. destruct o as [lr|lv lr|lr]; cbn [amt_hit].
  - eapply jf_quiet; [apply (t_calls_ck ts)|]. intros k' e1 G1 [G2 G3]. eapply jf_quiet; [apply (t_calls_cv ts)|]. intros v' e2 F1 [F2 F3].
    eapply jf_quiet; [apply w_calls_red|]. intros z e3 _ He3. apply jf_ret. destruct (n_cons_ok k' v' next z D2) as (C1 & C2 & C3). split; [|exact C3]. rewrite C1, C2.
    eapply hd_join; [apply (v_clone _ _ _ _ _ _ _ _ _ _ _ _ _ HS G1 G2 G3 F1 F2 F3)|exact D1|exact He3|permut|reflexivity].
  - eapply jf_quiet; [apply (t_calls_ck ts)|]. intros k' e1 G1 [G2 G3].
    eapply jf_quiet; [apply w_calls_red|]. intros z e3 _ He3. apply jf_ret. destruct (n_cons_ok k' lv next z D2) as (C1 & C2 & C3). split; [|exact C3]. rewrite C1, C2.
    eapply hd_join; [apply (v_new _ _ _ _ _ _ _ _ _ _ _ _ HS G1 G2 G3)|exact D1|exact He3|permut|reflexivity].
  - eapply jf_quiet; [apply w_calls_red|]. intros z e3 _ He3. apply jf_ret. rewrite nnode_with, nred_with. split; [|exact D2].
    eapply hd_join; [apply (v_drop _ _ _ _ _ _ _ _ HS)|exact D1|exact He3|permut|reflexivity].
Qed.

Lemma amt_miss_j h s o next t e i : ldone h (tout (MS s) next) (tred next) t -> (forall r, next = TU r -> hfresh h (s_key s, s_value s) r t) -> ksaid h [] e i o ->
  jfull [] (amt_miss red ck cv s o next) (fun t' y => ldone h (tout (MS s) y) (tred y) (t ++ [e] ++ t') /\ forall r, y <> TU r).
Proof.
  intros [D1 D2] HF HK. pose proof (k_said _ _ _ _ _ _ HK) as DK. destruct o as [lk lv lr|lr]; cbn [amt_miss].
  - eapply jf_quiet; [apply w_calls_red|]. intros z e3 _ He3. apply jf_ret. destruct next as [r|n]; cbn [t_cons tout tred] in *.
    + split; [|discriminate]. split; [|intros n' [= <-]; apply (l_new_leafy lk lv (NS s)); exact Logic.I].
      eapply hd_join; [exact DK|exact D1|exact He3|permut|reflexivity].
    + destruct (n_cons_ok lk lv n z D2) as (C1 & C2 & C3). split; [|discriminate]. split; [|exact C3]. rewrite C1, C2.
      eapply hd_join; [exact DK|exact D1|exact He3|permut|reflexivity].
  - destruct next as [r|n]; cbn [tout tred] in *.
    + eapply jf_quiet; [apply (t_calls_ck ts)|]. intros k' e1 G1 [G2 G3]. eapply jf_quiet; [apply (t_calls_cv ts)|]. intros v' e2 F1 [F2 F3].
      eapply jf_quiet; [apply w_calls_red|]. intros z e3 _ He3. apply jf_ret. split; [|discriminate]. split; [|intros n' [= <-]; exact Logic.I].
      eapply hd_join; [exact DK|exact (HF r eq_refl e1 e2 k' v' G1 G2 G3 F1 F2 F3)|exact He3|permut|reflexivity].
    + eapply jf_quiet; [apply w_calls_red|]. intros z e3 _ He3. apply jf_ret. split; [|discriminate]. cbn [tout tred]. rewrite nnode_with, nred_with. split; [|exact D2].
      eapply hd_join; [exact DK|exact D1|exact He3|permut|reflexivity].
Qed.

Lemma amt_ls_impl_j h l s : has h (s_key s, s_value s) -> Forall (mhas h) (l_visit l) ->
  jfull (map iM (l_visit l) ++ [iT (s_key s, s_value s)]) (amt_ls_impl red ck cv ky (EGeneric both) (EMGeneric (m_f ms)) (EGeneric (t_f ts)) l s)
    (fun t y => ldone h (tout (MS s) y) (tred y) t /\ forall r, y <> TU r).
Proof.
  intros Hm. set (y := (s_key s, s_value s)) in *.
  assert (Hyes : forall l, Forall (mhas h) (l_visit l) -> forall e0, good e0 -> none e0 -> (forall t, In e0 t -> yes t (s_key s) (l_key l)) ->
    jfull (map iM (l_visit l) ++ [iT y]) (let+ next := an_transmute red (EMGeneric (m_f ms)) (l_next l) in
      let+ o := etcall (EGeneric both) ((l_key l, l_value l), y) in
      let+ n := amt_hit red ck cv s o next in PRet (TN n))
      (fun t z => ldone h (tout (MS s) z) (tred z) (e0 :: t) /\ forall r, z <> TU r)).
  { intros l0 Hh e0 G0 N0 Y0. rewrite lrest_visit in Hh |- *. inversion Hh as [|? ? Hk Hh']; subst. cbn [map].
    eapply (jf_cut w _ _ [iT y; iM (l_key l0, l_value l0)]); [apply (an_transmute_j w ms h (l_next l0)); exact Hh'|unfold lrest; permut|].
    intros t next _ Hn. cbn beta in Hn. cbn [etcall]. eapply (jf_call w _ _ []); [apply (tj_both laws y (l_key l0, l_value l0))|reflexivity|]. intros o e Ge (i & I1 & I2 & I3 & I4).
    eapply (jf_cut w _ [] []); [apply (amt_hit_j h s o next t [e0] e i Hn)|reflexivity|].
    - apply (vsaid_both (yes := yes) h y (l_key l0, l_value l0)); auto. intros t' Ht'. apply Y0, Ht'. left. reflexivity.
    - intros t' z _ D. apply jf_ret. split; [|discriminate]. rewrite app_nil_r. exact D. }
  assert (Hno : forall l next t, mhas h (l_key l, l_value l) -> ldone h (tout (MS s) next) (tred next) t -> (forall r, next = TU r -> hfresh h y r t) ->
    forall e0, good e0 -> none e0 ->
    jfull [iM (l_key l, l_value l)] (let+ o := emcall (EMGeneric (m_f ms)) (l_key l, l_value l) in amt_miss red ck cv s o next)
      (fun t' z => ldone h (tout (MS s) z) (tred z) (e0 :: t ++ t') /\ forall r, z <> TU r)).
  { intros l0 next t Hk Hn HF e0 G0 N0. cbn [emcall]. eapply (jf_call w _ _ []); [apply (m_calls_f ms)|reflexivity|]. intros o e Ge (i & I1 & I2 & I3 & I4).
    eapply jf_weak; [apply (amt_miss_j h s o next t e i Hn HF); eapply ksaid_call; eauto|].
    intros t' z _ [[D1 D2] D3]. split; [|exact D3]. split; [|exact D2]. apply (hd_none w h [e0]); [repeat constructor; assumption|]. exact D1. }
  induction l as [k v n IH sz|k v s1 sz]; intros Hh.
  - cbn [amt_ls_impl]. eapply jf_quiet; [apply (tj_eq' laws)|]. intros b e0 G0 [N0 Y0]. destruct b.
    + apply (Hyes (LNL k v n sz) Hh e0 G0 N0). auto.
    + cbn [l_visit map] in *. inversion Hh as [|? ? Hk Hh']; subst.
      eapply (jf_cut w _ _ [iM (k, v)]); [apply IH; assumption|permut|]. intros t next _ [Hn Ht].
      apply (Hno (LNL k v n sz) next t Hk Hn); [|assumption..]. intros r Hr. exfalso. exact (Ht r Hr).
  - cbn [amt_ls_impl]. eapply jf_quiet; [apply (tj_eq' laws)|]. intros b e0 G0 [N0 Y0]. destruct b.
    + apply (Hyes (LNS k v s1 sz) Hh e0 G0 N0). auto.
    + change (l_visit (LNS k v s1 sz)) with ((k, v) :: [(s_key s1, s_value s1)]) in *. inversion Hh as [|? ? Hk Hh']; subst. inversion Hh' as [|? ? Hs1 _]; subst. cbn [map].
      eapply (jf_cut w _ _ [iM (k, v)]); [apply (amt_s_impl_j h s1 s); assumption|unfold y; permut|]. intros t next _ [Hn HF].
      exact (Hno (LNS k v s1 sz) next t Hk Hn HF e0 G0 N0).
Qed.

Lemma amt_apart_j n d p h h' wd wd' this right : told_apart w n d p h h' wd wd' -> hleaf mhas h (next_mnode this) -> hleaf has h' (next_mnode right) ->
  jpast n (map iM (m_visit (next_mnode this)) ++ map iT (m_visit (next_mnode right)))
    (amt_apart red ck cv (EMGeneric (m_f ms)) (EGeneric (t_f ts)) this right wd wd' d)
    (fun t y => sdone d p (tout (next_mnode right) y) (tred y) t).
Proof.
  intros HT [H2 H3] H1. unfold amt_apart. eapply jp_cut; [apply jp_full, (an_transmute_j w ms h); assumption|reflexivity|]. intros t1 l G1 D1.
  eapply (jp_cut w _ _ _ []); [apply jp_full, (an_transform_j w ts h'); assumption|rewrite app_nil_r; reflexivity|]. intros t2 r G2 D2. rewrite <- app_assoc.
  apply (aflags_j w n (t1 ++ t2) d p h h' _ _ _ _ _ HT). intros lf rf Hf. cbn beta in D1, D2.
  destruct (nnode l) as [a|] eqn:Ha; [destruct (tout (next_mnode right) r) as [b|] eqn:Hb|].
  - eapply (jp_cut w _ _ [] []); [apply (apair_j w n d p h h' wd wd' a b _ _ _ _ (t1 ++ t2) lf rf HT Hf D1 D2)|reflexivity|].
    intros t3 z _ HZ. apply jp_full, jf_ret. rewrite app_nil_r. exact HZ.
  - eapply jp_quiet; [apply w_calls_red|]. intros z e3 _ He3. apply jp_full, jf_ret. cbn [tout tred]. rewrite nnode_with, nred_with, Ha.
    exact (one_done w d p h h' (Some a) None _ _ _ _ _ _ (ta_l _ _ _ _ _ _ _ _ HT) (ta_l' _ _ _ _ _ _ _ _ HT) D1 D2 He3 (or_intror eq_refl)).
  - eapply jp_quiet; [apply w_calls_red|]. intros z e3 _ He3. apply jp_full, jf_ret. rewrite tout_with, tred_with.
    exact (one_done w d p h h' None _ _ _ _ _ _ _ (ta_l _ _ _ _ _ _ _ _ HT) (ta_l' _ _ _ _ _ _ _ _ HT) D1 D2 He3 (or_introl eq_refl)).
Qed.

Lemma amt_lsnode_j d p h h' l s : lok l -> Forall (mhas h') (l_visit l) -> has h (s_key s, s_value s) -> w_lies w d p h -> w_lies w d p h' ->
  jfull (map iM (l_visit l) ++ [iT (s_key s, s_value s)]) (amt_lsnode red ck cv ky (EGeneric both) (EMGeneric (m_f ms)) (EGeneric (t_f ts)) l s d)
    (fun t y => sdone d p (tout (MS s) y) (tred y) t).
Proof.
  intros Hl Hm Hh L1 L2. unfold amt_lsnode. eapply jf_weak.
  - eapply (hashes_j w d p h' h _ _ _ _ _ (fun t y => sdone d p (tout (MS s) y) (tred y) t)).
    + apply (tells_hash' laws (l_key l) (l_value l)). exact (l_first l _ Hm).
    + apply (tells_hash laws (s_key s) (s_value s)). exact Hh.
    + assumption.
    + assumption.
    + intros e e' wd wd' G1 G2 T1 T2 Heq. eapply jf_weak; [apply (amt_ls_impl_j h l s); [assumption|]|].
      * eapply moved_all; [|exact Hm]. apply (m_same ms _ _ _ _ _ _ G1 G2 T1 T2). assumption.
      * intros t y _ [Hy _]. exact (l_s_done w d p h _ _ _ L1 Hy).
    + intros n wd wd' HT. apply (amt_apart_j n d p h' h wd wd' (NL l) (NS s) HT); split; try assumption; [exact Logic.I|]. repeat constructor. exact Hh.
  - intros t y _ (n & t' & Hn & -> & Hd). apply s_none; assumption.
Qed.

Lemma amt_snode_j d p h h' s1 s : mhas h' (s_key s1, s_value s1) -> has h (s_key s, s_value s) -> w_lies w d p h -> w_lies w d p h' ->
  jfull [iM (s_key s1, s_value s1); iT (s_key s, s_value s)] (amt_snode red ck cv ky (EGeneric both) (EMGeneric (m_f ms)) (EGeneric (t_f ts)) s1 s d)
    (fun t y => sdone d p (tout (MS s) y) (tred y) t).
Proof.
  intros Hm Hh L1 L2. unfold amt_snode. eapply jf_weak.
  - eapply (hashes_j w d p h' h _ _ _ _ _ (fun t y => sdone d p (tout (MS s) y) (tred y) t)).
    + apply (tells_hash' laws (s_key s1) (s_value s1)). exact Hm.
    + apply (tells_hash laws (s_key s) (s_value s)). exact Hh.
    + assumption.
    + assumption.
    + intros e e' wd wd' G1 G2 T1 T2 Heq. eapply jf_weak; [apply (amt_s_impl_j h s1 s); [|assumption]|].
      * apply (m_same ms _ _ _ _ _ _ G1 G2 T1 T2 Heq). assumption.
      * intros t y _ [Hy _]. exact (l_s_done w d p h _ _ _ L1 Hy).
    + intros n wd wd' HT. apply (amt_apart_j n d p h' h wd wd' (NS s1) (NS s) HT); split; try exact Logic.I; repeat constructor; assumption.
  - intros t y _ (n & t' & Hn & -> & Hd). apply s_none; assumption.
Qed.

End Laws'.

(** ** Leaves *)
Section Leaves.

Lemma tm_flip (ky : keyed A K L) both yes : tmlaws w ts ms ky both yes ->
  tmlaws w ts ms (ky_flip (ky_flip ky)) (fun p : (K * V) * (L * W) => (fun q : (L * W) * (K * V) => both (snd q, fst q)) (snd p, fst p)) yes.
Proof. intros [H1 H2 H3 H4 H5]. constructor; assumption. Qed.

Lemma atm_leaf_j (ky : keyed A K L) both yes (laws : tmlaws w ts ms ky both yes) d p this right : leafy (next_mnode this) -> leafy (next_mnode right) ->
  leaf_of has (w_lies w) d p (m_visit (next_mnode this)) -> leaf_of mhas (w_lies w) d p (m_visit (next_mnode right)) ->
  (3 <= lenN (m_visit (next_mnode right)) -> w_stuck w) ->
  jfull (map iT (m_visit (next_mnode this)) ++ map iM (m_visit (next_mnode right)))
    (atm_leaf red ck cv ky (EGeneric both) (EGeneric (t_f ts)) (EMGeneric (m_f ms)) this right d)
    (fun t y => sdone d p (tout (next_mnode this) y) (tred y) t).
Proof.
  intros H1 H2 (h & Hh & L1) (h' & Hm & L2) Hst. destruct this as [l|s], right as [r|s']; cbn [next_mnode m_visit atm_leaf] in *.
  - eapply (atm_lnode_j laws); eassumption.
  - inversion Hm as [|? ? Hm' _]; subst. eapply (atm_lsnode_j laws); eassumption.
  - inversion Hh as [|? ? Hh' _]; subst. cbn [etflip]. eapply jf_perm; [apply Permutation_app_comm|].
    eapply (amt_lsnode_j (tm_flip _ _ _ laws)); eassumption.
  - inversion Hm as [|? ? Hm' _]; subst. inversion Hh as [|? ? Hh' _]; subst. eapply (atm_snode_j laws); eassumption.
Qed.

Lemma amt_leaf_j (ky : keyed A L K) (both : (L * W) * (K * V) -> prog A (vres V R)) yes
  (laws : tmlaws w ts ms (ky_flip ky) (fun p => both (snd p, fst p)) yes) d p this right : leafy (next_mnode this) -> leafy (next_mnode right) ->
  leaf_of mhas (w_lies w) d p (m_visit (next_mnode this)) -> leaf_of has (w_lies w) d p (m_visit (next_mnode right)) ->
  (3 <= lenN (m_visit (next_mnode this)) -> w_stuck w) ->
  jfull (map iM (m_visit (next_mnode this)) ++ map iT (m_visit (next_mnode right)))
    (amt_leaf red ck cv ky (EGeneric both) (EMGeneric (m_f ms)) (EGeneric (t_f ts)) this right d)
    (fun t y => sdone d p (tout (next_mnode right) y) (tred y) t).
Proof.
  intros H1 H2 (h' & Hm & L2) (h & Hh & L1) Hst. destruct this as [l|s], right as [r|s']; cbn [next_mnode m_visit amt_leaf etflip] in *.
  - eapply jf_perm; [apply Permutation_app_comm|]. eapply (atm_lnode_j laws); eassumption.
  - inversion Hh as [|? ? Hh' _]; subst. eapply (amt_lsnode_j laws); eassumption.
  - inversion Hm as [|? ? Hm' _]; subst. eapply jf_perm; [apply Permutation_app_comm|]. eapply (atm_lsnode_j laws); eassumption.
  - inversion Hm as [|? ? Hm' _]; subst. inversion Hh as [|? ? Hh' _]; subst. eapply (amt_snode_j laws); eassumption.
Qed.

End Leaves.
End TM.
