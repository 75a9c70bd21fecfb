(** The joint operations on whole maps, whatever the client's code answers. *)
From Coq Require Import NArith Arith List Bool Lia ZifyBool ZifyN ZifyNat Permutation.
From Verif Require Import Base Words WordsP Flag FlagP Bia BiaP Node Inv InsertP Api Trans Transform Joint Profile Eff EffP EffTP EffApi Ask AskP AskHashP AskT SpecAsk SpecAskT JoinP JointLeafP LoopP TransformP
  PermP AskTP AskTTP AskJ AskJP AskJOneP AskJLeafP AskJMLeafP AskJTravP.
Import ListNotations.
Open Scope N_scope.

(** What became of a node that might have been there. *)
Definition oout {E : Env} {S X R} (on : option (mnode S X)) (y : tres S X R) : option (mnode S X) :=
  match y with TU _ => on | TN n => nnode n end.
Definition is_tu {E : Env} {S X R} (y : tres S X R) : bool := match y with TU _ => true | TN _ => false end.

Lemma longest_child {E : Env} {K V} bits (values : list (mnode K V)) x c : In c values -> longest c <= longest (MC (BIA bits values x)).
Proof.
  cbn [longest bvalues]. induction values as [|b l IH]; intros []; cbn [map fold_right].
  - subst. apply N.le_max_l.
  - etransitivity; [exact (IH H)|apply N.le_max_r].
Qed.

Definition ends {E : Env} (P : Prop) {K V} (n : mnode K V) : Prop := 3 <= longest n -> P.
Lemma ends_child {E : Env} P {K V} bits (values : list (mnode K V)) x c : ends P (MC (BIA bits values x)) -> In c values -> ends P c.
Proof. unfold ends. intros H Hc Hl. apply H. pose proof (longest_child bits values x c Hc). lia. Qed.
Lemma ends_leaf {E : Env} P {K V} (nx : lnext K V) : ends P (next_mnode nx) -> 3 <= lenN (m_visit (next_mnode nx)) -> P.
Proof. unfold ends. destruct nx; cbn [next_mnode longest m_visit s_visit]; [auto|]. unfold lenN. cbn. lia. Qed.

Section Tree.
Context {E : Env} {Q : Type} {A : Q -> Type} {K V R I C U : Type} {w : world A K V R I C U} {ts : tside w} {L W : Type} {ms : mside w L W}.
Notation event := (event (A := A)).
Notation trace := (list event).
Implicit Types tr t : trace.
Notation good := (w_good w).
Notation see := (w_see w).
Notation red := (w_red w).
Notation def := (w_def w).
Notation ck := (t_ck ts).
Notation cv := (t_cv ts).
Notation jfull := (jfull w).
Notation sdone := (sdone w).
Notation iT := (t_inj ts).
Notation iM := (m_inj ms).
Notation has := (w_has w).
Notation mhas := (m_has ms).
Notation shaped1 := (shaped (leaf_of has (w_lies w)) (w_deep w)).
Notation shaped2 := (shaped (leaf_of mhas (w_lies w)) (w_deep w)).
Notation endsM := (ends (w_stuck w)).

Lemma add_new_j (flag : acc K V R -> bool) (set : acc K V R -> acc K V R) d p kept lo i tr t a n :
  (forall g, flag (set g) = false) -> (forall g, exists ul ur, set g = Acc (a_size g) (a_bits g) (a_values g) ul ur (a_red g)) ->
  lo <= i -> i < max_ones fw -> jinv w d p flag kept lo i tr a -> sdone (d + 1) (p + i * 2 ^ off d) (nnode n) (nred n) t ->
  jfull [] (let+ b := apush_new red a i n in PRet (set b)) (fun t' a' => jinv w d p flag kept lo (i + 1) (tr ++ t ++ t') a').
Proof.
  intros Hset Hacc Hlo Hi HI HD. eapply (jf_cut w _ _ []); [apply (apush_new_j w d p flag kept lo i tr a n Hi HI)|reflexivity|].
  intros t' a' _ (e & r' & -> & He & ->). apply jf_ret. rewrite app_nil_r. destruct (Hacc (grow a i (nnode n) r')) as (ul & ur & Hg).
  eapply jinv_grow; [assumption|assumption|exact HI|exact HD|exact He|exact Hg|]. rewrite Hset. discriminate.
Qed.
Lemma add_same_j (flag : acc K V R -> bool) (set : acc K V R -> acc K V R) d p kept lo i tr t a n r :
  (forall g, exists ul ur, set g = Acc (a_size g) (a_bits g) (a_values g) ul ur (a_red g)) ->
  (forall c r', flag (set (grow a i c r')) = true -> flag a = true) ->
  lo <= i -> i < max_ones fw -> jinv w d p flag kept lo i tr a -> sdone (d + 1) (p + i * 2 ^ off d) (Some n) r t -> kept i = Some n ->
  jfull [] (let+ b := apush red a i n (m_size n) r in PRet (set b)) (fun t' a' => jinv w d p flag kept lo (i + 1) (tr ++ t ++ t') a').
Proof.
  intros Hacc Hf Hlo Hi HI HD Hk. eapply (jf_cut w _ _ []); [apply (apush_j w d p flag kept lo i tr a n r Hi HI)|reflexivity|].
  intros t' a' _ (e & r' & -> & He & ->). apply jf_ret. rewrite app_nil_r. destruct (Hacc (grow a i (Some n) r')) as (ul & ur & Hg).
  eapply jinv_grow; [assumption|assumption|exact HI|exact HD|exact He|exact Hg|]. intros H. split; [eapply Hf; exact H|symmetry; exact Hk].
Qed.

Lemma atm_add_j keep d p kept lo i tr t a ol (or : option (mnode L W)) y : lo <= i -> i < max_ones fw -> jinv w d p (@a_ul _ _ _) kept lo i tr a ->
  sdone (d + 1) (p + i * 2 ^ off d) (oout ol y) (tred y) t -> (is_tu y = true -> exists n, oout ol y = Some n /\ kept i = Some n) ->
  jfull [] (atm_add red keep a i ol or y) (fun t' a' => jinv w d p (@a_ul _ _ _) kept lo (i + 1) (tr ++ t ++ t') a').
Proof.
  intros Hlo Hi HI HD Hu. destruct y as [r|n]; cbn [oout tred atm_add] in *.
  - destruct (Hu eq_refl) as (n & -> & Hk). cbn [unwrap lift pbind].
    apply (add_same_j _ (fun b => if keep then b else set_ul b)); try assumption; destruct keep; try (intros []; do 2 eexists; reflexivity); cbn; auto; discriminate.
  - apply add_new_j; try assumption; [reflexivity|]. intros []. do 2 eexists. reflexivity.
Qed.
Lemma amt_add_j keep d p kept lo i tr t a (ol : option (mnode L W)) or y : lo <= i -> i < max_ones fw -> jinv w d p (@a_ur _ _ _) kept lo i tr a ->
  sdone (d + 1) (p + i * 2 ^ off d) (oout or y) (tred y) t -> (is_tu y = true -> exists n, oout or y = Some n /\ kept i = Some n) ->
  jfull [] (amt_add red keep a i ol or y) (fun t' a' => jinv w d p (@a_ur _ _ _) kept lo (i + 1) (tr ++ t ++ t') a').
Proof.
  intros Hlo Hi HI HD Hu. destruct y as [r|n]; cbn [oout tred amt_add] in *.
  - destruct (Hu eq_refl) as (n & -> & Hk). cbn [unwrap lift pbind].
    apply (add_same_j _ (fun b => if keep then b else set_ur b)); try assumption; destruct keep; try (intros []; do 2 eexists; reflexivity); cbn; auto; discriminate.
  - apply add_new_j; try assumption; [reflexivity|]. intros []. do 2 eexists. reflexivity.
Qed.

Lemma one_t_j st d p n : shaped1 d p n -> jfull (map iT (m_visit n)) (am_transform def red ck cv st (EGeneric (t_f ts)) n) (fun t y =>
  sdone d p (oout (Some n) y) (tred y) t /\ (is_tu y = true -> exists c, oout (Some n) y = Some c /\ Some n = Some c)).
Proof.
  intros Hs. eapply jf_weak; [apply am_transform_j; exact Hs|]. intros t y _ H. destruct y; cbn [oout is_tu tout] in *; (split; [exact H|]); [intros _; eexists; split; reflexivity|discriminate].
Qed.
Lemma one_m_j d p n on : shaped2 d p n -> jfull (map iM (m_visit n)) (let+ x := am_transmute def red (EMGeneric (m_f ms)) n in PRet (TN x)) (fun t y =>
  sdone d p (oout on y) (tred y) t /\ (is_tu y = true -> exists c : mnode K V, oout on y = Some c /\ on = Some c)).
Proof.
  intros Hs. eapply jf_cut; [apply am_transmute_j; exact Hs|rewrite app_nil_r; reflexivity|]. intros t y _ H. apply jf_ret. rewrite app_nil_r.
  cbn [oout is_tu tred]. split; [exact H|discriminate].
Qed.

Lemma done_j (flag : acc K V R -> bool) d p n kept tr a : w_deep w d p -> shaped1 d p n ->
  flat_map (fun j => ovisit (kept j)) (range 0 (max_ones fw)) = m_visit n -> jinv w d p flag kept 0 (max_ones fw) tr a ->
  exists y, (if flag a then Ret (TU (a_red a)) else let* x := finish a in Ret (TN x)) = Ret y /\ sdone d p (oout (Some n) y) (tred y) tr.
Proof.
  intros Hd Hs Hn HI. destruct (flag a) eqn:Hf.
  - eexists. split; [reflexivity|]. split; [|intros n' [= <-]; exact Hs]. cbn [oout ovisit tred]. eapply jinv_kept; eassumption.
  - destruct (finish_j w d p Hd _ _ _ _ HI) as (x & Hx & HD). rewrite Hx. cbn [bind]. eexists. split; [reflexivity|exact HD].
Qed.

Lemma oout_tout d p n y t : sdone d p (tout n y) (tred y) t -> sdone d p (oout (Some n) y) (tred y) t.
Proof. destruct y; exact (fun H => H). Qed.

(** ** A map against a leaf *)
Lemma atm_tree_leaf_j (ky : keyed A K L) both yes (laws : tmlaws w ts ms ky both yes) st d p n right : shaped1 d p n ->
  leafy (next_mnode right) -> endsM (next_mnode right) -> leaf_of mhas (w_lies w) d p (m_visit (next_mnode right)) ->
  jfull (map iT (m_visit n) ++ map iM (m_visit (next_mnode right)))
    (atm_tree_leaf def red ck cv ky st (EGeneric both) (EGeneric (t_f ts)) (EMGeneric (m_f ms)) right n d)
    (fun t y => sdone d p (oout (Some n) y) (tred y) t).
Proof.
  intros Hs Hr Hor Hlf. unfold atm_tree_leaf.
  apply (am_leaf_j w iT iM has mhas (fun _ => True) endsM) with (out := fun ol _ y => oout ol y) (unch := is_tu) (keep := fun ol _ => ol) (flag := @a_ul _ _ _); try assumption; try exact Logic.I.
  - auto.
  - intros. eapply ends_child; eassumption.
  - reflexivity.
  - intros l r [] H; [|discriminate]. eexists. split; reflexivity.
  - intros. apply atm_add_j; assumption.
  - intros d' p' l Hl. eapply jf_weak; [apply one_t_j; exact Hl|]. auto.
  - intros d' p' r Hl. apply (one_m_j _ _ _ None). assumption.
  - intros d' p' n' r ls rs tr a Hd Hn _ Hls _ HI. apply (done_j (@a_ul _ _ _) d' p' n' ls); assumption.
  - intros k v h. apply (tells_hash' laws).
  - intros d' p' this r H1 H2 _ H3 H4 H5. eapply jf_weak; [exact (atm_leaf_j _ _ _ laws _ _ _ _ H1 H2 H4 H5 (ends_leaf _ _ H3))|]. intros; apply oout_tout; assumption.
Qed.

Lemma amt_tree_leaf_j (ky : keyed A L K) (both : (L * W) * (K * V) -> prog A (vres V R)) yes
  (laws : tmlaws w ts ms (ky_flip ky) (fun p => both (snd p, fst p)) yes) st d p n right : shaped2 d p n -> endsM n ->
  leafy (next_mnode right) -> leaf_of has (w_lies w) d p (m_visit (next_mnode right)) ->
  jfull (map iM (m_visit n) ++ map iT (m_visit (next_mnode right)))
    (amt_tree_leaf def red ck cv ky st (EGeneric both) (EMGeneric (m_f ms)) (EGeneric (t_f ts)) right n d)
    (fun t y => sdone d p (oout (Some (next_mnode right)) y) (tred y) t).
Proof.
  intros Hs Hor Hr Hlf. unfold amt_tree_leaf.
  apply (am_leaf_j w iM iT mhas has endsM (fun _ => True)) with (out := fun _ or y => oout or y) (unch := is_tu) (keep := fun _ or => or) (flag := @a_ur _ _ _); try assumption; try exact Logic.I.
  - intros. eapply ends_child; eassumption.
  - auto.
  - reflexivity.
  - intros l r [] H; [|discriminate]. eexists. split; reflexivity.
  - intros. apply amt_add_j; assumption.
  - intros d' p' l Hl. unfold amt_lone. eapply jf_weak; [apply (one_m_j d' p' l None); exact Hl|]. intros t y _ [H1 H2] or. destruct y; [destruct (H2 eq_refl) as (c & H3 & _); discriminate|].
    split; [exact H1|discriminate].
  - intros d' p' r Hl. apply one_t_j. assumption.
  - intros d' p' n' r ls rs tr a Hd _ Hn _ Hls HI. apply (done_j (@a_ur _ _ _) d' p' r rs); assumption.
  - intros k v h. apply (tells_hash laws).
  - intros d' p' this r H1 H2 H3 _ H4 H5. eapply jf_weak; [exact (amt_leaf_j _ _ _ laws _ _ _ _ H1 H2 H4 H5 (ends_leaf _ _ H3))|]. intros; apply oout_tout; assumption.
Qed.

(** ** Two maps *)
Lemma am_tm_j (ky : keyed A K L) both yes (laws : tmlaws w ts ms ky both yes) st n r d p : shaped1 d p n -> shaped2 d p r -> endsM r ->
  jfull (map iT (m_visit n) ++ map iM (m_visit r)) (am_tm def red ky st ck cv (EGeneric both) (EGeneric (t_f ts)) (EMGeneric (m_f ms)) n r d)
    (fun t y => sdone d p (oout (Some n) y) (tred y) t).
Proof.
  intros Hs Hr Hor. unfold am_tm.
  apply (am_joint_j w iT iM has mhas (fun _ => True) endsM) with (out := fun ol _ y => oout ol y) (unch := is_tu) (keep := fun ol _ => ol) (flag := @a_ul _ _ _); try assumption; try exact Logic.I.
  - auto.
  - intros. eapply ends_child; eassumption.
  - reflexivity.
  - intros l r' [] H; [|discriminate]. eexists. split; reflexivity.
  - intros. apply atm_add_j; assumption.
  - intros d' p' l Hl. eapply jf_weak; [apply one_t_j; exact Hl|]. auto.
  - intros d' p' r' Hl. apply (one_m_j _ _ _ None). assumption.
  - intros d' p' n' r' ls rs tr a Hd Hn _ Hls _ HI. apply (done_j (@a_ul _ _ _) d' p' n' ls); assumption.
  - intros d' p' this r' H1 H2 _ H3 H4 H5. eapply jf_weak; [exact (atm_leaf_j _ _ _ laws _ _ _ _ H1 H2 H4 H5 (ends_leaf _ _ H3))|]. intros; apply oout_tout; assumption.
  - intros d' p' n' right H1 _ H2 H3 H4. eapply (atm_tree_leaf_j _ _ _ laws); assumption.
  - intros d' p' this r' H1 H2 H3 _ H4. eapply jf_perm; [apply Permutation_app_comm|]. cbn [etflip]. eapply (amt_tree_leaf_j _ _ _ (tm_flip _ _ _ laws)); assumption.
Qed.

Lemma am_mt_j (ky : keyed A L K) (both : (L * W) * (K * V) -> prog A (vres V R)) yes
  (laws : tmlaws w ts ms (ky_flip ky) (fun p => both (snd p, fst p)) yes) st n r d p : shaped2 d p n -> shaped1 d p r -> endsM n ->
  jfull (map iM (m_visit n) ++ map iT (m_visit r)) (am_mt def red ky st ck cv (EGeneric both) (EMGeneric (m_f ms)) (EGeneric (t_f ts)) n r d)
    (fun t y => sdone d p (oout (Some r) y) (tred y) t).
Proof.
  intros Hs Hr Hor. unfold am_mt.
  apply (am_joint_j w iM iT mhas has endsM (fun _ => True)) with (out := fun _ or y => oout or y) (unch := is_tu) (keep := fun _ or => or) (flag := @a_ur _ _ _); try assumption; try exact Logic.I.
  - intros. eapply ends_child; eassumption.
  - auto.
  - reflexivity.
  - intros l r' [] H; [|discriminate]. eexists. split; reflexivity.
  - intros. apply amt_add_j; assumption.
  - intros d' p' l Hl. unfold amt_lone. eapply jf_weak; [apply (one_m_j d' p' l None); exact Hl|]. intros t y _ [H1 H2] or. destruct y; [destruct (H2 eq_refl) as (c & H3 & _); discriminate|].
    split; [exact H1|discriminate].
  - intros d' p' r' Hl. apply one_t_j. assumption.
  - intros d' p' n' r' ls rs tr a Hd _ Hn _ Hls HI. apply (done_j (@a_ur _ _ _) d' p' r' rs); assumption.
  - intros d' p' this r' H1 H2 H3 _ H4 H5. eapply jf_weak; [exact (amt_leaf_j _ _ _ laws _ _ _ _ H1 H2 H4 H5 (ends_leaf _ _ H3))|]. intros; apply oout_tout; assumption.
  - intros d' p' n' right H1 H2 H3 _ H4. eapply (amt_tree_leaf_j _ _ _ laws); assumption.
  - intros d' p' this r' H1 _ H3 H2 H4. eapply jf_perm; [apply Permutation_app_comm|]. cbn [etflip]. eapply (atm_tree_leaf_j _ _ _ laws); assumption.
Qed.

End Tree.

Section MM.
Context {E : Env} {Q : Type} {A : Q -> Type} {S X R I C U : Type} {w : world A S X R I C U}.
Notation event := (event (A := A)).
Notation trace := (list event).
Implicit Types tr t : trace.
Notation red := (w_red w).
Notation def := (w_def w).
Notation jfull := (jfull w).
Notation sdone := (sdone w).
Notation shapedm ms := (shaped (leaf_of (m_has ms) (w_lies w)) (w_deep w)).
Notation ends := (ends (w_stuck w)).

Lemma amm_add_j {K V L W} d p kept lo i tr t a (ol : option (mnode K V)) (or : option (mnode L W)) y : lo <= i -> i < max_ones fw -> jinv w d p (fun _ => false) kept lo i tr a ->
  sdone (d + 1) (p + i * 2 ^ off d) (nnode y) (nred y) t ->
  jfull [] (amm_add red a i ol or y) (fun t' a' => jinv w d p (fun _ => false) kept lo (i + 1) (tr ++ t ++ t') a').
Proof.
  intros Hlo Hi HI HD. unfold amm_add. eapply jf_weak; [apply (apush_new_j w d p (fun _ => false) kept lo i tr a y Hi HI)|].
  intros t' a' _ (e & r' & -> & He & ->). eapply jinv_grow; [assumption|assumption|exact HI|exact HD|exact He|reflexivity|]. discriminate.
Qed.

Lemma one_mm_j {K V} (ms : mside w K V) d p n (P : nres S X R -> Prop) : shapedm ms d p n -> (forall y, P y) ->
  jfull (map (m_inj ms) (m_visit n)) (am_transmute def red (EMGeneric (m_f ms)) n) (fun t y => sdone d p (nnode y) (nred y) t /\ P y).
Proof. intros Hs HP. eapply jf_weak; [apply am_transmute_j; exact Hs|]. auto. Qed.

Lemma amm_tree_leaf_j {K V L W} {ml : mside w K V} {mr : mside w L W} ky both yes (laws : mmlaws w ml mr ky both yes) d p n right :
  shapedm ml d p n -> ends n -> leafy (next_mnode right) -> ends (next_mnode right) -> leaf_of (m_has mr) (w_lies w) d p (m_visit (next_mnode right)) ->
  jfull (map (m_inj ml) (m_visit n) ++ map (m_inj mr) (m_visit (next_mnode right)))
    (amm_tree_leaf def red ky (EMGeneric both) (EMGeneric (m_f ml)) (EMGeneric (m_f mr)) right n d)
    (fun t y => sdone d p (nnode y) (nred y) t).
Proof.
  intros Hs Hol Hr Hor Hlf. unfold amm_tree_leaf.
  apply (am_leaf_j w (m_inj ml) (m_inj mr) (m_has ml) (m_has mr) ends ends) with (out := fun _ _ y => nnode y) (unch := fun _ => false) (keep := fun _ _ => None) (flag := fun _ => false); try assumption.
  - intros. eapply ends_child; eassumption.
  - intros. eapply ends_child; eassumption.
  - reflexivity.
  - discriminate.
  - intros. apply amm_add_j; assumption.
  - intros d' p' l Hl. eapply jf_weak; [apply (one_mm_j ml d' p' l (fun _ => True)); [exact Hl|auto]|]. intros t y _ [H _] or. split; [exact H|discriminate].
  - intros d' p' l Hl. apply (one_mm_j mr d' p' l); [exact Hl|discriminate].
  - intros d' p' n' r ls rs tr a Hd _ _ _ _ HI. exact (finish_j w d' p' Hd _ _ _ _ HI).
  - intros k v h. apply (mtells' laws).
  - intros d' p' this r H1 H2 _ H3 H4 H5. exact (amm_leaf_j _ _ _ laws _ _ _ _ H4 H5 (ends_leaf _ _ H3)).
Qed.

Lemma am_mm_j {K V L W} {ml : mside w K V} {mr : mside w L W} ky both yes (laws : mmlaws w ml mr ky both yes) n r d p :
  shapedm ml d p n -> shapedm mr d p r -> ends n -> ends r ->
  jfull (map (m_inj ml) (m_visit n) ++ map (m_inj mr) (m_visit r))
    (am_mm def red ky (EMGeneric both) (EMGeneric (m_f ml)) (EMGeneric (m_f mr)) n r d)
    (fun t y => sdone d p (nnode y) (nred y) t).
Proof.
  intros Hs Hr Hol Hor. unfold am_mm.
  apply (am_joint_j w (m_inj ml) (m_inj mr) (m_has ml) (m_has mr) ends ends) with (out := fun _ _ y => nnode y) (unch := fun _ => false) (keep := fun _ _ => None) (flag := fun _ => false); try assumption.
  - intros. eapply ends_child; eassumption.
  - intros. eapply ends_child; eassumption.
  - reflexivity.
  - discriminate.
  - intros. apply amm_add_j; assumption.
  - intros d' p' l Hl. eapply jf_weak; [apply (one_mm_j ml d' p' l (fun _ => True)); [exact Hl|auto]|]. intros t y _ [H _] or. split; [exact H|discriminate].
  - intros d' p' l Hl. apply (one_mm_j mr d' p' l); [exact Hl|discriminate].
  - intros d' p' n' r' ls rs tr a Hd _ _ _ _ HI. exact (finish_j w d' p' Hd _ _ _ _ HI).
  - intros d' p' this r' H1 H2 _ H3 H4 H5. exact (amm_leaf_j _ _ _ laws _ _ _ _ H4 H5 (ends_leaf _ _ H3)).
  - intros d' p' n' right H1 H2 H3 H4 H5. eapply (amm_tree_leaf_j _ _ _ laws); assumption.
  - intros d' p' this r' H1 H2 H3 H4 H5. eapply jf_perm; [apply Permutation_app_comm|]. cbn [emflip].
    eapply (amm_tree_leaf_j _ _ _ (mm_flip _ _ _ _ _ _ laws)); assumption.
Qed.

End MM.
