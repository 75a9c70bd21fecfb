(** transform_with_transformed on whole maps, whatever the client's code answers. *)
From Coq Require Import NArith Arith List Bool Lia ZifyBool ZifyN ZifyNat Permutation.
From Verif Require Import Base Words WordsP Flag FlagP Bia BiaP Node Inv InsertP Api Trans Transform Joint JointT Profile Eff EffP EffTP EffApi EffJ Ask AskP AskHashP AskT SpecAsk SpecAskT JoinP JointLeafP JointTLeafP LoopP TransformP
  PermP AskTP AskTTP AskJ AskJP AskJOneP AskJLeafP AskJMLeafP AskJTravP AskJTreeP AskTw AskTwLeafP.
Import ListNotations.
Open Scope N_scope.

(** [n] has no collision list but where [P]. *)
Definition lists {E : Env} (P : Prop) {K V} (n : mnode K V) : Prop := 2 <= longest n -> P.
Lemma lists_child {E : Env} P {K V} bits (values : list (mnode K V)) x c : lists P (MC (BIA bits values x)) -> In c values -> lists P c.
Proof. unfold lists. intros H Hc Hl. apply H. pose proof (longest_child bits values x c Hc). lia. Qed.
Lemma lists_l {E : Env} P {K V} (l : lnode K V) : lists P (ML l) -> P.
Proof. intros H. apply H. destruct l as [? ? [] ?|]; cbn [longest l_visit]; unfold lenN; cbn [length s_visit]; lia. Qed.

Section Any.
Context {E : Env} {Q : Type} {A : Q -> Type} {K V R I C U : Type} (w : world A K V R I C U).
Notation event := (event (A := A)).
Notation trace := (list event).
Implicit Types t tr : trace.
Notation see := (w_see w).
Notation red := (w_red w).
Notation jfull := (jfull w).
Notation sdone := (sdone w).

Lemma jf_and {Y} us (p : prog A Y) (P P' : trace -> Y -> Prop) : jfull us p P -> jfull us p P' -> jfull us p (fun t y => P t y /\ P' t y).
Proof.
  intros H H' t o He Hg. destruct (H t o He Hg) as (rest & H1 & H2), (H' t o He Hg) as (rest' & _ & H4). exists rest. split; [assumption|].
  destruct o; [|assumption..]. tauto.
Qed.

Lemma jsaid_flip d p ol or (y : jres K V R) t : jsaid (w := w) d p ol or y t -> jsaid (w := w) d p or ol (jres_flip y) t.
Proof. destruct y; cbn; tauto. Qed.

Lemma push_any_j (flag : acc K V R -> bool) (set : acc K V R -> acc K V R) d p kept lo i tr t a n r :
  (forall g, exists ul ur, set g = Acc (a_size g) (a_bits g) (a_values g) ul ur (a_red g)) ->
  (forall c r', flag (set (grow a i c r')) = true -> flag a = true /\ jdone w (ovisit (kept i)) r t) ->
  lo <= i -> i < max_ones fw -> jinv w d p flag kept lo i tr a -> sdone (d + 1) (p + i * 2 ^ off d) (Some n) r t ->
  jfull [] (let+ b := apush red a i n (m_size n) r in PRet (set b)) (fun t' a' => jinv w d p flag kept lo (i + 1) (tr ++ t ++ t') a').
Proof.
  intros Hacc Hf Hlo Hi HI HD. eapply (jf_cut w _ _ []); [apply (apush_j w d p flag kept lo i tr a n r Hi HI)|reflexivity|].
  intros t' a' _ (e & r' & -> & He & ->). apply jf_ret. rewrite app_nil_r. destruct (Hacc (grow a i (Some n) r')) as (ul & ur & Hg).
  eapply jinv_grow'; [assumption|assumption|exact HI|exact HD|exact He|exact Hg|]. intros H. eapply Hf; exact H.
Qed.
Lemma push_same_j (flag : acc K V R -> bool) d p kept lo i tr t a n r :
  (forall c r', flag (grow a i c r') = true -> flag a = true /\ jdone w (ovisit (kept i)) r t) ->
  lo <= i -> i < max_ones fw -> jinv w d p flag kept lo i tr a -> sdone (d + 1) (p + i * 2 ^ off d) (Some n) r t ->
  jfull [] (apush red a i n (m_size n) r) (fun t' a' => jinv w d p flag kept lo (i + 1) (tr ++ t ++ t') a').
Proof.
  intros Hf Hlo Hi HI HD. eapply jf_weak; [apply (apush_j w d p flag kept lo i tr a n r Hi HI)|].
  intros t' a' _ (e & r' & -> & He & ->). eapply jinv_grow'; [assumption|assumption|exact HI|exact HD|exact He|reflexivity|]. intros H. eapply Hf; exact H.
Qed.
Ltac acc := intros []; do 2 eexists; reflexivity.

Definition is_right (y : jres K V R) : Prop := match y with JR _ | JLR _ => True | _ => False end.

(** One slot, when the flag is for the left map and when it is for the right one. *)
Lemma att_add_l d p ls rs lo i tr t a or y : lo <= i -> i < max_ones fw -> jinv w d p (@a_ul _ _ _) ls lo i tr a ->
  jsaid (w := w) (d + 1) (p + i * 2 ^ off d) (ls i) (rs i) y t -> (is_right y -> or = rs i) ->
  jfull [] (att_add red a i (ls i) or y) (fun t' a' => jinv w d p (@a_ul _ _ _) ls lo (i + 1) (tr ++ t ++ t') a').
Proof.
  intros Hlo Hi HI HD Ho. destruct y as [r|r|r|n]; cbn [att_add jsaid is_right] in *.
  - destruct HD as [[H1 H2] _]. destruct (ls i) as [l|] eqn:Hls; [|contradiction]. cbn [unwrap lift pbind].
    apply push_same_j; try assumption. intros c r' H. rewrite Hls. split; [exact H|apply H2].
  - destruct HD as [H1 H2]. destruct (ls i) as [l|] eqn:Hls; [|contradiction]. cbn [unwrap lift pbind].
    apply (push_any_j _ (@set_ur _ _ _)); try assumption; [acc|]. intros c r' H. rewrite Hls. split; [exact H|apply H2].
  - destruct HD as [H1 H2]. rewrite (Ho Logic.I). destruct (rs i) as [l|] eqn:Hrs; [|contradiction]. cbn [unwrap lift pbind].
    apply (push_any_j _ (@set_ul _ _ _)); try assumption; [acc|]. intros c r' H. destruct a, c; discriminate H.
  - apply (add_new_j _ (fun b => set_ur (set_ul b))); try assumption; [reflexivity|acc].
Qed.
Lemma att_add_r d p ls rs lo i tr t a or y : lo <= i -> i < max_ones fw -> jinv w d p (@a_ur _ _ _) rs lo i tr a ->
  jsaid (w := w) (d + 1) (p + i * 2 ^ off d) (ls i) (rs i) y t -> (is_right y -> or = rs i) ->
  jfull [] (att_add red a i (ls i) or y) (fun t' a' => jinv w d p (@a_ur _ _ _) rs lo (i + 1) (tr ++ t ++ t') a').
Proof.
  intros Hlo Hi HI HD Ho. destruct y as [r|r|r|n]; cbn [att_add jsaid is_right] in *.
  - destruct HD as [[H1 H2] [H3 H4]]. destruct (ls i) as [l|] eqn:Hls; [|contradiction]. cbn [unwrap lift pbind].
    apply push_same_j; try assumption. intros c r' H. split; [exact H|apply H4].
  - destruct HD as [H1 H2]. destruct (ls i) as [l|] eqn:Hls; [|contradiction]. cbn [unwrap lift pbind].
    apply (push_any_j _ (@set_ur _ _ _)); try assumption; [acc|]. intros c r' H. destruct a, c; discriminate H.
  - destruct HD as [H1 H2]. rewrite (Ho Logic.I). destruct (rs i) as [l|] eqn:Hrs; [|contradiction]. cbn [unwrap lift pbind].
    apply (push_any_j _ (@set_ul _ _ _)); try assumption; [acc|]. intros c r' H. rewrite Hrs. split; [exact H|apply H2].
  - apply (add_new_j _ (fun b => set_ur (set_ul b))); try assumption; [reflexivity|acc].
Qed.

Lemma tt_done_j d p n r ls rs tr a : w_deep w d p -> shaped (leaf_of (w_has w) (w_lies w)) (w_deep w) d p n -> shaped (leaf_of (w_has w) (w_lies w)) (w_deep w) d p r ->
  flat_map (fun j => ovisit (ls j)) (range 0 (max_ones fw)) = m_visit n -> flat_map (fun j => ovisit (rs j)) (range 0 (max_ones fw)) = m_visit r ->
  jinv w d p (@a_ul _ _ _) ls 0 (max_ones fw) tr a -> jinv w d p (@a_ur _ _ _) rs 0 (max_ones fw) tr a ->
  exists y, tt_done a = Ret y /\ jsaid (w := w) d p (Some n) (Some r) y tr.
Proof.
  intros Hd Hs Hr Hn Hr' HL HR. unfold tt_done.
  assert (HL' : a_ul a = true -> Some n <> None /\ sdone d p (Some n) (a_red a) tr).
  { intros Hu. split; [discriminate|]. split; [|intros n' [= <-]; exact Hs]. cbn [ovisit]. eapply jinv_kept; [exact HL|exact Hu|exact Hn]. }
  assert (HR' : a_ur a = true -> Some r <> None /\ sdone d p (Some r) (a_red a) tr).
  { intros Hu. split; [discriminate|]. split; [|intros n' [= <-]; exact Hr]. cbn [ovisit]. eapply jinv_kept; [exact HR|exact Hu|exact Hr']. }
  destruct (a_ul a); [destruct (a_ur a); (eexists; split; [reflexivity|]); cbn [jsaid]; auto|]. destruct (a_ur a).
  - eexists. split; [reflexivity|]. cbn [jsaid]. auto.
  - destruct (finish_j w d p Hd _ _ _ _ HL) as (x & Hx & HD). rewrite Hx. cbn [bind]. eexists. split; [reflexivity|exact HD].
Qed.

End Any.

Section Tree.
Context {E : Env} {Q : Type} {A : Q -> Type} {K V R I C U : Type} {w : world A K V R I C U}.
Notation event := (event (A := A)).
Notation trace := (list event).
Implicit Types t : trace.
Notation good := (w_good w).
Notation see := (w_see w).
Notation red := (w_red w).
Notation def := (w_def w).
Notation jfull := (jfull w).
Notation sdone := (sdone w).
Notation jsaid := (jsaid (w := w)).
Notation has := (w_has w).
Notation shaped := (shaped (leaf_of has (w_lies w)) (w_deep w)).
Context (f : K * V -> K * V -> prog A (bres V R)).

Section Side.
Context {tl tr : tside w} {ky : keyed A K K} {b : bool} {yes : trace -> K -> K -> Prop} {m : temper} (laws : ttlaws w tl tr ky (EJGeneric f b) yes m).
Notation ck := (t_ck tl).
Notation cv := (t_cv tl).
Notation iL := (t_inj tl).
Notation iR := (t_inj tr).
(** What is known where the left map, the right map has collision lists. *)
Context {PL PR : Prop} (HPL : PL -> tame m) (HPR : PR -> tame (tm_other m)) (HPP : PL -> PR -> False).

Lemma att_leaf_j d p this right : leafy (next_mnode this) -> leafy (next_mnode right) -> lists PL (next_mnode this) -> lists PR (next_mnode right) ->
  leaf_of has (w_lies w) d p (m_visit (next_mnode this)) -> leaf_of has (w_lies w) d p (m_visit (next_mnode right)) ->
  jfull (map iL (m_visit (next_mnode this)) ++ map iR (m_visit (next_mnode right)))
    (att_leaf red ck cv ky (EJGeneric f b) (EGeneric (t_f tl)) (EGeneric (t_f tr)) this right d)
    (fun t y => jsaid d p (Some (next_mnode this)) (Some (next_mnode right)) y t).
Proof.
  intros Hl Hr OL OR (h & Hh & L1) (h' & Hh' & L2). destruct this as [l|s], right as [r|s']; cbn [att_leaf next_mnode m_visit s_visit] in *.
  - exfalso. exact (HPP (lists_l _ _ OL) (lists_l _ _ OR)).
  - inversion Hh' as [|? ? Hs _]; subst. eapply (att_lsnode_j laws d p h h'); try assumption. apply HPL. exact (lists_l _ _ OL).
  - inversion Hh as [|? ? Hs _]; subst. rewrite <- (tt_ck laws), <- (tt_cv laws).
    eapply (jf_cut w _ _ []); [eapply (att_lsnode_j (ttlaws_flip _ _ _ _ _ _ _ _ laws) d p h' h r s); try assumption; apply HPR; exact (lists_l _ _ OR)| |].
    + rewrite app_nil_r. apply Permutation_app_comm.
    + intros t y _ HJ. apply jf_ret. rewrite app_nil_r. apply jsaid_flip. exact HJ.
  - inversion Hh as [|? ? Hs _]; subst. inversion Hh' as [|? ? Hs' _]; subst. eapply (att_snode_j laws d p h h'); assumption.
Qed.

Lemma att_lone_j st d p n or : shaped d p n -> jfull (map iL (m_visit n)) (att_lone def red ck cv st (EGeneric (t_f tl)) n)
  (fun t y => jsaid d p (Some n) or y t /\ ~ is_right y).
Proof.
  intros Hs. unfold att_lone. eapply jf_cut; [apply (am_transform_j w tl st n d p Hs)|rewrite app_nil_r; reflexivity|]. intros t y _ HD. apply jf_ret. rewrite app_nil_r.
  destruct y; cbn [t_left AskTwLeafP.jsaid tout tred is_right] in *; split; auto. split; [discriminate|exact HD].
Qed.
Lemma att_rone_j st d p n ol : shaped d p n -> jfull (map iR (m_visit n)) (att_rone def red ck cv st (EGeneric (t_f tr)) n)
  (fun t y => jsaid d p ol (Some n) y t).
Proof.
  intros Hs. unfold att_rone. rewrite <- (tt_ck laws), <- (tt_cv laws). eapply jf_cut; [apply (am_transform_j w tr st n d p Hs)|rewrite app_nil_r; reflexivity|].
  intros t y _ HD. apply jf_ret. rewrite app_nil_r.
  destruct y; cbn [t_right AskTwLeafP.jsaid tout tred] in *; auto. split; [discriminate|exact HD].
Qed.

Lemma att_tree_leaf_j st right n : leafy (next_mnode right) -> lists PR (next_mnode right) -> forall d p, shaped d p n -> lists PL n ->
  leaf_of has (w_lies w) d p (m_visit (next_mnode right)) ->
  jfull (map iL (m_visit n) ++ map iR (m_visit (next_mnode right)))
    (att_tree_leaf def red ck cv ky st (EJGeneric f b) (EGeneric (t_f tl)) (EGeneric (t_f tr)) right n d)
    (fun t y => jsaid d p (Some n) (Some (next_mnode right)) y t).
Proof.
  intros Hr Hor. unfold att_tree_leaf. induction n as [bits values x IH|l|s] using mnode_ind'; intros d p Hs Hol Hlf; cbn [am_leaf].
  - rewrite Forall_forall in IH. inversion Hs as [| |? ? ? ? ? Hd Hok Hne Hx Hch]; subst.
    pose proof Hlf as (h & Hh & Hl). destruct (next_first right _ Hh) as [v0 Hv0].
    eapply jf_quiet; [exact (tell' laws _ _ _ Hv0)|]. intros wd e0 G0 [N0 T0].
    destruct (w_route w _ _ _ _ _ Hd G0 T0 Hl) as (fl & j & Hf & Hfl & Hj & Hlies). rewrite Hf. cbn [bind unwrap lift]. cbn [pbind]. rewrite Hfl.
    set (rn := next_mnode right) in *. set (ls := getv bits values). set (rs := fun i => if i =? j then Some rn else None).
    set (us := fun i => map iL (ovisit (ls i)) ++ map iR (ovisit (rs i))).
    assert (Hstep : forall (Z : N -> N -> trace -> acc K V R -> Prop),
      (forall lo i tr t a or y, lo <= i -> i < max_ones fw -> Z lo i tr a -> jsaid (d + 1) (p + i * 2 ^ off d) (ls i) (rs i) y t -> (is_right y -> or = rs i) ->
        jfull [] (att_add red a i (ls i) or y) (fun t' a' => Z lo (i + 1) (tr ++ t ++ t') a')) ->
      (forall lo i tr a, lo <= i -> ls i = None -> rs i = None -> Z lo i tr a -> Z lo (i + 1) tr a) ->
      forall lo i tr0 a, lo <= i -> i < max_ones fw -> Forall good tr0 -> Z lo i tr0 a ->
        jfull (us i) (acl_step (att_add red) (att_lone def red ck cv st (EGeneric (t_f tl))) (att_rone def red ck cv st (EGeneric (t_f tr))) (2 ^ j) rn d
          (BIA bits (map (fun c => (c, am_leaf def (att_add red) (att_lone def red ck cv st (EGeneric (t_f tl)))
             (att_rone def red ck cv st (EGeneric (t_f tr))) tt_done (ky_hash' ky) (att_leaf red ck cv ky (EJGeneric f b) (EGeneric (t_f tl)) (EGeneric (t_f tr))) right c)) values)
             (lenN (concat (map m_visit values)))) a i) (fun t a' => Z lo (i + 1) (tr0 ++ t) a')).
    { intros Z Zadd Zskip lo i tr0 a Hlo Hi Ht HI. unfold acl_step. eapply jf_lift; [apply bat_bit_index_slot; assumption|].
      apply (jf_lift w _ _ (2 ^ i)); [rewrite nth_bit_ok by assumption; reflexivity|].
      assert (Hbit : (2 ^ j =? 2 ^ i) = (i =? j)).
      { destruct (N.eqb_spec i j) as [->|Hij]; [apply N.eqb_refl|]. apply N.eqb_neq. intros H. apply N.pow_inj_r in H; lia. }
      rewrite Hbit. specialize (Zadd lo i tr0). specialize (Zskip lo i tr0 a Hlo). unfold us, rs, ls in *. destruct (getv bits values i) as [c|] eqn:Hg; destruct (N.eqb_spec i j) as [->|Hij]; cbn [ovisit map].
      - eapply (jf_cut w _ _ []); [apply (IH c (getv_in _ _ _ _ Hg) (d + 1) (p + j * 2 ^ off d) (Hch _ _ Hg)); [eapply lists_child; [exact Hol|eapply getv_in; exact Hg]|exists h; auto]|rewrite app_nil_r; reflexivity|].
        intros t y _ HD. eapply jf_weak; [eapply (Zadd t a); [exact Hlo|exact Hi|exact HI|exact HD|reflexivity]|]. intros t' a' _ H. exact H.
      - rewrite app_nil_r. eapply (jf_cut w _ _ []); [apply (att_lone_j st (d + 1) (p + i * 2 ^ off d) c None), Hch; assumption|rewrite app_nil_r; reflexivity|].
        intros t y _ [HD HN]. eapply jf_weak; [eapply (Zadd t a); [exact Hlo|exact Hi|exact HI|exact HD|contradiction]|]. intros t' a' _ H. exact H.
      - eapply (jf_cut w _ _ []); [apply (att_rone_j st (d + 1) (p + j * 2 ^ off d) rn None), leafy_shaped; [assumption|exists h; auto]|rewrite app_nil_r; reflexivity|].
        intros t y _ HD. eapply jf_weak; [eapply (Zadd t a); [exact Hlo|exact Hi|exact HI|exact HD|reflexivity]|]. intros t' a' _ H. exact H.
      - apply jf_ret. rewrite app_nil_r. apply Zskip; auto. }
    eapply (jf_cut w _ _ []).
    + apply jf_and.
      * apply (aloop_j w d p (@a_ul _ _ _) ls _ us); [|lia|lia]. apply Hstep.
        -- intros. apply att_add_l with (rs := rs); assumption.
        -- intros. apply jinv_skip; assumption.
      * apply (aloop_j w d p (@a_ur _ _ _) rs _ us); [|lia|lia]. apply Hstep.
        -- intros. apply att_add_r with (ls := ls); assumption.
        -- intros. apply jinv_skip; assumption.
    + rewrite app_nil_r. unfold us, ls. rewrite <- flat_two. apply Permutation_app.
      * rewrite <- (visit_slots bits values) by assumption. rewrite map_flat_map. reflexivity.
      * rewrite <- (flat_at j (max_ones fw) (map iR (m_visit rn))) at 1 by assumption. apply Permutation_refl'. apply flat_map_ext. intros i. unfold rs.
        destruct (i =? j); reflexivity.
    + intros t a Ht [HL HR]. cbn beta in HL, HR.
      destruct (tt_done_j w d p (MC (BIA bits values (lenN (concat (map m_visit values))))) rn ls rs t a Hd Hs) as (y & Hy & HD).
      * apply leafy_shaped; [assumption|]. exists h. auto.
      * apply visit_slots. assumption.
      * rewrite <- (flat_at j (max_ones fw) (m_visit rn)) at 1 by assumption. apply flat_map_ext. intros i. unfold rs. destruct (i =? j); reflexivity.
      * exact HL.
      * exact HR.
      * rewrite Hy. cbn [lift]. apply jf_ret. rewrite app_nil_r. apply (jsaid_none (w := w) d p _ _ _ [e0]); [repeat constructor; assumption|exact HD].
  - inversion Hs as [|? ? ? Hll Hlf'|]; subst. apply (att_leaf_j d p (NL l) right); assumption.
  - inversion Hs as [? ? ? Hlf'| |]; subst. apply (att_leaf_j d p (NS s) right); try assumption. exact Logic.I.
Qed.
End Side.

Section Joint.
Context {tl tr : tside w} {ky : keyed A K K} {b : bool} {yes : trace -> K -> K -> Prop} {m : temper} (laws : ttlaws w tl tr ky (EJGeneric f b) yes m).
Notation ck := (t_ck tl).
Notation cv := (t_cv tl).
Notation iL := (t_inj tl).
Notation iR := (t_inj tr).
Context {PL PR : Prop} (HPL : PL -> tame m) (HPR : PR -> tame (tm_other m)) (HPP : PL -> PR -> False).

Lemma att_leaf_tree_j st d p this r : leafy (next_mnode this) -> lists PL (next_mnode this) -> shaped d p r -> lists PR r ->
  leaf_of has (w_lies w) d p (m_visit (next_mnode this)) ->
  jfull (map iL (m_visit (next_mnode this)) ++ map iR (m_visit r))
    (att_leaf_tree def red ck cv ky st (EJGeneric f b) (EGeneric (t_f tl)) (EGeneric (t_f tr)) this r d)
    (fun t y => jsaid d p (Some (next_mnode this)) (Some r) y t).
Proof.
  intros Hl Hol Hs Hor Hlf. unfold att_leaf_tree. rewrite <- (tt_ck laws), <- (tt_cv laws).
  eapply (jf_cut w _ _ []); [eapply (att_tree_leaf_j (b := negb b) (ttlaws_flip _ _ _ _ _ _ _ _ laws) (PL := PR) (PR := PL)); try eassumption| |].
  - intros H H'. exact (HPP H' H).
  - rewrite app_nil_r. apply Permutation_app_comm.
  - intros t y _ HJ. apply jf_ret. rewrite app_nil_r. apply jsaid_flip. exact HJ.
Qed.

Lemma am_tt_j st n : forall r d p, shaped d p n -> shaped d p r -> lists PL n -> lists PR r ->
  jfull (map iL (m_visit n) ++ map iR (m_visit r))
    (am_tt def red ck cv ky st (EJGeneric f b) (EGeneric (t_f tl)) (EGeneric (t_f tr)) n r d)
    (fun t y => jsaid d p (Some n) (Some r) y t).
Proof.
  unfold am_tt. induction n as [bits values x IH|l|s] using mnode_ind'; intros r d p Hs Hr Hol Hor; cbn [atw_joint].
  - destruct r as [[rbits rvalues rx]|rl|rs].
    + rewrite Forall_forall in IH. inversion Hs as [| |? ? ? ? ? Hd Hok Hne Hx Hch]; subst. inversion Hr as [| |? ? ? ? ? Hd' Hok' Hne' Hx' Hch']; subst.
      set (ls := getv bits values). set (rs := getv rbits rvalues). set (us := fun i => map iL (ovisit (ls i)) ++ map iR (ovisit (rs i))).
      cbn [att_short].
      assert (Hstep : forall (Z : N -> N -> trace -> acc K V R -> Prop),
        (forall lo i tr t a or y, lo <= i -> i < max_ones fw -> Z lo i tr a -> jsaid (d + 1) (p + i * 2 ^ off d) (ls i) (rs i) y t -> (is_right y -> or = rs i) ->
          jfull [] (att_add red a i (ls i) or y) (fun t' a' => Z lo (i + 1) (tr ++ t ++ t') a')) ->
        (forall lo i tr a, lo <= i -> ls i = None -> rs i = None -> Z lo i tr a -> Z lo (i + 1) tr a) ->
        forall lo i tr0 a, lo <= i -> i < max_ones fw -> Forall good tr0 -> Z lo i tr0 a ->
          jfull (us i) (acc_step (att_add red) (att_lone def red ck cv st (EGeneric (t_f tl))) (att_rone def red ck cv st (EGeneric (t_f tr)))
            (BIA bits (map (fun c => (c, fun r => atw_joint def red (att_add red) (att_lone def red ck cv st (EGeneric (t_f tl))) (att_rone def red ck cv st (EGeneric (t_f tr))) tt_done
              (att_leaf red ck cv ky (EJGeneric f b) (EGeneric (t_f tl)) (EGeneric (t_f tr))) (att_tree_leaf def red ck cv ky st (EJGeneric f b) (EGeneric (t_f tl)) (EGeneric (t_f tr)))
              (att_leaf_tree def red ck cv ky st (EJGeneric f b) (EGeneric (t_f tl)) (EGeneric (t_f tr)))
              (att_short (EJGeneric f b) (EGeneric (t_f tl)) (EGeneric (t_f tr))) st c r (d + 1))) values) (lenN (concat (map m_visit values))))
            (BIA rbits rvalues (lenN (concat (map m_visit rvalues)))) a i) (fun t a' => Z lo (i + 1) (tr0 ++ t) a')).
      { intros Z Zadd Zskip lo i tr0 a Hlo Hi Ht HI. unfold acc_step. eapply jf_lift; [apply bat_bit_index_slot; assumption|]. eapply jf_lift; [apply bat_slot; assumption|].
        specialize (Zadd lo i tr0). specialize (Zskip lo i tr0 a Hlo). unfold us, rs, ls in *.
        destruct (getv bits values i) as [c|] eqn:Hg; destruct (getv rbits rvalues i) as [c'|] eqn:Hg'; cbn [ovisit map].
        - eapply (jf_cut w _ _ []); [apply (IH c (getv_in _ _ _ _ Hg) c' (d + 1) (p + i * 2 ^ off d) (Hch _ _ Hg) (Hch' _ _ Hg'));
            [eapply lists_child; [exact Hol|eapply getv_in; exact Hg]|eapply lists_child; [exact Hor|eapply getv_in; exact Hg']]|rewrite app_nil_r; reflexivity|].
          intros t y _ HD. eapply jf_weak; [eapply (Zadd t a); [exact Hlo|exact Hi|exact HI|exact HD|reflexivity]|]. intros t' a' _ H. exact H.
        - rewrite app_nil_r. eapply (jf_cut w _ _ []); [apply (att_lone_j (tl := tl) st (d + 1) (p + i * 2 ^ off d) c None), Hch; assumption|rewrite app_nil_r; reflexivity|].
          intros t y _ [HD HN]. eapply jf_weak; [eapply (Zadd t a); [exact Hlo|exact Hi|exact HI|exact HD|contradiction]|]. intros t' a' _ H. exact H.
        - eapply (jf_cut w _ _ []); [apply (att_rone_j laws st (d + 1) (p + i * 2 ^ off d) c' None), Hch'; assumption|rewrite app_nil_r; reflexivity|].
          intros t y _ HD. eapply jf_weak; [eapply (Zadd t a); [exact Hlo|exact Hi|exact HI|exact HD|reflexivity]|]. intros t' a' _ H. exact H.
        - apply jf_ret. rewrite app_nil_r. apply Zskip; auto. }
      eapply (jf_cut w _ _ []).
      * apply jf_and.
        -- apply (arun_j w d p (@a_ul _ _ _) ls _ us).
           ++ apply Hstep.
              ** intros. apply att_add_l with (rs := rs); assumption.
              ** intros. apply jinv_skip; assumption.
           ++ intros a a' ? ? ? ?. cbn [a_ul]. apply andb_prop.
        -- apply (arun_j w d p (@a_ur _ _ _) rs _ us).
           ++ apply Hstep.
              ** intros. apply att_add_r with (ls := ls); assumption.
              ** intros. apply jinv_skip; assumption.
           ++ intros a a' ? ? ? ?. cbn [a_ur]. apply andb_prop.
      * rewrite app_nil_r. unfold us, ls, rs. rewrite <- flat_two. apply Permutation_app; [rewrite <- (visit_slots bits values) by assumption|rewrite <- (visit_slots rbits rvalues) by assumption];
          rewrite map_flat_map; reflexivity.
      * intros t a Ht [HL HR]. cbn beta in HL, HR.
        edestruct (tt_done_j w d p) as (y & Hy & HD); [exact Hd|exact Hs|exact Hr|apply visit_slots; assumption|apply visit_slots; assumption|exact HL|exact HR|].
        rewrite Hy. cbn [lift]. apply jf_ret. rewrite app_nil_r. exact HD.
    + inversion Hr as [|? ? ? Hrl Hrf|]; subst. apply (att_tree_leaf_j laws HPL HPR HPP st (NL rl)); assumption.
    + inversion Hr as [? ? ? Hrf| |]; subst. apply (att_tree_leaf_j laws HPL HPR HPP st (NS rs)); try assumption. exact Logic.I.
  - inversion Hs as [|? ? ? Hll Hlf|]; subst. destruct r as [rb|rl|rs].
    + apply (att_leaf_tree_j st d p (NL l)); assumption.
    + inversion Hr as [|? ? ? Hrl Hrf|]; subst. apply (att_leaf_j laws HPL HPR HPP d p (NL l) (NL rl)); assumption.
    + inversion Hr as [? ? ? Hrf| |]; subst. apply (att_leaf_j laws HPL HPR HPP d p (NL l) (NS rs)); try assumption. exact Logic.I.
  - inversion Hs as [? ? ? Hlf| |]; subst. destruct r as [rb|rl|rs].
    + apply (att_leaf_tree_j st d p (NS s)); try assumption. exact Logic.I.
    + inversion Hr as [|? ? ? Hrl Hrf|]; subst. apply (att_leaf_j laws HPL HPR HPP d p (NS s) (NL rl)); try assumption. exact Logic.I.
    + inversion Hr as [? ? ? Hrf| |]; subst. apply (att_leaf_j laws HPL HPR HPP d p (NS s) (NS rs)); try assumption; exact Logic.I.
Qed.
End Joint.

End Tree.
