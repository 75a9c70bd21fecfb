(** The traversals of the joint operations, whatever the client's code answers. *)
From Coq Require Import NArith Arith List Bool Lia ZifyBool ZifyN ZifyNat Permutation.
From Verif Require Import Base Words WordsP Flag FlagP Bia BiaP Node Inv InsertP Api Trans Transform Joint Profile Eff EffP EffTP EffApi Ask AskP AskHashP AskT SpecAsk SpecAskT JoinP JointLeafP LoopP TransformP
  PermP AskTP AskTTP AskJ AskJP AskJOneP AskJLeafP AskJMLeafP.
Import ListNotations.
Open Scope N_scope.

Lemma bat_slot {E : Env} {B} bits (values : list B) x i : okv (max_ones fw) bits values -> i < max_ones fw ->
  bat_bit_index fw (BIA bits values x) i = Ret (match getv bits values i with Some a => Ok a | None => Err BNotFound end).
Proof. intros H Hi. rewrite <- (map_id values) at 1. apply (bat_bit_index_slot (fun b => b)); assumption. Qed.

Lemma flat_two {B D} (f g : B -> list D) l : Permutation (flat_map f l ++ flat_map g l) (flat_map (fun b => f b ++ g b) l).
Proof. induction l as [|b l IH]; cbn; [constructor|]. rewrite <- IH. permut. Qed.

Lemma flat_at {D} (j n : N) (es : list D) : j < n -> flat_map (fun i => if i =? j then es else []) (range 0 n) = es.
Proof.
  intros Hj. assert (H : forall m, m <= n -> flat_map (fun i => if i =? j then es else []) (range 0 m) = if j <? m then es else []).
  { intros m. induction m as [|m IH] using N.peano_ind; intros Hm; [rewrite range_nil; destruct (N.ltb_spec j 0); [lia|reflexivity]|].
    rewrite range_snoc, flat_map_app, IH by lia. cbn [flat_map]. rewrite app_nil_r.
    destruct (N.eqb_spec m j), (N.ltb_spec j m), (N.ltb_spec j (N.succ m)); try lia; rewrite ?app_nil_r; reflexivity. }
  rewrite H by lia. destruct (N.ltb_spec j n); [reflexivity|lia].
Qed.

Section Traverse.
Context {E : Env} {Q : Type} {A : Q -> Type} {S X R I C U : Type} (w : world A S X R I C U) {K V L W T : Type}.
Notation event := (event (A := A)).
Notation trace := (list event).
Implicit Types tr t : trace.
Notation good := (w_good w).
Notation see := (w_see w).
Notation none := (none w).
Notation jfull := (jfull w).
Notation sdone := (sdone w).
Context (uL : K * V -> U) (uR : L * W -> U) (lhas : N -> K * V -> Prop) (rhas : N -> L * W -> Prop).
Notation shapedL := (shaped (leaf_of lhas (w_lies w)) (w_deep w)).
Notation shapedR := (shaped (leaf_of rhas (w_lies w)) (w_deep w)).
(** Where the traversal might not end. *)
Context (okL : mnode K V -> Prop) (okR : mnode L W -> Prop).
Context (okL_child : forall bits values x c, okL (MC (BIA bits values x)) -> In c values -> okL c).
Context (okR_child : forall bits values x c, okR (MC (BIA bits values x)) -> In c values -> okR c).

(** What the answer of a slot stands for, the reduction, whether nothing changed, and
    what is kept then. *)
Context (out : option (mnode K V) -> option (mnode L W) -> T -> option (mnode S X)) (rr : T -> R) (unch : T -> bool).
Context (keep : option (mnode K V) -> option (mnode L W) -> option (mnode S X)) (flag : acc S X R -> bool).
Context (keep_none : keep None None = None) (Hunch : forall l r y, unch y = true -> exists n, out (Some l) (Some r) y = Some n /\ keep (Some l) (Some r) = Some n).

Context (add : acc S X R -> N -> option (mnode K V) -> option (mnode L W) -> T -> prog A (acc S X R)).
Context (lone : mnode K V -> prog A T) (rone : mnode L W -> prog A T) (done : acc S X R -> outcome T).
Context (Hadd : forall d p kept lo i tr t a ol or y, lo <= i -> i < max_ones fw -> jinv w d p flag kept lo i tr a ->
  sdone (d + 1) (p + i * 2 ^ off d) (out ol or y) (rr y) t -> (unch y = true -> exists n, out ol or y = Some n /\ kept i = Some n) ->
  jfull [] (add a i ol or y) (fun t' a' => jinv w d p flag kept lo (i + 1) (tr ++ t ++ t') a')).
Context (Hlone : forall d p l, shapedL d p l -> jfull (map uL (m_visit l)) (lone l) (fun t y => forall or,
  sdone d p (out (Some l) or y) (rr y) t /\ (unch y = true -> exists n, out (Some l) or y = Some n /\ keep (Some l) None = Some n))).
Context (Hrone : forall d p r, shapedR d p r -> jfull (map uR (m_visit r)) (rone r) (fun t y =>
  sdone d p (out None (Some r) y) (rr y) t /\ (unch y = true -> exists n, out None (Some r) y = Some n /\ keep None (Some r) = Some n))).
Context (Hdone : forall d p n r ls rs tr a, w_deep w d p -> shapedL d p n -> shapedR d p r ->
  flat_map (fun j => ovisit (ls j)) (range 0 (max_ones fw)) = m_visit n -> flat_map (fun j => ovisit (rs j)) (range 0 (max_ones fw)) = m_visit r ->
  jinv w d p flag (fun j => keep (ls j) (rs j)) 0 (max_ones fw) tr a ->
  exists y, done a = Ret y /\ sdone d p (out (Some n) (Some r) y) (rr y) tr).

Context (hash : L -> prog A word) (leaf : lnext K V -> lnext L W -> N -> prog A T).
Context (Hhash : forall k v h, rhas h (k, v) -> calls good (w_told w) (hash k) [] (fun x e => see e = ItNone /\ w_tells w e h x)).
Context (Hleaf : forall d p this right, leafy (next_mnode this) -> leafy (next_mnode right) -> okL (next_mnode this) -> okR (next_mnode right) ->
  leaf_of lhas (w_lies w) d p (m_visit (next_mnode this)) -> leaf_of rhas (w_lies w) d p (m_visit (next_mnode right)) ->
  jfull (map uL (m_visit (next_mnode this)) ++ map uR (m_visit (next_mnode right))) (leaf this right d)
    (fun t y => sdone d p (out (Some (next_mnode this)) (Some (next_mnode right)) y) (rr y) t)).

Lemma next_first {K' V'} (nx : lnext K' V') (P : K' * V' -> Prop) : Forall P (m_visit (next_mnode nx)) -> exists v, P (next_key nx, v).
Proof. destruct nx as [l|s]; cbn [next_mnode m_visit next_key]; intros H; eexists; [exact (l_first l P H)|inversion H; eassumption]. Qed.

Lemma am_leaf_j right n : leafy (next_mnode right) -> okR (next_mnode right) -> forall d p, shapedL d p n -> okL n -> leaf_of rhas (w_lies w) d p (m_visit (next_mnode right)) ->
  jfull (map uL (m_visit n) ++ map uR (m_visit (next_mnode right))) (am_leaf (w_def w) add lone rone done hash leaf right n d)
    (fun t y => sdone d p (out (Some n) (Some (next_mnode right)) y) (rr y) t).
Proof.
  intros Hr Hor. induction n as [bits values x IH|l|s] using mnode_ind'; intros d p Hs Hol Hlf; cbn [am_leaf].
  - rewrite Forall_forall in IH. inversion Hs as [| |? ? ? ? ? Hd Hok Hne Hx Hch]; subst.
    destruct Hlf as (h & Hh & Hl). destruct (next_first right _ Hh) as [v0 Hv0].
    eapply jf_quiet; [exact (Hhash _ _ _ Hv0)|]. intros wd e0 G0 [N0 T0].
    destruct (w_route w _ _ _ _ _ Hd G0 T0 Hl) as (f & j & Hf & Hfl & Hj & Hlies). rewrite Hf. cbn [bind unwrap lift]. cbn [pbind]. rewrite Hfl.
    set (rn := next_mnode right) in *. set (rs := fun i => if i =? j then Some rn else None).
    eapply (jf_cut w _ _ []); [apply (aloop_j w d p flag (fun i => keep (getv bits values i) (rs i)) _
      (fun i => map uL (ovisit (getv bits values i)) ++ map uR (ovisit (rs i)))); [|lia|lia]| |].
    + intros lo i tr a Hlo Hi Ht HI. unfold acl_step. eapply jf_lift; [apply bat_bit_index_slot; assumption|].
      apply (jf_lift w _ _ (2 ^ i)); [rewrite nth_bit_ok by assumption; reflexivity|].
      assert (Hbit : (2 ^ j =? 2 ^ i) = (i =? j)).
      { destruct (N.eqb_spec i j) as [->|Hij]; [apply N.eqb_refl|]. apply N.eqb_neq. intros H. apply N.pow_inj_r in H; lia. }
      rewrite Hbit. unfold rs at 1. destruct (getv bits values i) as [c|] eqn:Hg; destruct (N.eqb_spec i j) as [->|Hij]; cbn [ovisit map].
      * eapply (jf_cut w _ _ []); [apply (IH c (getv_in _ _ _ _ Hg) (d + 1) (p + j * 2 ^ off d) (Hch _ _ Hg)); [eapply okL_child; [exact Hol|eapply getv_in; exact Hg]|exists h; auto]|rewrite app_nil_r; reflexivity|].
        intros t y _ HD. eapply jf_weak; [eapply (Hadd d p); [exact Hlo|exact Hi|exact HI|exact HD|]|].
        -- intros Hu. cbn beta. rewrite Hg. unfold rs. rewrite N.eqb_refl. apply Hunch. assumption.
        -- intros t' a' _ H. exact H.
      * rewrite app_nil_r. eapply (jf_cut w _ _ []); [apply (Hlone (d + 1) (p + i * 2 ^ off d)), Hch; assumption|rewrite app_nil_r; reflexivity|].
        intros t y _ HD. destruct (HD (Some rn)) as [HD1 HD2]. eapply jf_weak; [eapply (Hadd d p); [exact Hlo|exact Hi|exact HI|exact HD1|]|].
        -- intros Hu. cbn beta. rewrite Hg. unfold rs. destruct (N.eqb_spec i j); [lia|]. apply HD2. assumption.
        -- intros t' a' _ H. exact H.
      * eapply (jf_cut w _ _ []); [apply (Hrone (d + 1) (p + j * 2 ^ off d)), leafy_shaped; [assumption|exists h; auto]|rewrite app_nil_r; reflexivity|].
        intros t y _ [HD1 HD2]. eapply jf_weak; [eapply (Hadd d p); [exact Hlo|exact Hi|exact HI|exact HD1|]|].
        -- intros Hu. cbn beta. rewrite Hg. unfold rs. rewrite N.eqb_refl. apply HD2. assumption.
        -- intros t' a' _ H. exact H.
      * apply jf_ret. rewrite app_nil_r. apply jinv_skip; [assumption| |assumption]. cbn beta. rewrite Hg. unfold rs. destruct (N.eqb_spec i j); [lia|]. exact keep_none.
    + rewrite app_nil_r. rewrite <- flat_two. apply Permutation_app.
      * rewrite <- (visit_slots bits values) by assumption. rewrite map_flat_map. reflexivity.
      * rewrite <- (flat_at j (max_ones fw) (map uR (m_visit rn))) at 1 by assumption. apply Permutation_refl'. apply flat_map_ext. intros i. unfold rs.
        destruct (i =? j); reflexivity.
    + intros t a Ht HI. cbn beta in HI.
      destruct (Hdone d p (MC (BIA bits values (lenN (concat (map m_visit values))))) rn (getv bits values) rs t a Hd Hs) as (y & Hy & HD).
      * apply leafy_shaped; [assumption|]. exists h. auto.
      * apply visit_slots. assumption.
      * rewrite <- (flat_at j (max_ones fw) (m_visit rn)) at 1 by assumption. apply flat_map_ext. intros i. unfold rs. destruct (i =? j); reflexivity.
      * exact HI.
      * rewrite Hy. cbn [lift]. apply jf_ret. rewrite app_nil_r. apply (s_none w d p [e0]); [repeat constructor; assumption|exact HD].
  - inversion Hs as [|? ? ? Hll Hlf'|]; subst. apply (Hleaf d p (NL l) right); assumption.
  - inversion Hs as [? ? ? Hlf'| |]; subst. apply (Hleaf d p (NS s) right); try assumption. exact Logic.I.
Qed.

Context (tree_leaf : lnext L W -> mnode K V -> N -> prog A T) (leaf_tree : lnext K V -> mnode L W -> N -> prog A T).
Context (Htree_leaf : forall d p n right, shapedL d p n -> okL n -> leafy (next_mnode right) -> okR (next_mnode right) -> leaf_of rhas (w_lies w) d p (m_visit (next_mnode right)) ->
  jfull (map uL (m_visit n) ++ map uR (m_visit (next_mnode right))) (tree_leaf right n d)
    (fun t y => sdone d p (out (Some n) (Some (next_mnode right)) y) (rr y) t)).
Context (Hleaf_tree : forall d p this r, shapedR d p r -> okR r -> leafy (next_mnode this) -> okL (next_mnode this) -> leaf_of lhas (w_lies w) d p (m_visit (next_mnode this)) ->
  jfull (map uL (m_visit (next_mnode this)) ++ map uR (m_visit r)) (leaf_tree this r d)
    (fun t y => sdone d p (out (Some (next_mnode this)) (Some r) y) (rr y) t)).

Lemma am_joint_j n : forall r d p, shapedL d p n -> shapedR d p r -> okL n -> okR r ->
  jfull (map uL (m_visit n) ++ map uR (m_visit r)) (am_joint (w_def w) add lone rone done leaf tree_leaf leaf_tree n r d)
    (fun t y => sdone d p (out (Some n) (Some r) y) (rr y) t).
Proof.
  induction n as [bits values x IH|l|s] using mnode_ind'; intros r d p Hs Hr Hol Hor; cbn [am_joint].
  - destruct r as [[rbits rvalues rx]|rl|rs].
    + rewrite Forall_forall in IH. inversion Hs as [| |? ? ? ? ? Hd Hok Hne Hx Hch]; subst. inversion Hr as [| |? ? ? ? ? Hd' Hok' Hne' Hx' Hch']; subst.
      eapply (jf_cut w _ _ []); [apply (aloop_j w d p flag (fun i => keep (getv bits values i) (getv rbits rvalues i)) _
        (fun i => map uL (ovisit (getv bits values i)) ++ map uR (ovisit (getv rbits rvalues i)))); [|lia|lia]| |].
      * intros lo i tr a Hlo Hi Ht HI. unfold acc_step. eapply jf_lift; [apply bat_bit_index_slot; assumption|]. eapply jf_lift; [apply bat_slot; assumption|].
        destruct (getv bits values i) as [c|] eqn:Hg; destruct (getv rbits rvalues i) as [c'|] eqn:Hg'; cbn [ovisit map].
        -- eapply (jf_cut w _ _ []); [apply (IH c (getv_in _ _ _ _ Hg) c' (d + 1) (p + i * 2 ^ off d) (Hch _ _ Hg) (Hch' _ _ Hg'));
             [eapply okL_child; [exact Hol|eapply getv_in; exact Hg]|eapply okR_child; [exact Hor|eapply getv_in; exact Hg']]|rewrite app_nil_r; reflexivity|].
           intros t y _ HD. eapply jf_weak; [eapply (Hadd d p); [exact Hlo|exact Hi|exact HI|exact HD|]|].
           ++ intros Hu. cbn beta. rewrite Hg, Hg'. apply Hunch. assumption.
           ++ intros t' a' _ H. exact H.
        -- rewrite app_nil_r. eapply (jf_cut w _ _ []); [apply (Hlone (d + 1) (p + i * 2 ^ off d)), Hch; assumption|rewrite app_nil_r; reflexivity|].
           intros t y _ HD. destruct (HD None) as [HD1 HD2]. eapply jf_weak; [eapply (Hadd d p); [exact Hlo|exact Hi|exact HI|exact HD1|]|].
           ++ intros Hu. cbn beta. rewrite Hg, Hg'. apply HD2. assumption.
           ++ intros t' a' _ H. exact H.
        -- eapply (jf_cut w _ _ []); [apply (Hrone (d + 1) (p + i * 2 ^ off d)), Hch'; assumption|rewrite app_nil_r; reflexivity|].
           intros t y _ [HD1 HD2]. eapply jf_weak; [eapply (Hadd d p); [exact Hlo|exact Hi|exact HI|exact HD1|]|].
           ++ intros Hu. cbn beta. rewrite Hg, Hg'. apply HD2. assumption.
           ++ intros t' a' _ H. exact H.
        -- apply jf_ret. rewrite app_nil_r. apply jinv_skip; [assumption| |assumption]. cbn beta. rewrite Hg, Hg'. exact keep_none.
      * rewrite app_nil_r. rewrite <- flat_two. apply Permutation_app; [rewrite <- (visit_slots bits values) by assumption|rewrite <- (visit_slots rbits rvalues) by assumption];
          rewrite map_flat_map; reflexivity.
      * intros t a Ht HI. cbn beta in HI. edestruct (Hdone d p) as (y & Hy & HD); [exact Hd|exact Hs|exact Hr|apply visit_slots; assumption|apply visit_slots; assumption|exact HI|].
        rewrite Hy. cbn [lift]. apply jf_ret. rewrite app_nil_r. exact HD.
    + inversion Hr as [|? ? ? Hrl Hrf|]; subst. apply (Htree_leaf d p _ (NL rl)); assumption.
    + inversion Hr as [? ? ? Hrf| |]; subst. apply (Htree_leaf d p _ (NS rs)); try assumption. exact Logic.I.
  - inversion Hs as [|? ? ? Hll Hlf|]; subst. destruct r as [rb|rl|rs].
    + apply (Hleaf_tree d p (NL l)); assumption.
    + inversion Hr as [|? ? ? Hrl Hrf|]; subst. apply (Hleaf d p (NL l) (NL rl)); assumption.
    + inversion Hr as [? ? ? Hrf| |]; subst. apply (Hleaf d p (NL l) (NS rs)); try assumption. exact Logic.I.
  - inversion Hs as [? ? ? Hlf| |]; subst. destruct r as [rb|rl|rs].
    + apply (Hleaf_tree d p (NS s)); try assumption. exact Logic.I.
    + inversion Hr as [|? ? ? Hrl Hrf|]; subst. apply (Hleaf d p (NS s) (NL rl)); try assumption. exact Logic.I.
    + inversion Hr as [? ? ? Hrf| |]; subst. apply (Hleaf d p (NS s) (NS rs)); try assumption; exact Logic.I.
Qed.

End Traverse.
