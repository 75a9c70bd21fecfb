(** How often the joint operations compare and hash keys: leaves and collision lists. *)
From Coq Require Import NArith Arith List Bool Lia ZifyBool ZifyN ZifyNat.
From Verif Require Import Base Words Flag Bia Node Api Trans Transform Joint JointT Eff EffP EffApi Ask AskT AskJ AskTw SpecCount JointLeafP AskCountP.
Import ListNotations.
Open Scope N_scope.

Lemma len_cons {B} (b : B) l : lenN (b :: l) = 1 + lenN l.
Proof. unfold lenN. cbn [length]. lia. Qed.
Lemma len_nil {B} : lenN (@nil B) = 0.
Proof. reflexivity. Qed.
Lemma len_s {K V} (s : snode K V) : lenN (s_visit s) = 1.
Proof. reflexivity. Qed.
Ltac len := rewrite ?len_cons, ?len_nil, ?len_s, ?N.mul_add_distr_r, ?N.mul_1_l, ?N.mul_0_l; lia.
Ltac zero H := eapply asks_weak; [apply H|lia|lia|auto].
Ltac hashes Hky := apply asks_hash; [apply (pr_hash _ _ _ Hky)|lia|]; intros ?h; apply asks_hash; [apply (pr_hash' _ _ _ Hky)|lia|]; intros ?h.

Section Leaves.
Context {E : Env} {Q : Type} {A : Q -> Type} (fe fh : Q -> bool) {R : Type}.
Context (red : R -> R -> prog A R) (Hred : forall a b, free fe fh (red a b)).

Lemma apair_free {K V} (a : mnode K V) lf b rf x y : free fe fh (apair red a lf b rf x y).
Proof. unfold apair. walk. Qed.

Section TM.
Context {K V L W : Type} (ck : K -> prog A K) (cv : V -> prog A V) (ky : keyed A K L).
Context (Hck : forall k, free fe fh (ck k)) (Hcv : forall v, free fe fh (cv v)) (Hky : priced fe fh ky).
Context (both : etransform A ((K * V) * (L * W)) V R) (lop : etransform A (K * V) V R) (rop : etransmute A (L * W) K V R).
Context (Hb : quiet fe fh both) (Hl : quiet fe fh lop) (Hr : mquiet fe fh rop).

Lemma atm_apart_free this right h h' d : free fe fh (atm_apart red ck cv lop rop this right h h' d).
Proof.
  unfold atm_apart. apply asks_free; [apply an_transform_free; assumption|]. intros l. apply asks_free; [apply an_transmute_free; assumption|].
  intros r. pose proof (@apair_free K V). walk.
Qed.
Lemma atm_s_impl_asks s e : asks fe fh 1 0 any (atm_s_impl red ck ky both lop rop s e).
Proof.
  unfold atm_s_impl, quiet, mquiet in *. apply asks_eq; [apply (pr_eq _ _ _ Hky)|lia|]. intros b. walk.
Qed.
Lemma atm_l_impl_asks (l : lnode K V) : forall rights, asks fe fh (lenN (l_visit l) * lenN rights) 0 (fun x => lenN (snd x) <= lenN rights)
  (atm_l_impl red ck cv ky both lop rop l rights).
Proof.
  assert (Hq : forall k l, asks fe fh 1 0 any (ky_eq ky k l)) by apply (pr_eq _ _ _ Hky). unfold quiet, mquiet in *.
  assert (Hend : forall l rights next k v e h n, lenN rights <= e -> lenN rights <= n ->
    asks fe fh e h (fun x : tres K V R * list (L * W) => lenN (snd x) <= n)
     (let+ o := atake_key (ky_eq ky k) rights in
      let+ (result, rights) := match o with
        | Some (e, rights) => let+ o := etcall both ((k, v), e) in PRet (o, rights)
        | None => let+ o := etcall lop (k, v) in PRet (o, rights) end in
      let+ t := al_transform_result red ck cv l result next in PRet (t, rights))).
  { intros l' rights next k v e h n He Hn. eapply asks_then; [apply atake_key_asks; intros; apply Hq|lia|lia|]. intros [[x rs]|] Hrs; cbn beta.
    - specialize (Hrs x rs eq_refl). apply asks_assoc. apply asks_free; [apply Hb|]. intros o. cbn [pbind].
      apply asks_free; [apply al_transform_result_free; assumption|]. intros t. apply asks_ret. cbn [snd]. lia.
    - apply asks_assoc. apply asks_free; [apply Hl|]. intros o. cbn [pbind].
      apply asks_free; [apply al_transform_result_free; assumption|]. intros t. apply asks_ret. cbn [snd]. lia. }
  induction l as [k v n IH z|k v s z]; intros rights; cbn [atm_l_impl l_visit s_visit l_key l_value].
  - eapply asks_then; [apply IH|len|lia|]. intros [next rs] Hrs. cbn [snd] in Hrs. apply Hend; [len|exact Hrs].
  - apply asks_assoc. eapply asks_then; [apply atake_key_asks; intros; apply Hq|len|lia|]. intros [[x rs]|] Hrs; cbn beta.
    + specialize (Hrs x rs eq_refl). apply asks_assoc. eapply asks_then; [apply atm_s_impl_asks|len|lia|].
      intros t _. cbn [pbind]. apply Hend; [len|lia].
    + apply asks_assoc. apply asks_free; [apply as_transform_free; assumption|]. intros t. cbn [pbind]. apply Hend; [len|lia].
Qed.
Lemma atm_rest_free l rights : forall next, free fe fh (atm_rest red rop l rights next).
Proof. unfold mquiet in *. induction rights as [|e rights IH]; intros next; cbn [atm_rest]; go; apply IH. Qed.

Lemma atm_lnode_asks (l : lnode K V) (r : lnode L W) d : asks fe fh (lenN (l_visit l) * lenN (l_visit r)) 2 any (atm_lnode red ck cv ky both lop rop l r d).
Proof.
  unfold atm_lnode. hashes Hky. destruct (same_hash _ _); [|zero atm_apart_free].
  apply asks_pure. intros rights Hrs. rewrite rights_ok in Hrs. assert (rights = l_visit r) as -> by (destruct (l_next r); congruence).
  eapply asks_then; [apply atm_l_impl_asks|lia|lia|]. intros [next rs] _. zero atm_rest_free.
Qed.
Lemma atm_ls_impl_asks (l : lnode K V) s : asks fe fh (lenN (l_visit l)) 0 any (atm_ls_impl red ck cv ky both lop rop l s).
Proof.
  unfold quiet in *. pose proof (al_transform_result_free fe fh red Hred ck cv Hck Hcv) as Htr.
  induction l as [k v n IH z|k v t z]; cbn [atm_ls_impl l_visit s_visit l_key l_value l_next]; rewrite !len_cons, ?len_nil, ?len_s;
    (apply asks_eq; [apply (pr_eq _ _ _ Hky)|lia|]); intros [|].
  - apply asks_free; [apply an_transform_free; assumption|]. intros next. walk. zero Htr.
  - eapply asks_then; [apply IH|lia|lia|]. intros next _. walk. zero Htr.
  - apply asks_free; [apply an_transform_free; assumption|]. intros next. walk. zero Htr.
  - eapply asks_then; [apply atm_s_impl_asks|lia|lia|]. intros next _. walk. zero Htr.
Qed.
Lemma atm_lsnode_asks (l : lnode K V) (r : snode L W) d : asks fe fh (lenN (l_visit l)) 2 any (atm_lsnode red ck cv ky both lop rop l r d).
Proof. unfold atm_lsnode. hashes Hky. destruct (same_hash _ _); [zero atm_ls_impl_asks|zero atm_apart_free]. Qed.
Lemma atm_snode_asks (s : snode K V) (r : snode L W) d : asks fe fh 1 2 any (atm_snode red ck cv ky both lop rop s r d).
Proof. unfold atm_snode. hashes Hky. destruct (same_hash _ _); [zero atm_s_impl_asks|zero atm_apart_free]. Qed.
Lemma atm_add_free keep a i ol or t : free fe fh (atm_add (K := K) (V := V) (L := L) (W := W) red keep a i ol or t).
Proof.
  unfold atm_add. pose proof (fun a i n s r => apush_free fe fh red Hred (K := K) (V := V) a i n s r).
  pose proof (fun a i n => apush_new_free fe fh red Hred (K := K) (V := V) a i n). walk.
Qed.
End TM.

Section MT.
Context {K V L W : Type} (cl : L -> prog A L) (cw : W -> prog A W) (ky : keyed A K L).
Context (Hcl : forall k, free fe fh (cl k)) (Hcw : forall v, free fe fh (cw v)) (Hky : priced fe fh ky).
Context (both : etransform A ((K * V) * (L * W)) W R) (lop : etransmute A (K * V) L W R) (rop : etransform A (L * W) W R).
Context (Hb : quiet fe fh both) (Hl : mquiet fe fh lop) (Hr : quiet fe fh rop).

Lemma amt_apart_free this right h h' d : free fe fh (amt_apart red cl cw lop rop this right h h' d).
Proof.
  unfold amt_apart. apply asks_free; [apply an_transmute_free; assumption|]. intros l. apply asks_free; [apply an_transform_free; assumption|].
  intros r. pose proof (@apair_free L W). walk.
Qed.
Lemma amt_s_impl_asks s e : asks fe fh 1 0 any (amt_s_impl red cl ky both lop rop s e).
Proof. unfold amt_s_impl, quiet, mquiet in *. apply asks_eq; [apply (pr_eq _ _ _ Hky)|lia|]. intros b. walk. Qed.
Lemma amt_hit_free s o n : free fe fh (amt_hit red cl cw s o n).
Proof. unfold amt_hit. walk. Qed.
Lemma amt_miss_free s o n : free fe fh (amt_miss red cl cw s o n).
Proof. unfold amt_miss. walk. Qed.
Lemma amt_ls_impl_asks (l : lnode K V) s : asks fe fh (lenN (l_visit l)) 0 any (amt_ls_impl red cl cw ky both lop rop l s).
Proof.
  unfold quiet, mquiet in *. pose proof amt_hit_free as Hh. pose proof amt_miss_free as Hm.
  induction l as [k v n IH z|k v t z]; cbn [amt_ls_impl l_visit s_visit l_key l_value l_next]; rewrite !len_cons, ?len_nil, ?len_s;
    (apply asks_eq; [apply (pr_eq _ _ _ Hky)|lia|]); intros [|].
  - apply asks_free; [apply an_transmute_free; assumption|]. intros next. walk.
  - eapply asks_then; [apply IH|lia|lia|]. intros next _. walk. zero Hm.
  - apply asks_free; [apply an_transmute_free; assumption|]. intros next. walk.
  - eapply asks_then; [apply amt_s_impl_asks|lia|lia|]. intros next _. walk. zero Hm.
Qed.
Lemma amt_lsnode_asks (l : lnode K V) (r : snode L W) d : asks fe fh (lenN (l_visit l)) 2 any (amt_lsnode red cl cw ky both lop rop l r d).
Proof. unfold amt_lsnode. hashes Hky. destruct (same_hash _ _); [zero amt_ls_impl_asks|zero amt_apart_free]. Qed.
Lemma amt_snode_asks (s : snode K V) (r : snode L W) d : asks fe fh 1 2 any (amt_snode red cl cw ky both lop rop s r d).
Proof. unfold amt_snode. hashes Hky. destruct (same_hash _ _); [zero amt_s_impl_asks|zero amt_apart_free]. Qed.
Lemma amt_add_free keep a i ol or t : free fe fh (amt_add (K := K) (V := V) (L := L) (W := W) red keep a i ol or t).
Proof.
  unfold amt_add. pose proof (fun a i n s r => apush_free fe fh red Hred (K := L) (V := W) a i n s r).
  pose proof (fun a i n => apush_new_free fe fh red Hred (K := L) (V := W) a i n). walk.
Qed.
End MT.

Section MM.
Context {K V L W S X : Type} (ky : keyed A K L) (Hky : priced fe fh ky).
Context (both : etransmute A ((K * V) * (L * W)) S X R) (lop : etransmute A (K * V) S X R) (rop : etransmute A (L * W) S X R).
Context (Hb : mquiet fe fh both) (Hl : mquiet fe fh lop) (Hr : mquiet fe fh rop).

Lemma amm_apart_free this right h h' d : free fe fh (amm_apart red lop rop this right h h' d).
Proof.
  unfold amm_apart. apply asks_free; [apply an_transmute_free; assumption|]. intros l. apply asks_free; [apply an_transmute_free; assumption|].
  intros r. walk. apply apair_free.
Qed.
Lemma amm_values_asks s e : asks fe fh 1 0 any (amm_values red ky both lop rop s e).
Proof. unfold amm_values, mquiet in *. apply asks_eq; [apply (pr_eq _ _ _ Hky)|lia|]. intros b. walk. Qed.
Lemma amm_l_impl_asks (l : lnode K V) : forall rights, asks fe fh (lenN (l_visit l) * lenN rights) 0 (fun x => lenN (snd x) <= lenN rights)
  (amm_l_impl red ky both lop rop l rights).
Proof.
  assert (Hq : forall k l, asks fe fh 1 0 any (ky_eq ky k l)) by apply (pr_eq _ _ _ Hky). unfold mquiet in *.
  assert (Hend : forall rights next k v e h n, lenN rights <= e -> lenN rights <= n ->
    asks fe fh e h (fun x : nres S X R * list (L * W) => lenN (snd x) <= n)
     (let+ o := atake_key (ky_eq ky k) rights in
      let+ (result, rights) := match o with
        | Some (e, rights) => let+ o := emcall both ((k, v), e) in PRet (o, rights)
        | None => let+ o := emcall lop (k, v) in PRet (o, rights) end in
      let+ t := al_transmute_result red result next in PRet (t, rights))).
  { intros rights next k v e h n He Hn. eapply asks_then; [apply atake_key_asks; intros; apply Hq|lia|lia|]. intros [[x rs]|] Hrs; cbn beta.
    - specialize (Hrs x rs eq_refl). apply asks_assoc. apply asks_free; [apply Hb|]. intros o. cbn [pbind].
      apply asks_free; [apply al_transmute_result_free; assumption|]. intros t. apply asks_ret. cbn [snd]. lia.
    - apply asks_assoc. apply asks_free; [apply Hl|]. intros o. cbn [pbind].
      apply asks_free; [apply al_transmute_result_free; assumption|]. intros t. apply asks_ret. cbn [snd]. lia. }
  induction l as [k v n IH z|k v s z]; intros rights; cbn [amm_l_impl l_visit s_visit l_key l_value].
  - eapply asks_then; [apply IH|len|lia|]. intros [next rs] Hrs. cbn [snd] in Hrs. apply Hend; [len|exact Hrs].
  - apply asks_assoc. eapply asks_then; [apply atake_key_asks; intros; apply Hq|len|lia|]. intros [[x rs]|] Hrs; cbn beta.
    + specialize (Hrs x rs eq_refl). apply asks_assoc. eapply asks_then; [apply amm_values_asks|len|lia|].
      intros t _. cbn [pbind]. apply Hend; [len|lia].
    + apply asks_assoc. apply asks_free; [apply as_transmute_free; assumption|]. intros t. cbn [pbind]. apply Hend; [len|lia].
Qed.
Lemma amm_rest_free rights : forall next, free fe fh (amm_rest red rop rights next).
Proof. unfold mquiet in *. induction rights as [|e rights IH]; intros next; cbn [amm_rest]; go; apply IH. Qed.
Lemma amm_lnode_asks (l : lnode K V) (r : lnode L W) d : asks fe fh (lenN (l_visit l) * lenN (l_visit r)) 2 any (amm_lnode red ky both lop rop l r d).
Proof.
  unfold amm_lnode. hashes Hky. destruct (same_hash _ _); [|zero amm_apart_free].
  apply asks_pure. intros rights Hrs. rewrite rights_ok in Hrs. assert (rights = l_visit r) as -> by (destruct (l_next r); congruence).
  eapply asks_then; [apply amm_l_impl_asks|lia|lia|]. intros [next rs] _. zero amm_rest_free.
Qed.
Lemma amm_ls_impl_asks (l : lnode K V) s : asks fe fh (lenN (l_visit l)) 0 any (amm_ls_impl red ky both lop rop l s).
Proof.
  unfold mquiet in *. pose proof (al_transmute_result_free fe fh red Hred (S := S) (X := X)) as Htr.
  induction l as [k v n IH z|k v t z]; cbn [amm_ls_impl l_visit s_visit l_key l_value l_next]; rewrite !len_cons, ?len_nil, ?len_s;
    (apply asks_eq; [apply (pr_eq _ _ _ Hky)|lia|]); intros [|].
  - apply asks_free; [apply an_transmute_free; assumption|]. intros next. walk. zero Htr.
  - eapply asks_then; [apply IH|lia|lia|]. intros next _. walk. zero Htr.
  - apply asks_free; [apply an_transmute_free; assumption|]. intros next. walk. zero Htr.
  - eapply asks_then; [apply amm_values_asks|lia|lia|]. intros next _. walk. zero Htr.
Qed.
Lemma amm_lsnode_asks (l : lnode K V) (r : snode L W) d : asks fe fh (lenN (l_visit l)) 2 any (amm_lsnode red ky both lop rop l r d).
Proof. unfold amm_lsnode. hashes Hky. destruct (same_hash _ _); [zero amm_ls_impl_asks|zero amm_apart_free]. Qed.
Lemma amm_snode_asks (s : snode K V) (r : snode L W) d : asks fe fh 1 2 any (amm_snode red ky both lop rop s r d).
Proof. unfold amm_snode. hashes Hky. destruct (same_hash _ _); [zero amm_values_asks|zero amm_apart_free]. Qed.
Lemma amm_add_free a i ol or t : free fe fh (amm_add (K := K) (V := V) (L := L) (W := W) (S := S) (X := X) red a i ol or t).
Proof. unfold amm_add. apply apush_new_free. assumption. Qed.
End MM.

Section TT.
Context {K V : Type} (ck : K -> prog A K) (cv : V -> prog A V) (ky : keyed A K K).
Context (Hck : forall k, free fe fh (ck k)) (Hcv : forall v, free fe fh (cv v)) (Hky : priced fe fh ky).
Context (both : ejoint A (K * V) V R) (lop rop : etransform A (K * V) V R).
Context (Hb : jquiet fe fh both) (Hl : quiet fe fh lop) (Hr : quiet fe fh rop).

Lemma att_apart_free this right h h' d : free fe fh (att_apart red ck cv lop rop this right h h' d).
Proof.
  unfold att_apart. apply asks_free; [apply an_transform_free; assumption|]. intros l. apply asks_free; [apply an_transform_free; assumption|].
  intros r. pose proof (@apair_free K V). walk.
Qed.
Lemma att_s_impl_asks s e : asks fe fh 1 0 any (att_s_impl red ck cv ky both lop rop s e).
Proof. unfold att_s_impl, quiet, jquiet in *. apply asks_eq; [apply (pr_eq _ _ _ Hky)|lia|]. intros b. walk. Qed.
Lemma att_that_free that : free fe fh (att_that ck cv that).
Proof. unfold att_that. walk. Qed.
Lemma att_two_free l that x y : free fe fh (att_two red ck cv l that x y).
Proof. unfold att_two. pose proof att_that_free. walk. Qed.
Lemma ajj_free l o that next : free fe fh (ajj red ck cv l o that next).
Proof. unfold ajj. pose proof att_that_free. walk; apply att_two_free. Qed.
Lemma ajt_free l o that next : free fe fh (ajt red ck cv l o that next).
Proof. unfold ajt. walk. Qed.
Lemma atj_free l o that next : free fe fh (atj red ck cv l o that next).
Proof. unfold atj. walk. Qed.
Lemma att_l_impl_asks (l : lnode K V) : forall rights, asks fe fh (lenN (l_visit l) * lenN rights) 0 (fun x => lenN (snd x) <= lenN rights)
  (att_l_impl red ck cv ky both lop rop l rights).
Proof.
  assert (Hq : forall k l, asks fe fh 1 0 any (ky_eq ky k l)) by apply (pr_eq _ _ _ Hky). unfold quiet, jquiet in *.
  assert (Hend : forall l rights that next k v e h n, lenN rights <= e -> lenN rights <= n ->
    asks fe fh e h (fun x : jres K V R * list (K * V) => lenN (snd x) <= n)
     (let+ o := atake_key (ky_eq ky k) rights in
      let+ (result, rights) := match o with
        | Some (e, rights) => let+ o := ejcall both (k, v) e in PRet (o, rights)
        | None => let+ o := etcall lop (k, v) in PRet (v_left o, rights) end in
      let+ t := ajj red ck cv l result that next in PRet (t, rights))).
  { intros l' rights that next k v e h n He Hn. eapply asks_then; [apply atake_key_asks; intros; apply Hq|lia|lia|]. intros [[x rs]|] Hrs; cbn beta.
    - specialize (Hrs x rs eq_refl). apply asks_assoc. apply asks_free; [apply Hb|]. intros o. cbn [pbind].
      apply asks_free; [apply ajj_free; assumption|]. intros t. apply asks_ret. cbn [snd]. lia.
    - apply asks_assoc. apply asks_free; [apply Hl|]. intros o. cbn [pbind].
      apply asks_free; [apply ajj_free; assumption|]. intros t. apply asks_ret. cbn [snd]. lia. }
  induction l as [k v n IH z|k v s z]; intros rights; cbn [att_l_impl l_visit s_visit l_key l_value].
  - apply asks_assoc. eapply asks_then; [apply IH|len|lia|]. intros [next rs] Hrs. cbn [snd] in Hrs. cbn [pbind]. apply Hend; [len|exact Hrs].
  - apply asks_assoc. eapply asks_then; [apply atake_key_asks; intros; apply Hq|len|lia|]. intros [[x rs]|] Hrs; cbn beta.
    + specialize (Hrs x rs eq_refl). apply asks_assoc. apply asks_free; [apply Hck|]. intros k'. apply asks_assoc. apply asks_free; [apply Hcv|]. intros v'.
      apply asks_assoc. eapply asks_then; [apply att_s_impl_asks|len|lia|].
      intros t _. cbn [pbind]. apply Hend; [len|lia].
    + apply asks_assoc. apply asks_free; [apply as_transform_free; assumption|]. intros t. cbn [pbind]. apply Hend; [len|lia].
Qed.
Lemma att_rest_free l rights : forall next, free fe fh (att_rest red ck cv rop l rights next).
Proof. unfold quiet in *. induction rights as [|e rights IH]; intros next; cbn [att_rest]; go; try apply IH. Qed.
Lemma att_lnode_asks (l : lnode K V) (r : lnode K V) d : asks fe fh (lenN (l_visit l) * lenN (l_visit r)) 2 any (att_lnode red ck cv ky both lop rop l r d).
Proof.
  unfold att_lnode. hashes Hky. destruct (same_hash _ _); [|zero att_apart_free].
  apply asks_pure. intros rights Hrs. rewrite rights_ok in Hrs. assert (rights = l_visit r) as -> by (destruct (l_next r); congruence).
  eapply asks_then; [apply att_l_impl_asks|lia|lia|]. intros [next rs] _. zero att_rest_free.
Qed.
Lemma att_ls_impl_asks (l : lnode K V) s : asks fe fh (lenN (l_visit l)) 0 any (att_ls_impl red ck cv ky both lop rop l s).
Proof.
  unfold quiet, jquiet in *. pose proof ajt_free as Hjt. pose proof atj_free as Htj.
  induction l as [k v n IH z|k v t z]; cbn [att_ls_impl l_visit s_visit l_key l_value l_next]; rewrite !len_cons, ?len_nil, ?len_s;
    (apply asks_eq; [apply (pr_eq _ _ _ Hky)|lia|]); intros [|].
  - apply asks_free; [apply an_transform_free; assumption|]. intros next. walk. zero Hjt.
  - eapply asks_then; [apply IH|lia|lia|]. intros next _. walk. zero Htj.
  - apply asks_free; [apply an_transform_free; assumption|]. intros next. walk. zero Hjt.
  - eapply asks_then; [apply att_s_impl_asks|lia|lia|]. intros next _. walk. zero Htj.
Qed.
Lemma att_lsnode_asks (l : lnode K V) (r : snode K V) d : asks fe fh (lenN (l_visit l)) 2 any (att_lsnode red ck cv ky both lop rop l r d).
Proof. unfold att_lsnode. hashes Hky. destruct (same_hash _ _); [zero att_ls_impl_asks|zero att_apart_free]. Qed.
Lemma att_snode_asks (s : snode K V) (r : snode K V) d : asks fe fh 1 2 any (att_snode red ck cv ky both lop rop s r d).
Proof. unfold att_snode. hashes Hky. destruct (same_hash _ _); [zero att_s_impl_asks|zero att_apart_free]. Qed.
Lemma att_add_free a i ol or t : free fe fh (att_add (K := K) (V := V) red a i ol or t).
Proof.
  unfold att_add. pose proof (fun a i n s r => apush_free fe fh red Hred (K := K) (V := V) a i n s r).
  pose proof (fun a i n => apush_new_free fe fh red Hred (K := K) (V := V) a i n). walk. apply apush_free. assumption.
Qed.
End TT.
End Leaves.
