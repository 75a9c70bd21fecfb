(** Bracketings: sets and the transfute operations. *)
From Coq Require Import NArith List Permutation.
From Verif Require Import Base Node Inv Api ApiP Reach Spec SpecP Trans Transform Joint JointT SpecT SpecJ Sets SpecS SetP EffApi Brackets BracketP.
Import ListNotations.

Lemma beval_ext {A R} (rdef : R) rd (f g : A -> R) t : (forall a, f a = g a) -> beval rdef rd f t = beval rdef rd g t.
Proof. intros H. induction t as [|a|l IHl r IHr]; cbn; congruence. Qed.
Lemma vres_red {V R} (o : sres R) : t_red (vres_of (V := V) o) = s_red o.
Proof. destruct o; reflexivity. Qed.
Lemma kres_red {S R} (o : skres S R) : m_red (kres_of o) = sk_red o.
Proof. destruct o; reflexivity. Qed.
Lemma bres_red {V R} (o : sbres R) : b_red (bres_of (V := V) o) = sb_red o.
Proof. destruct o; reflexivity. Qed.

Section One.
Context {E : Env} {K R : Type} {KK : Key K}.
Lemma set_transform_brackets st (f : K -> sres R) (s : tset K) : reachable s ->
  exists s' o t, bleaves t = set_visit s /\
    forall rdef rd, set_transform rdef rd st (STGeneric f) s = Ret (s', beval rdef rd (fun k => s_red (f k)) t, o).
Proof.
  intros HR. destruct (transform_brackets st (fun e : K * unit => vres_of (f (fst e))) s HR) as (s' & o & t & Ht & H).
  exists s', o, (brelabel fst t). split; [rewrite brelabel_leaves, Ht; reflexivity|]. intros rdef rd. rewrite brelabel_eval.
  unfold set_transform. cbn [transform_of]. rewrite H. do 3 f_equal. apply beval_ext. intros e. apply vres_red.
Qed.
Lemma set_transmute_brackets {S} {KS : Key S} (f : K -> skres S R) (s : tset K) : reachable s ->
  (forall k k' r, In k (set_visit s) -> f k = SKTransmuted k' r -> cls k' = cls k) ->
  exists s' t, bleaves t = set_visit s /\
    forall rdef rd, set_transmute rdef rd (SMGeneric f) s = Ret (s', beval rdef rd (fun k => sk_red (f k)) t).
Proof.
  intros HR HK. destruct (transmute_brackets (fun e : K * unit => kres_of (f (fst e))) s HR) as (s' & t & Ht & H).
  { intros e k v r Hi Hf. destruct (f (fst e)) as [k' r'|r'] eqn:He; [|discriminate]. cbn in Hf. injection Hf as -> _ _.
    eapply HK; [|exact He]. apply in_map. exact Hi. }
  exists s', (brelabel fst t). split; [rewrite brelabel_leaves, Ht; reflexivity|]. intros rdef rd. rewrite brelabel_eval.
  unfold set_transmute. cbn [transmute_of]. rewrite H. do 2 f_equal. apply beval_ext. intros e. apply kres_red.
Qed.
End One.

(** The calls of a merge of sets. *)
Definition elems {K L} (q : jcalls (K * unit) (L * unit)) : jcalls K L :=
  match q with AskBoth e e' => AskBoth (fst e) (fst e') | AskLeft e => AskLeft (fst e) | AskRight e' => AskRight (fst e') end.
Section Two.
Context {E : Env} {K L R : Type} {KK : Key K} {KL : Key L}.
Lemma merge_elems (ln : list (K * unit)) (lr : list (L * unit)) :
  map elems (merge (fun e e' => [AskBoth e e']) (fun e => [AskLeft e]) (fun e' => [AskRight e']) ln lr) =
  smerge (fun k l => Some (AskBoth k l)) (fun k => Some (AskLeft k)) (fun l => Some (AskRight l)) (map fst ln) (map fst lr).
Proof.
  unfold merge, smerge. rewrite map_app. f_equal.
  - induction ln as [|e l IH]; [reflexivity|]. cbn [flat_map map]. rewrite map_app, IH. f_equal.
    rewrite member_fst. unfold ecls. destruct (lookup (cls (fst e)) lr) as [e'|]; reflexivity.
  - induction lr as [|e l IH]; [reflexivity|]. cbn [filter flat_map map]. unfold unmatched at 1, ecls.
    rewrite member_fst. destruct (lookup (cls (fst e)) ln) as [e'|]; cbn [option_map]; [exact IH|].
    cbn [flat_map app map olist]. rewrite IH. reflexivity.
Qed.
Lemma three_elems (fB : K -> L -> R) fL fR gB gL gR q : (forall e e', gB e e' = fB (fst e) (fst e')) -> (forall e, gL e = fL (fst e)) -> (forall e, gR e = fR (fst e)) ->
  three (I := K * unit) (J := L * unit) gB gL gR q = three fB fL fR (elems q).
Proof. intros H1 H2 H3. destruct q; cbn; auto. Qed.

Lemma set_tm_brackets st (both : stransform_op (K * L) R) (fL : K -> sres R) (fR : L -> skres K R) (s : tset K) (right : tset L) rdef0 rd0 x :
  reachable s -> reachable right -> (forall l k x, In l (set_visit right) -> fR l = SKTransmuted k x -> cls k = cls l) ->
  set_tm rdef0 rd0 st both (STGeneric fL) (SMGeneric fR) s right = Ret x ->
  exists s' o t, Permutation (bleaves t) (smerge (fun k l => Some (AskBoth k l)) (fun k => Some (AskLeft k)) (fun l => Some (AskRight l)) (set_visit s) (set_visit right)) /\
    forall rdef rd, set_tm rdef rd st both (STGeneric fL) (SMGeneric fR) s right =
      Ret (s', beval rdef rd (three (fun k l => s_red (stcall both (k, l))) (fun k => s_red (fL k)) (fun l => sk_red (fR l))) t, o).
Proof.
  intros H1 H2 H3 H4. unfold set_tm, both_transform_of in *. cbn [transform_of transmute_of] in *.
  unshelve epose proof (tm_brackets _ _ _ _ _ _ _ _ _ H1 H2 _ H4) as (s' & o & t & Ht & H).
  { intros e k v y Hi Hf. cbv beta in Hf. destruct (fR (fst e)) as [k' r'|r'] eqn:He; [|discriminate]. cbn in Hf. injection Hf as -> _ _.
    eapply H3; [|exact He]. apply in_map. exact Hi. }
  exists s', o, (brelabel elems t). split; [unfold set_visit; rewrite brelabel_leaves, <- merge_elems; apply Permutation_map; exact Ht|]. intros rdef rd. rewrite brelabel_eval.
  rewrite H. do 3 f_equal. apply beval_ext. intros q. apply three_elems; intros; [apply vres_red|apply vres_red|apply kres_red].
Qed.
Lemma set_mt_brackets st (both : stransform_op (K * L) R) (fL : K -> skres L R) (fR : L -> sres R) (s : tset K) (right : tset L) rdef0 rd0 x :
  reachable s -> reachable right -> (forall k l x, In k (set_visit s) -> fL k = SKTransmuted l x -> cls l = cls k) ->
  set_mt rdef0 rd0 st both (SMGeneric fL) (STGeneric fR) s right = Ret x ->
  exists s' o t, Permutation (bleaves t) (smerge (fun k l => Some (AskBoth k l)) (fun k => Some (AskLeft k)) (fun l => Some (AskRight l)) (set_visit s) (set_visit right)) /\
    forall rdef rd, set_mt rdef rd st both (SMGeneric fL) (STGeneric fR) s right =
      Ret (s', beval rdef rd (three (fun k l => s_red (stcall both (k, l))) (fun k => sk_red (fL k)) (fun l => s_red (fR l))) t, o).
Proof.
  intros H1 H2 H3 H4. unfold set_mt, both_transform_of in *. cbn [transform_of transmute_of] in *.
  unshelve epose proof (mt_brackets _ _ _ _ _ _ _ _ _ H1 H2 _ H4) as (s' & o & t & Ht & H).
  { intros e k v y Hi Hf. cbv beta in Hf. destruct (fL (fst e)) as [k' r'|r'] eqn:He; [|discriminate]. cbn in Hf. injection Hf as -> _ _.
    eapply H3; [|exact He]. apply in_map. exact Hi. }
  exists s', o, (brelabel elems t). split; [unfold set_visit; rewrite brelabel_leaves, <- merge_elems; apply Permutation_map; exact Ht|]. intros rdef rd. rewrite brelabel_eval.
  rewrite H. do 3 f_equal. apply beval_ext. intros q. apply three_elems; intros; [apply vres_red|apply kres_red|apply vres_red].
Qed.
Lemma set_mm_brackets {S} {KS : Key S} (both : stransmute_op (K * L) S R) (fL : K -> skres S R) (fR : L -> skres S R) (s : tset K) (right : tset L) rdef0 rd0 x :
  reachable s -> reachable right ->
  (forall k l k' x, In k (set_visit s) -> In l (set_visit right) -> cls k = cls l -> smcall both (k, l) = SKTransmuted k' x -> cls k' = cls k) ->
  (forall k k' x, In k (set_visit s) -> fL k = SKTransmuted k' x -> cls k' = cls k) ->
  (forall l k' x, In l (set_visit right) -> fR l = SKTransmuted k' x -> cls k' = cls l) ->
  set_mm rdef0 rd0 both (SMGeneric fL) (SMGeneric fR) s right = Ret x ->
  exists s' t, Permutation (bleaves t) (smerge (fun k l => Some (AskBoth k l)) (fun k => Some (AskLeft k)) (fun l => Some (AskRight l)) (set_visit s) (set_visit right)) /\
    forall rdef rd, set_mm rdef rd both (SMGeneric fL) (SMGeneric fR) s right =
      Ret (s', beval rdef rd (three (fun k l => sk_red (smcall both (k, l))) (fun k => sk_red (fL k)) (fun l => sk_red (fR l))) t).
Proof.
  intros H1 H2 H3 H3' H3'' H4. unfold set_mm, both_transmute_of in *. cbn [transform_of transmute_of] in *.
  unshelve epose proof (mm_brackets _ _ _ _ _ _ _ _ H1 H2 _ _ _ H4) as (s' & t & Ht & H).
  { intros e e' k v y Hi Hi' Hc Hf. cbn beta iota delta [fst snd] in Hf. destruct (smcall both (fst e, fst e')) as [k' r'|r'] eqn:He; [|discriminate]. cbn in Hf. injection Hf as -> _ _.
    eapply H3; [| |exact Hc|exact He]; apply in_map; assumption. }
  { intros e k v y Hi Hf. cbv beta in Hf. destruct (fL (fst e)) as [k' r'|r'] eqn:He; [|discriminate]. cbn in Hf. injection Hf as -> _ _.
    eapply H3'; [|exact He]. apply in_map. exact Hi. }
  { intros e k v y Hi Hf. cbv beta in Hf. destruct (fR (fst e)) as [k' r'|r'] eqn:He; [|discriminate]. cbn in Hf. injection Hf as -> _ _.
    eapply H3''; [|exact He]. apply in_map. exact Hi. }
  exists s', (brelabel elems t). split; [unfold set_visit; rewrite brelabel_leaves, <- merge_elems; apply Permutation_map; exact Ht|]. intros rdef rd. rewrite brelabel_eval.
  rewrite H. do 2 f_equal. apply beval_ext. intros q. apply three_elems; intros; apply kres_red.
Qed.
End Two.
Section Same.
Context {E : Env} {K R : Type} {KK : Key K}.
Lemma set_tt_brackets st (fB : K -> K -> sbres R) (fL fR : K -> sres R) (s right : tset K) rdef0 rd0 x :
  reachable s -> reachable right ->
  set_tt rdef0 rd0 st (SJGeneric fB false) (STGeneric fL) (STGeneric fR) s right = Ret x ->
  exists s' o t, Permutation (bleaves t) (smerge (fun k l => Some (AskBoth k l)) (fun k => Some (AskLeft k)) (fun l => Some (AskRight l)) (set_visit s) (set_visit right)) /\
    forall rdef rd, set_tt rdef rd st (SJGeneric fB false) (STGeneric fL) (STGeneric fR) s right =
      Ret (s', beval rdef rd (three (fun k l => sb_red (fB k l)) (fun k => s_red (fL k)) (fun l => s_red (fR l))) t, o).
Proof.
  intros H1 H2 H4. unfold set_tt in *. cbn [transform_of joint_of] in *.
  destruct (tt_brackets st (fun p : (K * unit) * (K * unit) => bres_of (fB (fst (fst p)) (fst (snd p)))) _ _ _ _ _ _ _ H1 H2 H4) as (s' & o & t & Ht & H).
  exists s', o, (brelabel elems t). split; [unfold set_visit; rewrite brelabel_leaves, <- merge_elems; apply Permutation_map; exact Ht|]. intros rdef rd. rewrite brelabel_eval.
  cbn [fst snd] in H. rewrite H. do 3 f_equal. apply beval_ext. intros q. apply three_elems; intros; [apply bres_red|apply vres_red|apply vres_red].
Qed.

(** map.rs:159-179 and :202-222. *)
Lemma tf_brackets {V W} st (fB : (K * V) * (K * W) -> vres V R) (fL : K * V -> vres V R) (fR : K * W -> skres V R) (m : trie K V) (r : trie K W) rdef0 rd0 x :
  reachable m -> reachable r ->
  map_tf rdef0 rd0 st (TGeneric fB) (TGeneric fL) (SMGeneric fR) m r = Ret x ->
  exists m' o t, Permutation (bleaves t) (merge (fun e e' => [AskBoth e e']) (fun e => [AskLeft e]) (fun e' => [AskRight e']) (map_visit m) (map_visit r)) /\
    forall rdef rd, map_tf rdef rd st (TGeneric fB) (TGeneric fL) (SMGeneric fR) m r =
      Ret (m', beval rdef rd (three (fun e e' => t_red (fB (e, e'))) (fun e => t_red (fL e)) (fun e' => sk_red (fR e'))) t, o).
Proof.
  intros H1 H2 H4. unfold map_tf in *. cbn [transfute_of] in *.
  unshelve epose proof (tm_brackets _ _ _ _ _ _ _ _ _ H1 H2 _ H4) as (m' & o & t & Ht & H).
  { intros e k v y Hi Hf. cbv beta in Hf. destruct (fR e); [|discriminate]. injection Hf as <- _ _. reflexivity. }
  exists m', o, t. split; [exact Ht|]. intros rdef rd. rewrite H. do 3 f_equal. apply beval_ext. intros [e e'|e|e']; cbn [three]; try reflexivity. destruct (fR e'); reflexivity.
Qed.
Lemma ft_brackets {V W} st (fB : (K * V) * (K * W) -> vres W R) (fL : K * V -> skres W R) (fR : K * W -> vres W R) (m : trie K V) (r : trie K W) rdef0 rd0 x :
  reachable m -> reachable r ->
  map_ft rdef0 rd0 st (TGeneric fB) (SMGeneric fL) (TGeneric fR) m r = Ret x ->
  exists m' o t, Permutation (bleaves t) (merge (fun e e' => [AskBoth e e']) (fun e => [AskLeft e]) (fun e' => [AskRight e']) (map_visit m) (map_visit r)) /\
    forall rdef rd, map_ft rdef rd st (TGeneric fB) (SMGeneric fL) (TGeneric fR) m r =
      Ret (m', beval rdef rd (three (fun e e' => t_red (fB (e, e'))) (fun e => sk_red (fL e)) (fun e' => t_red (fR e'))) t, o).
Proof.
  intros H1 H2 H4. unfold map_ft in *. cbn [transfute_of] in *.
  unshelve epose proof (mt_brackets _ _ _ _ _ _ _ _ _ H1 H2 _ H4) as (m' & o & t & Ht & H).
  { intros e k v y Hi Hf. cbv beta in Hf. destruct (fL e); [|discriminate]. injection Hf as <- _ _. reflexivity. }
  exists m', o, t. split; [exact Ht|]. intros rdef rd. rewrite H. do 3 f_equal. apply beval_ext. intros [e e'|e|e']; cbn [three]; try reflexivity. destruct (fL e); reflexivity.
Qed.
End Same.
