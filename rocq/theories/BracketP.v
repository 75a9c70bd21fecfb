(** The reduction is a bracketing of the reductions of the closures. *)
From Coq Require Import NArith Arith List Bool Lia Permutation.
From Verif Require Import Base Spec SpecP Node LoopP Api ApiP Inv Reach ReachP Trans Transform Joint JointT SpecT SpecJ TransMapP JointMapP RedP Eff EffP EffT EffJ EffApi EffMapP Brackets NaturalP.
Import ListNotations.
Open Scope N_scope.

(** * Trees *)
Fixpoint brelabel {A B} (g : A -> B) (t : btree A) : btree B :=
  match t with BDef => BDef | BLeaf a => BLeaf (g a) | BNode l r => BNode (brelabel g l) (brelabel g r) end.
Lemma brelabel_leaves {A B} (g : A -> B) t : bleaves (brelabel g t) = map g (bleaves t).
Proof. induction t as [|a|l IHl r IHr]; cbn; [reflexivity..|]. rewrite map_app. congruence. Qed.
Lemma brelabel_eval {A B R} (rdef : R) rd (f : B -> R) (g : A -> B) t : beval rdef rd f (brelabel g t) = beval rdef rd (fun a => f (g a)) t.
Proof. induction t as [|a|l IHl r IHr]; cbn; congruence. Qed.

Definition ind {A} (p : A -> bool) (a : A) : N := if p a then 1 else 0.
Definition tally {A} (p : A -> bool) (l : list A) : N := fold_right N.add 0 (map (ind p) l).
Lemma tally_app {A} (p : A -> bool) l l' : tally p (l ++ l') = tally p l + tally p l'.
Proof. unfold tally. induction l as [|a l IH]; cbn; [reflexivity|]. rewrite IH. lia. Qed.
Lemma beval_tally {A} (p : A -> bool) t : beval 0 N.add (ind p) t = tally p (bleaves t).
Proof.
  induction t as [|a|l IHl r IHr]; cbn [beval bleaves]; [reflexivity|cbn; lia|].
  rewrite tally_app. congruence.
Qed.
Lemma tally_occ {A B} (dec : forall x y : B, {x = y} + {x <> y}) (s : A -> B) b l :
  tally (fun a => if dec (s a) b then true else false) l = N.of_nat (count_occ dec (map s l) b).
Proof.
  unfold tally, ind. induction l as [|a l IH]; cbn; [reflexivity|].
  destruct (dec (s a) b); rewrite IH; lia.
Qed.
Lemma beval_app {A} (t : btree A) : beval [] (@app A) (fun a => [a]) t = bleaves t.
Proof. induction t as [|a|l IHl r IHr]; cbn; congruence. Qed.

Lemma add_monoid : monoid 0 N.add.
Proof. split; [intros; lia|]. split; intros; lia. Qed.

(** * Closures by the signature of their arguments *)
Section Canon.
Context {E : Env} {K V L W : Type} {KK : Key K} {KL : Key L}.
Variables (ln : list (K * V)) (lr : list (L * W)).

Definition mcalls : list (jcalls (K * V) (L * W)) :=
  merge (fun e e' => [AskBoth e e']) (fun e => [AskLeft e]) (fun e' => [AskRight e']) ln lr.

Lemma mcalls_in q : uniq ln -> uniq lr -> In q mcalls ->
  match q with AskBoth e e' => in_both ln lr e e' | AskLeft e => in_left ln lr e | AskRight e' => in_right ln lr e' end.
Proof.
  intros Hl Hr H. unfold mcalls, merge in H. apply in_app_or in H. destruct H as [H|H].
  - apply in_flat_map in H. destruct H as (e & He & H). destruct (lookup (ecls e) lr) as [e'|] eqn:Hk.
    + destruct H as [<-|[]]. apply lookup_in in Hk. destruct Hk. split; [assumption|]. split; [assumption|symmetry; assumption].
    + destruct H as [<-|[]]. split; assumption.
  - apply in_flat_map in H. destruct H as (e & He & H). apply filter_In in He. destruct He as [He Hu].
    destruct H as [<-|[]]. split; [assumption|]. unfold unmatched in Hu. destruct (lookup (ecls e) ln); [discriminate|reflexivity].
Qed.

Definition cl (e : K * V) : K * V := match lookup (ecls e) ln with Some e0 => e0 | None => e end.
Definition cr (e : L * W) : L * W := match lookup (ecls e) lr with Some e0 => e0 | None => e end.
Definition cq (q : jcalls (K * V) (L * W)) : jcalls (K * V) (L * W) :=
  match q with AskBoth e e' => AskBoth (cl e) (cr e') | AskLeft e => AskLeft (cl e) | AskRight e' => AskRight (cr e') end.
Definition sg (q : jcalls (K * V) (L * W)) : jcalls C C :=
  match q with AskBoth e e' => AskBoth (ecls e) (ecls e') | AskLeft e => AskLeft (ecls e) | AskRight e' => AskRight (ecls e') end.
Definition back (q : jcalls C C) : option (jcalls (K * V) (L * W)) :=
  match q with
  | AskBoth c c' => match lookup c ln, lookup c' lr with Some e, Some e' => Some (AskBoth e e') | _, _ => None end
  | AskLeft c => match lookup c ln with Some e => Some (AskLeft e) | None => None end
  | AskRight c => match lookup c lr with Some e => Some (AskRight e) | None => None end
  end.

Lemma cl_in e : uniq ln -> In e ln -> cl e = e.
Proof. intros Hu Hi. unfold cl. rewrite (in_lookup ln e Hu Hi). reflexivity. Qed.
Lemma cr_in e : uniq lr -> In e lr -> cr e = e.
Proof. intros Hu Hi. unfold cr. rewrite (in_lookup lr e Hu Hi). reflexivity. Qed.
Lemma back_sg q : uniq ln -> uniq lr -> In q mcalls -> back (sg q) = Some q.
Proof.
  intros Hl Hr H. apply mcalls_in in H; try assumption. destruct q as [e e'|e|e']; cbn [sg back].
  - destruct H as (H1 & H2 & _). rewrite (in_lookup _ _ Hl H1), (in_lookup _ _ Hr H2). reflexivity.
  - destruct H as (H1 & _). rewrite (in_lookup _ _ Hl H1). reflexivity.
  - destruct H as (H1 & _). rewrite (in_lookup _ _ Hr H1). reflexivity.
Qed.
Lemma back_cq q q' : back (sg q) = Some q' -> cq q = q'.
Proof.
  destruct q as [e e'|e|e']; cbn [sg back cq]; unfold cl, cr; intros H.
  - destruct (lookup (ecls e) ln), (lookup (ecls e') lr); congruence.
  - destruct (lookup (ecls e) ln); congruence.
  - destruct (lookup (ecls e') lr); congruence.
Qed.

Lemma jcalls_dec : forall x y : jcalls C C, {x = y} + {x <> y}.
Proof.
  assert (D : forall a b : C, {a = b} + {a <> b}).
  { intros a b. destruct (ceqb_spec a b); [left|right]; assumption. }
  decide equality; apply D.
Qed.

Lemma canon_leaves l : uniq ln -> uniq lr -> (forall p, tally p l = tally p mcalls) -> Permutation (map cq l) mcalls.
Proof.
  intros Hl Hr H.
  assert (HP : Permutation (map sg l) (map sg mcalls)).
  { apply (Permutation_count_occ jcalls_dec). intros q. specialize (H (fun a => if jcalls_dec (sg a) q then true else false)).
    rewrite !tally_occ in H. lia. }
  assert (Hin : forall q, In q l -> back (sg q) = Some (cq q)).
  { intros q Hq. apply (in_map sg) in Hq. apply (Permutation_in _ HP) in Hq. apply in_map_iff in Hq. destruct Hq as (q' & Hs & Hq').
    pose proof (back_sg q' Hl Hr Hq') as Hb. rewrite Hs in Hb. rewrite Hb. f_equal. symmetry. apply back_cq. exact Hb. }
  apply (Permutation_flat_map (fun s => opt (back s))) in HP.
  assert (HE : forall l (g : _ -> jcalls (K * V) (L * W)), (forall q, In q l -> back (sg q) = Some (g q)) -> flat_map (fun s => opt (back s)) (map sg l) = map g l).
  { clear. intros l g. induction l as [|a l IH]; intros H; cbn; [reflexivity|].
    rewrite H by (left; reflexivity). cbn. f_equal. apply IH. intros q Hq. apply H. right. assumption. }
  rewrite (HE l cq Hin), (HE mcalls (fun q => q)), map_id in HP; [exact HP|]. intros q. apply back_sg; assumption.
Qed.

Lemma merged_tally p (rB : K * V -> L * W -> N) rL rR :
  (forall e e', rB e e' = ind p (AskBoth e e')) -> (forall e, rL e = ind p (AskLeft e)) -> (forall e', rR e' = ind p (AskRight e')) ->
  fold_right N.add 0 (merged_reds rB rL rR ln lr) = tally p mcalls.
Proof.
  intros H1 H2 H3. unfold tally, mcalls, merged_reds, merge. f_equal. rewrite map_app. f_equal.
  - induction ln as [|e l IH]; cbn; [reflexivity|]. rewrite map_app, IH. f_equal. destruct (lookup (ecls e) lr); cbn; congruence.
  - induction (filter (unmatched ln) lr) as [|e l IH]; cbn; congruence.
Qed.

End Canon.

(** * Closures matter only at the calls *)
Section Cong.
Context {E : Env} {K V L W : Type} {KK : Key K} {KL : Key L}.

Lemma merge_sub (B Lk Rk : jcalls (K * V) (L * W) -> list (jcalls (K * V) (L * W))) ln lr q :
  (forall q, B q = [] \/ B q = [q]) -> (forall q, Lk q = [] \/ Lk q = [q]) -> (forall q, Rk q = [] \/ Rk q = [q]) ->
  In q (merge (fun e e' => B (AskBoth e e')) (fun e => Lk (AskLeft e)) (fun e' => Rk (AskRight e')) ln lr) -> In q (mcalls ln lr).
Proof.
  intros HB HL HR H. unfold mcalls, merge in *. apply in_app_or in H. apply in_or_app. destruct H as [H|H]; [left|right].
  - apply in_flat_map in H. destruct H as (e & He & H). apply in_flat_map. exists e. split; [assumption|].
    destruct (lookup (ecls e) lr) as [e'|].
    + destruct (HB (AskBoth e e')) as [Hx|Hx]; rewrite Hx in H; [destruct H|exact H].
    + destruct (HL (AskLeft e)) as [Hx|Hx]; rewrite Hx in H; [destruct H|exact H].
  - apply in_flat_map in H. destruct H as (e & He & H). apply in_flat_map. exists e. split; [assumption|].
    destruct (HR (AskRight e)) as [Hx|Hx]; rewrite Hx in H; [destruct H|exact H].
Qed.

Lemma makes_in {Q X} {A : Q -> Type} l (tr : list (event (A := A))) (o : outcome X) e : makes l tr o -> In e tr -> In (asked e) l.
Proof.
  intros (rest & HP & _) Hi. apply (Permutation_in _ HP). apply in_or_app. left. apply in_map. assumption.
Qed.

Definition fthree {TB TL TR} (fB : (K * V) * (L * W) -> TB) (fL : K * V -> TL) (fR : L * W -> TR) (q : jcalls (K * V) (L * W)) : jans TB TL TR q :=
  match q with AskBoth e e' => fB (e, e') | AskLeft e => fL e | AskRight e' => fR e' end.

Lemma agrees_cong {TB TL TR X} fB fL fR gB gL gR ln lr l (tr : list (event (A := jans TB TL TR))) (o : outcome X) : uniq ln -> uniq lr ->
  (forall e e', in_both ln lr e e' -> gB (e, e') = fB (e, e')) -> (forall e, in_left ln lr e -> gL e = fL e) -> (forall e, in_right ln lr e -> gR e = fR e) ->
  (forall q, In q l -> In q (mcalls ln lr)) -> makes l tr o ->
  Forall (agrees (fthree fB fL fR)) tr -> Forall (agrees (fthree gB gL gR)) tr.
Proof.
  intros Hul Hur HB HL HR Hin HM HF. apply Forall_forall. intros e He. rewrite Forall_forall in HF. specialize (HF e He).
  apply (makes_in _ _ _ _ HM) in He. apply Hin in He. apply mcalls_in in He; try assumption.
  unfold agrees in *. destruct e as [q a]. unfold asked in He. cbn [projT1 projT2] in *. rewrite HF. f_equal. clear HF a.
  destruct q as [e e'|e|e']; cbn [fthree]; symmetry; auto.
Qed.
End Cong.

Lemma omap_id3 {X Y Z} (o : outcome (X * Y * Z)) : omap (fun p => (fst (fst p), snd (fst p), snd p)) o = o.
Proof. destruct o as [[[x y] z]| |]; reflexivity. Qed.
Lemma omap_id2 {X Y} (o : outcome (X * Y)) : omap (fun p => (fst p, snd p)) o = o.
Proof. destruct o as [[x y]| |]; reflexivity. Qed.
Lemma tover_id {A V R} w (f g : A -> vres V R) : (forall a, g a = f a) -> tover (fun r => r) (tw_fun w f) (tw_fun w g).
Proof. intros H. destruct w; cbn; try reflexivity. intros a. rewrite H. destruct (f a); reflexivity. Qed.
Lemma mover_id {A S X R} w (f g : A -> kres S X R) : (forall a, g a = f a) -> mover (fun r => r) (mw_fun w f) (mw_fun w g).
Proof. intros H. destruct w; cbn; try reflexivity. intros a. rewrite H. destruct (f a); reflexivity. Qed.
Lemma jover_id {A V R} w (f g : A -> A -> bres V R) : (forall a b, g a b = f a b) -> jover (fun r => r) (jw_fun w f) (jw_fun w g).
Proof. intros H. destruct w; cbn; try reflexivity. split; [reflexivity|]. intros a b. rewrite H. destruct (f a b); reflexivity. Qed.

Section CongOps.
Context {E : Env} {K V L W R : Type} {KK : Key K} {KL : Key L} (rdef : R) (rd : R -> R -> R).

Lemma tm_cong st wb wl wr fB fL fR gB gL gR (m : trie K V) (r : trie L W) : reachable m -> reachable r ->
  (forall e e', in_both (map_visit m) (map_visit r) e e' -> gB (e, e') = fB (e, e')) ->
  (forall e, in_left (map_visit m) (map_visit r) e -> gL e = fL e) -> (forall e, in_right (map_visit m) (map_visit r) e -> gR e = fR e) ->
  map_tm rdef rd st (tw_fun wb gB) (tw_fun wl gL) (mw_fun wr gR) m r = map_tm rdef rd st (tw_fun wb fB) (tw_fun wl fL) (mw_fun wr fR) m r.
Proof.
  intros Hm Hr HB HL HR. assert (Hl' := mwf_uniq _ (reachable_mwf _ Hm)). assert (Hr' := mwf_uniq _ (reachable_mwf _ Hr)).
  destruct (tm_execs rdef rd st wb wl wr m r (fthree fB fL fR)) as (tr & He & Hf).
  assert (HM := tm_makes rdef rd st wb wl wr m r tr _ Hm Hr He).
  apply (agrees_cong fB fL fR gB gL gR (map_visit m) (map_visit r)) with (l := merge (fun e e' => tw_calls wb (AskBoth e e')) (fun e => tw_calls wl (AskLeft e)) (fun e' => mw_calls wr (AskRight e')) (map_visit m) (map_visit r)) (o := map_tm rdef rd st (tw_fun wb (fun_both (fthree fB fL fR))) (tw_fun wl (fun_left (fthree fB fL fR))) (mw_fun wr (fun_right (fthree fB fL fR))) m r) in Hf; try assumption.
  2:{ intros q. apply merge_sub; auto using tw_calls_small, mw_calls_small. }
  apply (tm_as rdef rd st wb wl wr m r tr _ _ He) in Hf.
  rewrite (map_tm_map (fun r => r) rdef rd rdef rd st eq_refl (fun _ _ => eq_refl) (tw_fun wb (fun_both (fthree gB gL gR))) (tw_fun wl (fun_left (fthree gB gL gR))) (mw_fun wr (fun_right (fthree gB gL gR))));
    [|apply tover_id|apply tover_id|apply mover_id]; [|intros; try destruct a; reflexivity..].
  rewrite omap_id3, <- Hf.
  rewrite (map_tm_map (fun r => r) rdef rd rdef rd st eq_refl (fun _ _ => eq_refl) (tw_fun wb fB) (tw_fun wl fL) (mw_fun wr fR));
    [|apply tover_id|apply tover_id|apply mover_id]; [|intros; try destruct a; reflexivity..].
  apply omap_id3.
Qed.
Lemma mt_cong st wb wl wr fB fL fR gB gL gR (m : trie K V) (r : trie L W) : reachable m -> reachable r ->
  (forall e e', in_both (map_visit m) (map_visit r) e e' -> gB (e, e') = fB (e, e')) ->
  (forall e, in_left (map_visit m) (map_visit r) e -> gL e = fL e) -> (forall e, in_right (map_visit m) (map_visit r) e -> gR e = fR e) ->
  map_mt rdef rd st (tw_fun wb gB) (mw_fun wl gL) (tw_fun wr gR) m r = map_mt rdef rd st (tw_fun wb fB) (mw_fun wl fL) (tw_fun wr fR) m r.
Proof.
  intros Hm Hr HB HL HR. assert (Hl' := mwf_uniq _ (reachable_mwf _ Hm)). assert (Hr' := mwf_uniq _ (reachable_mwf _ Hr)).
  destruct (mt_execs rdef rd st wb wl wr m r (fthree fB fL fR)) as (tr & He & Hf).
  assert (HM := mt_makes rdef rd st wb wl wr m r tr _ Hm Hr He).
  apply (agrees_cong fB fL fR gB gL gR (map_visit m) (map_visit r)) with (l := merge (fun e e' => tw_calls wb (AskBoth e e')) (fun e => mw_calls wl (AskLeft e)) (fun e' => tw_calls wr (AskRight e')) (map_visit m) (map_visit r)) (o := map_mt rdef rd st (tw_fun wb (fun_both (fthree fB fL fR))) (mw_fun wl (fun_left (fthree fB fL fR))) (tw_fun wr (fun_right (fthree fB fL fR))) m r) in Hf; try assumption.
  2:{ intros q. apply merge_sub; auto using tw_calls_small, mw_calls_small. }
  apply (mt_as rdef rd st wb wl wr m r tr _ _ He) in Hf.
  rewrite (map_mt_map (fun r => r) rdef rd rdef rd st eq_refl (fun _ _ => eq_refl) (tw_fun wb (fun_both (fthree gB gL gR))) (mw_fun wl (fun_left (fthree gB gL gR))) (tw_fun wr (fun_right (fthree gB gL gR))));
    [|apply tover_id|apply mover_id|apply tover_id]; [|intros; try destruct a; reflexivity..].
  rewrite omap_id3, <- Hf.
  rewrite (map_mt_map (fun r => r) rdef rd rdef rd st eq_refl (fun _ _ => eq_refl) (tw_fun wb fB) (mw_fun wl fL) (tw_fun wr fR));
    [|apply tover_id|apply mover_id|apply tover_id]; [|intros; try destruct a; reflexivity..].
  apply omap_id3.
Qed.
Lemma mm_cong {S X} {KS : Key S} (wb : mway R) wl wr fB fL fR (gB : _ -> kres S X R) gL gR (m : trie K V) (r : trie L W) : reachable m -> reachable r ->
  (forall e e', in_both (map_visit m) (map_visit r) e e' -> gB (e, e') = fB (e, e')) ->
  (forall e, in_left (map_visit m) (map_visit r) e -> gL e = fL e) -> (forall e, in_right (map_visit m) (map_visit r) e -> gR e = fR e) ->
  map_mm rdef rd (mw_fun wb gB) (mw_fun wl gL) (mw_fun wr gR) m r = map_mm rdef rd (mw_fun wb fB) (mw_fun wl fL) (mw_fun wr fR) m r.
Proof.
  intros Hm Hr HB HL HR. assert (Hl' := mwf_uniq _ (reachable_mwf _ Hm)). assert (Hr' := mwf_uniq _ (reachable_mwf _ Hr)).
  destruct (mm_execs rdef rd wb wl wr m r (fthree fB fL fR)) as (tr & He & Hf).
  assert (HM := mm_makes rdef rd wb wl wr m r tr _ Hm Hr He).
  apply (agrees_cong fB fL fR gB gL gR (map_visit m) (map_visit r)) with (l := merge (fun e e' => mw_calls wb (AskBoth e e')) (fun e => mw_calls wl (AskLeft e)) (fun e' => mw_calls wr (AskRight e')) (map_visit m) (map_visit r)) (o := map_mm rdef rd (mw_fun wb (fun_both (fthree fB fL fR))) (mw_fun wl (fun_left (fthree fB fL fR))) (mw_fun wr (fun_right (fthree fB fL fR))) m r) in Hf; try assumption.
  2:{ intros q. apply merge_sub; auto using tw_calls_small, mw_calls_small. }
  apply (mm_as rdef rd wb wl wr m r tr _ _ He) in Hf.
  rewrite (map_mm_map (fun r => r) rdef rd rdef rd eq_refl (fun _ _ => eq_refl) (mw_fun wb (fun_both (fthree gB gL gR))) (mw_fun wl (fun_left (fthree gB gL gR))) (mw_fun wr (fun_right (fthree gB gL gR))));
    [|apply mover_id|apply mover_id|apply mover_id]; [|intros; try destruct a; reflexivity..].
  rewrite omap_id2, <- Hf.
  rewrite (map_mm_map (fun r => r) rdef rd rdef rd eq_refl (fun _ _ => eq_refl) (mw_fun wb fB) (mw_fun wl fL) (mw_fun wr fR));
    [|apply mover_id|apply mover_id|apply mover_id]; [|intros; try destruct a; reflexivity..].
  apply omap_id2.
Qed.
End CongOps.

Section CongT.
Context {E : Env} {K V R : Type} {KK : Key K} (rdef : R) (rd : R -> R -> R).

Lemma tt_cong st wb wl wr fB fL fR gB gL gR (m : trie K V) (r : trie K V) : reachable m -> reachable r ->
  (forall e e', in_both (map_visit m) (map_visit r) e e' -> gB (e, e') = fB (e, e')) ->
  (forall e, in_left (map_visit m) (map_visit r) e -> gL e = fL e) -> (forall e, in_right (map_visit m) (map_visit r) e -> gR e = fR e) ->
  map_tt rdef rd st (jw_fun wb (fun e e' => gB (e, e'))) (tw_fun wl gL) (tw_fun wr gR) m r = map_tt rdef rd st (jw_fun wb (fun e e' => fB (e, e'))) (tw_fun wl fL) (tw_fun wr fR) m r.
Proof.
  intros Hm Hr HB HL HR. assert (Hl' := mwf_uniq _ (reachable_mwf _ Hm)). assert (Hr' := mwf_uniq _ (reachable_mwf _ Hr)).
  destruct (tt_execs rdef rd st wb wl wr m r (fthree fB fL fR)) as (tr & He & Hf).
  assert (HM := tt_makes rdef rd st wb wl wr m r tr _ Hm Hr He).
  apply (agrees_cong fB fL fR gB gL gR (map_visit m) (map_visit r)) with (l := merge (fun e e' => jw_calls wb (AskBoth e e')) (fun e => tw_calls wl (AskLeft e)) (fun e' => tw_calls wr (AskRight e')) (map_visit m) (map_visit r)) (o := map_tt rdef rd st (jw_fun wb (fun e e' => fun_both (fthree fB fL fR) (e, e'))) (tw_fun wl (fun_left (fthree fB fL fR))) (tw_fun wr (fun_right (fthree fB fL fR))) m r) in Hf; try assumption.
  2:{ intros q. apply merge_sub; auto using tw_calls_small, jw_calls_small. }
  apply (tt_as rdef rd st wb wl wr m r tr _ _ He) in Hf.
  rewrite (map_tt_map (fun r => r) rdef rd rdef rd st eq_refl (fun _ _ => eq_refl) (jw_fun wb (fun e e' => fun_both (fthree gB gL gR) (e, e'))) (tw_fun wl (fun_left (fthree gB gL gR))) (tw_fun wr (fun_right (fthree gB gL gR))));
    [|apply jover_id|apply tover_id|apply tover_id]; [|intros; try destruct a; reflexivity..].
  rewrite omap_id3, <- Hf.
  rewrite (map_tt_map (fun r => r) rdef rd rdef rd st eq_refl (fun _ _ => eq_refl) (jw_fun wb (fun e e' => fB (e, e'))) (tw_fun wl fL) (tw_fun wr fR));
    [|apply jover_id|apply tover_id|apply tover_id]; [|intros; try destruct a; reflexivity..].
  apply omap_id3.
Qed.
End CongT.

(** * Relabelled answers *)
Lemma vmap_red {V R R'} (h : R -> R') (v : vres V R) : t_red (vmap h v) = h (t_red v).
Proof. destruct v; reflexivity. Qed.
Lemma kmap_red {S X R R'} (h : R -> R') (v : kres S X R) : m_red (kmap h v) = h (m_red v).
Proof. destruct v; reflexivity. Qed.
Lemma bmap_red {V R R'} (h : R -> R') (v : bres V R) : b_red (bmap h v) = h (b_red v).
Proof. destruct v; reflexivity. Qed.
Lemma vmap_back {V R R'} (h : R' -> R) r' (v : vres V R) : h r' = t_red v -> v = vmap h (vmap (fun _ => r') v).
Proof. destruct v; cbn; intros ->; reflexivity. Qed.
Lemma kmap_back {S X R R'} (h : R' -> R) r' (v : kres S X R) : h r' = m_red v -> v = kmap h (kmap (fun _ => r') v).
Proof. destruct v; cbn; intros ->; reflexivity. Qed.
Lemma bmap_back {V R R'} (h : R' -> R) r' (v : bres V R) : h r' = b_red v -> v = bmap h (bmap (fun _ => r') v).
Proof. destruct v; cbn; intros ->; reflexivity. Qed.

(** * Bracketings: one map *)
Section One.
Context {E : Env} {K V R : Type} {KK : Key K}.

Lemma transform_brackets st (f : K * V -> vres V R) (m : trie K V) : reachable m ->
  exists m' o t, bleaves t = map_visit m /\
    forall rdef rd, map_transform rdef rd st (TGeneric f) m = Ret (m', beval rdef rd (fun e => t_red (f e)) t, o).
Proof.
  intros Hm. set (f0 := fun e => vmap (fun _ => BLeaf e) (f e)).
  destruct (transform_exact BDef BNode st (TGeneric f0) m Hm) as (m' & t & o & H0 & _). exists m', o, t. split.
  - pose proof (map_transform_map (beval [] (@app _) (fun e => [e])) BDef BNode [] (@app _) st eq_refl (fun _ _ => eq_refl)
      (TGeneric f0) (TGeneric (fun e => vmap (beval [] (@app _) (fun e => [e])) (f0 e))) m (fun _ => eq_refl)) as HL.
    rewrite H0 in HL. cbn [omap fst snd] in HL. rewrite <- (beval_app t).
    refine (transform_calls st _ m m' _ o Hm _ HL). intros e. unfold f0. rewrite !vmap_red. reflexivity.
  - intros rdef rd. rewrite (map_transform_map (beval rdef rd (fun e => t_red (f e))) BDef BNode rdef rd st eq_refl (fun _ _ => eq_refl) (TGeneric f0)).
    + rewrite H0. reflexivity.
    + intros e. apply vmap_back. reflexivity.
Qed.
Lemma transmute_brackets {S X} {KS : Key S} (f : K * V -> kres S X R) (m : trie K V) : reachable m ->
  (forall e k v r, In e (map_visit m) -> f e = KTransmuted k v r -> cls k = cls (fst e)) ->
  exists m' t, bleaves t = map_visit m /\
    forall rdef rd, map_transmute rdef rd (MGeneric f) m = Ret (m', beval rdef rd (fun e => m_red (f e)) t).
Proof.
  intros Hm HK. set (f0 := fun e => kmap (fun _ => BLeaf e) (f e)).
  assert (HK0 : forall R' (g : K * V -> R') e k v r, In e (map_visit m) -> kmap (fun _ => g e) (f e) = KTransmuted k v r -> cls k = cls (fst e)).
  { intros R' g e k v r Hi H. destruct (f e) as [k' v' r'|r'] eqn:Hf; [|discriminate]. cbn in H. injection H as -> _ _. eapply HK; eassumption. }
  destruct (transmute_exact BDef BNode (MGeneric f0) m Hm) as (m' & t & H0 & _).
  { intros e k v r Hi H. exact (HK0 _ (fun e => BLeaf e) e k v r Hi H). }
  exists m', t. split.
  - pose proof (map_transmute_map (beval [] (@app _) (fun e => [e])) BDef BNode [] (@app _) eq_refl (fun _ _ => eq_refl)
      (MGeneric f0) (MGeneric (fun e => kmap (fun _ => [e]) (f e))) m) as HL.
    rewrite H0 in HL. cbn [omap fst snd] in HL. rewrite beval_app in HL.
    destruct (transmute_exact [] (@app _) (MGeneric (fun e => kmap (fun _ => [e]) (f e))) m Hm) as (m2 & r2 & H2 & _ & _ & _ & _ & Hr).
    { intros e k v r Hi H. exact (HK0 _ (fun e => [e]) e k v r Hi H). }
    rewrite HL in H2. 2:{ intros e. unfold f0. destruct (f e); reflexivity. }
    injection H2 as _ ->. rewrite (Hr _ eq_refl).
    + clear. induction (map_visit m) as [|e l IH]; cbn; [reflexivity|]. rewrite kmap_red. cbn. f_equal. exact IH.
    + split; [exact (@app_assoc _)|]. split; [reflexivity|exact (@app_nil_r _)].
  - intros rdef rd. rewrite (map_transmute_map (beval rdef rd (fun e => m_red (f e))) BDef BNode rdef rd eq_refl (fun _ _ => eq_refl) (MGeneric f0)).
    + rewrite H0. reflexivity.
    + intros e. apply kmap_back. reflexivity.
Qed.
End One.

(** * Bracketings: two maps *)
Section Two.
Context {E : Env} {K V L W R : Type} {KK : Key K} {KL : Key L}.

Lemma tm_brackets st (fB : (K * V) * (L * W) -> vres V R) (fL : K * V -> vres V R) (fR : L * W -> kres K V R) (m : trie K V) (r : trie L W) rdef0 rd0 x : reachable m -> reachable r ->
  (forall e k v x, In e (map_visit r) -> fR e = KTransmuted k v x -> cls k = cls (fst e)) ->
  map_tm rdef0 rd0 st (TGeneric fB) (TGeneric fL) (MGeneric fR) m r = Ret x ->
  exists m' o t, Permutation (bleaves t) (merge (fun e e' => [AskBoth e e']) (fun e => [AskLeft e]) (fun e' => [AskRight e']) (map_visit m) (map_visit r)) /\
    forall rdef rd, map_tm rdef rd st (TGeneric fB) (TGeneric fL) (MGeneric fR) m r =
      Ret (m', beval rdef rd (three (fun e e' => t_red (fB (e, e'))) (fun e => t_red (fL e)) (fun e' => m_red (fR e'))) t, o).
Proof.
  intros Hm Hr HKR HX. assert (Hul := mwf_uniq _ (reachable_mwf _ Hm)). assert (Hur := mwf_uniq _ (reachable_mwf _ Hr)).
  set (rho := three (fun e e' => t_red (fB (e, e'))) (fun e => t_red (fL e)) (fun e' => m_red (fR e'))).
  set (ln := map_visit m) in *. set (lr := map_visit r) in *.
  set (cB := fun p => fB (cl ln (fst p), cr lr (snd p))). set (cL := fun e => fL (cl ln e)). set (cR := fun e => fR (cr lr e)).
  set (f0B := fun p => vmap (fun _ => BLeaf (AskBoth (fst p) (snd p))) (cB p)).
  set (f0L := fun e => vmap (fun _ => BLeaf (AskLeft (J := L * W) e)) (cL e)). set (f0R := fun e => kmap (fun _ => BLeaf (AskRight (I := K * V) e)) (cR e)).
  assert (HN : forall rdef rd, map_tm rdef rd st (TGeneric fB) (TGeneric fL) (MGeneric fR) m r =
    omap (fun p => (fst (fst p), beval rdef rd (fun q => rho (cq ln lr q)) (snd (fst p)), snd p))
      (map_tm BDef BNode st (TGeneric f0B) (TGeneric f0L) (MGeneric f0R) m r)).
  { intros rdef rd. transitivity (map_tm rdef rd st (TGeneric cB) (TGeneric cL) (MGeneric cR) m r).
    1:{ symmetry. apply (tm_cong rdef rd st TwClosure TwClosure MwClosure fB fL fR cB cL cR m r Hm Hr).
      - intros e e' (H1 & H2 & _). unfold cB. cbn [fst snd]. rewrite (cl_in ln), (cr_in lr); auto.
      - intros e (H1 & _). unfold cL. rewrite (cl_in ln); auto.
      - intros e (H1 & _). unfold cR. rewrite (cr_in lr); auto. }
    apply (map_tm_map (beval rdef rd (fun q => rho (cq ln lr q))) BDef BNode rdef rd st eq_refl (fun _ _ => eq_refl)); intros a; first [apply vmap_back; reflexivity|apply kmap_back; reflexivity]. }
  pose proof (HN rdef0 rd0) as H0. rewrite HX in H0.
  destruct (map_tm BDef BNode st (TGeneric f0B) (TGeneric f0L) (MGeneric f0R) m r) as [[[m' t] o]| |] eqn:HT; try discriminate.
  exists m', o, (brelabel (cq ln lr) t). split.
  - rewrite brelabel_leaves. apply canon_leaves; try assumption. intros p. rewrite <- beval_tally.
    pose proof (map_tm_map (beval 0 N.add (ind p)) BDef BNode 0 N.add st eq_refl (fun _ _ => eq_refl)
      (TGeneric f0B) (TGeneric f0L) (MGeneric f0R)
      (TGeneric (fun a => vmap (beval 0 N.add (ind p)) (f0B a))) (TGeneric (fun a => vmap (beval 0 N.add (ind p)) (f0L a))) (MGeneric (fun a => kmap (beval 0 N.add (ind p)) (f0R a))) m r
      (fun _ => eq_refl) (fun _ => eq_refl) (fun _ => eq_refl)) as HC.
    rewrite HT in HC. cbn [omap fst snd] in HC.
    apply tm_reduction in HC; try assumption; try exact add_monoid; try exact N.add_comm.
    + rewrite HC. apply merged_tally; intros; cbn [tcall mcall jcall]; rewrite ?vmap_red, ?kmap_red, ?bmap_red; unfold f0B, f0L, f0R; rewrite ?vmap_red, ?kmap_red, ?bmap_red; reflexivity.
    + intros e k v x1 Hi H. unfold f0R, cR in H. rewrite (cr_in lr) in H by assumption.
      destruct (fR e) as [k' v' r'|r'] eqn:Hf; [|discriminate]. cbn in H. injection H as -> _ _. eapply HKR; eassumption.
  - intros rdef rd. rewrite HN. cbn [omap fst snd]. rewrite brelabel_eval. reflexivity.
Qed.
Lemma mt_brackets st (fB : (K * V) * (L * W) -> vres W R) (fL : K * V -> kres L W R) (fR : L * W -> vres W R) (m : trie K V) (r : trie L W) rdef0 rd0 x : reachable m -> reachable r ->
  (forall e k v x, In e (map_visit m) -> fL e = KTransmuted k v x -> cls k = cls (fst e)) ->
  map_mt rdef0 rd0 st (TGeneric fB) (MGeneric fL) (TGeneric fR) m r = Ret x ->
  exists m' o t, Permutation (bleaves t) (merge (fun e e' => [AskBoth e e']) (fun e => [AskLeft e]) (fun e' => [AskRight e']) (map_visit m) (map_visit r)) /\
    forall rdef rd, map_mt rdef rd st (TGeneric fB) (MGeneric fL) (TGeneric fR) m r =
      Ret (m', beval rdef rd (three (fun e e' => t_red (fB (e, e'))) (fun e => m_red (fL e)) (fun e' => t_red (fR e'))) t, o).
Proof.
  intros Hm Hr HKL HX. assert (Hul := mwf_uniq _ (reachable_mwf _ Hm)). assert (Hur := mwf_uniq _ (reachable_mwf _ Hr)).
  set (rho := three (fun e e' => t_red (fB (e, e'))) (fun e => m_red (fL e)) (fun e' => t_red (fR e'))).
  set (ln := map_visit m) in *. set (lr := map_visit r) in *.
  set (cB := fun p => fB (cl ln (fst p), cr lr (snd p))). set (cL := fun e => fL (cl ln e)). set (cR := fun e => fR (cr lr e)).
  set (f0B := fun p => vmap (fun _ => BLeaf (AskBoth (fst p) (snd p))) (cB p)).
  set (f0L := fun e => kmap (fun _ => BLeaf (AskLeft (J := L * W) e)) (cL e)). set (f0R := fun e => vmap (fun _ => BLeaf (AskRight (I := K * V) e)) (cR e)).
  assert (HN : forall rdef rd, map_mt rdef rd st (TGeneric fB) (MGeneric fL) (TGeneric fR) m r =
    omap (fun p => (fst (fst p), beval rdef rd (fun q => rho (cq ln lr q)) (snd (fst p)), snd p))
      (map_mt BDef BNode st (TGeneric f0B) (MGeneric f0L) (TGeneric f0R) m r)).
  { intros rdef rd. transitivity (map_mt rdef rd st (TGeneric cB) (MGeneric cL) (TGeneric cR) m r).
    1:{ symmetry. apply (mt_cong rdef rd st TwClosure MwClosure TwClosure fB fL fR cB cL cR m r Hm Hr).
      - intros e e' (H1 & H2 & _). unfold cB. cbn [fst snd]. rewrite (cl_in ln), (cr_in lr); auto.
      - intros e (H1 & _). unfold cL. rewrite (cl_in ln); auto.
      - intros e (H1 & _). unfold cR. rewrite (cr_in lr); auto. }
    apply (map_mt_map (beval rdef rd (fun q => rho (cq ln lr q))) BDef BNode rdef rd st eq_refl (fun _ _ => eq_refl)); intros a; first [apply vmap_back; reflexivity|apply kmap_back; reflexivity]. }
  pose proof (HN rdef0 rd0) as H0. rewrite HX in H0.
  destruct (map_mt BDef BNode st (TGeneric f0B) (MGeneric f0L) (TGeneric f0R) m r) as [[[m' t] o]| |] eqn:HT; try discriminate.
  exists m', o, (brelabel (cq ln lr) t). split.
  - rewrite brelabel_leaves. apply canon_leaves; try assumption. intros p. rewrite <- beval_tally.
    pose proof (map_mt_map (beval 0 N.add (ind p)) BDef BNode 0 N.add st eq_refl (fun _ _ => eq_refl)
      (TGeneric f0B) (MGeneric f0L) (TGeneric f0R)
      (TGeneric (fun a => vmap (beval 0 N.add (ind p)) (f0B a))) (MGeneric (fun a => kmap (beval 0 N.add (ind p)) (f0L a))) (TGeneric (fun a => vmap (beval 0 N.add (ind p)) (f0R a))) m r
      (fun _ => eq_refl) (fun _ => eq_refl) (fun _ => eq_refl)) as HC.
    rewrite HT in HC. cbn [omap fst snd] in HC.
    apply mt_reduction in HC; try assumption; try exact add_monoid; try exact N.add_comm.
    + rewrite HC. apply merged_tally; intros; cbn [tcall mcall jcall]; rewrite ?vmap_red, ?kmap_red, ?bmap_red; unfold f0B, f0L, f0R; rewrite ?vmap_red, ?kmap_red, ?bmap_red; reflexivity.
    + intros e k v x1 Hi H. unfold f0L, cL in H. rewrite (cl_in ln) in H by assumption.
      destruct (fL e) as [k' v' r'|r'] eqn:Hf; [|discriminate]. cbn in H. injection H as -> _ _. eapply HKL; eassumption.
  - intros rdef rd. rewrite HN. cbn [omap fst snd]. rewrite brelabel_eval. reflexivity.
Qed.
Lemma mm_brackets {S X} {KS : Key S} (fB : (K * V) * (L * W) -> kres S X R) (fL : K * V -> kres S X R) (fR : L * W -> kres S X R) (m : trie K V) (r : trie L W) rdef0 rd0 x : reachable m -> reachable r ->
  (forall e e' k v x, In e (map_visit m) -> In e' (map_visit r) -> cls (fst e) = cls (fst e') ->
     fB (e, e') = KTransmuted k v x -> cls k = cls (fst e)) ->
  (forall e k v x, In e (map_visit m) -> fL e = KTransmuted k v x -> cls k = cls (fst e)) ->
  (forall e k v x, In e (map_visit r) -> fR e = KTransmuted k v x -> cls k = cls (fst e)) ->
  map_mm rdef0 rd0 (MGeneric fB) (MGeneric fL) (MGeneric fR) m r = Ret x ->
  exists m' t, Permutation (bleaves t) (merge (fun e e' => [AskBoth e e']) (fun e => [AskLeft e]) (fun e' => [AskRight e']) (map_visit m) (map_visit r)) /\
    forall rdef rd, map_mm rdef rd (MGeneric fB) (MGeneric fL) (MGeneric fR) m r =
      Ret (m', beval rdef rd (three (fun e e' => m_red (fB (e, e'))) (fun e => m_red (fL e)) (fun e' => m_red (fR e'))) t).
Proof.
  intros Hm Hr HKB HKL HKR HX. assert (Hul := mwf_uniq _ (reachable_mwf _ Hm)). assert (Hur := mwf_uniq _ (reachable_mwf _ Hr)).
  set (rho := three (fun e e' => m_red (fB (e, e'))) (fun e => m_red (fL e)) (fun e' => m_red (fR e'))).
  set (ln := map_visit m) in *. set (lr := map_visit r) in *.
  set (cB := fun p => fB (cl ln (fst p), cr lr (snd p))). set (cL := fun e => fL (cl ln e)). set (cR := fun e => fR (cr lr e)).
  set (f0B := fun p => kmap (fun _ => BLeaf (AskBoth (fst p) (snd p))) (cB p)).
  set (f0L := fun e => kmap (fun _ => BLeaf (AskLeft (J := L * W) e)) (cL e)). set (f0R := fun e => kmap (fun _ => BLeaf (AskRight (I := K * V) e)) (cR e)).
  assert (HN : forall rdef rd, map_mm rdef rd (MGeneric fB) (MGeneric fL) (MGeneric fR) m r =
    omap (fun p => (fst p, beval rdef rd (fun q => rho (cq ln lr q)) (snd p)))
      (map_mm BDef BNode (MGeneric f0B) (MGeneric f0L) (MGeneric f0R) m r)).
  { intros rdef rd. transitivity (map_mm rdef rd (MGeneric cB) (MGeneric cL) (MGeneric cR) m r).
    1:{ symmetry. apply (mm_cong rdef rd MwClosure MwClosure MwClosure fB fL fR cB cL cR m r Hm Hr).
      - intros e e' (H1 & H2 & _). unfold cB. cbn [fst snd]. rewrite (cl_in ln), (cr_in lr); auto.
      - intros e (H1 & _). unfold cL. rewrite (cl_in ln); auto.
      - intros e (H1 & _). unfold cR. rewrite (cr_in lr); auto. }
    apply (map_mm_map (beval rdef rd (fun q => rho (cq ln lr q))) BDef BNode rdef rd eq_refl (fun _ _ => eq_refl)); intros a; first [apply vmap_back; reflexivity|apply kmap_back; reflexivity]. }
  pose proof (HN rdef0 rd0) as H0. rewrite HX in H0.
  destruct (map_mm BDef BNode (MGeneric f0B) (MGeneric f0L) (MGeneric f0R) m r) as [[m' t]| |] eqn:HT; try discriminate.
  exists m', (brelabel (cq ln lr) t). split.
  - rewrite brelabel_leaves. apply canon_leaves; try assumption. intros p. rewrite <- beval_tally.
    pose proof (map_mm_map (beval 0 N.add (ind p)) BDef BNode 0 N.add eq_refl (fun _ _ => eq_refl)
      (MGeneric f0B) (MGeneric f0L) (MGeneric f0R)
      (MGeneric (fun a => kmap (beval 0 N.add (ind p)) (f0B a))) (MGeneric (fun a => kmap (beval 0 N.add (ind p)) (f0L a))) (MGeneric (fun a => kmap (beval 0 N.add (ind p)) (f0R a))) m r
      (fun _ => eq_refl) (fun _ => eq_refl) (fun _ => eq_refl)) as HC.
    rewrite HT in HC. cbn [omap fst snd] in HC.
    apply mm_reduction in HC; try assumption; try exact add_monoid; try exact N.add_comm.
    + rewrite HC. apply merged_tally; intros; cbn [tcall mcall jcall]; rewrite ?vmap_red, ?kmap_red, ?bmap_red; unfold f0B, f0L, f0R; rewrite ?vmap_red, ?kmap_red, ?bmap_red; reflexivity.
    + intros e e' k v x1 Hi Hi' Hc H. cbn [mcall] in H. unfold f0B, cB in H. cbn [fst snd] in H. rewrite (cl_in ln), (cr_in lr) in H by assumption.
      destruct (fB (e, e')) as [k' v' r'|r'] eqn:Hf; [|discriminate]. cbn in H. injection H as -> _ _. eapply HKB; eassumption.
    + intros e k v x1 Hi H. unfold f0L, cL in H. rewrite (cl_in ln) in H by assumption.
      destruct (fL e) as [k' v' r'|r'] eqn:Hf; [|discriminate]. cbn in H. injection H as -> _ _. eapply HKL; eassumption.
    + intros e k v x1 Hi H. unfold f0R, cR in H. rewrite (cr_in lr) in H by assumption.
      destruct (fR e) as [k' v' r'|r'] eqn:Hf; [|discriminate]. cbn in H. injection H as -> _ _. eapply HKR; eassumption.
  - intros rdef rd. rewrite HN. cbn [omap fst snd]. rewrite brelabel_eval. reflexivity.
Qed.
End Two.

Section TwoT.
Context {E : Env} {K V R : Type} {KK : Key K}.

Lemma tt_brackets st (fB : (K * V) * (K * V) -> bres V R) (fL : K * V -> vres V R) (fR : K * V -> vres V R) (m : trie K V) (r : trie K V) rdef0 rd0 x : reachable m -> reachable r ->
  map_tt rdef0 rd0 st (JGeneric (fun e e' => fB (e, e')) false) (TGeneric fL) (TGeneric fR) m r = Ret x ->
  exists m' o t, Permutation (bleaves t) (merge (fun e e' => [AskBoth e e']) (fun e => [AskLeft e]) (fun e' => [AskRight e']) (map_visit m) (map_visit r)) /\
    forall rdef rd, map_tt rdef rd st (JGeneric (fun e e' => fB (e, e')) false) (TGeneric fL) (TGeneric fR) m r =
      Ret (m', beval rdef rd (three (fun e e' => b_red (fB (e, e'))) (fun e => t_red (fL e)) (fun e' => t_red (fR e'))) t, o).
Proof.
  intros Hm Hr HX. assert (Hul := mwf_uniq _ (reachable_mwf _ Hm)). assert (Hur := mwf_uniq _ (reachable_mwf _ Hr)).
  set (rho := three (fun e e' => b_red (fB (e, e'))) (fun e => t_red (fL e)) (fun e' => t_red (fR e'))).
  set (ln := map_visit m) in *. set (lr := map_visit r) in *.
  set (cB := fun p => fB (cl ln (fst p), cr lr (snd p))). set (cL := fun e => fL (cl ln e)). set (cR := fun e => fR (cr lr e)).
  set (f0B := fun p => bmap (fun _ => BLeaf (AskBoth (fst p) (snd p))) (cB p)).
  set (f0L := fun e => vmap (fun _ => BLeaf (AskLeft (J := K * V) e)) (cL e)). set (f0R := fun e => vmap (fun _ => BLeaf (AskRight (I := K * V) e)) (cR e)).
  assert (HN : forall rdef rd, map_tt rdef rd st (JGeneric (fun e e' => fB (e, e')) false) (TGeneric fL) (TGeneric fR) m r =
    omap (fun p => (fst (fst p), beval rdef rd (fun q => rho (cq ln lr q)) (snd (fst p)), snd p))
      (map_tt BDef BNode st (JGeneric (fun e e' => f0B (e, e')) false) (TGeneric f0L) (TGeneric f0R) m r)).
  { intros rdef rd. transitivity (map_tt rdef rd st (JGeneric (fun e e' => cB (e, e')) false) (TGeneric cL) (TGeneric cR) m r).
    1:{ symmetry. apply (tt_cong rdef rd st JwClosure TwClosure TwClosure fB fL fR cB cL cR m r Hm Hr).
      - intros e e' (H1 & H2 & _). unfold cB. cbn [fst snd]. rewrite (cl_in ln), (cr_in lr); auto.
      - intros e (H1 & _). unfold cL. rewrite (cl_in ln); auto.
      - intros e (H1 & _). unfold cR. rewrite (cr_in lr); auto. }
    apply (map_tt_map (beval rdef rd (fun q => rho (cq ln lr q))) BDef BNode rdef rd st eq_refl (fun _ _ => eq_refl)); [split; [reflexivity|]; intros e e'; apply bmap_back; reflexivity|..]; intros a; apply vmap_back; reflexivity. }
  pose proof (HN rdef0 rd0) as H0. rewrite HX in H0.
  destruct (map_tt BDef BNode st (JGeneric (fun e e' => f0B (e, e')) false) (TGeneric f0L) (TGeneric f0R) m r) as [[[m' t] o]| |] eqn:HT; try discriminate.
  exists m', o, (brelabel (cq ln lr) t). split.
  - rewrite brelabel_leaves. apply canon_leaves; try assumption. intros p. rewrite <- beval_tally.
    pose proof (map_tt_map (beval 0 N.add (ind p)) BDef BNode 0 N.add st eq_refl (fun _ _ => eq_refl)
      (JGeneric (fun e e' => f0B (e, e')) false) (TGeneric f0L) (TGeneric f0R)
      (JGeneric (fun e e' => (fun a => bmap (beval 0 N.add (ind p)) (f0B a)) (e, e')) false) (TGeneric (fun a => vmap (beval 0 N.add (ind p)) (f0L a))) (TGeneric (fun a => vmap (beval 0 N.add (ind p)) (f0R a))) m r
      (conj eq_refl (fun _ _ => eq_refl)) (fun _ => eq_refl) (fun _ => eq_refl)) as HC.
    rewrite HT in HC. cbn [omap fst snd] in HC.
    apply tt_reduction_any in HC; try assumption; try exact add_monoid; try exact N.add_comm.
    + rewrite HC. apply merged_tally; intros; cbn [tcall mcall jcall]; rewrite ?vmap_red, ?kmap_red, ?bmap_red; unfold f0B, f0L, f0R; rewrite ?vmap_red, ?kmap_red, ?bmap_red; reflexivity.
  - intros rdef rd. rewrite HN. cbn [omap fst snd]. rewrite brelabel_eval. reflexivity.
Qed.
End TwoT.

(** * Closed properties *)
Section Lift.
Context {R : Type} (P : R -> Prop).

Definition v_lift {V} (v : vres V R) : P (t_red v) -> vres V {r | P r} :=
  match v with
  | VUnchanged r => fun H => VUnchanged (exist _ r H)
  | VTransformed v r => fun H => VTransformed v (exist _ r H)
  | VDropped r => fun H => VDropped (exist _ r H)
  end.
Definition k_lift {S X} (v : kres S X R) : P (m_red v) -> kres S X {r | P r} :=
  match v with
  | KTransmuted k v r => fun H => KTransmuted k v (exist _ r H)
  | KDropped r => fun H => KDropped (exist _ r H)
  end.
Definition b_lift {V} (v : bres V R) : P (b_red v) -> bres V {r | P r} :=
  match v with
  | BUnchangedLR r => fun H => BUnchangedLR (exist _ r H)
  | BUnchangedL r => fun H => BUnchangedL (exist _ r H)
  | BUnchangedR r => fun H => BUnchangedR (exist _ r H)
  | BTransformed v r => fun H => BTransformed v (exist _ r H)
  | BDropped r => fun H => BDropped (exist _ r H)
  end.
Lemma v_lift_map {V} (v : vres V R) H : v = vmap (@proj1_sig _ P) (v_lift v H).
Proof. destruct v; reflexivity. Qed.
Lemma k_lift_map {S X} (v : kres S X R) H : v = kmap (@proj1_sig _ P) (k_lift v H).
Proof. destruct v; reflexivity. Qed.
Lemma b_lift_map {V} (v : bres V R) H : v = bmap (@proj1_sig _ P) (b_lift v H).
Proof. destruct v; reflexivity. Qed.

Lemma t_lift {A V} (op : transform_op A V R) : t_all P (fun _ => True) op -> exists op', tover (@proj1_sig _ P) op' op.
Proof.
  destruct op as [f|r|r]; cbn; intros H.
  - exists (TGeneric (fun a => v_lift (f a) (H a I))). intros a. apply v_lift_map.
  - exists (TUnchanged (exist _ r H)). reflexivity.
  - exists (TRemoved (exist _ r H)). reflexivity.
Qed.
Lemma m_lift {A S X} (op : transmute_op A S X R) : m_all P (fun _ => True) op -> exists op', mover (@proj1_sig _ P) op' op.
Proof.
  destruct op as [f|r]; cbn; intros H.
  - exists (MGeneric (fun a => k_lift (f a) (H a I))). intros a. apply k_lift_map.
  - exists (MRemoved (exist _ r H)). reflexivity.
Qed.
Lemma j_lift {A V} (op : joint_op A V R) : j_all P (fun _ _ => True) op -> exists op', jover (@proj1_sig _ P) op' op.
Proof.
  destruct op as [f fl|r|r|r|r]; cbn; intros H.
  - destruct H as [-> H]. exists (JGeneric (fun a b => b_lift (f a b) (H a b I)) false). split; [reflexivity|]. intros a b. apply b_lift_map.
  - exists (JUnchangedLR (exist _ r H)). reflexivity.
  - exists (JUnchangedL (exist _ r H)). reflexivity.
  - exists (JUnchangedR (exist _ r H)). reflexivity.
  - exists (JRemoved (exist _ r H)). reflexivity.
Qed.

Lemma beval_closed {A} (rdef : R) rd (f : A -> R) t : P rdef -> (forall a b, P a -> P b -> P (rd a b)) ->
  (forall a, In a (bleaves t) -> P (f a)) -> P (beval rdef rd f t).
Proof.
  intros H0 H1. induction t as [|a|l IHl r IHr]; cbn [beval bleaves]; intros H; [assumption|apply H; left; reflexivity|].
  apply H1; [apply IHl|apply IHr]; intros a Ha; apply H; apply in_or_app; auto.
Qed.
End Lift.

(** ** Restricting closures to the calls *)
Section Restrict.
Context {E : Env} {K V L W T : Type} {KK : Key K} {KL : Key L} (ln : list (K * V)) (lr : list (L * W)) (d : T).
Definition only_both (f : (K * V) * (L * W) -> T) (p : (K * V) * (L * W)) : T :=
  match lookup (ecls (fst p)) ln, lookup (ecls (snd p)) lr with
  | Some e, Some e' => if ceqb (ecls (fst p)) (ecls (snd p)) then f (e, e') else d
  | _, _ => d
  end.
Definition only_left (f : K * V -> T) (e : K * V) : T :=
  match lookup (ecls e) ln, lookup (ecls e) lr with Some e0, None => f e0 | _, _ => d end.
Definition only_right (f : L * W -> T) (e : L * W) : T :=
  match lookup (ecls e) lr, lookup (ecls e) ln with Some e0, None => f e0 | _, _ => d end.

Lemma only_both_is f e e' : uniq ln -> uniq lr -> in_both ln lr e e' -> only_both f (e, e') = f (e, e').
Proof.
  intros Hl Hr (H1 & H2 & H3). unfold only_both. cbn [fst snd].
  rewrite (in_lookup _ _ Hl H1), (in_lookup _ _ Hr H2), H3, ceqb_refl. reflexivity.
Qed.
Lemma only_left_is f e : uniq ln -> in_left ln lr e -> only_left f e = f e.
Proof. intros Hl (H1 & H2). unfold only_left. rewrite (in_lookup _ _ Hl H1), H2. reflexivity. Qed.
Lemma only_right_is f e : uniq lr -> in_right ln lr e -> only_right f e = f e.
Proof. intros Hl (H1 & H2). unfold only_right. rewrite (in_lookup _ _ Hl H1), H2. reflexivity. Qed.
Lemma only_both_all (Q : T -> Prop) f : Q d -> (forall e e', in_both ln lr e e' -> Q (f (e, e'))) -> forall p, Q (only_both f p).
Proof.
  intros Hd H p. unfold only_both. destruct (lookup (ecls (fst p)) ln) as [e|] eqn:H1; [|assumption].
  destruct (lookup (ecls (snd p)) lr) as [e'|] eqn:H2; [|assumption].
  destruct (ceqb_spec (ecls (fst p)) (ecls (snd p))) as [He|]; [|assumption].
  apply lookup_in in H1, H2. destruct H1, H2. apply H. split; [assumption|]. split; [assumption|]. congruence.
Qed.
Lemma only_left_all (Q : T -> Prop) f : Q d -> (forall e, in_left ln lr e -> Q (f e)) -> forall e, Q (only_left f e).
Proof.
  intros Hd H e. unfold only_left. destruct (lookup (ecls e) ln) as [e0|] eqn:H1; [|assumption].
  destruct (lookup (ecls e) lr) eqn:H2; [assumption|]. apply lookup_in in H1. destruct H1 as [H1 H3]. apply H. split; [assumption|]. rewrite H3. assumption.
Qed.
Lemma only_right_all (Q : T -> Prop) f : Q d -> (forall e, in_right ln lr e -> Q (f e)) -> forall e, Q (only_right f e).
Proof.
  intros Hd H e. unfold only_right. destruct (lookup (ecls e) lr) as [e0|] eqn:H1; [|assumption].
  destruct (lookup (ecls e) ln) eqn:H2; [assumption|]. apply lookup_in in H1. destruct H1 as [H1 H3]. apply H. split; [assumption|]. rewrite H3. assumption.
Qed.
End Restrict.

(** ** Operations as ways *)
Section WaysOf.
Context {R : Type} (rdef : R) (P : R -> Prop).
Lemma t_way {A V} (D : A -> Prop) (op : transform_op A V R) : t_all P D op ->
  exists w f, op = tw_fun w f /\ match w with TwClosure => forall a, D a -> P (t_red (f a)) | TwUnchanged r | TwRemoved r => P r end.
Proof.
  destruct op as [f|r|r]; cbn; intros H;
    [exists TwClosure, f|exists (TwUnchanged r), (fun _ => VDropped r)|exists (TwRemoved r), (fun _ => VDropped r)]; auto.
Qed.
Lemma m_way {A S X} (D : A -> Prop) (op : transmute_op A S X R) : m_all P D op ->
  exists w f, op = mw_fun w f /\ match w with MwClosure => forall a, D a -> P (m_red (f a)) | MwRemoved r => P r end.
Proof.
  destruct op as [f|r]; cbn; intros H; [exists MwClosure, f|exists (MwRemoved r), (fun _ => KDropped r)]; auto.
Qed.
Lemma j_way {A V} (D : A -> A -> Prop) (op : joint_op A V R) : j_all P D op ->
  exists w f, op = jw_fun w f /\ match w with JwClosure => forall a b, D a b -> P (b_red (f a b)) | JwUnchangedLR r | JwUnchangedL r | JwUnchangedR r | JwRemoved r => P r end.
Proof.
  destruct op as [f fl|r|r|r|r]; cbn; intros H;
    [destruct H as [-> H]; exists JwClosure, f|exists (JwUnchangedLR r), (fun _ _ => BDropped r)|exists (JwUnchangedL r), (fun _ _ => BDropped r)
    |exists (JwUnchangedR r), (fun _ _ => BDropped r)|exists (JwRemoved r), (fun _ _ => BDropped r)]; auto.
Qed.
End WaysOf.

Section ClosedOne.
Context {E : Env} {K V R : Type} {KK : Key K} (P : R -> Prop) (rdef : R) (rd : R -> R -> R).

Lemma transform_closed st (op : transform_op (K * V) V R) (m : trie K V) m' x o : reachable m ->
  P rdef -> (forall a b, P a -> P b -> P (rd a b)) -> t_all P (fun e => In e (map_visit m)) op ->
  map_transform rdef rd st op m = Ret (m', x, o) -> P x.
Proof.
  intros Hm H0 H1 HA HX. destruct op as [f|r|r]; cbn in HA.
  - destruct (transform_brackets st f m Hm) as (m2 & o2 & t & HL & HT). rewrite HT in HX. injection HX as _ <- _.
    apply beval_closed; try assumption. intros e He. apply HA. rewrite <- HL. assumption.
  - set (rdS := fun a b : {r | P r} => exist P (rd (proj1_sig a) (proj1_sig b)) (H1 _ _ (proj2_sig a) (proj2_sig b))).
    rewrite (map_transform_map (@proj1_sig _ P) (exist P rdef H0) rdS rdef rd st eq_refl (fun _ _ => eq_refl) (TUnchanged (exist P r HA)) (TUnchanged r) m eq_refl) in HX.
    destruct (map_transform _ rdS st _ m) as [[[m2 r2] o2]| |]; try discriminate. cbn in HX. injection HX as _ <- _. apply proj2_sig.
  - set (rdS := fun a b : {r | P r} => exist P (rd (proj1_sig a) (proj1_sig b)) (H1 _ _ (proj2_sig a) (proj2_sig b))).
    rewrite (map_transform_map (@proj1_sig _ P) (exist P rdef H0) rdS rdef rd st eq_refl (fun _ _ => eq_refl) (TRemoved (exist P r HA)) (TRemoved r) m eq_refl) in HX.
    destruct (map_transform _ rdS st _ m) as [[[m2 r2] o2]| |]; try discriminate. cbn in HX. injection HX as _ <- _. apply proj2_sig.
Qed.
Lemma transmute_cong {S X} (w : mway R) (f g : K * V -> kres S X R) (m : trie K V) : reachable m ->
  (forall e, In e (map_visit m) -> g e = f e) -> map_transmute rdef rd (mw_fun w g) m = map_transmute rdef rd (mw_fun w f) m.
Proof.
  intros Hm H. destruct (transmute_execs rdef rd w m f) as (tr & He & Hf).
  assert (HM := transmute_makes rdef rd w m tr _ Hm He). symmetry. refine (transmute_as rdef rd w m tr _ g He _).
  apply Forall_forall. intros e Hi. rewrite Forall_forall in Hf. specialize (Hf e Hi). apply (makes_in _ _ _ _ HM) in Hi.
  unfold agrees in *. rewrite Hf. f_equal. symmetry. destruct w; [apply H; exact Hi|destruct Hi].
Qed.
Lemma transmute_closed {S X} (op : transmute_op (K * V) S X R) (m : trie K V) m' x : reachable m ->
  P rdef -> (forall a b, P a -> P b -> P (rd a b)) -> m_all P (fun e => In e (map_visit m)) op ->
  map_transmute rdef rd op m = Ret (m', x) -> P x.
Proof.
  intros Hm H0 H1 HA HX. assert (Hul := mwf_uniq _ (reachable_mwf _ Hm)).
  apply m_way in HA. destruct HA as (w & f & -> & HA).
  set (g := fun e : K * V => match lookup (ecls e) (map_visit m) with Some e0 => f e0 | None => KDropped rdef end).
  rewrite <- (transmute_cong w f g m Hm) in HX.
  2:{ intros e He. unfold g. rewrite (in_lookup _ _ Hul He). reflexivity. }
  destruct (m_lift P (mw_fun w g)) as [op' Ho].
  { destruct w; cbn; try exact HA. intros e _. unfold g. destruct (lookup (ecls e) (map_visit m)) as [e0|] eqn:Hk; [|exact H0].
    apply HA. apply lookup_in in Hk. apply Hk. }
  set (rdS := fun a b : {r | P r} => exist P (rd (proj1_sig a) (proj1_sig b)) (H1 _ _ (proj2_sig a) (proj2_sig b))).
  rewrite (map_transmute_map (@proj1_sig _ P) (exist P rdef H0) rdS rdef rd eq_refl (fun _ _ => eq_refl) op' _ m Ho) in HX.
  destruct (map_transmute _ rdS op' m) as [[m2 r2]| |]; try discriminate. cbn in HX. injection HX as _ <-. apply proj2_sig.
Qed.
End ClosedOne.

Section ClosedTwo.
Context {E : Env} {K V L W R : Type} {KK : Key K} {KL : Key L} (P : R -> Prop) (rdef : R) (rd : R -> R -> R).

Lemma tm_closed st (both : transform_op ((K * V) * (L * W)) V R) (lop : transform_op (K * V) V R) (rop : transmute_op (L * W) K V R) (m : trie K V) (r : trie L W) m' x o : reachable m -> reachable r ->
  P rdef -> (forall a b, P a -> P b -> P (rd a b)) ->
  t_all P (fun p => in_both (map_visit m) (map_visit r) (fst p) (snd p)) both -> t_all P (in_left (map_visit m) (map_visit r)) lop -> m_all P (in_right (map_visit m) (map_visit r)) rop ->
  map_tm rdef rd st both lop rop m r = Ret (m', x, o) -> P x.
Proof.
  intros Hm Hr H0 H1 HB HL HR HX. assert (Hul := mwf_uniq _ (reachable_mwf _ Hm)). assert (Hur := mwf_uniq _ (reachable_mwf _ Hr)).
  apply t_way in HB. destruct HB as (wb & fB & -> & HB). apply t_way in HL. destruct HL as (wl & fL & -> & HL). apply m_way in HR. destruct HR as (wr & fR & -> & HR).
  set (ln := map_visit m) in *. set (lr := map_visit r) in *.
  set (gB := only_both ln lr (VDropped rdef) fB). set (gL := only_left ln lr (VDropped rdef) fL). set (gR := only_right ln lr (KDropped rdef) fR).
  assert (HC := tm_cong rdef rd st wb wl wr fB fL fR gB gL gR m r Hm Hr). apply (fun H => eq_trans H HX) in HC; clear HX; [rename HC into HX|..].
  2:{ intros e e' H. apply only_both_is; assumption. } 2:{ intros e H. apply only_left_is; assumption. } 2:{ intros e H. apply only_right_is; assumption. }
  destruct (t_lift P (tw_fun wb gB)) as [oB HoB].
  { destruct wb; cbn; try exact HB. intros a _. apply (only_both_all ln lr (VDropped rdef) (fun v => P (t_red v)) fB); [assumption|]. intros; apply HB; assumption. }
  destruct (t_lift P (tw_fun wl gL)) as [oL HoL].
  { destruct wl; cbn; try exact HL. intros a _. apply (only_left_all ln lr (VDropped rdef) (fun v => P (t_red v)) fL); assumption. }
  destruct (m_lift P (mw_fun wr gR)) as [oR HoR].
  { destruct wr; cbn; try exact HR. intros a _. apply (only_right_all ln lr (KDropped rdef) (fun v => P (m_red v)) fR); assumption. }
  set (rdS := fun a b : {r | P r} => exist P (rd (proj1_sig a) (proj1_sig b)) (H1 _ _ (proj2_sig a) (proj2_sig b))).
  rewrite (map_tm_map (@proj1_sig _ P) (exist P rdef H0) rdS rdef rd st eq_refl (fun _ _ => eq_refl) oB oL oR _ _ _ m r HoB HoL HoR) in HX.
  destruct (map_tm _ rdS st oB oL oR m r) as [[[m2 r2] o2]| |]; try discriminate. cbn in HX. injection HX as _ <- _. apply proj2_sig.
Qed.
Lemma mt_closed st (both : transform_op ((K * V) * (L * W)) W R) (lop : transmute_op (K * V) L W R) (rop : transform_op (L * W) W R) (m : trie K V) (r : trie L W) m' x o : reachable m -> reachable r ->
  P rdef -> (forall a b, P a -> P b -> P (rd a b)) ->
  t_all P (fun p => in_both (map_visit m) (map_visit r) (fst p) (snd p)) both -> m_all P (in_left (map_visit m) (map_visit r)) lop -> t_all P (in_right (map_visit m) (map_visit r)) rop ->
  map_mt rdef rd st both lop rop m r = Ret (m', x, o) -> P x.
Proof.
  intros Hm Hr H0 H1 HB HL HR HX. assert (Hul := mwf_uniq _ (reachable_mwf _ Hm)). assert (Hur := mwf_uniq _ (reachable_mwf _ Hr)).
  apply t_way in HB. destruct HB as (wb & fB & -> & HB). apply m_way in HL. destruct HL as (wl & fL & -> & HL). apply t_way in HR. destruct HR as (wr & fR & -> & HR).
  set (ln := map_visit m) in *. set (lr := map_visit r) in *.
  set (gB := only_both ln lr (VDropped rdef) fB). set (gL := only_left ln lr (KDropped rdef) fL). set (gR := only_right ln lr (VDropped rdef) fR).
  assert (HC := mt_cong rdef rd st wb wl wr fB fL fR gB gL gR m r Hm Hr). apply (fun H => eq_trans H HX) in HC; clear HX; [rename HC into HX|..].
  2:{ intros e e' H. apply only_both_is; assumption. } 2:{ intros e H. apply only_left_is; assumption. } 2:{ intros e H. apply only_right_is; assumption. }
  destruct (t_lift P (tw_fun wb gB)) as [oB HoB].
  { destruct wb; cbn; try exact HB. intros a _. apply (only_both_all ln lr (VDropped rdef) (fun v => P (t_red v)) fB); [assumption|]. intros; apply HB; assumption. }
  destruct (m_lift P (mw_fun wl gL)) as [oL HoL].
  { destruct wl; cbn; try exact HL. intros a _. apply (only_left_all ln lr (KDropped rdef) (fun v => P (m_red v)) fL); assumption. }
  destruct (t_lift P (tw_fun wr gR)) as [oR HoR].
  { destruct wr; cbn; try exact HR. intros a _. apply (only_right_all ln lr (VDropped rdef) (fun v => P (t_red v)) fR); assumption. }
  set (rdS := fun a b : {r | P r} => exist P (rd (proj1_sig a) (proj1_sig b)) (H1 _ _ (proj2_sig a) (proj2_sig b))).
  rewrite (map_mt_map (@proj1_sig _ P) (exist P rdef H0) rdS rdef rd st eq_refl (fun _ _ => eq_refl) oB oL oR _ _ _ m r HoB HoL HoR) in HX.
  destruct (map_mt _ rdS st oB oL oR m r) as [[[m2 r2] o2]| |]; try discriminate. cbn in HX. injection HX as _ <- _. apply proj2_sig.
Qed.
Lemma mm_closed {S X} {KS : Key S} (both : transmute_op ((K * V) * (L * W)) S X R) (lop : transmute_op (K * V) S X R) (rop : transmute_op (L * W) S X R) (m : trie K V) (r : trie L W) m' x : reachable m -> reachable r ->
  P rdef -> (forall a b, P a -> P b -> P (rd a b)) ->
  m_all P (fun p => in_both (map_visit m) (map_visit r) (fst p) (snd p)) both -> m_all P (in_left (map_visit m) (map_visit r)) lop -> m_all P (in_right (map_visit m) (map_visit r)) rop ->
  map_mm rdef rd both lop rop m r = Ret (m', x) -> P x.
Proof.
  intros Hm Hr H0 H1 HB HL HR HX. assert (Hul := mwf_uniq _ (reachable_mwf _ Hm)). assert (Hur := mwf_uniq _ (reachable_mwf _ Hr)).
  apply m_way in HB. destruct HB as (wb & fB & -> & HB). apply m_way in HL. destruct HL as (wl & fL & -> & HL). apply m_way in HR. destruct HR as (wr & fR & -> & HR).
  set (ln := map_visit m) in *. set (lr := map_visit r) in *.
  set (gB := only_both ln lr (KDropped rdef) fB). set (gL := only_left ln lr (KDropped rdef) fL). set (gR := only_right ln lr (KDropped rdef) fR).
  assert (HC := mm_cong rdef rd wb wl wr fB fL fR gB gL gR m r Hm Hr). apply (fun H => eq_trans H HX) in HC; clear HX; [rename HC into HX|..].
  2:{ intros e e' H. apply only_both_is; assumption. } 2:{ intros e H. apply only_left_is; assumption. } 2:{ intros e H. apply only_right_is; assumption. }
  destruct (m_lift P (mw_fun wb gB)) as [oB HoB].
  { destruct wb; cbn; try exact HB. intros a _. apply (only_both_all ln lr (KDropped rdef) (fun v => P (m_red v)) fB); [assumption|]. intros; apply HB; assumption. }
  destruct (m_lift P (mw_fun wl gL)) as [oL HoL].
  { destruct wl; cbn; try exact HL. intros a _. apply (only_left_all ln lr (KDropped rdef) (fun v => P (m_red v)) fL); assumption. }
  destruct (m_lift P (mw_fun wr gR)) as [oR HoR].
  { destruct wr; cbn; try exact HR. intros a _. apply (only_right_all ln lr (KDropped rdef) (fun v => P (m_red v)) fR); assumption. }
  set (rdS := fun a b : {r | P r} => exist P (rd (proj1_sig a) (proj1_sig b)) (H1 _ _ (proj2_sig a) (proj2_sig b))).
  rewrite (map_mm_map (@proj1_sig _ P) (exist P rdef H0) rdS rdef rd eq_refl (fun _ _ => eq_refl) oB oL oR _ _ _ m r HoB HoL HoR) in HX.
  destruct (map_mm _ rdS oB oL oR m r) as [[m2 r2]| |]; try discriminate. cbn in HX. injection HX as _ <-. apply proj2_sig.
Qed.
End ClosedTwo.

Section ClosedTwoT.
Context {E : Env} {K V R : Type} {KK : Key K} (P : R -> Prop) (rdef : R) (rd : R -> R -> R).

Lemma tt_closed st (both : joint_op (K * V) V R) (lop : transform_op (K * V) V R) (rop : transform_op (K * V) V R) (m : trie K V) (r : trie K V) m' x o : reachable m -> reachable r ->
  P rdef -> (forall a b, P a -> P b -> P (rd a b)) ->
  j_all P (in_both (map_visit m) (map_visit r)) both -> t_all P (in_left (map_visit m) (map_visit r)) lop -> t_all P (in_right (map_visit m) (map_visit r)) rop ->
  map_tt rdef rd st both lop rop m r = Ret (m', x, o) -> P x.
Proof.
  intros Hm Hr H0 H1 HB HL HR HX. assert (Hul := mwf_uniq _ (reachable_mwf _ Hm)). assert (Hur := mwf_uniq _ (reachable_mwf _ Hr)).
  apply j_way in HB. destruct HB as (wb & fB & -> & HB). apply t_way in HL. destruct HL as (wl & fL & -> & HL). apply t_way in HR. destruct HR as (wr & fR & -> & HR).
  set (ln := map_visit m) in *. set (lr := map_visit r) in *.
  set (gB := only_both ln lr (BDropped rdef) (fun p => fB (fst p) (snd p))). set (gL := only_left ln lr (VDropped rdef) fL). set (gR := only_right ln lr (VDropped rdef) fR).
  assert (HC := tt_cong rdef rd st wb wl wr (fun p => fB (fst p) (snd p)) fL fR gB gL gR m r Hm Hr). apply (fun H => eq_trans H HX) in HC; clear HX; [rename HC into HX|..].
  2:{ intros e e' H. apply only_both_is; assumption. } 2:{ intros e H. apply only_left_is; assumption. } 2:{ intros e H. apply only_right_is; assumption. }
  destruct (j_lift P (jw_fun wb (fun e e' => gB (e, e')))) as [oB HoB].
  { destruct wb; cbn; try exact HB. split; [reflexivity|]. intros a b _. apply (only_both_all ln lr (BDropped rdef) (fun v => P (b_red v)) (fun p => fB (fst p) (snd p))); [assumption|]. intros; apply HB; assumption. }
  destruct (t_lift P (tw_fun wl gL)) as [oL HoL].
  { destruct wl; cbn; try exact HL. intros a _. apply (only_left_all ln lr (VDropped rdef) (fun v => P (t_red v)) fL); assumption. }
  destruct (t_lift P (tw_fun wr gR)) as [oR HoR].
  { destruct wr; cbn; try exact HR. intros a _. apply (only_right_all ln lr (VDropped rdef) (fun v => P (t_red v)) fR); assumption. }
  set (rdS := fun a b : {r | P r} => exist P (rd (proj1_sig a) (proj1_sig b)) (H1 _ _ (proj2_sig a) (proj2_sig b))).
  rewrite (map_tt_map (@proj1_sig _ P) (exist P rdef H0) rdS rdef rd st eq_refl (fun _ _ => eq_refl) oB oL oR _ _ _ m r HoB HoL HoR) in HX.
  destruct (map_tt _ rdS st oB oL oR m r) as [[[m2 r2] o2]| |]; try discriminate. cbn in HX. injection HX as _ <- _. apply proj2_sig.
Qed.
End ClosedTwoT.

(** * Contents *)
Lemma contents_transform : forall (E : Env) K V R R' (rdef : R) rd (rdef' : R') rd' st
    (op : transform_op (K * V) V R) (op' : transform_op (K * V) V R') (op0 : transform_op (K * V) V unit) (m : trie K V),
  tover (fun _ => tt) op op0 -> tover (fun _ => tt) op' op0 ->
  omap (fun p => (fst (fst p), snd p)) (map_transform rdef rd st op m) = omap (fun p => (fst (fst p), snd p)) (map_transform rdef' rd' st op' m).
Proof.
  intros E K V R R' rdef rd rdef' rd' st op op' op0 m Hop Hop'.
  pose proof (eq_trans (eq_sym (map_transform_map (fun _ => tt) rdef rd tt (fun _ _ => tt) st eq_refl (fun _ _ => eq_refl) op op0 m Hop)) (map_transform_map (fun _ => tt) rdef' rd' tt (fun _ _ => tt) st eq_refl (fun _ _ => eq_refl) op' op0 m Hop')) as H.
  destruct (map_transform rdef rd st op m) as [[[m1 r1] o1]| |], (map_transform rdef' rd' st op' m) as [[[m2 r2] o2]| |]; cbn in *; congruence.
Qed.
Lemma contents_transmute : forall (E : Env) K V S X R R' (rdef : R) rd (rdef' : R') rd'
    (op : transmute_op (K * V) S X R) (op' : transmute_op (K * V) S X R') (op0 : transmute_op (K * V) S X unit) (m : trie K V),
  mover (fun _ => tt) op op0 -> mover (fun _ => tt) op' op0 ->
  omap fst (map_transmute rdef rd op m) = omap fst (map_transmute rdef' rd' op' m).
Proof.
  intros E K V S X R R' rdef rd rdef' rd' op op' op0 m Hop Hop'.
  pose proof (eq_trans (eq_sym (map_transmute_map (fun _ => tt) rdef rd tt (fun _ _ => tt) eq_refl (fun _ _ => eq_refl) op op0 m Hop)) (map_transmute_map (fun _ => tt) rdef' rd' tt (fun _ _ => tt) eq_refl (fun _ _ => eq_refl) op' op0 m Hop')) as H.
  destruct (map_transmute rdef rd op m) as [[m1 r1]| |], (map_transmute rdef' rd' op' m) as [[m2 r2]| |]; cbn in *; congruence.
Qed.
Lemma contents_tm : forall (E : Env) K V L W R R' (KK : Key K) (KL : Key L) (rdef : R) rd (rdef' : R') rd' st
    (both : transform_op ((K * V) * (L * W)) V R) (both' : transform_op ((K * V) * (L * W)) V R') (both0 : transform_op ((K * V) * (L * W)) V unit) (lop : transform_op (K * V) V R) (lop' : transform_op (K * V) V R') (lop0 : transform_op (K * V) V unit) (rop : transmute_op (L * W) K V R) (rop' : transmute_op (L * W) K V R') (rop0 : transmute_op (L * W) K V unit) (m : trie K V) (right : trie L W),
  tover (fun _ => tt) both both0 -> tover (fun _ => tt) both' both0 -> tover (fun _ => tt) lop lop0 -> tover (fun _ => tt) lop' lop0 -> mover (fun _ => tt) rop rop0 -> mover (fun _ => tt) rop' rop0 ->
  omap (fun p => (fst (fst p), snd p)) (map_tm rdef rd st both lop rop m right) = omap (fun p => (fst (fst p), snd p)) (map_tm rdef' rd' st both' lop' rop' m right).
Proof.
  intros E K V L W R R' KK KL rdef rd rdef' rd' st both both' both0 lop lop' lop0 rop rop' rop0 m right Hboth Hboth' Hlop Hlop' Hrop Hrop'.
  pose proof (eq_trans (eq_sym (map_tm_map (fun _ => tt) rdef rd tt (fun _ _ => tt) st eq_refl (fun _ _ => eq_refl) both lop rop both0 lop0 rop0 m right Hboth Hlop Hrop)) (map_tm_map (fun _ => tt) rdef' rd' tt (fun _ _ => tt) st eq_refl (fun _ _ => eq_refl) both' lop' rop' both0 lop0 rop0 m right Hboth' Hlop' Hrop')) as H.
  destruct (map_tm rdef rd st both lop rop m right) as [[[m1 r1] o1]| |], (map_tm rdef' rd' st both' lop' rop' m right) as [[[m2 r2] o2]| |]; cbn in *; congruence.
Qed.
Lemma contents_mt : forall (E : Env) K V L W R R' (KK : Key K) (KL : Key L) (rdef : R) rd (rdef' : R') rd' st
    (both : transform_op ((K * V) * (L * W)) W R) (both' : transform_op ((K * V) * (L * W)) W R') (both0 : transform_op ((K * V) * (L * W)) W unit) (lop : transmute_op (K * V) L W R) (lop' : transmute_op (K * V) L W R') (lop0 : transmute_op (K * V) L W unit) (rop : transform_op (L * W) W R) (rop' : transform_op (L * W) W R') (rop0 : transform_op (L * W) W unit) (m : trie K V) (right : trie L W),
  tover (fun _ => tt) both both0 -> tover (fun _ => tt) both' both0 -> mover (fun _ => tt) lop lop0 -> mover (fun _ => tt) lop' lop0 -> tover (fun _ => tt) rop rop0 -> tover (fun _ => tt) rop' rop0 ->
  omap (fun p => (fst (fst p), snd p)) (map_mt rdef rd st both lop rop m right) = omap (fun p => (fst (fst p), snd p)) (map_mt rdef' rd' st both' lop' rop' m right).
Proof.
  intros E K V L W R R' KK KL rdef rd rdef' rd' st both both' both0 lop lop' lop0 rop rop' rop0 m right Hboth Hboth' Hlop Hlop' Hrop Hrop'.
  pose proof (eq_trans (eq_sym (map_mt_map (fun _ => tt) rdef rd tt (fun _ _ => tt) st eq_refl (fun _ _ => eq_refl) both lop rop both0 lop0 rop0 m right Hboth Hlop Hrop)) (map_mt_map (fun _ => tt) rdef' rd' tt (fun _ _ => tt) st eq_refl (fun _ _ => eq_refl) both' lop' rop' both0 lop0 rop0 m right Hboth' Hlop' Hrop')) as H.
  destruct (map_mt rdef rd st both lop rop m right) as [[[m1 r1] o1]| |], (map_mt rdef' rd' st both' lop' rop' m right) as [[[m2 r2] o2]| |]; cbn in *; congruence.
Qed.
Lemma contents_mm : forall (E : Env) K V L W S X R R' (KK : Key K) (KL : Key L) (KS : Key S) (rdef : R) rd (rdef' : R') rd'
    (both : transmute_op ((K * V) * (L * W)) S X R) (both' : transmute_op ((K * V) * (L * W)) S X R') (both0 : transmute_op ((K * V) * (L * W)) S X unit) (lop : transmute_op (K * V) S X R) (lop' : transmute_op (K * V) S X R') (lop0 : transmute_op (K * V) S X unit) (rop : transmute_op (L * W) S X R) (rop' : transmute_op (L * W) S X R') (rop0 : transmute_op (L * W) S X unit) (m : trie K V) (right : trie L W),
  mover (fun _ => tt) both both0 -> mover (fun _ => tt) both' both0 -> mover (fun _ => tt) lop lop0 -> mover (fun _ => tt) lop' lop0 -> mover (fun _ => tt) rop rop0 -> mover (fun _ => tt) rop' rop0 ->
  omap fst (map_mm rdef rd both lop rop m right) = omap fst (map_mm rdef' rd' both' lop' rop' m right).
Proof.
  intros E K V L W S X R R' KK KL KS rdef rd rdef' rd' both both' both0 lop lop' lop0 rop rop' rop0 m right Hboth Hboth' Hlop Hlop' Hrop Hrop'.
  pose proof (eq_trans (eq_sym (map_mm_map (fun _ => tt) rdef rd tt (fun _ _ => tt) eq_refl (fun _ _ => eq_refl) both lop rop both0 lop0 rop0 m right Hboth Hlop Hrop)) (map_mm_map (fun _ => tt) rdef' rd' tt (fun _ _ => tt) eq_refl (fun _ _ => eq_refl) both' lop' rop' both0 lop0 rop0 m right Hboth' Hlop' Hrop')) as H.
  destruct (map_mm rdef rd both lop rop m right) as [[m1 r1]| |], (map_mm rdef' rd' both' lop' rop' m right) as [[m2 r2]| |]; cbn in *; congruence.
Qed.
Lemma contents_tt : forall (E : Env) K V R R' (KK : Key K) (rdef : R) rd (rdef' : R') rd' st
    (both : joint_op (K * V) V R) (both' : joint_op (K * V) V R') (both0 : joint_op (K * V) V unit) (lop : transform_op (K * V) V R) (lop' : transform_op (K * V) V R') (lop0 : transform_op (K * V) V unit) (rop : transform_op (K * V) V R) (rop' : transform_op (K * V) V R') (rop0 : transform_op (K * V) V unit) (m right : trie K V),
  jover (fun _ => tt) both both0 -> jover (fun _ => tt) both' both0 -> tover (fun _ => tt) lop lop0 -> tover (fun _ => tt) lop' lop0 -> tover (fun _ => tt) rop rop0 -> tover (fun _ => tt) rop' rop0 ->
  omap (fun p => (fst (fst p), snd p)) (map_tt rdef rd st both lop rop m right) = omap (fun p => (fst (fst p), snd p)) (map_tt rdef' rd' st both' lop' rop' m right).
Proof.
  intros E K V R R' KK rdef rd rdef' rd' st both both' both0 lop lop' lop0 rop rop' rop0 m right Hboth Hboth' Hlop Hlop' Hrop Hrop'.
  pose proof (eq_trans (eq_sym (map_tt_map (fun _ => tt) rdef rd tt (fun _ _ => tt) st eq_refl (fun _ _ => eq_refl) both lop rop both0 lop0 rop0 m right Hboth Hlop Hrop)) (map_tt_map (fun _ => tt) rdef' rd' tt (fun _ _ => tt) st eq_refl (fun _ _ => eq_refl) both' lop' rop' both0 lop0 rop0 m right Hboth' Hlop' Hrop')) as H.
  destruct (map_tt rdef rd st both lop rop m right) as [[[m1 r1] o1]| |], (map_tt rdef' rd' st both' lop' rop' m right) as [[[m2 r2] o2]| |]; cbn in *; congruence.
Qed.
