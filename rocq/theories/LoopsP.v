(** Loops of single calls give what the bulk operations give. *)
From Coq Require Import NArith Arith List Bool Lia Permutation.
From Verif Require Import Base Words Flag Bia BiaP Node Spec SpecP SpecJ Inv Api ApiP Reach ReachP MapP Trans Transform Joint
  TransMapP JoinP JointMapP JointTMapP SpecLoops Loops.
Import ListNotations.

Section Each.
Context {A B M : Type}.
Lemma each_app (l l' : list A) : forall (a : M) f, each (l ++ l') a f = let* b := each l a f in each l' b f.
Proof.
  induction l as [|x l IH]; intros a f; cbn [each app]; [reflexivity|].
  destruct (f a x) as [b| |]; cbn [bind]; [apply IH|reflexivity..].
Qed.
Lemma each_ext (l : list A) : forall (a : M) f g, (forall a x, In x l -> f a x = g a x) -> each l a f = each l a g.
Proof.
  induction l as [|x l IH]; intros a f g H; cbn [each]; [reflexivity|].
  rewrite (H a x) by (left; reflexivity). destruct (g a x) as [b| |]; cbn [bind]; [|reflexivity..].
  apply IH. intros c y Hy. apply H. right. exact Hy.
Qed.
Lemma each_map (g : A -> B) (l : list A) : forall (a : M) f, each (map g l) a f = each l a (fun b x => f b (g x)).
Proof.
  induction l as [|x l IH]; intros a f; cbn [each map]; [reflexivity|].
  destruct (f a (g x)) as [b| |]; cbn [bind]; [apply IH|reflexivity..].
Qed.
Lemma each_filter (p : A -> bool) (l : list A) : forall (a : M) f,
  each (filter p l) a f = each l a (fun b x => if p x then f b x else Ret b).
Proof.
  induction l as [|x l IH]; intros a f; cbn [each filter]; [reflexivity|].
  destruct (p x); cbn [each bind]; [|apply IH]. destruct (f a x) as [b| |]; cbn [bind]; [apply IH|reflexivity..].
Qed.
End Each.

Section Put.
Context {E : Env} {S X : Type} {KS : Key S}.

Definition puts (l : list (S * X)) (a : trie S X) : outcome (trie S X) := each l a (fun a x => put a (Some x)).

Lemma each_put {A} (g : A -> option (S * X)) (l : list A) : forall a, each l a (fun a x => put a (g x)) = puts (flat_map (fun x => opt (g x)) l) a.
Proof.
  induction l as [|x l IH]; intros a; cbn [each flat_map]; [reflexivity|].
  destruct (g x) as [y|]; cbn [opt app].
  - unfold puts. cbn [each]. destruct (put a (Some y)) as [b| |]; cbn [bind]; [apply IH|reflexivity..].
  - cbn [put bind]. apply IH.
Qed.

(** The outcome of a loop, as entries.  The panic is the depth check of debug
    builds. *)
Definition gives (o : outcome (trie S X)) (l : list (S * X)) : Prop :=
  (o = Panic /\ checked = true) \/ exists a, o = Ret a /\ reachable a /\ Permutation (map_visit a) l.

Lemma put_ok (a : trie S X) k v : reachable a -> lookup (cls k) (map_visit a) = None ->
  gives (put a (Some (k, v))) ((k, v) :: map_visit a).
Proof.
  intros HR HL. pose proof (reachable_mwf _ HR) as HW. cbn [put].
  destruct (insert_total_iff (fun k : S => k) a k v false HR eq_refl) as [(H & Hc & _)|[[r H] _]]; rewrite H; cbn [bind].
  { left. auto. }
  right. destruct (insert_inv (fun k : S => k) a k v false r HW eq_refl H) as [(e & _ & HL' & _)|(a' & -> & _ & HP & _)]; [congruence|].
  cbn [unwrap_ok bind fst]. exists a'. split; [reflexivity|]. split.
  - eapply (reach_insert S X KS S KS); [exact HR| |exact H]; reflexivity.
  - rewrite without_id in HP by assumption. exact HP.
Qed.

Lemma puts_ok l : forall a, reachable a -> uniq (l ++ map_visit a) -> gives (puts l a) (l ++ map_visit a).
Proof.
  induction l as [|[k v] l IH]; intros a HR HU.
  - right. exists a. auto.
  - cbn [app] in HU. apply uniq_cons in HU. destruct HU as [HL HU]. rewrite lookup_app in HL. change (ecls (k, v)) with (cls k) in HL.
    destruct (lookup (cls k) l) eqn:Hl; [discriminate|].
    unfold puts. cbn [each]. destruct (put_ok a k v HR HL) as [[H Hc]|(a' & H & HR' & HP)]; rewrite H; cbn [bind]; [left; auto|].
    assert (HP1 : Permutation (l ++ map_visit a') ((k, v) :: l ++ map_visit a)).
    { rewrite HP. symmetry. apply Permutation_middle. }
    destruct (IH a' HR') as [[H1 Hc]|(a2 & H1 & HR2 & HP2)].
    + eapply uniq_perm; [symmetry; exact HP1|]. apply uniq_cons. split; [|assumption]. rewrite lookup_app.
      change (ecls (k, v)) with (cls k). rewrite Hl. exact HL.
    + left. auto.
    + right. exists a2. split; [exact H1|]. split; [assumption|]. rewrite HP2. exact HP1.
Qed.

Lemma puts_new l : uniq l -> gives (puts l map_new) l.
Proof.
  intros HU. pose proof (puts_ok l map_new (reach_new S X KS)) as H. change (map_visit map_new) with (@nil (S * X)) in H.
  rewrite app_nil_r in H. auto.
Qed.

Lemma gives_bind o l f l' : gives o l -> (forall a, reachable a -> Permutation (map_visit a) l -> gives (f a) l') -> gives (bind o f) l'.
Proof.
  intros [[-> Hc]|(a & -> & HR & HP)] Hf; cbn [bind]; [left; auto|]. apply Hf; assumption.
Qed.
Lemma gives_perm o l l' : Permutation l l' -> gives o l -> gives o l'.
Proof.
  intros HP [H|(a & H & HR & HP')]; [left; assumption|]. right. exists a. rewrite <- HP. auto.
Qed.

Lemma gives_agrees o m' : reachable m' -> gives o (map_visit m') -> agrees o m'.
Proof.
  intros HR [H|(a & H & HRa & HP)]; [left; assumption|]. right. exists a. split; [assumption|]. split; [assumption|].
  apply same_perm; [apply reachable_mwf; assumption..|assumption].
Qed.
End Put.

Section Merge.
Context {E : Env} {K V L W S X : Type} {KK : Key K} {KL : Key L} {KS : Key S}.
Context (m : trie K V) (right : trie L W) (HR : reachable m) (HRr : reachable right).

Lemma loop_right_ok fR (a : trie S X) : loop_right fR m right a =
  puts (flat_map (fun e' => opt (fR e')) (filter (unmatched (map_visit m)) (map_visit right))) a.
Proof.
  rewrite <- each_put. rewrite each_filter. unfold loop_right. apply each_ext. intros b e' He'.
  rewrite (map_find_ok m (fst e') (reachable_mwf _ HR)). cbn [bind]. unfold unmatched, ecls.
  destruct (lookup (cls (fst e')) (map_visit m)); reflexivity.
Qed.

Lemma loop_merge_puts fB fL fR : loop_merge (S := S) (X := X) fB fL fR m right = puts (merged_entries fB fL fR (map_visit m) (map_visit right)) map_new.
Proof.
  unfold loop_merge, merged_entries, merge, puts. rewrite each_app.
  rewrite (each_ext _ _ _ (fun a e => put a (match lookup (ecls e) (map_visit right) with Some e' => fB e e' | None => fL e end))).
  - rewrite each_put. unfold puts.
    rewrite (flat_map_ext _ (fun e => match lookup (ecls e) (map_visit right) with Some e' => opt (fB e e') | None => opt (fL e) end)).
    2:{ intros e. destruct (lookup (ecls e) (map_visit right)); reflexivity. }
    destruct (each _ _ _) as [b| |]; cbn [bind]; [|reflexivity..]. apply loop_right_ok.
  - intros b e He. rewrite (map_find_ok right (fst e) (reachable_mwf _ HRr)). cbn [bind]. unfold ecls.
    destruct (lookup (cls (fst e)) (map_visit right)); reflexivity.
Qed.

Lemma loop_merge_ok fB fL fR m' : is_merge (S := S) (X := X) fB fL fR m right m' -> agrees (loop_merge fB fL fR m right) m'.
Proof.
  intros HM. rewrite loop_merge_puts. apply gives_agrees; [apply HM|]. eapply gives_perm; [symmetry; apply HM|].
  apply puts_new. eapply uniq_perm; [apply HM|]. apply mwf_uniq, reachable_mwf, HM.
Qed.

Lemma loop_map_ok (f : K * V -> option (S * X)) m' : reachable m' -> map_visit m' = flat_map (fun e => opt (f e)) (map_visit m) ->
  agrees (loop_map f m) m'.
Proof.
  intros HR' HV. unfold loop_map. rewrite each_put, <- HV. apply gives_agrees; [assumption|]. apply puts_new, mwf_uniq, reachable_mwf, HR'.
Qed.
End Merge.

Section Change.
Context {E : Env} {K V L W : Type} {KK : Key K} {KL : Key L}.

Definition kept (f : K * V -> option V) (e : K * V) : list (K * V) := match f e with Some v => [(fst e, v)] | None => [] end.

Lemma change_ok (a : trie K V) e o l : reachable a -> Permutation (map_visit a) (e :: l) ->
  gives (change a e o) (match o with Some v => (fst e, v) :: l | None => l end).
Proof.
  intros HR HP. pose proof (reachable_mwf _ HR) as HW. pose proof (mwf_uniq _ HW) as HU.
  assert (Hl : lookup (cls (fst e)) (map_visit a) = Some e).
  { rewrite (lookup_perm _ _ _ HU HP), lookup_cons. unfold ecls. rewrite ceqb_refl. reflexivity. }
  assert (Hw : Permutation (without (cls (fst e)) (map_visit a)) l).
  { rewrite (without_perm _ _ _ HP), without_cons. unfold ecls at 1. rewrite ceqb_refl.
    apply (uniq_perm _ _ HP), uniq_cons in HU. rewrite without_id by apply HU. reflexivity. }
  destruct o as [v|]; cbn [change].
  - destruct (insert_total_iff (fun k : K => k) a (fst e) v true HR eq_refl) as [(H & Hc & _)|[[r H] _]]; rewrite H; cbn [bind].
    { left. auto. }
    right. destruct (insert_inv (fun k : K => k) a (fst e) v true r HW eq_refl H) as [(e' & H1 & _)|(a' & -> & _ & HP' & _)]; [discriminate|].
    cbn [unwrap_ok bind fst]. exists a'. split; [reflexivity|]. split.
    + eapply (reach_insert K V KK K KK); [exact HR| |exact H]; reflexivity.
    + rewrite HP'. constructor. exact Hw.
  - destruct (remove_total_iff a (fst e) HR) as [(H & Hc & _)|[[r H] _]]; rewrite H; cbn [bind].
    { left. auto. }
    right. destruct (remove_inv a (fst e) r HW H) as [(H1 & _)|(a' & e' & _ & -> & _ & HP')]; [congruence|].
    cbn [unwrap_ok bind fst]. exists a'. split; [reflexivity|]. split.
    + eapply (reach_remove K V KK K KK); eassumption.
    + rewrite HP'. exact Hw.
Qed.

Lemma changes_ok (f : K * V -> option V) l : forall (a : trie K V) p, reachable a -> Permutation (map_visit a) (p ++ l) ->
  gives (each l a (fun a e => change a e (f e))) (p ++ flat_map (kept f) l).
Proof.
  induction l as [|e l IH]; intros a p HR HP; cbn [each flat_map].
  - right. exists a. auto.
  - apply (gives_bind _ (p ++ kept f e ++ l)).
    + eapply gives_perm; [|apply (change_ok a e (f e) (p ++ l) HR)].
      * unfold kept. destruct (f e); cbn [app]; [apply Permutation_middle|reflexivity].
      * rewrite HP. symmetry. apply Permutation_middle.
    + intros b HRb HPb. rewrite app_assoc in HPb |- *. apply IH; assumption.
Qed.

Theorem loop_change_ok f (m : trie K V) m' : reachable m -> reachable m' -> map_visit m' = flat_map (kept f) (map_visit m) ->
  agrees (loop_change f m) m'.
Proof.
  intros HR HR' HV. apply gives_agrees; [assumption|]. rewrite HV. apply (changes_ok f (map_visit m) m [] HR). reflexivity.
Qed.

Theorem loop_absorb_ok fB fL fR (m : trie K V) (right : trie L W) m' : reachable m -> reachable right ->
  is_merge (fun e e' => option_map (pair (fst e)) (fB e e')) (fun e => option_map (pair (fst e)) (fL e)) fR m right m' ->
  agrees (loop_absorb fB fL fR m right) m'.
Proof.
  intros HR HRr HM. unfold loop_absorb.
  rewrite (each_ext _ _ _ (fun a e => change a e (match lookup (ecls e) (map_visit right) with Some e' => fB e e' | None => fL e end))).
  2:{ intros b e He. rewrite (map_find_ok right (fst e) (reachable_mwf _ HRr)). cbn [bind]. unfold ecls.
      destruct (lookup (cls (fst e)) (map_visit right)); reflexivity. }
  apply gives_agrees; [apply HM|]. eapply gives_perm; [symmetry; apply HM|].
  assert (HU : uniq (merged_entries (fun e e' => option_map (pair (fst e)) (fB e e')) (fun e => option_map (pair (fst e)) (fL e)) fR
    (map_visit m) (map_visit right))).
  { eapply uniq_perm; [apply HM|]. apply mwf_uniq, reachable_mwf, HM. }
  unfold merged_entries, merge in *.
  rewrite (flat_map_ext _ (kept (fun e => match lookup (ecls e) (map_visit right) with Some e' => fB e e' | None => fL e end))) in HU |- *;
    [..|intros e; unfold kept; destruct (lookup (ecls e) (map_visit right)) as [e'|]; [destruct (fB e e')|destruct (fL e)]; reflexivity
       |intros e; unfold kept; destruct (lookup (ecls e) (map_visit right)) as [e'|]; [destruct (fB e e')|destruct (fL e)]; reflexivity].
  eapply gives_bind; [apply (changes_ok _ (map_visit m) m [] HR); reflexivity|]. cbn [app].
  intros a HRa HPa. rewrite (loop_right_ok m right HR).
  eapply gives_perm; [|apply puts_ok; [exact HRa|]].
  - rewrite HPa. apply Permutation_app_comm.
  - eapply uniq_perm; [|exact HU]. rewrite HPa. apply Permutation_app_comm.
Qed.
End Change.
