(** Reference counts, one atomic operation at a time: the invariant. *)
From Coq Require Import NArith Arith List Bool Permutation Lia.
From Verif Require Import Base Bia Node Api Versions Heap SpecH HeapP Rc RcP Arcs.
Import ListNotations.
Open Scope nat_scope.

Lemma occ_perm l l' a : Permutation l l' -> occ l a = occ l' a.
Proof. intros H. apply (proj1 (Permutation_count_occ Nat.eq_dec l l') H). Qed.

Section ArcsP.
Context {E : Env} {K V : Type} {KK : Key K}.
Notation heap := (heap K V).
Notation state := (arcs_state K V).
Implicit Types (h : heap) (cnt : counts) (s : state) (fs : list (addr * list addr)).

Definition left_in fs : list addr := concat (map snd fs).

Lemma arcs_to_owed h cnt own fs a : arcs_to (ArcsState h cnt own fs) a = occ own a + owed h cnt a + occ (left_in fs) a.
Proof.
  unfold arcs_to, owed, left_in. cbn [mem cnts Arcs.own dying]. f_equal. f_equal. f_equal. apply map_ext. intros b. unfold refs_at.
  destruct (cnt b), (nth_error h b); reflexivity.
Qed.

Record good (h : heap) (cnt : counts) (own : list addr) (fs : list (addr * list addr)) : Prop := Good {
  g_sum : forall a, cnt a = occ own a + owed h cnt a + occ (left_in fs) a;
  g_len : forall a, cnt a <> 0 \/ In a (map fst fs) -> a < length h;
  g_nodup : NoDup (map fst fs);
  g_zero : forall a, In a (map fst fs) -> cnt a = 0;
  g_rank : exists rank : addr -> nat, forall b c r, cnt b <> 0 -> nth_error h b = Some c -> In r (refs c) -> rank r < rank b
}.

Lemma set_same cnt a n : set_count cnt a n a = n.
Proof. unfold set_count. rewrite Nat.eqb_refl. reflexivity. Qed.
Lemma set_other cnt a n b : b <> a -> set_count cnt a n b = cnt b.
Proof. intros H. unfold set_count. destruct (Nat.eqb_spec b a); [congruence|reflexivity]. Qed.
Lemma set_le cnt a n b : n <= cnt a -> set_count cnt a n b <= cnt b.
Proof. intros H. destruct (Nat.eq_dec b a) as [->|Hne]; [rewrite set_same; exact H|rewrite set_other by exact Hne; lia]. Qed.

Lemma left_in_app f1 f2 : left_in (f1 ++ f2) = left_in f1 ++ left_in f2.
Proof. unfold left_in. rewrite map_app, concat_app. reflexivity. Qed.
Lemma left_in_mid f1 b l f2 a : occ (left_in (f1 ++ (b, l) :: f2)) a = occ l a + occ (left_in (f1 ++ f2)) a.
Proof.
  rewrite !left_in_app. unfold left_in at 2. cbn [map snd concat]. change (concat (map snd f2)) with (left_in f2). rewrite !occ_app. lia.
Qed.

(** References in cells depend on the cells in use only. *)
Lemma owed_grow h h' cnt a : length h <= length h' -> (forall b, cnt b <> 0 -> b < length h) ->
  (forall b, cnt b <> 0 -> nth_error h' b = nth_error h b) -> owed h' cnt a = owed h cnt a.
Proof.
  intros Hl Hb Hn. transitivity (owed (firstn (length h) h') cnt a).
  - apply owed_ext; [exists (skipn (length h) h'); symmetry; apply firstn_skipn|].
    intros b Hc. rewrite firstn_length_le by exact Hl. apply Hb, Hc.
  - apply owed_agree; [apply firstn_length_le, Hl|]. intros b Hc. rewrite <- (Hn b Hc).
    rewrite <- (firstn_skipn (length h) h') at 2. rewrite nth_error_app1; [reflexivity|].
    rewrite firstn_length_le by exact Hl. apply Hb, Hc.
Qed.

Lemma owed_same h cnt cnt' a : (forall b, cnt b = cnt' b) -> owed h cnt a = owed h cnt' a.
Proof. intros H. unfold owed. apply sum_same. intros b _. rewrite H. reflexivity. Qed.

Lemma put_length a c h : a <= length h -> length (put a c h) = Nat.max (S a) (length h).
Proof. intros H. unfold put. rewrite app_length, firstn_length_le by exact H. cbn [length]. rewrite skipn_length. lia. Qed.
Lemma put_at a c h : a <= length h -> nth_error (put a c h) a = Some c.
Proof.
  intros H. unfold put. rewrite nth_error_app2; rewrite firstn_length_le by exact H; [|lia]. rewrite Nat.sub_diag. reflexivity.
Qed.
Lemma put_other a c h b : a <= length h -> b <> a -> b < length h -> nth_error (put a c h) b = nth_error h b.
Proof.
  intros H Hne Hb. unfold put. destruct (Nat.lt_ge_cases b a) as [Hlt|Hge].
  - rewrite nth_error_app1 by (rewrite firstn_length_le by exact H; exact Hlt).
    rewrite <- (firstn_skipn a h) at 2. rewrite nth_error_app1; [reflexivity|]. rewrite firstn_length_le by exact H. exact Hlt.
  - rewrite nth_error_app2; rewrite firstn_length_le by exact H; [|lia].
    replace (b - a) with (S (b - S a)) by lia. cbn [nth_error].
    rewrite <- (firstn_skipn (S a) h) at 2. rewrite nth_error_app2; rewrite firstn_length_le by lia; [reflexivity|lia].
Qed.

Lemma list_max_in l x : In x l -> x <= list_max l.
Proof. intros H. pose proof (proj1 (list_max_le l (list_max l)) (le_n _)) as HF. exact (proj1 (Forall_forall _ _) HF x H). Qed.

Lemma good_start : good [] (fun _ => 0) [] [].
Proof.
  split; cbn.
  - intros a. reflexivity.
  - intros a [H|[]]. congruence.
  - constructor.
  - intros a [].
  - exists (fun _ => 0). intros b c r H. congruence.
Qed.

Lemma good_order h cnt own fs cnt' own' : good h cnt own fs -> Permutation own own' -> (forall a, cnt a = cnt' a) -> good h cnt' own' fs.
Proof.
  intros [G1 G2 G3 G4 (rank & G5)] HP Hc. split.
  - intros a. rewrite <- Hc, G1, <- (occ_perm _ _ a HP), (owed_same h cnt cnt' a Hc). reflexivity.
  - intros a. rewrite <- Hc. apply G2.
  - exact G3.
  - intros a Ha. rewrite <- Hc. apply G4, Ha.
  - exists rank. intros b c r. rewrite <- Hc. apply G5.
Qed.

Lemma good_junk h cnt own fs h' : good h cnt own fs -> length h <= length h' ->
  (forall a, cnt a <> 0 -> nth_error h' a = nth_error h a) -> good h' cnt own fs.
Proof.
  intros [G1 G2 G3 G4 (rank & G5)] Hl Hn. split; [| |exact G3|exact G4|].
  - intros a. rewrite (owed_grow h h' cnt a Hl); [apply G1| |exact Hn]. intros b Hb. apply G2. left. exact Hb.
  - intros a Ha. specialize (G2 a Ha). lia.
  - exists rank. intros b c r Hb Hc. rewrite Hn in Hc by exact Hb. apply G5; assumption.
Qed.

Lemma good_new h cnt own fs own' c a : good h cnt own fs -> Permutation own (refs c ++ own') ->
  cnt a = 0 -> ~ In a (map fst fs) -> a <= length h -> good (put a c h) (set_count cnt a 1) (a :: own') fs.
Proof.
  intros [G1 G2 G3 G4 (rank & G5)] HP H0 Hf Ha.
  assert (Hn : forall b, cnt b <> 0 -> nth_error (put a c h) b = nth_error h b).
  { intros b Hb. apply put_other; [exact Ha| |apply G2; left; exact Hb]. congruence. }
  assert (Hl : a < length (put a c h)) by (rewrite put_length by exact Ha; lia).
  assert (Hr : refs_at (put a c h) a = refs c) by (unfold refs_at; rewrite put_at by exact Ha; reflexivity).
  assert (Ho : forall x, owed (put a c h) (set_count cnt a 1) x = owed h cnt x + occ (refs c) x).
  { intros x. pose proof (owed_set (put a c h) cnt a 1 x Hl) as H. rewrite H0, Hr in H.
    rewrite (owed_grow h (put a c h) cnt x) in H; [lia| | |exact Hn].
    - rewrite put_length by exact Ha. lia.
    - intros b Hb. apply G2. left. exact Hb. }
  split.
  - intros x. rewrite Ho, occ_cons. pose proof (G1 x) as H. rewrite (occ_perm _ _ x HP), occ_app in H.
    destruct (Nat.eq_dec a x) as [->|Hne]; [rewrite set_same|rewrite set_other by congruence]; lia.
  - intros x Hx. rewrite put_length by exact Ha. destruct (Nat.eq_dec x a) as [->|Hne]; [lia|]. rewrite set_other in Hx by exact Hne.
    specialize (G2 x Hx). lia.
  - exact G3.
  - intros x Hx. rewrite set_other; [apply G4, Hx|]. intros ->. contradiction.
  - exists (fun x => if Nat.eqb x a then S (list_max (map rank (refs c))) else rank x).
    assert (Hna : forall b c0, cnt b <> 0 -> nth_error h b = Some c0 -> ~ In a (refs c0)).
    { intros b c0 Hb Hc Hin. pose proof (owed_pos _ _ _ _ _ Hc Hb Hin). pose proof (G1 a). lia. }
    assert (Hnc : ~ In a (refs c)).
    { intros Hin. pose proof (G1 a) as H. rewrite (occ_perm _ _ a HP), occ_app in H. apply occ_in in Hin. lia. }
    intros b c0 r Hb Hc Hin. destruct (Nat.eq_dec b a) as [->|Hne].
    + rewrite Nat.eqb_refl. rewrite put_at in Hc by exact Ha. injection Hc as ->.
      destruct (Nat.eqb_spec r a) as [->|_]; [contradiction|].
      assert (rank r <= list_max (map rank (refs c0))) by (apply list_max_in, in_map, Hin). lia.
    + rewrite set_other in Hb by exact Hne. rewrite Hn in Hc by exact Hb.
      destruct (Nat.eqb_spec b a) as [|_]; [congruence|]. destruct (Nat.eqb_spec r a) as [->|_].
      * exfalso. exact (Hna _ _ Hb Hc Hin).
      * apply (G5 b c0 r); assumption.
Qed.

Lemma good_alive h cnt own fs r a : good h cnt own fs -> reach h r a -> cnt r <> 0 -> cnt a <> 0.
Proof.
  intros G Hr. induction Hr as [|a c b x Hc Hb Hr IH]; [tauto|]. intros Ha. apply IH.
  pose proof (g_sum _ _ _ _ G b). pose proof (owed_pos _ _ _ _ _ Hc Ha Hb). lia.
Qed.
Lemma good_held h cnt own fs r a : good h cnt own fs -> In r own -> reach h r a -> cnt a <> 0.
Proof.
  intros G Hi Hr. eapply good_alive; [exact G|exact Hr|]. rewrite (g_sum _ _ _ _ G r). apply occ_in in Hi. lia.
Qed.
Lemma good_cell h cnt own fs a : good h cnt own fs -> cnt a <> 0 -> exists c, nth_error h a = Some c.
Proof.
  intros G Ha. pose proof (g_len _ _ _ _ G a (or_introl Ha)) as Hl. destruct (nth_error h a) as [c|] eqn:Hc; [exists c; reflexivity|].
  apply nth_error_None in Hc. lia.
Qed.

Lemma good_clone h cnt own fs r a : good h cnt own fs -> In r own -> reach h r a -> good h (set_count cnt a (S (cnt a))) (a :: own) fs.
Proof.
  intros G Hi Hr. pose proof (good_held _ _ _ _ _ _ G Hi Hr) as Ha. destruct G as [G1 G2 G3 G4 (rank & G5)].
  assert (Hlt : a < length h) by (apply G2; left; exact Ha). split.
  - intros x. pose proof (owed_set h cnt a (S (cnt a)) x Hlt) as Ho. rewrite occ_cons. pose proof (G1 x).
    destruct (cnt a) as [|n] eqn:Hn; [congruence|]. destruct (Nat.eq_dec a x) as [->|Hne]; [rewrite set_same|rewrite set_other by congruence]; lia.
  - intros x Hx. apply G2. destruct (Nat.eq_dec x a) as [->|Hne]; [left; exact Ha|]. rewrite set_other in Hx by exact Hne. exact Hx.
  - exact G3.
  - intros x Hx. rewrite set_other; [apply G4, Hx|]. intros ->. apply Ha, G4, Hx.
  - exists rank. intros b c r0 Hb. apply G5. destruct (Nat.eq_dec b a) as [->|Hne]; [exact Ha|]. rewrite set_other in Hb by exact Hne. exact Hb.
Qed.

(** One [Arc] less, wherever it was. *)
Definition owes h cnt (out : list addr) fs (a : addr) : Prop :=
  (forall x, cnt x = occ (a :: out) x + owed h cnt x + occ (left_in fs) x) /\
  (forall x, cnt x <> 0 \/ In x (map fst fs) -> x < length h) /\ NoDup (map fst fs) /\ (forall x, In x (map fst fs) -> cnt x = 0) /\
  exists rank : addr -> nat, forall b c r, cnt b <> 0 -> nth_error h b = Some c -> In r (refs c) -> rank r < rank b.

Lemma owes_good h cnt out fs a cnt' fs' : owes h cnt out fs a -> decrement h cnt fs a cnt' fs' -> good h cnt' out fs'.
Proof.
  intros (G1 & G2 & G3 & G4 & (rank & G5)) Hd.
  assert (Ha : cnt a <> 0) by (destruct Hd; congruence).
  assert (Hlt : a < length h) by (apply G2; left; exact Ha).
  assert (Hle : forall n b, n <= cnt a -> set_count cnt a n b <> 0 -> cnt b <> 0).
  { intros n b Hn Hb. pose proof (set_le cnt a n b Hn). lia. }
  destruct Hd as [n Hn|c Hn Hc].
  - split.
    + intros x. pose proof (owed_set h cnt a (S n) x Hlt) as Ho. rewrite Hn in Ho. pose proof (G1 x) as H. rewrite occ_cons in H.
      destruct (Nat.eq_dec a x) as [->|Hne]; [rewrite set_same|rewrite set_other by congruence]; lia.
    + intros x [Hx|Hx]; apply G2; [left; eapply Hle; [|exact Hx]; lia|right; exact Hx].
    + exact G3.
    + intros x Hx. specialize (G4 x Hx). pose proof (set_le cnt a (S n) x ltac:(lia)). lia.
    + exists rank. intros b c r Hb. apply G5. eapply Hle; [|exact Hb]. lia.
  - assert (Hr : refs_at h a = refs c) by (unfold refs_at; rewrite Hc; reflexivity). split.
    + intros x. pose proof (owed_set h cnt a 0 x Hlt) as Ho. rewrite Hn, Hr in Ho. pose proof (G1 x) as H. rewrite occ_cons in H.
      change (left_in ((a, refs c) :: fs)) with (refs c ++ left_in fs). rewrite occ_app.
      destruct (Nat.eq_dec a x) as [->|Hne]; [rewrite set_same|rewrite set_other by congruence]; lia.
    + intros x [Hx|Hx]; [apply G2; left; eapply Hle; [|exact Hx]; lia|]. cbn [map fst In] in Hx. destruct Hx as [<-|Hx]; [exact Hlt|]. apply G2. right. exact Hx.
    + cbn [map fst]. constructor; [|exact G3]. intros Hx. apply Ha, G4, Hx.
    + intros x [<-|Hx]; [apply set_same|]. cbn [fst]. specialize (G4 x Hx). pose proof (set_le cnt a 0 x ltac:(lia)). lia.
    + exists rank. intros b c0 r Hb. apply G5. eapply Hle; [|exact Hb]. lia.
Qed.

Lemma owes_can h cnt out fs a : owes h cnt out fs a -> exists cnt' fs', decrement h cnt fs a cnt' fs'.
Proof.
  intros (G1 & G2 & _). pose proof (G1 a) as H. rewrite occ_cons in H. destruct (Nat.eq_dec a a) as [_|]; [|congruence].
  destruct (cnt a) as [|[|n]] eqn:Hn; [lia| |].
  - destruct (nth_error h a) as [c|] eqn:Hc; [do 2 eexists; eapply de_last; eassumption|]. apply nth_error_None in Hc.
    assert (Hne : cnt a <> 0) by (rewrite Hn; discriminate). specialize (G2 a (or_introl Hne)). lia.
  - do 2 eexists. eapply de_more. exact Hn.
Qed.

Lemma good_owes_own h cnt own fs a : good h cnt (a :: own) fs -> owes h cnt own fs a.
Proof. intros [G1 G2 G3 G4 G5]. split; [exact G1|]. auto. Qed.

Lemma mid_fst (f1 : list (addr * list addr)) b l l' f2 : map fst (f1 ++ (b, l) :: f2) = map fst (f1 ++ (b, l') :: f2).
Proof. rewrite !map_app. reflexivity. Qed.

Lemma good_owes_field h cnt own f1 b r rest f2 : good h cnt own (f1 ++ (b, r :: rest) :: f2) -> owes h cnt own (f1 ++ (b, rest) :: f2) r.
Proof.
  intros [G1 G2 G3 G4 G5]. rewrite (mid_fst _ _ _ rest) in G2, G3, G4. split; [|auto]. intros x. pose proof (G1 x) as H. rewrite left_in_mid, occ_cons in H.
  rewrite left_in_mid, occ_cons. lia.
Qed.

Lemma good_free h cnt own f1 b f2 : good h cnt own (f1 ++ (b, []) :: f2) -> good h cnt own (f1 ++ f2).
Proof.
  intros [G1 G2 G3 G4 G5].
  assert (Hin : forall x, In x (map fst (f1 ++ f2)) -> In x (map fst (f1 ++ (b, []) :: f2))).
  { intros x. rewrite !map_app, !in_app_iff. cbn [map In]. tauto. }
  split; [| | | |exact G5].
  - intros x. rewrite (G1 x), left_in_mid. reflexivity.
  - intros x [Hx|Hx]; apply G2; [left|right; apply Hin]; exact Hx.
  - rewrite map_app in *. cbn [map fst] in G3. apply NoDup_remove_1 in G3. exact G3.
  - intros x Hx. apply G4, Hin, Hx.
Qed.

Definition fine s : Prop := good (mem s) (cnts s) (own s) (dying s).

Lemma destroy_fine s es s' : fine s -> destroy s es s' -> fine s'.
Proof.
  intros G Hd. destruct Hd as [h cnt own f1 b r rest f2 cnt' fs Hd|h cnt own f1 b f2]; unfold fine in *; cbn [mem cnts Arcs.own dying] in *.
  - eapply owes_good; [|exact Hd]. apply good_owes_field, G.
  - eapply good_free, G.
Qed.

Lemma step_fine s es s' : fine s -> arcs_step s es s' -> fine s'.
Proof.
  intros G Hs. destruct Hs as [h cnt own fs cnt' own' HP Hc|h cnt own fs own' c a HP Hu Ha|h cnt own fs r a Hi Hr|h cnt a own fs cnt' fs' Hd|s es s' Hd|h cnt own fs h' Hl Hn];
    unfold fine, in_use in *; cbn [mem cnts Arcs.own dying] in *.
  - eapply good_order; eassumption.
  - eapply good_new; try eassumption.
    + destruct (Nat.eq_dec (cnt a) 0) as [H|H]; [exact H|]. exfalso. apply Hu. left. exact H.
    + intros H. apply Hu. right. exact H.
  - eapply good_clone; eassumption.
  - eapply owes_good; [|exact Hd]. apply good_owes_own, G.
  - exact (destroy_fine _ _ _ G Hd).
  - eapply good_junk; [exact G|exact Hl|]. intros a Ha. apply Hn. left. exact Ha.
Qed.

Lemma then_fine s es s' : fine s -> arcs_then s es s' -> fine s'.
Proof. intros G Hs. induction Hs as [|es s1 es' s' _ IH Hst]; [exact G|]. exact (step_fine _ _ _ IH Hst). Qed.

Lemma run_fine es s : arcs_run es s -> fine s.
Proof. apply then_fine. apply good_start. Qed.

(** * The theorems *)

Theorem arcs_counts es s a : arcs_run es s -> cnts s a = arcs_to s a.
Proof. intros Hr. apply run_fine in Hr. destruct s as [h cnt own fs]. rewrite arcs_to_owed. exact (g_sum _ _ _ _ Hr a). Qed.

Theorem arcs_safe es s r a : arcs_run es s -> In r (own s) -> reach (mem s) r a ->
  cnts s a <> 0 /\ exists c, nth_error (mem s) a = Some c.
Proof.
  intros Hr Hi Ha. apply run_fine in Hr. pose proof (good_held _ _ _ _ _ _ Hr Hi Ha) as H. split; [exact H|].
  exact (good_cell _ _ _ _ _ Hr H).
Qed.

Theorem arcs_drop es h cnt a own fs : arcs_run es (ArcsState h cnt (a :: own) fs) ->
  exists cnt' fs', arcs_step (ArcsState h cnt (a :: own) fs) [] (ArcsState h cnt' own fs').
Proof.
  intros Hr. apply run_fine in Hr. destruct (owes_can h cnt own fs a (good_owes_own _ _ _ _ _ Hr)) as (cnt' & fs' & Hd).
  exists cnt', fs'. constructor. exact Hd.
Qed.

Theorem arcs_field es h cnt own f1 b l f2 : arcs_run es (ArcsState h cnt own (f1 ++ (b, l) :: f2)) ->
  match l with
  | [] => destroy (ArcsState h cnt own (f1 ++ (b, l) :: f2)) [Freed b] (ArcsState h cnt own (f1 ++ f2))
  | r :: rest => exists cnt' fs', decrement h cnt (f1 ++ (b, rest) :: f2) r cnt' fs' /\
      destroy (ArcsState h cnt own (f1 ++ (b, l) :: f2)) [] (ArcsState h cnt' own fs')
  end.
Proof.
  intros Hr. apply run_fine in Hr. destruct l as [|r rest]; [constructor|].
  destruct (owes_can h cnt own _ r (good_owes_field _ _ _ _ _ _ _ _ Hr)) as (cnt' & fs' & Hd). exists cnt', fs'. split; [exact Hd|]. constructor. exact Hd.
Qed.

(** Nothing that can be reached from an [Arc] that is held changes. *)
Lemma decrement_in_use h cnt fs a cnt' fs' own own' x : decrement h cnt fs a cnt' fs' ->
  (in_use (ArcsState h cnt own fs) x <-> in_use (ArcsState h cnt' own' fs') x).
Proof.
  intros Hd. unfold in_use. cbn [cnts dying]. destruct Hd as [n Hn|c Hn Hc].
  - destruct (Nat.eq_dec x a) as [->|Hne]; [rewrite set_same, Hn|rewrite set_other by exact Hne; tauto]. split; (intros [H|H]; [left; congruence|right; exact H]).
  - cbn [map fst In]. destruct (Nat.eq_dec x a) as [->|Hne]; [rewrite set_same, Hn|rewrite set_other by exact Hne].
    + split; [intros _; right; left; reflexivity|]. intros _. left. congruence.
    + split; [tauto|]. intros [H|[H|H]]; [left; exact H|congruence|right; exact H].
Qed.

Lemma step_mem s es s' a : fine s -> arcs_step s es s' -> cnts s a <> 0 -> nth_error (mem s') a = nth_error (mem s) a.
Proof.
  intros G Hs Ha. destruct Hs as [h cnt own fs cnt' own' HP Hc|h cnt own fs own' c b HP Hu Hb|h cnt own fs r b Hi Hr|h cnt b own fs cnt' fs' Hd|s es s' Hd|h cnt own fs h' Hl Hn];
    cbn [mem cnts Arcs.own dying] in *; try reflexivity.
  - apply put_other; [exact Hb| |exact (g_len _ _ _ _ G a (or_introl Ha))]. intros ->. apply Hu. left. exact Ha.
  - destruct Hd; reflexivity.
  - apply Hn. left. exact Ha.
Qed.

Lemma reach_agree h h' r : (forall a, reach h r a -> nth_error h' a = nth_error h a) -> forall a, reach h r a -> reach h' r a.
Proof.
  intros Hag a Ha. induction Ha as [|r c b x Hc Hb Hx IH]; [constructor|].
  eapply re_next; [rewrite Hag; [exact Hc|constructor]|exact Hb|]. apply IH. intros a Ha. apply Hag. eapply re_next; eassumption.
Qed.
Lemma reach_agree_iff h h' r : (forall a, reach h r a -> nth_error h' a = nth_error h a) -> forall a, reach h r a <-> reach h' r a.
Proof.
  intros Hag a. split; [apply reach_agree, Hag|]. intros Ha. induction Ha as [|r c b x Hc Hb Hx IH]; [constructor|].
  rewrite Hag in Hc by constructor. eapply re_next; [exact Hc|exact Hb|]. apply IH. intros a Ha. apply Hag. eapply re_next; eassumption.
Qed.

Lemma keep_fine r s s' : fine s -> arcs_keep r s s' -> fine s'.
Proof. intros G Hs. induction Hs as [|s1 es s' _ IH Hst]; [exact G|]. exact (step_fine _ _ _ IH Hst). Qed.

Theorem arcs_stay es s r s' a : arcs_run es s -> arcs_keep r s s' -> reach (mem s) r a ->
  reach (mem s') r a /\ nth_error (mem s') a = nth_error (mem s) a.
Proof.
  intros Hr Hk. pose proof (run_fine _ _ Hr) as G. clear Hr es.
  assert (H : forall x, reach (mem s) r x -> nth_error (mem s') x = nth_error (mem s) x).
  { induction Hk as [Hi|s1 es s' Hk IH Hst Hi]; [reflexivity|]. intros x Hx. rewrite <- (IH x Hx).
    pose proof (keep_fine _ _ _ G Hk) as G1. apply (step_mem _ _ _ _ G1 Hst). apply (good_held _ _ _ _ r x G1).
    - destruct Hk; assumption.
    - apply (reach_agree (mem s)); [exact IH|exact Hx]. }
  intros Ha. split; [apply (reach_agree (mem s)); assumption|apply H, Ha].
Qed.

(** Nothing else is in use, once destruction is over. *)
Lemma good_reached h cnt own : good h cnt own [] -> forall a, cnt a <> 0 -> exists r, In r own /\ reach h r a.
Proof.
  intros [G1 G2 _ _ (rank & G5)]. set (top := list_max (map rank (seq 0 (length h)))).
  assert (Htop : forall a, cnt a <> 0 -> rank a <= top).
  { intros a Ha. apply list_max_in, in_map, in_seq. specialize (G2 a (or_introl Ha)). lia. }
  assert (H : forall m a, top - rank a < m -> cnt a <> 0 -> exists r, In r own /\ reach h r a).
  { induction m as [|m IH]; intros a Hm Ha; [lia|].
    destruct (in_dec Nat.eq_dec a own) as [Hi|Hi]; [exists a; split; [exact Hi|constructor]|].
    assert (Ho : owed h cnt a <> 0).
    { pose proof (G1 a) as H. cbn [left_in map concat count_occ] in H. destruct (Nat.eq_dec (occ own a) 0) as [H0|H0]; [|apply occ_in in H0; contradiction].
      change (occ (left_in []) a) with 0 in H. lia. }
    unfold owed in Ho. apply sum_pos in Ho. destruct Ho as (b & Hbs & Hbo).
    destruct (cnt b) as [|k] eqn:Hcb; [congruence|]. unfold refs_at in Hbo. destruct (nth_error h b) as [c|] eqn:Hc; [|cbn in Hbo; congruence].
    apply occ_in in Hbo. assert (Hb : cnt b <> 0) by congruence. pose proof (G5 b c a Hb Hc Hbo) as Hlt. pose proof (Htop b Hb).
    destruct (IH b ltac:(lia) Hb) as (r & Hr & Hx). exists r. split; [exact Hr|].
    clear - Hc Hbo Hx. induction Hx as [b|r c0 b0 x H0 Hb0 Hx IH]; [eapply re_next; [exact Hc|exact Hbo|constructor]|].
    eapply re_next; [exact H0|exact Hb0|]. apply IH; assumption. }
  intros a. apply (H (S top)). lia.
Qed.

Theorem arcs_quiet es s a : arcs_run es s -> dying s = [] -> in_use s a <-> exists r, In r (own s) /\ reach (mem s) r a.
Proof.
  intros Hr Hd. apply run_fine in Hr. unfold fine in Hr. unfold in_use. rewrite Hd in *. cbn [map In]. split.
  - intros [H|[]]. exact (good_reached _ _ _ Hr a H).
  - intros (r & Hi & Ha). left. exact (good_held _ _ _ _ _ _ Hr Hi Ha).
Qed.

Theorem arcs_empty es s a : arcs_run es s -> dying s = [] -> own s = [] -> ~ in_use s a.
Proof. intros Hr Hd Ho Hu. apply (arcs_quiet es s a Hr Hd) in Hu. rewrite Ho in Hu. destruct Hu as (r & [] & _). Qed.

(** The counts then are what the held [Arc]s say. *)
Lemma good_determined h cnt cnt' own own' : good h cnt own [] -> good h cnt' own' [] -> Permutation own own' -> forall a, cnt a = cnt' a.
Proof.
  intros G G' HP a.
  assert (Hal : forall b, cnt b <> 0 <-> cnt' b <> 0).
  { intros b. split; intros Hb.
    - destruct (good_reached _ _ _ G b Hb) as (r & Hr & Hx). eapply good_held; [exact G'| |exact Hx]. eapply Permutation_in; eassumption.
    - destruct (good_reached _ _ _ G' b Hb) as (r & Hr & Hx). eapply good_held; [exact G| |exact Hx]. eapply Permutation_in; [apply Permutation_sym|]; eassumption. }
  rewrite (g_sum _ _ _ _ G a), (g_sum _ _ _ _ G' a), (occ_perm _ _ a HP). f_equal. f_equal. unfold owed. apply sum_same. intros b _.
  specialize (Hal b). destruct (cnt b), (cnt' b); try reflexivity; exfalso; [apply (proj2 Hal); congruence|apply (proj1 Hal); congruence].
Qed.

Theorem arcs_determined es s es' s' : arcs_run es s -> arcs_run es' s' -> dying s = [] -> dying s' = [] ->
  mem s = mem s' -> Permutation (own s) (own s') -> forall a, cnts s a = cnts s' a.
Proof.
  intros Hr Hr' Hd Hd' Hm HP. apply run_fine in Hr. apply run_fine in Hr'. unfold fine in *. rewrite Hd in Hr. rewrite Hd' in Hr'. rewrite <- Hm in Hr'.
  exact (good_determined _ _ _ _ _ Hr Hr' HP).
Qed.

(** Destruction comes to an end. *)
Definition work s : nat := 2 * (length (left_in (dying s)) + awake (mem s) (cnts s)) + length (dying s).

Lemma left_in_mid_len f1 b l f2 : length (left_in (f1 ++ (b, l) :: f2)) = length l + length (left_in (f1 ++ f2)).
Proof. rewrite !left_in_app. unfold left_in at 2. cbn [map snd concat]. change (concat (map snd f2)) with (left_in f2). rewrite !app_length. lia. Qed.

Lemma destroy_work s es s' : fine s -> destroy s es s' -> S (work s') <= work s.
Proof.
  intros G Hd. destruct Hd as [h cnt own f1 b r rest f2 cnt' fs Hd|h cnt own f1 b f2]; unfold work, fine in *; cbn [mem cnts Arcs.own dying] in *.
  - apply good_owes_field in G. destruct G as (_ & G2 & _).
    assert (Hlt : r < length h) by (apply G2; left; destruct Hd; congruence).
    rewrite left_in_mid_len. cbn [length]. destruct Hd as [n Hn|c Hn Hc].
    + pose proof (awake_set h cnt r (S n) Hlt) as Ha. rewrite Hn in Ha. rewrite left_in_mid_len, !app_length in *. cbn [length]. lia.
    + pose proof (awake_set h cnt r 0 Hlt) as Ha. rewrite Hn in Ha. unfold refs_at in Ha. rewrite Hc in Ha.
      change (left_in ((r, refs c) :: f1 ++ (b, rest) :: f2)) with (refs c ++ left_in (f1 ++ (b, rest) :: f2)).
      rewrite app_length, left_in_mid_len. cbn [length]. rewrite !app_length. cbn [length]. lia.
  - rewrite left_in_mid_len, !app_length. cbn [length]. lia.
Qed.

Lemma destroys_fine s n s' : fine s -> destroys s n s' -> fine s' /\ n + work s' <= work s.
Proof.
  intros G Hd. induction Hd as [|n s1 es s' _ (G1 & IH) Hst]; [split; [exact G|lia]|]. split; [exact (destroy_fine _ _ _ G1 Hst)|].
  pose proof (destroy_work _ _ _ G1 Hst). lia.
Qed.

Lemma destroy_next s : fine s -> dying s <> [] -> exists es s', destroy s es s'.
Proof.
  intros G Hd. destruct s as [h cnt own [|[b l] fs]]; [cbn in Hd; congruence|]. destruct l as [|r rest].
  - do 2 eexists. apply (ds_free h cnt own [] b fs).
  - destruct (owes_can h cnt own _ r (good_owes_field h cnt own [] b r rest fs G)) as (cnt' & fs' & Hx).
    do 2 eexists. apply (ds_field h cnt own [] b r rest fs cnt' fs' Hx).
Qed.

Theorem arcs_ends es s : arcs_run es s -> exists bound, forall n s', destroys s n s' -> n <= bound /\
  (dying s' = [] \/ exists es' s'', destroy s' es' s'').
Proof.
  intros Hr. apply run_fine in Hr. exists (work s). intros n s' Hd. destruct (destroys_fine _ _ _ Hr Hd) as (G & Hw). split; [lia|].
  destruct (dying s') as [|f fs] eqn:Hf; [left; reflexivity|right]. apply (destroy_next s' G). congruence.
Qed.

(** Each allocation is freed once. *)
Lemma allocations_app es es' a : allocations (es ++ es') a = allocations es a + allocations es' a.
Proof. unfold allocations. rewrite filter_app, app_length. reflexivity. Qed.
Lemma frees_app es es' a : frees (es ++ es') a = frees es a + frees es' a.
Proof. unfold frees. rewrite filter_app, app_length. reflexivity. Qed.

Definition used s a : nat := (if Nat.eq_dec (cnts s a) 0 then 0 else 1) + (if in_dec Nat.eq_dec a (map fst (dying s)) then 1 else 0).

Lemma used_in s a : fine s -> in_use s a -> used s a = 1.
Proof.
  intros G Hu. unfold used, in_use in *. destruct (Nat.eq_dec (cnts s a) 0) as [H|H], (in_dec Nat.eq_dec a (map fst (dying s))) as [Hi|Hi]; try reflexivity.
  - tauto.
  - exfalso. apply H. exact (g_zero _ _ _ _ G a Hi).
Qed.
Lemma used_out s a : ~ in_use s a -> used s a = 0.
Proof.
  intros Hu. unfold used, in_use in *. destruct (Nat.eq_dec (cnts s a) 0) as [H|H], (in_dec Nat.eq_dec a (map fst (dying s))) as [Hi|Hi]; try reflexivity; tauto.
Qed.
Lemma in_use_dec s a : in_use s a \/ ~ in_use s a.
Proof.
  unfold in_use. destruct (Nat.eq_dec (cnts s a) 0) as [H|H], (in_dec Nat.eq_dec a (map fst (dying s))) as [Hi|Hi]; tauto.
Qed.
Lemma used_iff s s' a : fine s -> fine s' -> (in_use s a <-> in_use s' a) -> used s a = used s' a.
Proof.
  intros G G' H. destruct (in_use_dec s a) as [Hu|Hu].
  - rewrite (used_in s a G Hu). symmetry. apply used_in; [exact G'|]. tauto.
  - rewrite (used_out s a Hu). symmetry. apply used_out. tauto.
Qed.

Lemma destroy_used s es s' a : fine s -> destroy s es s' -> allocations es a + used s a = frees es a + used s' a.
Proof.
  intros G Hd. pose proof (destroy_fine _ _ _ G Hd) as G'. destruct Hd as [h cnt own f1 b r rest f2 cnt' fs Hd|h cnt own f1 b f2].
  - cbn [allocations frees filter length]. apply (used_iff _ _ a G G'). rewrite <- (decrement_in_use _ _ _ _ _ _ own own a Hd).
    unfold in_use. cbn [cnts dying]. rewrite (mid_fst f1 b (r :: rest) rest f2). tauto.
  - unfold allocations, frees. cbn [filter length]. destruct (Nat.eqb_spec b a) as [->|Hne]; cbn [length].
    + rewrite (used_in _ a G), (used_out _ a); [reflexivity| |].
      * intros [H|H]; cbn [cnts dying] in H.
        -- apply H. apply (g_zero _ _ _ _ G a). cbn [dying]. rewrite map_app, in_app_iff. right. left. reflexivity.
        -- pose proof (g_nodup _ _ _ _ G) as Hn. cbn [dying] in Hn. rewrite map_app in Hn. cbn [map fst] in Hn. apply NoDup_remove_2 in Hn.
           apply Hn. rewrite <- map_app. exact H.
      * right. cbn [dying]. rewrite map_app, in_app_iff. right. left. reflexivity.
    + apply (used_iff _ _ a G G'). unfold in_use. cbn [cnts dying]. rewrite !map_app, !in_app_iff. cbn [map fst In]. intuition congruence.
Qed.

Lemma step_used s es s' a : fine s -> arcs_step s es s' -> allocations es a + used s a = frees es a + used s' a.
Proof.
  intros G Hs. pose proof (step_fine _ _ _ G Hs) as G'.
  destruct Hs as [h cnt own fs cnt' own' HP Hc|h cnt own fs own' c b HP Hu Hb|h cnt own fs r b Hi Hr|h cnt b own fs cnt' fs' Hd|s es s' Hd|h cnt own fs h' Hl Hn].
  - apply (used_iff _ _ a G G'). unfold in_use. cbn [cnts dying]. rewrite Hc. tauto.
  - unfold allocations, frees. cbn [filter length]. destruct (Nat.eqb_spec b a) as [->|Hne]; cbn [length].
    + rewrite (used_out _ a Hu), (used_in _ a G'); [reflexivity|]. left. cbn [cnts]. rewrite set_same. discriminate.
    + apply (used_iff _ _ a G G'). unfold in_use. cbn [cnts dying]. rewrite set_other by congruence. tauto.
  - apply (used_iff _ _ a G G'). unfold in_use. cbn [cnts dying]. pose proof (good_held _ _ _ _ _ _ G Hi Hr) as H. cbn [cnts] in H.
    destruct (Nat.eq_dec a b) as [->|Hne]; [rewrite set_same|rewrite set_other by exact Hne; tauto]. split; intros _; left; [discriminate|exact H].
  - apply (used_iff _ _ a G G'). apply (decrement_in_use _ _ _ _ _ _ _ _ a Hd).
  - exact (destroy_used _ _ _ a G Hd).
  - apply (used_iff _ _ a G G'). unfold in_use. cbn [cnts dying]. tauto.
Qed.

Theorem arcs_once es s a : arcs_run es s ->
  (in_use s a -> allocations es a = S (frees es a)) /\ (~ in_use s a -> allocations es a = frees es a).
Proof.
  intros Hr. assert (H : allocations es a = frees es a + used s a).
  { unfold arcs_run in Hr. induction Hr as [|es s1 es' s' Hr IH Hst].
    - rewrite used_out; [reflexivity|]. intros [H|[]]. cbn in H. congruence.
    - pose proof (step_used _ _ _ a (run_fine _ _ Hr) Hst). rewrite allocations_app, frees_app. lia. }
  pose proof (run_fine _ _ Hr) as G. split; intros Hu; [rewrite (used_in s a G Hu) in H|rewrite (used_out s a Hu) in H]; lia.
Qed.

End ArcsP.
