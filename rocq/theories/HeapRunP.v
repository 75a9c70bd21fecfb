(** The public operations on the heap. *)
From Coq Require Import NArith Arith List Bool Lia ZifyBool ZifyN ZifyNat.
From Verif Require Import Base Words Flag Bia BiaP Node Api Trans Transform Joint JointT Versions Heap SpecH HeapP HeapOpP HeapHist HeapHistP
  HeapBulk HeapBulkP HeapJointP HeapLeafP HeapLeafTP HeapRun.
Import ListNotations.
Open Scope N_scope.

(** Where the result of an operation is: it stands for the tree, all its cells
    satisfy [G]. *)
Definition placed {K V R} (G : addr -> Prop) (h : heap K V) (p : hnode * R * heap K V) (q : trie K V * R) : Prop :=
  ext h (snd p) /\ rep (snd p) (fst (fst p)) (fst q) /\ (forall x, inside (snd p) (fst (fst p)) x -> G x) /\ snd (fst p) = snd q.
Definition placed_at {K V R} (G : addr -> Prop) (h : heap K V) (m right : hnode) (p : hnode * R * heap K V) (q : trie K V * R * origin) : Prop :=
  placed G h p (fst q) /\ match snd q with Self => fst (fst p) = m | Right => fst (fst p) = right | Other => True end.

Section Api.
Context {E : Env} {R : Type}.
Context (rdef : R) (rd : R -> R -> R).

Lemma hnres_root_ok {K V} {NZ : Noise K V} (h : heap K V) (G : addr -> Prop) (HG : forall x, (length h <= x)%nat -> G x) (n : hnres R) (n' : nres K V R) w : ext h w -> nrel G w n n' ->
  placed G h (hnres_root n w) (nres_trie n').
Proof.
  intros He Hn. destruct (nrel_shape _ _ _ _ Hn); cbn [hnres_root nres_trie].
  1-3: split; [exact He|]; try apply plx_pl in H; destruct H as (H1 & H2); split; [exact H1|]; split; [exact H2|reflexivity].
  destruct (hm_new w) as [x w'] eqn:Hnew. destruct (hm_new_ok _ _ _ Hnew) as (He' & Hr & Ha).
  split; [eapply ext_trans; eassumption|]. split; [exact Hr|]. split; [|reflexivity]. cbn [fst snd].
  unfold hm_new, alloc in Hnew. injection Hnew as <- <-. intros y Hy. destruct (inside_new_C _ _ _ Hy) as [->|(c & [] & _)].
  apply HG. eapply ext_len, ext_trans; [exact He|apply ext_others].
Qed.

Lemma deref_ok {K V} (h : heap K V) (G : addr -> Prop) n t : rep h n t -> (forall x, inside h n x -> G x) ->
  exists d, h_deref (enough h) h n = Ret d /\ strip d = t /\ d_node d = n /\ okn G h d.
Proof. intros H. apply h_deref_ok; [exact H|eapply enough_ok, H]. Qed.

Definition from {K V} (h : heap K V) (ns : list hnode) (x : addr) : Prop := (length h <= x)%nat \/ exists n, In n ns /\ inside h n x.

Lemma from_new {K V} (h : heap K V) ns x : (length h <= x)%nat -> from h ns x.
Proof. left. assumption. Qed.
Lemma from_in {K V} (h : heap K V) ns n x : In n ns -> inside h n x -> from h ns x.
Proof. right. eauto. Qed.

Lemma hm_transform_ok {K V} {NZ : Noise K V} st (op : transform_op (K * V) V R) h m t : rep h m t ->
  refines (placed_at (from h [m]) h m m) (hm_transform rdef rd st op h m) (map_transform rdef rd st op t).
Proof.
  intros H. unfold hm_transform, map_transform.
  destruct (deref_ok h (from h [m]) m t H (fun x => from_in h [m] m x (or_introl eq_refl))) as (d & Hd & Hs & Hn & Ho).
  rewrite Hd. cbn [bind]. rewrite <- Hs.
  eapply refines_bind; [apply (h_transform_ok rdef rd h (from h [m]) (from_new h [m]) st op d h (ext_refl h) Ho)|].
  intros [x w] x' (He & Hx). cbn [fst snd] in *. destruct x as [r|n], x' as [r'|n']; try contradiction.
  - constructor. split; [|reflexivity]. split; [exact He|]. cbn [fst snd]. rewrite Hs. destruct (okn_pl _ _ _ Ho) as (H1 & H2). rewrite Hn, Hs in H1.
    split; [eapply rep_ext; eassumption|]. split; [|exact Hx]. intros y Hy. right. exists m. split; [left; reflexivity|]. eapply inside_old; eassumption.
  - constructor. split; [|exact I]. apply hnres_root_ok; [apply from_new|exact He|exact Hx].
Qed.

Lemma hm_transmute_ok {K V S X} {NZ : Noise S X} (op : transmute_op (K * V) S X R) (h : heap K V) m t (w : heap S X) : rep h m t ->
  refines (placed (from w []) w) (hm_transmute rdef rd op h m w) (map_transmute rdef rd op t).
Proof.
  intros H. unfold hm_transmute, map_transmute.
  destruct (deref_ok h (fun _ => True) m t H (fun _ _ => I)) as (d & Hd & Hs & Hn & Ho).
  rewrite Hd. cbn [bind]. rewrite <- Hs.
  eapply refines_bind; [apply (h_transmute_ok rdef rd w (from w []) (from_new w []) op d w (ext_refl w))|].
  intros [x w1] x' (He & Hx). cbn [fst snd] in *. constructor. apply hnres_root_ok; [apply from_new|exact He|exact Hx].
Qed.

Lemma hm_tt_ok {K V} {KK : Key K} {NZ : Noise K V} st (both : joint_op (K * V) V R) lop rop h m right t u : rep h m t -> rep h right u ->
  refines (placed_at (from h [m; right]) h m right) (hm_tt rdef rd st both lop rop h m right) (map_tt rdef rd st both lop rop t u).
Proof.
  intros H Hu. unfold hm_tt, map_tt.
  destruct (deref_ok h (from h [m; right]) m t H (fun x => from_in h [m; right] m x (or_introl eq_refl))) as (d & Hd & Hs & Hn & Ho).
  destruct (deref_ok h (from h [m; right]) right u Hu (fun x => from_in h [m; right] right x (or_intror (or_introl eq_refl)))) as (d' & Hd' & Hs' & Hn' & Ho').
  rewrite Hd, Hd'. cbn [bind]. subst t u.
  eapply refines_bind; [apply (h_tt_ok rdef rd st h (from h [m; right]) (from_new h _) both lop rop d d' 0 h (ext_refl h) Ho Ho')|].
  intros [x w] x' (He & Hx). cbn [fst snd] in *.
  assert (HL : forall r : R, placed (from h [m; right]) h (m, r, w) (strip d, r)).
  { intros r. split; [exact He|]. split; [eapply rep_ext; eassumption|]. split; [|reflexivity].
    intros y Hy. right. exists m. split; [left; reflexivity|]. eapply inside_old; eassumption. }
  assert (HR : forall r : R, placed (from h [m; right]) h (right, r, w) (strip d', r)).
  { intros r. split; [exact He|]. split; [eapply rep_ext; eassumption|]. split; [|reflexivity].
    intros y Hy. right. exists right. split; [right; left; reflexivity|]. eapply inside_old; eassumption. }
  destruct x as [r|r|r|n], x' as [r'|r'|r'|n']; try contradiction; try (cbn in Hx; subst r').
  - constructor. split; [apply HL|reflexivity].
  - constructor. split; [apply HL|reflexivity].
  - constructor. split; [apply HR|reflexivity].
  - constructor. split; [|exact I]. apply hnres_root_ok; [apply from_new|exact He|exact Hx].
Qed.

Lemma hm_tm_ok {K V L W} {KK : Key K} {KL : Key L} {NZ : Noise K V} st (both : transform_op ((K * V) * (L * W)) V R) lop rop h m (hr : heap L W) right t u :
  rep h m t -> rep hr right u ->
  refines (placed_at (from h [m]) h m m) (hm_tm rdef rd st both lop rop h m hr right) (map_tm rdef rd st both lop rop t u).
Proof.
  intros H Hu. unfold hm_tm, map_tm.
  destruct (deref_ok h (from h [m]) m t H (fun x => from_in h [m] m x (or_introl eq_refl))) as (d & Hd & Hs & Hn & Ho).
  destruct (deref_ok hr (fun _ => True) right u Hu (fun _ _ => I)) as (d' & Hd' & Hs' & Hn' & Ho').
  rewrite Hd, Hd'. cbn [bind]. subst t u.
  eapply refines_bind; [apply (h_tm_ok rdef rd st both lop rop h (from h [m]) (from_new h _) d d' 0 h (ext_refl h) Ho)|].
  intros [x w] x' (He & Hx). cbn [fst snd] in *. destruct x as [r|n], x' as [r'|n']; try contradiction.
  - constructor. split; [|reflexivity]. split; [exact He|]. split; [eapply rep_ext; eassumption|]. split; [|exact Hx].
    intros y Hy. right. exists m. split; [left; reflexivity|]. eapply inside_old; eassumption.
  - constructor. split; [|exact I]. apply hnres_root_ok; [apply from_new|exact He|exact Hx].
Qed.

Lemma hm_mt_ok {K V L W} {KK : Key K} {KL : Key L} {NZ : Noise L W} st (both : transform_op ((K * V) * (L * W)) W R) lop rop (h : heap K V) m (hr : heap L W) right t u :
  rep h m t -> rep hr right u ->
  refines (placed_at (from hr [right]) hr right right) (hm_mt rdef rd st both lop rop h m hr right) (map_mt rdef rd st both lop rop t u).
Proof.
  intros H Hu. unfold hm_mt, map_mt.
  destruct (deref_ok h (fun _ => True) m t H (fun _ _ => I)) as (d & Hd & Hs & Hn & Ho).
  destruct (deref_ok hr (from hr [right]) right u Hu (fun x => from_in hr [right] right x (or_introl eq_refl))) as (d' & Hd' & Hs' & Hn' & Ho').
  rewrite Hd, Hd'. cbn [bind]. subst t u.
  eapply refines_bind; [apply (h_mt_ok rdef rd st both lop rop hr (from hr [right]) (from_new hr _) d d' 0 hr (ext_refl hr) Ho')|].
  intros [x w] x' (He & Hx). cbn [fst snd] in *. destruct x as [r|n], x' as [r'|n']; try contradiction.
  - constructor. split; [|reflexivity]. split; [exact He|]. split; [eapply rep_ext; eassumption|]. split; [|exact Hx].
    intros y Hy. right. exists right. split; [left; reflexivity|]. eapply inside_old; eassumption.
  - constructor. split; [|exact I]. apply hnres_root_ok; [apply from_new|exact He|exact Hx].
Qed.

Lemma hm_mm_ok {K V L W S X} {KK : Key K} {KL : Key L} {KS : Key S} {NZ : Noise S X} (both : transmute_op ((K * V) * (L * W)) S X R) lop rop (h : heap K V) m (hr : heap L W) right
  (w : heap S X) t u : rep h m t -> rep hr right u ->
  refines (placed (from w []) w) (hm_mm rdef rd both lop rop h m hr right w) (map_mm rdef rd both lop rop t u).
Proof.
  intros H Hu. unfold hm_mm, map_mm.
  destruct (deref_ok h (fun _ => True) m t H (fun _ _ => I)) as (d & Hd & Hs & Hn & Ho).
  destruct (deref_ok hr (fun _ => True) right u Hu (fun _ _ => I)) as (d' & Hd' & Hs' & Hn' & Ho').
  rewrite Hd, Hd'. cbn [bind]. subst t u.
  eapply refines_bind; [apply (h_mm_ok rdef rd both lop rop w (from w []) (from_new w _) d d' 0 w (ext_refl w))|].
  intros [x w1] x' (He & Hx). cbn [fst snd] in *. constructor. apply hnres_root_ok; [apply from_new|exact He|exact Hx].
Qed.

End Api.

Section Runs.
Context {E : Env} {K V R : Type} {KK : Key K} {NZ : Noise K V}.
Context (rdef : R) (rd : R -> R -> R).
Notation heap := (heap K V).
Implicit Types (h : heap).

Definition run_rel h vs (c : call K V R) (p : hnode * hgot R * heap) (q : trie K V * got K V R) : Prop :=
  ext h (snd p) /\ rep (snd p) (fst (fst p)) (fst q) /\ same_got (snd p) (snd (fst p)) (snd q) /\
  (forall x, inside (snd p) (fst (fst p)) x ->
     (length h <= x)%nat \/ exists i n, In i (keeps c) /\ nth_error vs i = Some n /\ inside h n x) /\
  hstep rdef rd h vs (HCall c) (snd p) (vs ++ [fst (fst p)]).

Lemma nth_held h vs ts i : Forall2 (rep h) vs ts -> (i < length vs)%nat ->
  exists n, nth_error vs i = Some n /\ rep h n (version map_new ts i).
Proof.
  intros HF Hi. destruct (nth_error vs i) as [n|] eqn:Hn; [|apply nth_error_None in Hn; lia].
  pose proof (nth_rel _ _ _ HF i) as Ho. rewrite Hn in Ho. inversion Ho as [x t Ht E1 E2|]; subst.
  exists n. split; [reflexivity|]. rewrite (nth_version ts i t); [exact Ht|symmetry; exact E2].
Qed.

Lemma from_keeps h vs is ns x : (forall n, In n ns -> exists i, In i is /\ nth_error vs i = Some n) -> from h ns x ->
  (length h <= x)%nat \/ exists i n, In i is /\ nth_error vs i = Some n /\ inside h n x.
Proof.
  intros H [Hx|(n & Hn & Hx)]; [left; exact Hx|right]. destruct (H n Hn) as (i & Hi & Hv). exists i, n. auto.
Qed.

Lemma shares_keeps h vs i n h' n' x : nth_error vs i = Some n -> shares h n h' n' -> inside h' n' x ->
  (length h <= x)%nat \/ exists j m, In j [i] /\ nth_error vs j = Some m /\ inside h m x.
Proof. intros Hi Hs Hx. destruct (Hs x Hx) as [H|H]; [left; exact H|right]. exists i, n. repeat split; [left; reflexivity|exact Hi|exact H]. Qed.

Theorem hrun_ok h vs ts c : Forall2 (rep h) vs ts -> Forall (fun i => (i < length vs)%nat) (uses c) ->
  refines (run_rel h vs c) (hrun rdef rd h vs c) (derive rdef rd ts c).
Proof.
  intros HF HU.
  assert (Hbulk : forall (c : call K V R) (G : addr -> Prop) (p : hnode * R * heap) (t : trie K V) (r : R),
    bulk c -> Forall (fun i => (i < length vs)%nat) (uses c) -> placed G h p (t, r) ->
    (forall x, G x -> (length h <= x)%nat \/ exists i n, In i (keeps c) /\ nth_error vs i = Some n /\ inside h n x) ->
    derive rdef rd ts c = Ret (t, GReduced r) -> (forall i, source rdef rd ts c = Ret (Some i) -> nth_error vs i = Some (fst (fst p))) ->
    run_rel h vs c (fst (fst p), HGReduced (snd (fst p)), snd p) (t, GReduced r)).
  { intros c0 G p t r Hb Hu (He & Hr & Hi & Hx) HG Hd Hs. split; [exact He|]. split; [exact Hr|]. split; [exact Hx|]. split.
    - intros x Hin. apply HG, Hi, Hin.
    - eapply hs_bulk; try eassumption. }
  destruct c as [i k v replace|i k|i st op|i op|i j st both lop rop|i j st both lop rop|i j st both lop rop|i j both lop rop];
    cbn [uses] in HU; pose proof (Forall_inv HU) as Hi;
    try (pose proof (Forall_inv (Forall_inv_tail HU)) as Hj; destruct (nth_held h vs ts j HF Hj) as (m & Hm & Hrm));
    destruct (nth_held h vs ts i HF Hi) as (n & Hn & Hrn); cbn [hrun derive]; rewrite Hn; try rewrite Hm; cbn [unwrap bind].
  - destruct (hm_insert (fun x => x) h n k v replace) as [[r h']| |] eqn:Ho;
      pose proof (hm_insert_ok (fun x => x) h n _ k v replace Hrn) as Hins; rewrite Ho in Hins; inversion Hins as [r1 r' Hr E1 E2| |]; subst;
      cbn [bind]; try constructor.
    cbn [mins_rel] in Hr. destruct r as [[[n' a] prev]|a], r' as [[[t' e] prev']|e]; try contradiction.
    + destruct Hr as (He & Hr & _ & _ & (Ha & _) & Hp & Hs). constructor. split; [exact He|]. split; [exact Hr|]. split.
      * split; [exact Ha|]. destruct Hp as [p e' (Hp & _)|]; constructor. eapply entry_ext; eassumption.
      * split; [|eapply hs_insert; eassumption]. intros x Hx. eapply shares_keeps; eassumption.
    + destruct Hr as (-> & (Ha & _)). constructor. split; [apply ext_refl|]. split; [exact Hrn|]. split; [exact Ha|].
      split; [|eapply hs_refused; eassumption]. intros x Hx. right. exists i, n. repeat split; [left; reflexivity|exact Hn|exact Hx].
  - destruct (hm_remove h n k) as [[r h']| |] eqn:Ho;
      pose proof (hm_remove_ok h n _ k Hrn) as Hins; rewrite Ho in Hins; inversion Hins as [r1 r' Hr E1 E2| |]; subst;
      cbn [bind]; try constructor.
    cbn [mrem_rel] in Hr. destruct r as [[n' a]|a], r' as [[t' e]|e]; try contradiction.
    + destruct Hr as (He & Hr & _ & (Ha & _) & Hs). constructor. split; [exact He|]. split; [exact Hr|]. split.
      * eapply entry_ext; eassumption.
      * split; [|eapply hs_remove; eassumption]. intros x Hx. eapply shares_keeps; eassumption.
    + subst h'. constructor. split; [apply ext_refl|]. split; [exact Hrn|]. split; [exact I|].
      split; [|eapply hs_absent; eassumption]. intros x Hx. right. exists i, n. repeat split; [left; reflexivity|exact Hn|exact Hx].
  - pose proof (hm_transform_ok rdef rd st op h n _ Hrn) as Hr.
    destruct (map_transform rdef rd st op (version map_new ts i)) as [[[t r] o]| |] eqn:Hd; inversion Hr as [p q (Hp & Ho) E1 E2| |]; subst; cbn [bind]; try constructor.
    destruct p as [[n' r'] w]. apply rf_ret. apply (Hbulk (CTransform i st op) _ (n', r', w) t r I HU Hp).
    + intros x. apply from_keeps. intros n0 [<-|[]]. exists i. split; [left; reflexivity|exact Hn].
    + cbn [derive]. rewrite Hd. reflexivity.
    + intros i0. cbn [source]. rewrite Hd. cbn [bind]. destruct o; intros [= <-]. cbn in Ho. subst n'. exact Hn.
  - pose proof (hm_transmute_ok rdef rd op h n _ h Hrn) as Hr.
    destruct (map_transmute rdef rd op (version map_new ts i)) as [[t r]| |] eqn:Hd; inversion Hr as [p q Hp E1 E2| |]; subst; cbn [bind]; try constructor.
    destruct p as [[n' r'] w]. apply rf_ret. apply (Hbulk (CTransmute i op) _ (n', r', w) t r I HU Hp).
    + intros x. apply from_keeps. intros n0 [].
    + cbn [derive]. rewrite Hd. reflexivity.
    + intros i0. discriminate.
  - pose proof (hm_tt_ok rdef rd st both lop rop h n m _ _ Hrn Hrm) as Hr.
    destruct (map_tt rdef rd st both lop rop (version map_new ts i) (version map_new ts j)) as [[[t r] o]| |] eqn:Hd; inversion Hr as [p q (Hp & Ho) E1 E2| |]; subst; cbn [bind]; try constructor.
    destruct p as [[n' r'] w]. apply rf_ret. apply (Hbulk (CTT i j st both lop rop) _ (n', r', w) t r I HU Hp).
    + intros x. apply from_keeps. intros n0 [<-|[<-|[]]]; [exists i|exists j]; (split; [|assumption]); [left; reflexivity|right; left; reflexivity].
    + cbn [derive]. rewrite Hd. reflexivity.
    + intros i0. cbn [source]. rewrite Hd. cbn [bind]. destruct o; intros [= <-]; cbn in Ho; subst n'; assumption.
  - pose proof (hm_tm_ok rdef rd st both lop rop h n h m _ _ Hrn Hrm) as Hr.
    destruct (map_tm rdef rd st both lop rop (version map_new ts i) (version map_new ts j)) as [[[t r] o]| |] eqn:Hd; inversion Hr as [p q (Hp & Ho) E1 E2| |]; subst; cbn [bind]; try constructor.
    destruct p as [[n' r'] w]. apply rf_ret. apply (Hbulk (CTM i j st both lop rop) _ (n', r', w) t r I HU Hp).
    + intros x. apply from_keeps. intros n0 [<-|[]]. exists i. split; [left; reflexivity|exact Hn].
    + cbn [derive]. rewrite Hd. reflexivity.
    + intros i0. cbn [source]. rewrite Hd. cbn [bind]. destruct o; intros [= <-]; cbn in Ho; subst n'; assumption.
  - pose proof (hm_mt_ok rdef rd st both lop rop h n h m _ _ Hrn Hrm) as Hr.
    destruct (map_mt rdef rd st both lop rop (version map_new ts i) (version map_new ts j)) as [[[t r] o]| |] eqn:Hd; inversion Hr as [p q (Hp & Ho) E1 E2| |]; subst; cbn [bind]; try constructor.
    destruct p as [[n' r'] w]. apply rf_ret. apply (Hbulk (CMT i j st both lop rop) _ (n', r', w) t r I HU Hp).
    + intros x. apply from_keeps. intros n0 [<-|[]]. exists j. split; [left; reflexivity|exact Hm].
    + cbn [derive]. rewrite Hd. reflexivity.
    + intros i0. cbn [source]. rewrite Hd. cbn [bind]. destruct o; intros [= <-]; cbn in Ho; subst n'; assumption.
  - pose proof (hm_mm_ok rdef rd both lop rop h n h m h _ _ Hrn Hrm) as Hr.
    destruct (map_mm rdef rd both lop rop (version map_new ts i) (version map_new ts j)) as [[t r]| |] eqn:Hd; inversion Hr as [p q Hp E1 E2| |]; subst; cbn [bind]; try constructor.
    destruct p as [[n' r'] w]. apply rf_ret. apply (Hbulk (CMM i j both lop rop) _ (n', r', w) t r I HU Hp).
    + intros x. apply from_keeps. intros n0 [].
    + cbn [derive]. rewrite Hd. reflexivity.
    + intros i0. discriminate.
Qed.

Lemma same_got_ext h h' x y : same_got h x y -> ext h h' -> same_got (R := R) h' x y.
Proof.
  intros H He. destruct x, y; cbn in *; try contradiction; try exact H; try (eapply entry_ext; eassumption).
  destruct H as (H1 & H2). split; [eapply entry_ext; eassumption|]. destruct H2; constructor. eapply entry_ext; eassumption.
Qed.

Definition runs_rel h vs cs (p : list hnode * list (hgot R) * heap) (q : list (trie K V) * list (got K V R)) : Prop :=
  ext h (snd p) /\ Forall2 (rep (snd p)) (fst (fst p)) (fst q) /\ Forall2 (same_got (snd p)) (snd (fst p)) (snd q) /\
  hsteps rdef rd h vs (map HCall cs) (snd p) (fst (fst p)).

Theorem hruns_ok cs : forall h vs ts, Forall2 (rep h) vs ts -> named (length vs) cs ->
  refines (runs_rel h vs cs) (hruns rdef rd h vs cs) (versions rdef rd ts cs).
Proof.
  induction cs as [|c cs IH]; intros h vs ts HF HN; cbn [hruns versions].
  - constructor. split; [apply ext_refl|]. split; [exact HF|]. split; constructor.
  - destruct HN as (HU & HN). eapply refines_bind; [apply (hrun_ok h vs ts c HF HU)|].
    intros [[n x] h1] [t y] (He & Hr & Hg & _ & Hs). cbn [fst snd] in *.
    assert (HF1 : Forall2 (rep h1) (vs ++ [n]) (ts ++ [t])).
    { apply forall2_snoc; [eapply rep_versions_ext; eassumption|exact Hr]. }
    eapply refines_bind; [apply (IH h1 (vs ++ [n]) (ts ++ [t]) HF1)|].
    + rewrite app_length. cbn [length]. rewrite Nat.add_1_r. exact HN.
    + intros [[vs' xs] h2] [ts' ys] (He2 & HF2 & Hg2 & Hs2). cbn [fst snd] in *. constructor.
      split; [eapply ext_trans; eassumption|]. split; [exact HF2|]. split.
      * constructor; [eapply same_got_ext; eassumption|exact Hg2].
      * cbn [map]. econstructor; eassumption.
Qed.

(** Histories whose calls keep their contracts are lawful. *)
Theorem hruns_lawful cs : forall h vs ts, Forall2 (rep h) vs ts -> named (length vs) cs -> contracts rdef rd ts cs ->
  forall vs' xs h', hruns rdef rd h vs cs = Ret (vs', xs, h') -> lawful rdef rd h vs (map HCall cs) h' vs'.
Proof.
  induction cs as [|c cs IH]; intros h vs ts HF HN HC vs' xs h' Hr; cbn [hruns] in Hr.
  - injection Hr as <- <- <-. constructor.
  - destruct HN as (HU & HN). destruct HC as (HC & HCs). pose proof (hrun_ok h vs ts c HF HU) as Ho.
    destruct (hrun rdef rd h vs c) as [[[n x] h1]| |]; try discriminate. inversion Ho as [p [t y] (He & Hp & Hg & _ & Hs) E1 E2| |]; subst.
    cbn [bind fst snd] in *.
    destruct (hruns rdef rd h1 (vs ++ [n]) cs) as [[[vs2 xs2] h2]| |] eqn:Hr2; try discriminate. cbn [bind fst snd] in Hr. injection Hr as <- <- <-.
    cbn [map]. eapply lw_cons; [|exact Hs|].
    + cbn [hcontract]. intros ls Hls. replace ls with (map map_visit ts); [exact HC|].
      clear - HF Hls. revert ls Hls. induction HF as [|n t vs ts Hn HF IH]; intros ls Hls; inversion Hls as [|n2 l2 vs2 ls2 H1 H2]; subst; [reflexivity|].
      cbn [map]. f_equal; [|apply IH, H2]. rewrite (hm_visit_ok _ _ _ Hn) in H1. injection H1 as <-. reflexivity.
    + apply (IH h1 (vs ++ [n]) (ts ++ [t])) with (xs := xs2).
      * apply forall2_snoc; [eapply rep_versions_ext; eassumption|exact Hp].
      * rewrite app_length. cbn [length]. rewrite Nat.add_1_r. exact HN.
      * apply (HCs t y). symmetry. exact E2.
      * exact Hr2.
Qed.

End Runs.
