(** Sets: histories, transform, transmute and the joint operations. *)
From Coq Require Import NArith Arith List Bool Lia ZifyBool ZifyN ZifyNat Permutation.
From Verif Require Import Base Words WordsP Flag FlagP Bia BiaP Node Spec SpecP Inv NodeP InsertP TrieP Api ApiP
  Trans Transform LoopP SpecT TransformP TransApiP Joint SpecJ JoinP JointP JointMP JointLeafP JointNodeP JointApiP
  JointT JointTLeafP JointTP JointTApiP Reach ReachP MapP TransMapP JointMapP JointTMapP Hist HistP Sets SpecS SetHist.
Import ListNotations.
Open Scope N_scope.

(** * Histories *)
Section Hist.
Context {E : Env} {K : Type} {KK : Key K}.

Lemma member_fst {V} c (l : list (K * V)) : member c (map fst l) = option_map fst (lookup c l).
Proof.
  induction l as [|e l IH]; [reflexivity|]. unfold member, lookup in *. cbn [map find]. unfold ecls at 1.
  destruct (ceqb (cls (fst e)) c); [reflexivity|exact IH].
Qed.
Lemma minus_fst {V} c (l : list (K * V)) : minus c (map fst l) = map fst (without c l).
Proof.
  induction l as [|e l IH]; [reflexivity|]. unfold minus, without in *. cbn [map filter]. unfold ecls at 1.
  destruct (negb (ceqb (cls (fst e)) c)); cbn [map]; rewrite IH; reflexivity.
Qed.

Lemma spec_forget {V} os : forall l : list (K * V),
  sspec_run (map fst l) (map forget os) = (map fst (fst (spec_run l os)), map forget_obs (snd (spec_run l os))).
Proof.
  induction os as [|o os IH]; intros l; [reflexivity|]. cbn [map sspec_run spec_run].
  assert (H : sspec_step (map fst l) (forget o) = (map fst (fst (spec_step l o)), forget_obs (snd (spec_step l o)))).
  { destruct o as [k v replace|k|k]; cbn [forget sspec_step spec_step]; unfold spec_insert, spec_remove;
      rewrite member_fst; destruct (lookup (cls k) l) as [e|]; cbn [option_map]; try destruct replace;
      cbn [fst snd forget_obs map option_map]; rewrite ?minus_fst; reflexivity. }
  rewrite H. destruct (spec_step l o) as [l1 x]. cbn [fst snd]. rewrite IH. destruct (spec_run l1 os) as [l2 xs]. reflexivity.
Qed.

(** A set call is a map call with values [tt]. *)
Definition given (o : sop K) : op K unit :=
  match o with
  | SInsert k replace => OInsert k tt replace
  | SRemove k => ORemove k
  | SFind k => OFind k
  end.
Lemma forget_given os : map forget (map given os) = os.
Proof. rewrite map_map. rewrite <- (map_id os) at 2. apply map_ext. intros []; reflexivity. Qed.

Lemma srun_run os : forall s : tset K, srun s os = let* (s', xs) := run s (map given os) in Ret (s', map forget_obs xs).
Proof.
  induction os as [|o os IH]; intros s; [reflexivity|]. cbn [map srun run].
  assert (H : sstep s o = let* (s1, x) := step s (given o) in Ret (s1, forget_obs x)).
  { destruct o as [k replace|k|k]; cbn [sstep step given]; unfold set_insert, set_remove, set_find.
    - destruct (map_insert _ s k tt replace) as [[[[s' [k' []]] prev]|[k' []]]| |]; reflexivity.
    - destruct (map_remove s k) as [[[s' [k' []]]|]| |]; reflexivity.
    - destruct (map_find s k) as [[[k' []]|]| |]; reflexivity. }
  rewrite H. destruct (step s (given o)) as [[s1 x]| |]; cbn [bind]; try reflexivity. rewrite IH.
  destruct (run s1 (map given os)) as [[s2 xs]| |]; reflexivity.
Qed.

(** find on a set, from find on the map. *)
Lemma set_find_ok {Q} {KQ : Key Q} (s : tset K) (q : Q) : mwf s ->
  set_find s q = Ret (match member (cls q) (set_visit s) with Some k => Ok k | None => Err NotFound end).
Proof.
  intros HW. unfold set_find. rewrite map_find_ok by assumption. cbn [bind]. unfold set_visit. rewrite member_fst.
  destruct (lookup (cls q) (map_visit s)) as [[k []]|]; reflexivity.
Qed.

Lemma set_visit_length (s : tset K) : length (set_visit s) = length (map_visit s).
Proof. apply map_length. Qed.
Lemma set_size_ok (s : tset K) : mwf s -> set_size s = N.of_nat (length (set_visit s)).
Proof. intros HW. rewrite set_visit_length. apply (mwf_size _ HW). Qed.

Theorem set_history (os : list (sop K)) :
  (srun set_new os = Panic /\ checked = true) \/
  exists s, srun set_new os = Ret (s, snd (sspec_run [] os)) /\ reachable s /\
    (forall Q (KQ : Key Q) (q : Q),
       set_find s q = Ret (match member (cls q) (fst (sspec_run [] os)) with Some k => Ok k | None => Err NotFound end)) /\
    set_size s = N.of_nat (length (fst (sspec_run [] os))) /\
    Permutation (set_visit s) (fst (sspec_run [] os)).
Proof.
  rewrite srun_run. unfold set_new. pose proof (spec_forget (map given os) []) as HF. rewrite forget_given in HF.
  change (map fst (@nil (K * unit))) with (@nil K) in HF. rewrite HF. cbn [fst snd].
  destruct (run_ok (map given os) (map_new (V := unit)) [] (reach_new K unit KK)) as [(Hp & Hc)|(m & Hm & HR & HP)]; [constructor| |].
  - left. rewrite Hp. auto.
  - right. exists m. rewrite Hm. cbn [bind]. split; [reflexivity|]. split; [assumption|].
    pose proof (reachable_mwf _ HR) as HW. split; [|split].
    + intros Q KQ q. rewrite set_find_ok by assumption. unfold set_visit. rewrite !member_fst.
      rewrite (lookup_perm _ _ _ (mwf_uniq _ HW) HP). reflexivity.
    + rewrite set_size_ok by assumption. rewrite set_visit_length, map_length. rewrite (Permutation_length HP). reflexivity.
    + unfold set_visit. apply Permutation_map. assumption.
Qed.

(** The set history that forgets the values of a map history. *)
Theorem set_forgets {V} (os : list (op K V)) m xs s ys :
  run map_new os = Ret (m, xs) -> srun set_new (map forget os) = Ret (s, ys) ->
  ys = map forget_obs xs /\ set_size s = map_size m /\ Permutation (set_visit s) (map fst (map_visit m)) /\
  forall Q (KQ : Key Q) (q : Q),
    set_find s q = match map_find m q with Ret (Ok e) => Ret (Ok (fst e)) | Ret (Err x) => Ret (Err x) | Panic => Panic | Diverge => Diverge end.
Proof.
  intros Hm Hs. pose proof (spec_forget os []) as HF. change (map fst (@nil (K * V))) with (@nil K) in HF.
  destruct (set_history (map forget os)) as [[H _]|(s1 & H1 & HR & Hf & Hz & Hv)]; [congruence|].
  rewrite Hs in H1. injection H1 as <- ->. rewrite HF in *. cbn [fst snd] in *.
  destruct (history_refines os) as [[H _]|(m1 & H1 & Hf' & Hz' & Hv')]; [congruence|].
  rewrite Hm in H1. injection H1 as <- ->.
  split; [reflexivity|]. split; [|split].
  - rewrite Hz, Hz', map_length. reflexivity.
  - rewrite Hv, Hv'. reflexivity.
  - intros Q KQ q. rewrite Hf, Hf', member_fst. destruct (lookup (cls q) (fst (spec_run [] os))); reflexivity.
Qed.
End Hist.

(** * transform and transmute *)

(** What a set operation leaves of an element. *)
Definition s_to {K R} (o : sres R) (k : K) : option K := match o with SUnchanged _ => Some k | SDropped _ => None end.
Definition s_red {R} (o : sres R) : R := match o with SUnchanged r | SDropped r => r end.
Definition sk_to {S R} (o : skres S R) : option S := match o with SKTransmuted k _ => Some k | SKDropped _ => None end.
Definition sk_red {S R} (o : skres S R) : R := match o with SKTransmuted _ r | SKDropped r => r end.
Definition sb_to {K R} (o : sbres R) (k k' : K) (x : option K) : Prop :=
  match o with
  | SBUnchangedLR _ => x = Some k \/ x = Some k'
  | SBUnchangedL _ => x = Some k
  | SBUnchangedR _ => x = Some k'
  | SBDropped _ => x = None
  end.
Definition sb_red {R} (o : sbres R) : R :=
  match o with SBUnchangedLR r | SBUnchangedL r | SBUnchangedR r | SBDropped r => r end.

(** find on the image of a set. *)
Definition sfind_map {K S} (f : K -> option S) (a : outcome (result K trie_error)) : outcome (result S trie_error) :=
  match a with
  | Ret (Ok k) => Ret (match f k with Some x => Ok x | None => Err NotFound end)
  | Ret (Err e) => Ret (Err e)
  | Panic => Panic
  | Diverge => Diverge
  end.

Lemma tcall_of {K R} (op : stransform_op K R) (e : K * unit) : tcall (transform_of op) e = vres_of (stcall op (fst e)).
Proof. destruct op; reflexivity. Qed.
Lemma mcall_of {K S R} (op : stransmute_op K S R) (e : K * unit) : mcall (transmute_of op) e = kres_of (smcall op (fst e)).
Proof. destruct op; reflexivity. Qed.
Lemma jcall_of {K R} (op : sjoint_op K R) (e e' : K * unit) : jcall (joint_of op) e e' = bres_of (sjcall op (fst e) (fst e')).
Proof. destruct op as [g []| | | |]; try reflexivity. cbn. destruct (g (fst e') (fst e)); reflexivity. Qed.

Section Trans.
Context {E : Env} {K R : Type} {KK : Key K}.
Context (rdef : R) (rd : R -> R -> R).

Lemma flat_fst {A B X Y} (f : A * X -> list (B * Y)) (g : A -> option B) l : (forall e, map fst (f e) = olist (g (fst e))) ->
  map fst (flat_map f l) = flat_map (fun k => olist (g k)) (map fst l).
Proof. intros H. induction l as [|e l IH]; [reflexivity|]. cbn [flat_map map]. rewrite map_app, H, IH. reflexivity. Qed.

Theorem set_transform_exact st (op : stransform_op K R) (s : tset K) : reachable s ->
  exists s' r o, set_transform rdef rd st op s = Ret (s', r, o) /\ reachable s' /\
    set_visit s' = flat_map (fun k => olist (s_to (stcall op k) k)) (set_visit s) /\
    set_size s' = N.of_nat (length (set_visit s')) /\
    (forall Q (KQ : Key Q) (q : Q), set_find s' q = sfind_map (fun k => s_to (stcall op k) k) (set_find s q)) /\
    (forall f, op = STGeneric f -> monoid rdef rd -> r = fold_right rd rdef (map (fun k => s_red (f k)) (set_visit s))) /\
    (o = Self -> s' = s).
Proof.
  intros HR. destruct (transform_exact rdef rd st (transform_of op) s HR) as (s' & r & o & H1 & H2 & H3 & H4 & H5).
  exists s', r, o. split; [exact H1|]. split; [assumption|]. split; [|split; [|split; [|split]]].
  - unfold set_visit. rewrite H3. apply flat_fst. intros e. rewrite tcall_of. destruct (stcall op (fst e)); reflexivity.
  - apply set_size_ok, reachable_mwf. assumption.
  - intros Q KQ q. unfold set_find. rewrite H5. unfold found, find_res. destruct (map_find s q) as [[[k []]|e]| |]; cbn [bind]; try reflexivity.
    rewrite tcall_of. cbn [fst sfind_map]. destruct (stcall op k); reflexivity.
  - intros f -> HM. rewrite (transform_reduction rdef rd st _ s s' r o HR HM H1). unfold set_visit. rewrite map_map. f_equal.
    apply map_ext. intros e. destruct (f (fst e)); reflexivity.
  - intros ->. destruct (map_transform_ok rdef rd st (transform_of op) s (reachable_mwf _ HR)) as (m2 & r2 & o2 & G1 & _ & _ & G4 & _).
    unfold set_transform in H1. rewrite G1 in H1. injection H1 as <- <- ->. auto.
Qed.

Theorem set_transmute_exact {S} {KS : Key S} (op : stransmute_op K S R) (s : tset K) : reachable s ->
  (forall k k' r, In k (set_visit s) -> smcall op k = SKTransmuted k' r -> cls k' = cls k) ->
  exists s' r, set_transmute rdef rd op s = Ret (s', r) /\ reachable s' /\
    set_visit s' = flat_map (fun k => olist (sk_to (smcall op k))) (set_visit s) /\
    set_size s' = N.of_nat (length (set_visit s')) /\
    (forall Q (KQ : Key Q) (q : Q), set_find s' q = sfind_map (fun k => sk_to (smcall op k)) (set_find s q)) /\
    (forall f, op = SMGeneric f -> monoid rdef rd -> r = fold_right rd rdef (map (fun k => sk_red (f k)) (set_visit s))).
Proof.
  intros HR HK. destruct (transmute_exact rdef rd (transmute_of op) s HR) as (s' & r & H1 & H2 & H3 & H4 & H5 & H6).
  { intros [k u] k' v x He. rewrite mcall_of. cbn [fst]. destruct (smcall op k) eqn:Hm; cbn [kres_of]; intros [= -> <- <-].
    eapply HK; [|exact Hm]. unfold set_visit. apply in_map_iff. exists (k, u). auto. }
  exists s', r. split; [exact H1|]. split; [assumption|]. split; [|split; [|split]].
  - unfold set_visit. rewrite H3. apply flat_fst. intros e. rewrite mcall_of. destruct (smcall op (fst e)); reflexivity.
  - apply set_size_ok, reachable_mwf. assumption.
  - intros Q KQ q. unfold set_find. rewrite H5. unfold found, find_res. destruct (map_find s q) as [[[k []]|e]| |]; cbn [bind]; try reflexivity.
    rewrite mcall_of. cbn [fst sfind_map]. destruct (smcall op k); reflexivity.
  - intros f -> HM. rewrite (H6 _ eq_refl HM). unfold set_visit. rewrite map_map. f_equal.
    apply map_ext. intros e. destruct (f (fst e)); reflexivity.
Qed.
End Trans.

(** * Joint operations *)

(** What find says on the merge of two sets. *)
Definition sfound {K L S} (fB : K -> L -> option S) (fL : K -> option S) (fR : L -> option S)
  (a : outcome (result K trie_error)) (b : outcome (result L trie_error)) : outcome (result S trie_error) :=
  let res o := Ret (match o with Some x => Ok x | None => Err NotFound end) in
  match a, b with
  | Ret (Ok k), Ret (Ok l) => res (fB k l)
  | Ret (Ok k), Ret (Err _) => res (fL k)
  | Ret (Err _), Ret (Ok l) => res (fR l)
  | Ret (Err _), Ret (Err _) => res None
  | _, _ => Panic
  end.

(** The merge of two sets, as a client sees it. *)
Record is_smerge {E : Env} {K L S} {KK : Key K} {KL : Key L} {KS : Key S}
  (fB : K -> L -> option S) (fL : K -> option S) (fR : L -> option S)
  (s : tset K) (right : tset L) (s' : tset S) : Prop := {
  ism_reach : reachable s';
  ism_find : forall Q (KQ : Key Q) (q : Q), set_find s' q = sfound fB fL fR (set_find s q) (set_find right q);
  ism_visit : Permutation (set_visit s') (smerge fB fL fR (set_visit s) (set_visit right));
  ism_size : set_size s' = N.of_nat (length (smerge fB fL fR (set_visit s) (set_visit right)))
}.

Section Joint.
Context {E : Env} {K L : Type} {KK : Key K} {KL : Key L}.

Lemma smerge_of {S} (fB : K -> L -> option S) fL fR (gB : K * unit -> L * unit -> option (S * unit)) gL gR ln lr :
  (forall e e', option_map fst (gB e e') = fB (fst e) (fst e')) ->
  (forall e, option_map fst (gL e) = fL (fst e)) -> (forall e, option_map fst (gR e) = fR (fst e)) ->
  map fst (merged_entries gB gL gR ln lr) = smerge fB fL fR (map fst ln) (map fst lr).
Proof.
  intros HB HL HR. unfold merged_entries, merge, smerge. rewrite map_app. f_equal.
  - clear -HB HL. induction ln as [|e l IH]; [reflexivity|]. cbn [flat_map map]. rewrite map_app, IH. f_equal.
    rewrite member_fst. unfold ecls. destruct (lookup (cls (fst e)) lr) as [e'|]; cbn [option_map]; [rewrite <- HB|rewrite <- HL].
    + destruct (gB e e'); reflexivity.
    + destruct (gL e); reflexivity.
  - clear -HR. induction lr as [|e l IH]; [reflexivity|]. cbn [filter flat_map map]. unfold unmatched at 1, ecls.
    rewrite member_fst. destruct (lookup (cls (fst e)) ln) as [e'|]; cbn [option_map].
    + exact IH.
    + cbn [flat_map]. rewrite map_app, IH. f_equal. rewrite <- HR. destruct (gR e); reflexivity.
Qed.

Lemma set_merge_of {S} {KS : Key S} (fB : K -> L -> option S) fL fR (gB : K * unit -> L * unit -> option (S * unit)) gL gR
  (s : tset K) (right : tset L) (s' : tset S) :
  (forall e e', option_map fst (gB e e') = fB (fst e) (fst e')) ->
  (forall e, option_map fst (gL e) = fL (fst e)) -> (forall e, option_map fst (gR e) = fR (fst e)) ->
  is_merge gB gL gR s right s' -> is_smerge fB fL fR s right s'.
Proof.
  intros HB HL HR [H1 H2 H3 H4]. pose proof (smerge_of fB fL fR gB gL gR (map_visit s) (map_visit right) HB HL HR) as HS. split.
  - assumption.
  - intros Q KQ q. unfold set_find. rewrite H2. unfold jfound, sfound.
    destruct (map_find s q) as [[[k []]|]| |], (map_find right q) as [[[l []]|]| |]; cbn [bind]; try reflexivity.
    + pose proof (HB (k, tt) (l, tt)) as H; cbn [fst] in H; rewrite <- H; clear H. destruct (gB (k, tt) (l, tt)) as [[]|]; reflexivity.
    + pose proof (HL (k, tt)) as H; cbn [fst] in H; rewrite <- H; clear H. destruct (gL (k, tt)) as [[]|]; reflexivity.
    + pose proof (HR (l, tt)) as H; cbn [fst] in H; rewrite <- H; clear H. destruct (gR (l, tt)) as [[]|]; reflexivity.
  - unfold set_visit. rewrite <- HS. apply Permutation_map. assumption.
  - unfold set_size, set_visit. rewrite H4, <- HS, map_length. reflexivity.
Qed.

Context {R : Type} (rdef : R) (rd : R -> R -> R) (st : strategy).

Lemma fst_t_to (o : sres R) (e : K * unit) : option_map fst (t_to (vres_of o) e) = s_to o (fst e).
Proof. destruct o; reflexivity. Qed.
Lemma fst_m_to {S} (o : skres S R) : option_map fst (m_to (kres_of o)) = sk_to o.
Proof. destruct o; reflexivity. Qed.

Lemma keeps_of {A S} {KA : Key A} {KS : Key S} (op : stransmute_op A S R) (s : tset A) :
  (forall k k' r, In k (set_visit s) -> smcall op k = SKTransmuted k' r -> cls k' = cls k) ->
  forall e k v x, In e (map_visit s) -> mcall (transmute_of op) e = KTransmuted k v x -> cls k = cls (fst e).
Proof.
  intros HK [k u] k' v x He. rewrite mcall_of. cbn [fst]. destruct (smcall op k) eqn:Hm; cbn [kres_of]; intros [= -> <- <-].
  eapply HK; [|exact Hm]. unfold set_visit. apply in_map_iff. exists (k, u). auto.
Qed.

Theorem set_tm_exact both lop rop (s : tset K) (right : tset L) s' r o : reachable s -> reachable right ->
  (forall l k x, In l (set_visit right) -> smcall rop l = SKTransmuted k x -> cls k = cls l) ->
  set_tm rdef rd st both lop rop s right = Ret (s', r, o) ->
  is_smerge (fun k l => s_to (stcall both (k, l)) k) (fun k => s_to (stcall lop k) k) (fun l => sk_to (smcall rop l)) s right s' /\
  (o = Self -> s' = s) /\ o <> Right.
Proof.
  intros HR HRr HK HT. destruct (tm_exact rdef rd st _ _ _ s right s' r o HR HRr (keeps_of rop right HK) HT) as [HM Ho].
  split; [|exact Ho]. refine (set_merge_of _ _ _ _ _ _ s right s' _ _ _ HM).
  - intros e e'. cbn [tcall both_transform_of fst snd]. destruct (stcall both (fst e, fst e')); reflexivity.
  - intros e. rewrite tcall_of. destruct (stcall lop (fst e)); reflexivity.
  - intros e. rewrite mcall_of. apply fst_m_to.
Qed.

Theorem set_mt_exact both lop rop (s : tset K) (right : tset L) s' r o : reachable s -> reachable right ->
  (forall k l x, In k (set_visit s) -> smcall lop k = SKTransmuted l x -> cls l = cls k) ->
  set_mt rdef rd st both lop rop s right = Ret (s', r, o) ->
  is_smerge (fun k l => s_to (stcall both (k, l)) l) (fun k => sk_to (smcall lop k)) (fun l => s_to (stcall rop l) l) s right s' /\
  (o = Right -> s' = right) /\ o <> Self.
Proof.
  intros HR HRr HK HT. destruct (mt_exact rdef rd st _ _ _ s right s' r o HR HRr (keeps_of lop s HK) HT) as [HM Ho].
  split; [|exact Ho]. refine (set_merge_of _ _ _ _ _ _ s right s' _ _ _ HM).
  - intros e e'. cbn [tcall both_transform_of fst snd]. destruct (stcall both (fst e, fst e')); reflexivity.
  - intros e. rewrite mcall_of. apply fst_m_to.
  - intros e. rewrite tcall_of. destruct (stcall rop (fst e)); reflexivity.
Qed.

Theorem set_mm_exact {S} {KS : Key S} (both : stransmute_op (K * L) S R) lop rop (s : tset K) (right : tset L) s' r :
  reachable s -> reachable right ->
  (forall k l z x, In k (set_visit s) -> In l (set_visit right) -> cls k = cls l -> smcall both (k, l) = SKTransmuted z x -> cls z = cls k) ->
  (forall k z x, In k (set_visit s) -> smcall lop k = SKTransmuted z x -> cls z = cls k) ->
  (forall l z x, In l (set_visit right) -> smcall rop l = SKTransmuted z x -> cls z = cls l) ->
  set_mm rdef rd both lop rop s right = Ret (s', r) ->
  is_smerge (fun k l => sk_to (smcall both (k, l))) (fun k => sk_to (smcall lop k)) (fun l => sk_to (smcall rop l)) s right s'.
Proof.
  intros HR HRr HB HKl HKr HT.
  refine (set_merge_of _ _ _ _ _ _ s right s' _ _ _ (mm_exact rdef rd _ _ _ s right s' r HR HRr _ (keeps_of lop s HKl) (keeps_of rop right HKr) HT)).
  - intros e e'. cbn [mcall both_transmute_of fst snd]. apply fst_m_to.
  - intros e. rewrite mcall_of. apply fst_m_to.
  - intros e. rewrite mcall_of. apply fst_m_to.
  - intros [k u] [l w] z v x He He' Hc. cbn [mcall both_transmute_of fst snd] in *. destruct (smcall both (k, l)) eqn:Hm; cbn [kres_of]; intros [= -> <- <-].
    eapply HB; [| |exact Hc|exact Hm]; unfold set_visit; apply in_map_iff; [exists (k, u)|exists (l, w)]; auto.
Qed.
End Joint.

Section TT.
Context {E : Env} {K R : Type} {KK : Key K}.
Context (rdef : R) (rd : R -> R -> R) (st : strategy).

Lemma one_sided_of (both : sjoint_op K R) : one_sided (joint_of both) <-> match both with SJUnchangedL _ | SJUnchangedR _ => True | _ => False end.
Proof. destruct both; reflexivity. Qed.

(** Which of two equal elements is kept by the one-sided constants is open. *)
Definition sb_about (op : sjoint_op K R) (k k' : K) (x : option K) : Prop :=
  match op with
  | SJUnchangedL _ | SJUnchangedR _ => x = Some k \/ x = Some k'
  | _ => sb_to (sjcall op k k') k k' x
  end.

Theorem set_tt_exact (both : sjoint_op K R) lop rop (s right : tset K) s' r o : reachable s -> reachable right ->
  tame (joint_of both) (transform_of lop) (transform_of rop) (map_visit s) (map_visit right) ->
  set_tt rdef rd st both lop rop s right = Ret (s', r, o) ->
  (exists fB, is_smerge fB (fun k => s_to (stcall lop k) k) (fun k => s_to (stcall rop k) k) s right s' /\
     forall k k', In k (set_visit s) -> In k' (set_visit right) -> cls k = cls k' -> sb_about both k k' (fB k k')) /\
  (o = Self -> s' = s) /\ (o = Right -> s' = right).
Proof.
  intros HR HRr HD HT. destruct (tt_about rdef rd st _ _ _ s right s' r o HR HRr HD HT) as [(fB & HM & HB) Ho]. split; [|exact Ho].
  exists (fun k k' => option_map fst (fB (k, tt) (k', tt))). split.
  - refine (set_merge_of _ _ _ _ _ _ s right s' _ _ _ HM).
    + intros [k []] [k' []]. reflexivity.
    + intros e. rewrite tcall_of. destruct (stcall lop (fst e)); reflexivity.
    + intros e. rewrite tcall_of. destruct (stcall rop (fst e)); reflexivity.
  - intros k k' Hk Hk' Hc. unfold set_visit in Hk, Hk'. apply in_map_iff in Hk, Hk'.
    destruct Hk as ([k1 []] & <- & Hk), Hk' as ([k1' []] & <- & Hk'). cbn [fst] in *.
    specialize (HB (k1, tt) (k1', tt) Hk Hk' Hc). unfold b_about in HB. rewrite jcall_of in HB. cbn [fst] in HB.
    destruct both as [g fl|rr|rr|rr|rr]; cbn [sb_about joint_of one_sided] in *.
    + destruct HB as [HB|[[] _]]. destruct (sjcall (SJGeneric g fl) k1 k1'); cbn [bres_of b_to sb_to] in *;
        try destruct HB as [HB|HB]; rewrite HB; cbn [option_map fst]; auto.
    + destruct HB as [HB|[[] _]]. cbn in HB |- *. destruct HB as [HB|HB]; rewrite HB; cbn; auto.
    + destruct HB as [HB|[_ [HB|HB]]]; cbn in HB; rewrite HB; cbn; auto.
    + destruct HB as [HB|[_ [HB|HB]]]; cbn in HB; rewrite HB; cbn; auto.
    + destruct HB as [HB|[[] _]]. cbn in HB |- *. rewrite HB. reflexivity.
Qed.
End TT.

(** * Set algebra *)
Section Algebra.
Context {E : Env} {K R : Type} {KK : Key K}.
Context (rdef : R) (rd : R -> R -> R) (st : strategy).

Definition contains {Q} {KQ : Key Q} (s : tset K) (q : Q) : bool :=
  match set_find s q with Ret (Ok _) => true | _ => false end.
(** The number of elements two sets share. *)
Definition sshared (s right : tset K) : N := N.of_nat (length (filter (contains right) (set_visit s))).

Lemma contains_has {Q} {KQ : Key Q} (s : tset K) (q : Q) : contains s q = has s q.
Proof. unfold contains, has, set_find. destruct (map_find s q) as [[[k []]|]| |]; reflexivity. Qed.
Lemma sshared_shared (s right : tset K) : sshared s right = shared s right.
Proof.
  unfold sshared, shared, set_visit. f_equal. induction (map_visit s) as [|e l IH]; [reflexivity|]. cbn [map filter].
  rewrite contains_has. destruct (has right (fst e)); cbn [length]; rewrite IH; reflexivity.
Qed.

(** The four constant combinations. *)
Definition sj (b : bool) (r : R) : sjoint_op K R := if b then SJUnchangedLR r else SJRemoved r.
Definition sk (b : bool) (r : R) : stransform_op K R := if b then STUnchanged r else STRemoved r.

Theorem set_algebra kb kl kr rb rl rr (s right : tset K) s' r o : reachable s -> reachable right ->
  set_tt rdef rd st (sj kb rb) (sk kl rl) (sk kr rr) s right = Ret (s', r, o) ->
  reachable s' /\
  (forall Q (KQ : Key Q) (q : Q), contains s' q = if contains s q then (if contains right q then kb else kl) else contains right q && kr) /\
  set_size s' = (if kb then sshared s right else 0) + (if kl then set_size s - sshared s right else 0) +
                (if kr then set_size right - sshared s right else 0) /\
  sshared s right <= set_size s /\ sshared s right <= set_size right /\
  (forall k, In k (set_visit s') -> In k (set_visit s) \/ In k (set_visit right)).
Proof.
  intros HR HRr HT.
  assert (HT' : map_tt rdef rd st (kj kb rb) (kt kl rl) (kt kr rr) s right = Ret (s', r, o)).
  { rewrite <- HT. unfold set_tt. destruct kb, kl, kr; reflexivity. }
  destruct (tt_algebra rdef rd st kb kl kr rb rl rr s right s' r o HR HRr HT') as (H1 & H2 & H3 & H4 & H5 & H6).
  rewrite !sshared_shared. split; [assumption|]. split; [intros Q KQ q; rewrite !contains_has; apply H2|].
  split; [exact H3|]. split; [exact H4|]. split; [exact H5|].
  intros k Hk. unfold set_visit in *. apply in_map_iff in Hk. destruct Hk as (e & <- & He).
  destruct (H6 e He); [left|right]; apply in_map; assumption.
Qed.

Theorem set_union rb rl rr (s right : tset K) s' r o : reachable s -> reachable right ->
  set_tt rdef rd st (SJUnchangedLR rb) (STUnchanged rl) (STUnchanged rr) s right = Ret (s', r, o) ->
  reachable s' /\ (forall Q (KQ : Key Q) (q : Q), contains s' q = contains s q || contains right q) /\
  set_size s' + sshared s right = set_size s + set_size right /\
  (forall k, In k (set_visit s') -> In k (set_visit s) \/ In k (set_visit right)).
Proof.
  intros HR HRr HT. destruct (set_algebra true true true rb rl rr s right s' r o HR HRr HT) as (H1 & H2 & H3 & H4 & H5 & H6).
  split; [assumption|]. split; [|split; [lia|assumption]].
  intros Q KQ q. rewrite H2. destruct (contains s q), (contains right q); reflexivity.
Qed.
Theorem set_intersection rb rl rr (s right : tset K) s' r o : reachable s -> reachable right ->
  set_tt rdef rd st (SJUnchangedLR rb) (STRemoved rl) (STRemoved rr) s right = Ret (s', r, o) ->
  reachable s' /\ (forall Q (KQ : Key Q) (q : Q), contains s' q = contains s q && contains right q) /\
  set_size s' = sshared s right /\
  (forall k, In k (set_visit s') -> In k (set_visit s) \/ In k (set_visit right)).
Proof.
  intros HR HRr HT. destruct (set_algebra true false false rb rl rr s right s' r o HR HRr HT) as (H1 & H2 & H3 & H4 & H5 & H6).
  split; [assumption|]. split; [|split; [lia|assumption]].
  intros Q KQ q. rewrite H2. destruct (contains s q), (contains right q); reflexivity.
Qed.
Theorem set_difference rb rl rr (s right : tset K) s' r o : reachable s -> reachable right ->
  set_tt rdef rd st (SJRemoved rb) (STUnchanged rl) (STRemoved rr) s right = Ret (s', r, o) ->
  reachable s' /\ (forall Q (KQ : Key Q) (q : Q), contains s' q = contains s q && negb (contains right q)) /\
  set_size s' + sshared s right = set_size s /\
  (forall k, In k (set_visit s') -> In k (set_visit s) \/ In k (set_visit right)).
Proof.
  intros HR HRr HT. destruct (set_algebra false true false rb rl rr s right s' r o HR HRr HT) as (H1 & H2 & H3 & H4 & H5 & H6).
  split; [assumption|]. split; [|split; [lia|assumption]].
  intros Q KQ q. rewrite H2. destruct (contains s q), (contains right q); reflexivity.
Qed.
Theorem set_symmetric_difference rb rl rr (s right : tset K) s' r o : reachable s -> reachable right ->
  set_tt rdef rd st (SJRemoved rb) (STUnchanged rl) (STUnchanged rr) s right = Ret (s', r, o) ->
  reachable s' /\ (forall Q (KQ : Key Q) (q : Q), contains s' q = xorb (contains s q) (contains right q)) /\
  set_size s' + 2 * sshared s right = set_size s + set_size right /\
  (forall k, In k (set_visit s') -> In k (set_visit s) \/ In k (set_visit right)).
Proof.
  intros HR HRr HT. destruct (set_algebra false true true rb rl rr s right s' r o HR HRr HT) as (H1 & H2 & H3 & H4 & H5 & H6).
  split; [assumption|]. split; [|split; [lia|assumption]].
  intros Q KQ q. rewrite H2. destruct (contains s q), (contains right q); reflexivity.
Qed.
End Algebra.

(** * Flips *)
Lemma sjflip_call {A R} (op : sjoint_op A R) (a b : A) :
  match op with SJUnchangedL _ | SJUnchangedR _ => False | _ => True end -> sjcall (sjflip op) b a = sbres_flip (sjcall op a b).
Proof. destruct op as [f []| | | |]; cbn; try reflexivity; try contradiction. intros _. destruct (f b a); reflexivity. Qed.
Lemma stflip_call {A B R} (op : stransform_op (A * B) R) a b : stcall (stflip op) (b, a) = stcall op (a, b).
Proof. destruct op; reflexivity. Qed.
Lemma smflip_call {A B S R} (op : stransmute_op (A * B) S R) a b : smcall (smflip op) (b, a) = smcall op (a, b).
Proof. destruct op; reflexivity. Qed.

(** * Transfute *)
Section Transfute.
Context {E : Env} {K V W R : Type} {KK : Key K}.
Context (rdef : R) (rd : R -> R -> R) (st : strategy).

(** The key stays, the value is the chosen one. *)
Definition f_to {X} (o : skres X R) (k : K) : option (K * X) :=
  match o with SKTransmuted v _ => Some (k, v) | SKDropped _ => None end.

Lemma mcall_transfute {A B} (op : stransmute_op (K * A) B R) e :
  mcall (transfute_of op) e = match smcall op e with SKTransmuted v r => KTransmuted (fst e) v r | SKDropped r => KDropped r end.
Proof. destruct op; reflexivity. Qed.
Lemma transfute_keeps {A B} (op : stransmute_op (K * A) B R) e k v x : mcall (transfute_of op) e = KTransmuted k v x -> cls k = cls (fst e).
Proof. rewrite mcall_transfute. destruct (smcall op e); intros [= <- _ _]. reflexivity. Qed.

Lemma is_merge_ext {A B} {KA : Key A} (fB gB : K * V -> K * W -> option (A * B)) fL gL fR gR (m : trie K V) (right : trie K W) (m' : trie A B) :
  (forall e e', fB e e' = gB e e') -> (forall e, fL e = gL e) -> (forall e, fR e = gR e) ->
  is_merge fB fL fR m right m' -> is_merge gB gL gR m right m'.
Proof.
  intros HB HL HR [H1 H2 H3 H4].
  assert (HE : forall ln lr, merged_entries fB fL fR ln lr = merged_entries gB gL gR ln lr).
  { intros ln lr. unfold merged_entries, merge. f_equal; apply flat_map_ext; intros e; rewrite ?HR; [|reflexivity].
    destruct (lookup (ecls e) lr); rewrite ?HB, ?HL; reflexivity. }
  split; [assumption| | |]; [|rewrite <- HE; assumption|rewrite <- HE; assumption].
  intros Q KQ q. rewrite H2. unfold jfound. destruct (map_find m q) as [[e|]| |], (map_find right q) as [[e'|]| |]; rewrite ?HB, ?HL, ?HR; reflexivity.
Qed.

Theorem tf_exact both lop rop (m : trie K V) (right : trie K W) m' r o : reachable m -> reachable right ->
  map_tf rdef rd st both lop rop m right = Ret (m', r, o) ->
  is_merge (fun e e' => t_to (tcall both (e, e')) e) (fun e => t_to (tcall lop e) e) (fun e' => f_to (smcall rop e') (fst e')) m right m' /\
  (o = Self -> m' = m) /\ o <> Right.
Proof.
  intros HR HRr HT. destruct (tm_exact rdef rd st both lop (transfute_of rop) m right m' r o HR HRr) as [HM Ho]; [|exact HT|].
  { intros e k v x _. apply transfute_keeps. }
  split; [|exact Ho]. eapply is_merge_ext; [| | |exact HM]; intros; try reflexivity. cbv beta. rewrite mcall_transfute.
  destruct (smcall rop e); reflexivity.
Qed.

Theorem ft_exact both lop rop (m : trie K V) (right : trie K W) m' r o : reachable m -> reachable right ->
  map_ft rdef rd st both lop rop m right = Ret (m', r, o) ->
  is_merge (fun e e' => t_to (tcall both (e, e')) e') (fun e => f_to (smcall lop e) (fst e)) (fun e' => t_to (tcall rop e') e') m right m' /\
  (o = Right -> m' = right) /\ o <> Self.
Proof.
  intros HR HRr HT. destruct (mt_exact rdef rd st both (transfute_of lop) rop m right m' r o HR HRr) as [HM Ho]; [|exact HT|].
  { intros e k v x _. apply transfute_keeps. }
  split; [|exact Ho]. eapply is_merge_ext; [| | |exact HM]; intros; try reflexivity. cbv beta. rewrite mcall_transfute.
  destruct (smcall lop e); reflexivity.
Qed.

Theorem tf_returns both lop rop (m : trie K V) (right : trie K W) : reachable m -> reachable right ->
  ((exists m' r o, map_tf rdef rd st both lop rop m right = Ret (m', r, o)) <->
   ~ exists h, (2 <= cnt h (map_visit m))%nat /\ (3 <= cnt h (map_visit right))%nat) /\
  map_tf rdef rd st both lop rop m right <> Panic.
Proof.
  intros HR HRr. apply (tm_returns rdef rd st both lop (transfute_of rop) m right HR HRr). intros e k v x _. apply transfute_keeps.
Qed.
Theorem ft_returns both lop rop (m : trie K V) (right : trie K W) : reachable m -> reachable right ->
  ((exists m' r o, map_ft rdef rd st both lop rop m right = Ret (m', r, o)) <->
   ~ exists h, (3 <= cnt h (map_visit m))%nat /\ (2 <= cnt h (map_visit right))%nat) /\
  map_ft rdef rd st both lop rop m right <> Panic.
Proof.
  intros HR HRr. apply (mt_returns rdef rd st both (transfute_of lop) rop m right HR HRr). intros e k v x _. apply transfute_keeps.
Qed.

(** The key object of every entry of the result. *)
Theorem tf_keys both lop rop (m : trie K V) (right : trie K W) m' r o : reachable m -> reachable right ->
  map_tf rdef rd st both lop rop m right = Ret (m', r, o) ->
  forall x, In x (map_visit m') ->
    (exists e, In e (map_visit m) /\ fst x = fst e) \/
    (exists e' z, In e' (map_visit right) /\ lookup (cls (fst e')) (map_visit m) = None /\ fst x = fst e' /\ smcall rop e' = SKTransmuted (snd x) z).
Proof.
  intros HR HRr HT x Hx. destruct (tf_exact both lop rop m right m' r o HR HRr HT) as [HM _].
  destruct (merge_source _ _ _ _ _ _ HM x Hx) as [(e & e' & H1 & H2 & H3 & H4)|[(e & H1 & _ & H4)|(e & H1 & H2 & H4)]].
  - left. exists e. apply t_to_key in H4. auto.
  - left. exists e. apply t_to_key in H4. auto.
  - right. unfold f_to in H4. destruct (smcall rop e) as [v z|] eqn:Hs; [|discriminate]. injection H4 as <-. exists e, z. auto.
Qed.
Theorem ft_keys both lop rop (m : trie K V) (right : trie K W) m' r o : reachable m -> reachable right ->
  map_ft rdef rd st both lop rop m right = Ret (m', r, o) ->
  forall x, In x (map_visit m') ->
    (exists e', In e' (map_visit right) /\ fst x = fst e') \/
    (exists e z, In e (map_visit m) /\ lookup (cls (fst e)) (map_visit right) = None /\ fst x = fst e /\ smcall lop e = SKTransmuted (snd x) z).
Proof.
  intros HR HRr HT x Hx. destruct (ft_exact both lop rop m right m' r o HR HRr HT) as [HM _].
  destruct (merge_source _ _ _ _ _ _ HM x Hx) as [(e & e' & H1 & H2 & H3 & H4)|[(e & H1 & H2 & H4)|(e & H1 & _ & H4)]].
  - left. exists e'. apply t_to_key in H4. auto.
  - right. unfold f_to in H4. destruct (smcall lop e) as [v z|] eqn:Hs; [|discriminate]. injection H4 as <-. exists e, z. auto.
  - left. exists e. apply t_to_key in H4. auto.
Qed.
End Transfute.
