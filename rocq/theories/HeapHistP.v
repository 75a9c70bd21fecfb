(** Every version of a history keeps standing for its tree. *)
From Coq Require Import NArith Arith List Bool Lia ZifyBool ZifyN ZifyNat.
From Verif Require Import Base Words Flag FlagP Bia BiaP Node Api Trans Transform Joint JointT Reach ReachP Versions VersionsP Heap SpecH HeapP HeapOpP HeapHist.
Import ListNotations.
Open Scope N_scope.

Section Api.
Context {E : Env} {K V : Type} {KK : Key K} {NZ : Noise K V}.
Notation heap := (heap K V).
Implicit Types (h : heap).

Lemma enough_ok h n t : rep h n t -> (addr_of n < enough h)%nat.
Proof. intros H. apply rep_lt in H. unfold enough. lia. Qed.

Lemma hm_new_ok h n h' : hm_new h = (n, h') -> ext h h' /\ rep h' n map_new /\ addr_of n = length (others h).
Proof.
  unfold hm_new, alloc. intros [= <- <-]. split; [apply ext_others_alloc|]. split; [|reflexivity].
  apply rep_alloc_C. repeat split. constructor.
Qed.

Lemma hm_size_ok h n t : rep h n t -> hm_size h n = Ret (map_size t).
Proof. apply h_size_ok. Qed.
Lemma hm_visit_ok h n t : rep h n t -> hm_visit h n = Ret (map_visit t).
Proof. intros H. apply h_visit_ok; [exact H|eapply enough_ok, H]. Qed.

Section Query.
Context {Q : Type} {KQ : Key Q}.

Lemma hm_find_ok h n t (q : Q) : rep h n t ->
  refines (fun r r' => match r, r' with Ok a, Ok e => at_ h n a e | Err _, Err _ => True | _, _ => False end) (hm_find h n q) (map_find t q).
Proof.
  intros H. unfold hm_find, map_find. apply refines_same. intros f _.
  eapply refines_bind; [apply (h_find_ok h q (enough h) n t (Some f) H (enough_ok _ _ _ H))|].
  intros r r' [a e Ha|]; constructor; [exact Ha|exact I].
Qed.

Definition mins_rel h n (r : result (hnode * addr * option addr) addr * heap) (r' : result (trie K V * (K * V) * option (K * V)) (K * V)) : Prop :=
  let (r, h') := r in
  match r, r' with
  | Err a, Err e => h' = h /\ at_ h n a e
  | Ok (n', a, prev), Ok (t', e, prev') => ext h h' /\ rep h' n' t' /\
      (length h <= addr_of n')%nat /\ (length h <= a)%nat /\ at_ h' n' a e /\ orel (at_ h n) prev prev' /\ shares h n h' n'
  | _, _ => False
  end.

Lemma hm_insert_ok into h n t (q : Q) v replace : rep h n t ->
  refines (mins_rel h n) (hm_insert into h n q v replace) (map_insert into t q v replace).
Proof.
  intros H. unfold hm_insert, map_insert. apply refines_same. intros f _.
  eapply refines_bind; [apply (h_insert_ok q (into q) v replace (enough h) h n t (Some f) H (enough_ok _ _ _ H))|].
  intros [[a|n' a prev] h'] r' Hr; cbn in Hr.
  - destruct Hr as (-> & [k' v'] & -> & He). constructor. split; [reflexivity|exact He].
  - destruct Hr as (t' & [k' v'] & prev' & -> & Hr).
    replace (match inserted t' (k', v') prev' with
      | IFound k' v' => Ret (Err (k', v'))
      | IC c k' v' prev => Ret (Ok (MC c, (k', v'), prev))
      | IL l k' v' prev => Ret (Ok (ML l, (k', v'), prev))
      | IS s k' v' prev => Ret (Ok (MS s, (k', v'), prev))
      end) with (Ret (Ok (t', (k', v'), prev') : result (trie K V * (K * V) * option (K * V)) (K * V))) by (destruct t'; reflexivity).
    constructor. exact Hr.
Qed.

Definition mrem_rel h n (r : result (hnode * addr) trie_error * heap) (r' : result (trie K V * (K * V)) trie_error) : Prop :=
  let (r, h') := r in
  match r, r' with
  | Err _, Err _ => h' = h
  | Ok (n', a), Ok (t', e) => ext h h' /\ rep h' n' t' /\ ((length h <= addr_of n')%nat \/ (addr_of n' < addr_of n)%nat) /\
      at_ h n a e /\ shares h n h' n'
  | _, _ => False
  end.

Lemma hm_remove_ok h n t (q : Q) : rep h n t ->
  refines (mrem_rel h n) (hm_remove h n q) (map_remove t q).
Proof.
  intros H. unfold hm_remove, map_remove. apply refines_same. intros f _.
  eapply refines_bind; [apply (h_remove_ok q (enough h) h n t (Some f) H (enough_ok _ _ _ H))|].
  intros [[|n' a|a] h'] r' Hr; cbn in Hr.
  - destruct Hr as (-> & ->). constructor. reflexivity.
  - destruct Hr as (t' & [k' v'] & -> & Hr).
    replace (match removed_ t' (k', v') with
      | RNotFound => Ret (Err NotFound)
      | RC c k v => Ret (Ok (MC c, (k, v)))
      | RL l k v => Ret (Ok (ML l, (k, v)))
      | RS s k v => Ret (Ok (MS s, (k, v)))
      | RZ k v => Ret (Ok (map_new, (k, v)))
      end) with (Ret (Ok (t', (k', v')) : result (trie K V * (K * V)) trie_error)) by (destruct t'; reflexivity).
    constructor. exact Hr.
  - destruct Hr as (-> & [k' v'] & -> & Hat). cbn [fst snd]. unfold hm_new, alloc. pose proof (len_others h h (ext_refl h)) as Hlo. constructor. cbn.
    split; [apply ext_others_alloc|]. split; [apply rep_alloc_C; repeat split; constructor|]. split; [left; exact Hlo|]. split; [exact Hat|].
    intros x Hx. destruct (inside_new_C _ _ _ Hx) as [->|(c & [] & _)]. left. exact Hlo.
Qed.

Lemma hm_get_ok h n t (q : Q) : rep h n t ->
  hm_get h n q = (let* r := map_find t q in Ret (match r with Ok e => Some e | Err _ => None end)).
Proof.
  intros H. unfold hm_get. destruct (hm_find_ok h n t q H) as [r r' Hr| |]; cbn [bind]; try reflexivity.
  destruct r, r'; try contradiction; [|reflexivity]. destruct Hr as (Hr & _). rewrite Hr. reflexivity.
Qed.

End Query.

Lemma hm_eq_true (m n : hnode) : hm_eq m n = true <-> m = n.
Proof.
  destruct m as [a|a|a], n as [b|b|b]; cbn; split; try discriminate; intros H.
  all: try (apply Nat.eqb_eq in H; congruence). all: injection H as ->; apply Nat.eqb_refl.
Qed.

End Api.

Section Hist.
Context {E : Env} {K V R : Type} {KK : Key K} {NZ : Noise K V}.
Context (rdef : R) (rd : R -> R -> R).
Notation heap := (heap K V).
Implicit Types (h : heap).

Lemma rep_versions_ext h h' vs ts : Forall2 (rep h) vs ts -> ext h h' -> Forall2 (rep h') vs ts.
Proof. intros H He. eapply forall2_impl; [|exact H]. intros. eapply rep_ext; eassumption. Qed.

Lemma forall2_snoc {A B} (P : A -> B -> Prop) l l' x y : Forall2 P l l' -> P x y -> Forall2 P (l ++ [x]) (l' ++ [y]).
Proof. intros H1 H2. apply Forall2_app; [exact H1|]. constructor; [exact H2|constructor]. Qed.

Lemma nth_version (ts : list (trie K V)) i t : nth_error ts i = Some t -> version map_new ts i = t.
Proof. apply nth_error_nth. Qed.

Lemma hstep_ok h vs c h' vs' ts : hstep rdef rd h vs c h' vs' -> Forall2 (rep h) vs ts ->
  ext h h' /\ exists ts', tstep rdef rd ts c ts' /\ Forall2 (rep h') vs' ts'.
Proof.
  intros H HF.
  assert (Hnth : forall i n, nth_error vs i = Some n -> exists t, nth_error ts i = Some t /\ rep h n t /\ (i < length ts)%nat).
  { intros i n Hi. pose proof (nth_rel _ _ _ HF i) as Ho. rewrite Hi in Ho. inversion Ho as [x t Hr Ha Hb|]; subst.
    exists t. split; [reflexivity|]. split; [exact Hr|]. apply nth_error_Some. congruence. }
  destruct H as [h vs n h' Hn|h vs i n Hi|h vs i k v replace n n' a prev h' Hi Ho|h vs i k v replace n a h' Hi Ho
                |h vs i k n n' a h' Hi Ho|h vs i k n e h' Hi Ho|h vs c ts0 t x h' n' Hb Hu HF0 Hd He Ht Hs|h vs c h' He].
  - destruct (hm_new_ok _ _ _ Hn) as (He & Hr & _). split; [exact He|]. eexists. split; [constructor|].
    apply forall2_snoc; [eapply rep_versions_ext; eassumption|exact Hr].
  - split; [apply ext_refl|]. destruct (Hnth _ _ Hi) as (t & Hi' & Ht & Hl). eexists. split; [econstructor; exact Hi'|].
    apply forall2_snoc; [exact HF|exact Ht].
  - destruct (Hnth _ _ Hi) as (t & Hi' & Ht & Hl). pose proof (hm_insert_ok (fun x => x) h n t k v replace Ht) as Hins.
    rewrite Ho in Hins. inversion Hins as [r r' Hr Hr1 Hr2| |]; subst. destruct r' as [[[t' e] prev']|]; [|contradiction].
    destruct Hr as (He & Hr & _). split; [exact He|]. exists (ts ++ [t']). split.
    + eapply ts_call; [constructor; [exact Hl|constructor]|]. cbn [derive]. rewrite (nth_version _ _ _ Hi'), <- Hr2. reflexivity.
    + apply forall2_snoc; [eapply rep_versions_ext; eassumption|exact Hr].
  - destruct (Hnth _ _ Hi) as (t & Hi' & Ht & Hl). pose proof (hm_insert_ok (fun x => x) h n t k v replace Ht) as Hins.
    rewrite Ho in Hins. inversion Hins as [r r' Hr Hr1 Hr2| |]; subst. destruct r' as [[[t' e] prev']|e]; [contradiction|].
    destruct Hr as (-> & _). split; [apply ext_refl|]. exists (ts ++ [t]). split.
    + eapply ts_call; [constructor; [exact Hl|constructor]|]. cbn [derive]. rewrite (nth_version _ _ _ Hi'), <- Hr2. reflexivity.
    + apply forall2_snoc; assumption.
  - destruct (Hnth _ _ Hi) as (t & Hi' & Ht & Hl). pose proof (hm_remove_ok h n t k Ht) as Hins.
    rewrite Ho in Hins. inversion Hins as [r r' Hr Hr1 Hr2| |]; subst. destruct r' as [[t' e]|]; [|contradiction].
    destruct Hr as (He & Hr & _). split; [exact He|]. exists (ts ++ [t']). split.
    + eapply ts_call; [constructor; [exact Hl|constructor]|]. cbn [derive]. rewrite (nth_version _ _ _ Hi'), <- Hr2. reflexivity.
    + apply forall2_snoc; [eapply rep_versions_ext; eassumption|exact Hr].
  - destruct (Hnth _ _ Hi) as (t & Hi' & Ht & Hl). pose proof (hm_remove_ok h n t k Ht) as Hins.
    rewrite Ho in Hins. inversion Hins as [r r' Hr Hr1 Hr2| |]; subst. destruct r' as [[t' e']|e']; [contradiction|].
    cbn in Hr. subst h'. split; [apply ext_refl|]. exists (ts ++ [t]). split.
    + eapply ts_call; [constructor; [exact Hl|constructor]|]. cbn [derive]. rewrite (nth_version _ _ _ Hi'), <- Hr2. reflexivity.
    + apply forall2_snoc; assumption.
  - assert (ts0 = ts) as ->.
    { clear - HF HF0. revert ts HF. induction HF0 as [|n t vs ts0 Hn HF0 IH]; intros ts HF; inversion HF as [|n2 t2 vs2 ts2 Hn2 HF2]; subst; [reflexivity|].
      f_equal; [eapply rep_fun; eassumption|auto]. }
    split; [exact He|]. exists (ts ++ [t]). split.
    + eapply ts_call; [|exact Hd]. assert (Hlen : length vs = length ts) by (clear - HF; induction HF; cbn; lia). unfold trie in *. rewrite <- Hlen. exact Hu.
    + apply forall2_snoc; [eapply rep_versions_ext; eassumption|exact Ht].
  - split; [exact He|]. exists ts. split; [constructor|eapply rep_versions_ext; eassumption].
Qed.

Theorem hsteps_ok cs : forall h vs h' vs' ts, hsteps rdef rd h vs cs h' vs' -> Forall2 (rep h) vs ts ->
  ext h h' /\ exists ts', tsteps rdef rd ts cs ts' /\ Forall2 (rep h') vs' ts'.
Proof.
  induction cs as [|c cs IH]; intros h vs h' vs' ts H HF; inversion H as [|h0 vs0 c0 cs0 h1 vs1 h2 vs2 H1 H2]; subst.
  - split; [apply ext_refl|]. exists ts. split; [constructor|exact HF].
  - destruct (hstep_ok _ _ _ _ _ _ H1 HF) as (He1 & ts1 & Ht1 & HF1). destruct (IH _ _ _ _ _ H2 HF1) as (He2 & ts' & Ht2 & HF2).
    split; [eapply ext_trans; eassumption|]. exists ts'. split; [econstructor; eassumption|exact HF2].
Qed.

Lemma hstep_keeps h vs c h' vs' i n : hstep rdef rd h vs c h' vs' -> nth_error vs i = Some n -> nth_error vs' i = Some n.
Proof.
  intros H Hi. assert (Hl : (i < length vs)%nat) by (apply nth_error_Some; congruence).
  destruct H; try (rewrite nth_error_app1; assumption). assumption.
Qed.
Lemma hsteps_keeps cs : forall h vs h' vs' i n, hsteps rdef rd h vs cs h' vs' -> nth_error vs i = Some n -> nth_error vs' i = Some n.
Proof.
  induction cs as [|c cs IH]; intros h vs h' vs' i n H Hi; inversion H as [|h0 vs0 c0 cs0 h1 vs1 h2 vs2 H1 H2]; subst; [exact Hi|].
  eapply IH; [exact H2|]. eapply hstep_keeps; eassumption.
Qed.

Lemma lawful_hsteps cs : forall h vs h' vs', lawful rdef rd h vs cs h' vs' -> hsteps rdef rd h vs cs h' vs'.
Proof. induction 1; econstructor; eassumption. Qed.

Lemma visits_of h vs ts : Forall2 (rep h) vs ts -> Forall2 (fun n l => hm_visit h n = Ret l) vs (map map_visit ts).
Proof. induction 1; constructor; [apply hm_visit_ok; assumption|assumption]. Qed.

Lemma nth_reach (ts : list (trie K V)) i t : Forall reachable ts -> nth_error ts i = Some t -> reachable t.
Proof. rewrite Forall_forall. intros H Hi. apply H. eapply nth_error_In, Hi. Qed.

Lemma forall_snoc {A} (P : A -> Prop) l x : Forall P l -> P x -> Forall P (l ++ [x]).
Proof. intros H Hx. apply Forall_app. split; [exact H|constructor; [exact Hx|constructor]]. Qed.

Theorem lawful_ok cs : forall h vs h' vs' ts, lawful rdef rd h vs cs h' vs' -> Forall2 (rep h) vs ts -> Forall reachable ts ->
  ext h h' /\ exists ts', tsteps rdef rd ts cs ts' /\ Forall2 (rep h') vs' ts' /\ Forall reachable ts'.
Proof.
  induction cs as [|c cs IH]; intros h vs h' vs' ts H HF HR; inversion H as [|h0 vs0 c0 cs0 h1 vs1 h2 vs2 HC H1 H2]; subst.
  - split; [apply ext_refl|]. exists ts. split; [constructor|]. split; [exact HF|exact HR].
  - destruct (hstep_ok _ _ _ _ _ _ H1 HF) as (He1 & ts1 & Ht1 & HF1).
    assert (HR1 : Forall reachable ts1).
    { inversion Ht1 as [|ts0 i t Hi|ts0 c0 t x Hu Hd|]; subst.
      - apply forall_snoc; [exact HR|constructor].
      - apply forall_snoc; [exact HR|eapply nth_reach; eassumption].
      - apply forall_snoc; [exact HR|]. cbn [hcontract] in HC. specialize (HC _ (visits_of _ _ _ HF)).
        apply (proj1 (derive_ok rdef rd ts c0 t x HR HC Hd)).
      - exact HR. }
    destruct (IH _ _ _ _ _ H2 HF1 HR1) as (He2 & ts' & Ht2 & HF2 & HR2).
    split; [eapply ext_trans; eassumption|]. exists ts'. split; [econstructor; eassumption|]. split; assumption.
Qed.

(** ** What the client sees *)

Lemma start_ok : Forall2 (rep (@nil (cell K V))) [] [].
Proof. constructor. Qed.

Lemma hist_rep cs h vs i n : hsteps rdef rd [] [] cs h vs -> nth_error vs i = Some n -> exists t, rep h n t.
Proof.
  intros H Hi. destruct (hsteps_ok _ _ _ _ _ _ H start_ok) as (_ & ts & _ & HF).
  pose proof (nth_rel _ _ _ HF i) as Ho. rewrite Hi in Ho. inversion Ho; subst. eauto.
Qed.
Lemma lawful_rep cs h vs i n : lawful rdef rd [] [] cs h vs -> nth_error vs i = Some n -> exists t, rep h n t /\ reachable t.
Proof.
  intros H Hi. destruct (lawful_ok _ _ _ _ _ _ H start_ok (Forall_nil _)) as (_ & ts & _ & HF & HR).
  pose proof (nth_rel _ _ _ HF i) as Ho. rewrite Hi in Ho. inversion Ho as [x t Ht E1 E2|]; subst. exists t. split; [exact Ht|].
  eapply nth_reach; [exact HR|symmetry; exact E2].
Qed.

Theorem persistence cs cs' h vs h' vs' i n : hsteps rdef rd [] [] cs h vs -> hsteps rdef rd h vs cs' h' vs' -> nth_error vs i = Some n ->
  nth_error vs' i = Some n /\
  (exists s l, hm_size h n = Ret s /\ hm_size h' n = Ret s /\ hm_visit h n = Ret l /\ hm_visit h' n = Ret l) /\
  forall Q (KQ : Key Q) (q : Q), hm_get h' n q = hm_get h n q /\ hm_find h' n q = hm_find h n q.
Proof.
  intros H H' Hi. split; [eapply hsteps_keeps; eassumption|].
  destruct (hsteps_ok _ _ _ _ _ _ H start_ok) as (_ & ts & _ & HF). destruct (hsteps_ok _ _ _ _ _ _ H' HF) as (He & _).
  destruct (hist_rep _ _ _ _ _ H Hi) as (t & Ht). pose proof (rep_ext _ _ _ _ Ht He) as Ht'.
  split.
  - exists (map_size t), (map_visit t). rewrite !(hm_size_ok _ _ _ Ht), !(hm_visit_ok _ _ _ Ht), (hm_size_ok _ _ _ Ht'), (hm_visit_ok _ _ _ Ht'). auto.
  - intros Q KQ q. split; [rewrite !(hm_get_ok _ _ _ q Ht), (hm_get_ok _ _ _ q Ht'); reflexivity|].
    unfold hm_find. destruct (flag_new (hashk q)) as [f| |]; cbn [bind]; try reflexivity.
    f_equal. apply h_find_same with (t := t); try assumption; eapply enough_ok; eassumption.
Qed.

Theorem versions_of cs h vs : hsteps rdef rd [] [] cs h vs ->
  exists ts, tsteps rdef rd [] cs ts /\ Forall2 (fun n t => hm_size h n = Ret (map_size t) /\ hm_visit h n = Ret (map_visit t) /\
    forall Q (KQ : Key Q) (q : Q), hm_get h n q = (let* r := map_find t q in Ret (match r with Ok e => Some e | Err _ => None end))) vs ts.
Proof.
  intros H. destruct (hsteps_ok _ _ _ _ _ _ H start_ok) as (_ & ts & Ht & HF). exists ts. split; [exact Ht|].
  eapply forall2_impl; [|exact HF]. intros n t Hn. split; [apply hm_size_ok, Hn|]. split; [apply hm_visit_ok, Hn|].
  intros Q KQ q. apply hm_get_ok, Hn.
Qed.

Theorem insert_differs cs h vs i n {Q} {KQ : Key Q} into (q : Q) v replace n' a prev h' : hsteps rdef rd [] [] cs h vs -> nth_error vs i = Some n ->
  hm_insert into h n q v replace = Ret (Ok (n', a, prev), h') -> forall j m, nth_error vs j = Some m -> hm_eq n' m = false.
Proof.
  intros H Hi Ho j m Hj. destruct (hist_rep _ _ _ _ _ H Hi) as (t & Ht). destruct (hist_rep _ _ _ _ _ H Hj) as (t2 & Ht2).
  pose proof (hm_insert_ok into h n t q v replace Ht) as Hr. rewrite Ho in Hr. inversion Hr as [r r' Hrr E1 E2| |]; subst.
  destruct r' as [[[t' e] prev']|]; [|contradiction]. destruct Hrr as (_ & _ & Hl & _).
  destruct (hm_eq n' m) eqn:He; [|reflexivity]. apply hm_eq_true in He. subst m. apply rep_lt in Ht2. lia.
Qed.

Theorem remove_differs cs h vs i n {Q} {KQ : Key Q} (q : Q) n' a h' : hsteps rdef rd [] [] cs h vs -> nth_error vs i = Some n ->
  hm_remove h n q = Ret (Ok (n', a), h') -> hm_eq n' n = false.
Proof.
  intros H Hi Ho. destruct (hist_rep _ _ _ _ _ H Hi) as (t & Ht).
  pose proof (hm_remove_ok h n t q Ht) as Hr. rewrite Ho in Hr. inversion Hr as [r r' Hrr E1 E2| |]; subst.
  destruct r' as [[t' e]|]; [|contradiction]. destruct Hrr as (_ & _ & Hl & _).
  destruct (hm_eq n' n) eqn:He; [|reflexivity]. apply hm_eq_true in He. subst n'. apply rep_lt in Ht. lia.
Qed.

End Hist.
