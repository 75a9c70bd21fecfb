(** Every entry of a map has a cell of its own, and there is not much else. *)
From Coq Require Import NArith Arith List Bool Lia ZifyBool ZifyN ZifyNat.
From Verif Require Import Base Words WordsP Flag FlagP Bia BiaP Node Spec Inv NodeP Api Trans Transform SpecT Joint SpecJ JointT Versions
  WeakP Built BuiltP Heap SpecH HeapP HeapOpP HeapHist HeapHistP HeapBulk HeapRun HeapRunP Rc RcP RcHistP Foot.
Import ListNotations.
Open Scope N_scope.

Lemma nodup_app {A} (l l' : list A) : NoDup l -> NoDup l' -> (forall x, In x l -> In x l' -> False) -> NoDup (l ++ l').
Proof.
  intros H H' Hd. induction H as [|x l Hx H IH]; [exact H'|]. cbn [app]. constructor.
  - intros [Hi|Hi]%in_app_or; [exact (Hx Hi)|]. apply (Hd x); [left; reflexivity|exact Hi].
  - apply IH. intros y Hy. apply Hd. right. exact Hy.
Qed.

Lemma pairs_app {A} (R : A -> A -> Prop) l l' : ForallOrdPairs R l -> ForallOrdPairs R l' ->
  (forall x y, In x l -> In y l' -> R x y) -> ForallOrdPairs R (l ++ l').
Proof.
  induction 1 as [|x l Hx H IH]; intros H' Hc; [exact H'|]. cbn [app]. constructor.
  - apply Forall_app. split; [exact Hx|]. apply Forall_forall. intros y Hy. apply Hc; [left; reflexivity|exact Hy].
  - apply IH; [exact H'|]. intros y z Hy. apply Hc. right. exact Hy.
Qed.

Lemma pairs_slots {A} (R : A -> A -> Prop) (f : N -> option A) l : NoDup l ->
  (forall i j a b, i <> j -> f i = Some a -> f j = Some b -> R a b) -> ForallOrdPairs R (flat_map (fun i => olist (f i)) l).
Proof.
  intros Hl Hf. induction Hl as [|i l Hi Hl IH]; cbn [flat_map]; [constructor|].
  apply pairs_app; [|exact IH|].
  - destruct (f i); cbn [olist]; repeat constructor.
  - intros a b Ha Hb. apply in_flat_map in Hb. destruct Hb as (j & Hj & Hb).
    destruct (f i) as [a'|] eqn:Hfi; cbn in Ha; [|contradiction]. destruct (f j) as [b'|] eqn:Hfj; cbn in Hb; [|contradiction].
    destruct Ha as [<-|[]], Hb as [<-|[]]. apply (Hf i j); [intros ->; contradiction|assumption|assumption].
Qed.

Section Own.
Context {E : Env} {K V : Type} {KK : Key K}.
Notation heap := (heap K V).
Implicit Types (h : heap).

(** A list of cells, one for each entry. *)
Definition own h (n : hnode) (es : list (K * V)) (L : list addr) : Prop :=
  NoDup L /\ (forall a, In a L -> inside h n a) /\ map (entry_at h) L = map Some es.

Lemma own_entry h n es L a : own h n es L -> In a L -> exists e, In e es /\ entry_at h a = Some e.
Proof.
  intros (_ & _ & Hm) Ha. pose proof (in_map (entry_at h) _ _ Ha) as Hi. rewrite Hm in Hi.
  apply in_map_iff in Hi. destruct Hi as (e & He & Hin). eauto.
Qed.

Lemma own_l h a l : rep_l h a l -> exists L, own h (HL a) (l_visit l) L /\ forall x, In x L -> (x <= a)%nat.
Proof.
  induction 1 as [a k v b l z Hn Hlt Hl (L & (HN & HI & HM) & HB)|a k v b s z Hn Hlt Hs].
  - exists (a :: L). split; [split; [|split]|].
    + constructor; [|exact HN]. intros Hi. specialize (HB _ Hi). lia.
    + intros x [<-|Hx]; [exact (in_self h (HL a))|]. eapply in_L; [exact Hn|]. apply HI, Hx.
    + cbn [map l_visit]. unfold entry_at at 1. rewrite Hn, HM. reflexivity.
    + intros x [<-|Hx]; [lia|]. specialize (HB _ Hx). lia.
  - inversion Hs as [b0 k' v' Hb]; subst. exists [a; b]. split; [split; [|split]|].
    + constructor; [intros [->|[]]; lia|]. constructor; [intros []|constructor].
    + intros x [<-|[<-|[]]]; [exact (in_self h (HL a))|]. eapply in_L; [exact Hn|]. exact (in_self h (HS b)).
    + cbn [map l_visit]. unfold entry_at. rewrite Hn, Hb. reflexivity.
    + intros x [<-|[<-|[]]]; lia.
Qed.

(** No hash occurs in both. *)
Definition apart (t t' : mnode K V) : Prop :=
  forall e e', In e (m_visit t) -> In e' (m_visit t') -> hash (ecls e) <> hash (ecls e').

Lemma own_C h a c hs ts : nth_error h a = Some (CellC c) -> incl hs (bvalues c) -> Forall2 (rep h) hs ts -> ForallOrdPairs apart ts ->
  (forall n t, In t ts -> rep h n t -> exists L, own h n (m_visit t) L) ->
  exists L, own h (HC a) (concat (map m_visit ts)) L.
Proof.
  intros Hn Hsub HF. induction HF as [|n t hs ts Hr HF IH]; intros HP HO; cbn [map concat].
  - exists []. split; [constructor|]. split; [intros x []|reflexivity].
  - inversion HP as [|t0 ts0 HP1 HP2]; subst. destruct (HO n t) as (L & HL); [left; reflexivity|exact Hr|].
    destruct IH as (L' & HL').
    + intros x Hx. apply Hsub. right. exact Hx.
    + exact HP2.
    + intros n' t' Ht'. apply HO. right. exact Ht'.
    + exists (L ++ L'). split; [|split].
      * apply nodup_app; [apply HL|apply HL'|]. intros x Hx Hx'.
        destruct (own_entry _ _ _ _ _ HL Hx) as (e & He & Hxe). destruct (own_entry _ _ _ _ _ HL' Hx') as (e' & He' & Hxe').
        apply in_concat in He'. destruct He' as (l & Hl & He'). apply in_map_iff in Hl. destruct Hl as (t' & <- & Ht').
        rewrite Forall_forall in HP1. apply (HP1 t' Ht' e e' He He'). congruence.
      * intros x [Hx|Hx]%in_app_or; [|apply HL', Hx]. eapply in_C; [exact Hn|apply Hsub; left; reflexivity|apply HL, Hx].
      * rewrite !map_app. f_equal; [apply HL|apply HL'].
Qed.

Lemma ww_apart (P : K * V -> Prop) d p bits values x : ww P d p (MC (BIA bits values x)) -> ForallOrdPairs apart values.
Proof.
  intros H. inversion H as [| |d0 p0 b0 v0 x0 Ho Hp Hok Hne Hx Hch]; subst. rewrite (values_slots _ _ _ Hok). apply pairs_slots; [apply range_nodup|].
  intros i j a b Hij Ha Hb e e' He He' Heq.
  pose proof (ww_C_idx P d p bits values _ i a e H Ha He) as H1. pose proof (ww_C_idx P d p bits values _ j b e' H Hb He') as H2.
  rewrite Heq in H1. congruence.
Qed.

Lemma own_ok (P : K * V -> Prop) h d p t : ww P d p t -> forall n, rep h n t -> exists L, own h n (m_visit t) L.
Proof.
  induction 1 as [d p s Hs Hp|d p l h0 Hl Hp|d p bits values x Ho Hp Hok Hne Hx Hch IH]; intros n Hr.
  - inversion Hr as [| |a s0 Hs0]; subst. inversion Hs0 as [a0 k v Hn]; subst. exists [a]. split; [|split].
    + constructor; [intros []|constructor].
    + intros y [<-|[]]. exact (in_self h (HS a)).
    + cbn [map m_visit]. unfold entry_at. rewrite Hn. reflexivity.
  - inversion Hr as [|a l0 Hl0|]; subst. destruct (own_l h a l Hl0) as (L & HL & _). exists L. exact HL.
  - inversion Hr as [a b hs ts x0 Hn HF Hlt| |]; subst. cbn [m_visit].
    eapply (own_C h a (BIA bits hs _) hs values Hn); [apply incl_refl|exact HF| |].
    + eapply (ww_apart P d p bits values). econstructor; try eassumption. reflexivity.
    + intros n t Ht. rewrite (values_slots _ _ _ Hok) in Ht. unfold slots in Ht. apply in_flat_map in Ht. destruct Ht as (i & _ & Hi).
      destruct (getv bits values i) as [t0|] eqn:Hg; cbn in Hi; [|contradiction]. destruct Hi as [<-|[]]. apply (IH i t0 Hg).
Qed.

(** ** All cells *)

Lemma inside_within h (S : list addr) n x : inside h n x ->
  forallb (fun a => match nth_error h a with Some c => forallb (fun b => existsb (Nat.eqb b) S) (refs c) | None => true end) S = true ->
  In (addr_of n) S -> In x S.
Proof.
  assert (Hmem : forall b, existsb (Nat.eqb b) S = true -> In b S).
  { intros b Hb. apply existsb_exists in Hb. destruct Hb as (y & Hy & Heq%Nat.eqb_eq). subst. exact Hy. }
  intros H HC. rewrite forallb_forall in HC. induction H as [n|a c child x Hn Hi H IH|a k v next z x Hn H IH]; intros Ha; [exact Ha| |];
    apply IH; specialize (HC _ Ha); cbn [addr_of] in HC; rewrite Hn in HC; rewrite forallb_forall in HC; apply Hmem, HC; cbn [refs].
  - apply in_map, Hi.
  - left. reflexivity.
Qed.

Definition cover h (n : hnode) (F : list addr) : Prop := forall x, In x F <-> inside h n x.

Lemma cover_l h a l : rep_l h a l -> exists F, cover h (HL a) F /\ length F = length (l_visit l).
Proof.
  induction 1 as [a k v b l z Hn Hlt Hl (F & HF & Hle)|a k v b s z Hn Hlt Hs].
  - exists (a :: F). split; [|cbn [length l_visit]; congruence]. intros x. split.
    + intros [<-|Hx]; [exact (in_self h (HL a))|]. eapply in_L; [exact Hn|]. apply HF, Hx.
    + intros Hx. inversion Hx as [| |a0 k0 v0 nx z0 x0 Hn0 Hx0]; subst; [left; reflexivity|right].
      assert (nx = XL b) by congruence. subst nx. apply HF, Hx0.
  - exists [a; b]. split; [|reflexivity]. intros x. split.
    + intros [<-|[<-|[]]]; [exact (in_self h (HL a))|]. eapply in_L; [exact Hn|]. exact (in_self h (HS b)).
    + intros Hx. inversion Hx as [| |a0 k0 v0 nx z0 x0 Hn0 Hx0]; subst; [left; reflexivity|right].
      assert (nx = XS b) by congruence. subst nx. inversion Hx0; subst. left. reflexivity.
Qed.

Lemma cover_C h hs ts M : Forall2 (rep h) hs ts ->
  (forall n t, In t ts -> rep h n t -> exists F, cover h n F /\ (length F <= length (m_visit t) * M)%nat) ->
  exists F, (forall x, In x F <-> exists n, In n hs /\ inside h n x) /\ (length F <= length (concat (map m_visit ts)) * M)%nat.
Proof.
  intros HF. induction HF as [|n t hs ts Hr HF IH]; intros HO; cbn [map concat].
  - exists []. split; [|cbn; lia]. intros x. split; [intros []|intros (n & [] & _)].
  - destruct (HO n t) as (F & HFc & HL); [left; reflexivity|exact Hr|].
    destruct IH as (F' & HF' & HL'); [intros n' t' Ht'; apply HO; right; exact Ht'|].
    exists (F ++ F'). split.
    + intros x. rewrite in_app_iff, (HFc x), (HF' x). split.
      * intros [Hx|(m & Hm & Hx)]; [exists n|exists m]; (split; [|exact Hx]); [left; reflexivity|right; exact Hm].
      * intros (m & [<-|Hm] & Hx); [left; exact Hx|right; eauto].
    + rewrite !app_length. lia.
Qed.

Lemma log_b_pos : 0 < log_b fw.
Proof. destruct fw; vm_compute; reflexivity. Qed.

Definition lvl (d : N) : nat := N.to_nat (depth_below + 1 - d).
Lemma lvl_S d : off d < hbits -> lvl d = S (lvl (d + 1)).
Proof.
  intros H. assert (Hd : d <= depth_below).
  { unfold depth_below. apply N.div_le_lower_bound; [pose proof log_b_pos; lia|]. unfold off, hbits in H. lia. }
  unfold lvl. lia.
Qed.

Lemma cover_ok (P : K * V -> Prop) h d p t : ww P d p t -> forall n, rep h n t -> exists F, cover h n F /\
  (d <> 0 -> (length F <= length (m_visit t) * S (lvl d))%nat) /\ (length F <= 1 + length (m_visit t) * lvl d \/ length F <= length (m_visit t))%nat.
Proof.
  induction 1 as [d p s Hs Hp|d p l h0 Hl Hp|d p bits values x Ho Hp Hok Hne Hx Hch IH]; intros n Hr.
  - inversion Hr as [| |a s0 Hs0]; subst. exists [a]. split; [|change (length (m_visit (MS s))) with 1%nat; cbn [length]; split; [intros _|right]; lia]. intros y. split.
    + intros [<-|[]]. exact (in_self h (HS a)).
    + intros Hy. inversion Hy; subst. left. reflexivity.
  - inversion Hr as [|a l0 Hl0|]; subst. destruct (cover_l h a l Hl0) as (F & HF & HL). exists F. cbn [m_visit]. split; [exact HF|].
    rewrite HL. split; [|right; lia]. intros _. nia.
  - inversion Hr as [a b hs ts x0 Hn HF Hlt| |]; subst. cbn [m_visit].
    destruct (cover_C h hs values (S (lvl (d + 1))) HF) as (F & HFc & HL).
    { intros n t Ht Hrt. rewrite (values_slots _ _ _ Hok) in Ht. unfold slots in Ht. apply in_flat_map in Ht. destruct Ht as (i & _ & Hi).
      destruct (getv bits values i) as [t0|] eqn:Hg; cbn in Hi; [|contradiction]. destruct Hi as [<-|[]].
      destruct (IH i t0 Hg n Hrt) as (F & H1 & H2 & _). exists F. split; [exact H1|]. apply H2. lia. }
    exists (a :: F). split; [|split].
    + intros y. cbn [In]. rewrite (HFc y). split.
      * intros [<-|(n & Hi & Hy)]; [exact (in_self h (HC a))|]. eapply in_C; eassumption.
      * intros Hy. inversion Hy as [|a0 c child y0 Hn0 Hi0 Hy0|]; subst; [left; reflexivity|right].
        rewrite Hn in Hn0. injection Hn0 as <-. eauto.
    + intros Hd. assert (Hpos : (1 <= length (concat (map m_visit values)))%nat).
      { destruct (concat (map m_visit values)) eqn:Hc; [|cbn; lia]. exfalso.
        eapply (ww_nonempty P d p (MC (BIA bits values (lenN (concat (map m_visit values)))))); [econstructor; try eassumption; reflexivity|exact Hd|].
        cbn [m_visit]. exact Hc. }
      rewrite (lvl_S d Ho). cbn [length]. nia.
    + left. rewrite (lvl_S d Ho). cbn [length]. lia.
Qed.

End Own.

Section Hist.
Context {E : Env} {K V R : Type} {KK : Key K}.
Context (rdef : R) (rd : R -> R -> R).
Notation heap := (heap K V).
Implicit Types (h : heap) (cnt : counts).

Lemma version_built (s : list (trie K V)) i : Forall built s -> built (version map_new s i).
Proof.
  intros H. unfold version. destruct (Nat.lt_ge_cases i (length s)) as [Hi|Hi].
  - rewrite Forall_forall in H. apply H, nth_In, Hi.
  - rewrite nth_overflow by exact Hi. constructor.
Qed.

Lemma derive_built (s : list (trie K V)) c m x : Forall built s -> keys_kept (map map_visit s) c -> derive rdef rd s c = Ret (m, x) -> built m.
Proof.
  intros HS HC HD.
  assert (Hv : forall i, version [] (map map_visit s) i = map_visit (version map_new s i)).
  { intros i. unfold version. exact (map_nth map_visit s map_new i). }
  destruct c as [i k v replace|i k|i st op|i op|i j st both lop rop|i j st both lop rop|i j st both lop rop|i j both lop rop];
    cbn [derive keys_kept] in *; rewrite ?Hv in *;
    pose proof (version_built s i HS) as Hi; set (mi := version map_new s i) in *;
    try (pose proof (version_built s j HS) as Hj; set (mj := version map_new s j) in *).
  - destruct (map_insert (fun x => x) mi k v replace) as [res| |] eqn:Hr; try discriminate. cbn [bind] in HD.
    destruct res as [[[m' e] prev]|e]; injection HD as <- <-; [|exact Hi].
    eapply (built_insert K V KK K KK); [exact Hi| |exact Hr]. reflexivity.
  - destruct (map_remove mi k) as [res| |] eqn:Hr; try discriminate. cbn [bind] in HD.
    destruct res as [[m' e]|e]; injection HD as <- <-; [|exact Hi]. eapply (built_remove K V KK K KK); eassumption.
  - destruct (map_transform rdef rd st op mi) as [[[m' r] o]| |] eqn:Hr; try discriminate. cbn in HD. injection HD as <- <-.
    eapply built_transform; eassumption.
  - destruct (map_transmute rdef rd op mi) as [[m' r]| |] eqn:Hr; try discriminate. cbn in HD. injection HD as <- <-.
    eapply built_transmute; eassumption.
  - destruct (map_tt rdef rd st both lop rop mi mj) as [[[m' r] o]| |] eqn:Hr; try discriminate. cbn in HD. injection HD as <- <-.
    eapply (built_tt K V KK R rdef rd st both lop rop mi mj); eassumption.
  - destruct (map_tm rdef rd st both lop rop mi mj) as [[[m' r] o]| |] eqn:Hr; try discriminate. cbn in HD. injection HD as <- <-.
    eapply (built_tm K V KK K V KK R rdef rd st both lop rop mi mj); eassumption.
  - destruct (map_mt rdef rd st both lop rop mi mj) as [[[m' r] o]| |] eqn:Hr; try discriminate. cbn in HD. injection HD as <- <-.
    eapply (built_mt K V KK K V KK R rdef rd st both lop rop mi mj); eassumption.
  - destruct (map_mm rdef rd both lop rop mi mj) as [[m' r]| |] eqn:Hr; try discriminate. cbn in HD. injection HD as <- <-.
    destruct HC as (HC1 & HC2 & HC3). eapply (built_mm K V KK K V KK K V KK R rdef rd both lop rop mi mj); eassumption.
Qed.

Lemma rlawful_rsteps cs h cnt vs : rlawful rdef rd cs h cnt vs -> rsteps rdef rd cs h cnt vs.
Proof. induction 1; econstructor; eassumption. Qed.

Lemma rlawful_sound cs h cnt vs : rlawful rdef rd cs h cnt vs -> exists ts, sound h cnt vs ts /\ Forall built ts.
Proof.
  induction 1 as [|cs h cnt vs c h' cnt' vs' _ (ts & HS & HB) Hk Hst].
  - exists []. split; [|constructor]. split; [constructor|]. split; [split; [reflexivity|congruence]|congruence].
  - destruct (rstep_sound _ _ _ _ _ _ _ _ _ _ HS Hst) as (ts' & Hts & HS'). exists ts'. split; [exact HS'|].
    inversion Hts as [|ts0 i t Hi|ts0 c0 t x Hu Hd| |ts0 i Hi]; subst.
    + apply forall_snoc; [exact HB|constructor].
    + apply forall_snoc; [exact HB|]. rewrite Forall_forall in HB. apply HB. eapply nth_error_In, Hi.
    + apply forall_snoc; [exact HB|]. cbn [rkept] in Hk. eapply derive_built; [exact HB| |exact Hd].
      apply Hk. apply (visits_of _ _ _ (proj1 HS)).
    + exact HB.
    + rewrite Forall_forall in *. intros t Ht. apply HB. unfold remove_nth in Ht. apply in_app_or in Ht.
      destruct Ht as [Ht|Ht]; [eapply in_firstn, Ht|eapply in_skipn, Ht].
Qed.

Lemma rlawful_built cs h cnt vs n : rlawful rdef rd cs h cnt vs -> In n vs -> exists t, rep h n t /\ built t.
Proof.
  intros H Hn. destruct (rlawful_sound _ _ _ _ H) as (ts & (HF & _) & HB).
  destruct (in_forall2 _ _ _ _ HF Hn) as (t & Ht & Hr). exists t. rewrite Forall_forall in HB. auto.
Qed.

(** * The theorems *)

Theorem own_cells cs h cnt vs n : rlawful rdef rd cs h cnt vs -> In n vs ->
  exists l L, hm_visit h n = Ret l /\ NoDup L /\ (forall a, In a L -> inside h n a) /\ map (entry_at h) L = map Some l.
Proof.
  intros H Hn. destruct (rlawful_built _ _ _ _ _ H Hn) as (t & Ht & Hb).
  destruct (own_ok (fun _ => True) h 0 0 t (built_ww t Hb) n Ht) as (L & HL). exists (map_visit t), L.
  split; [apply hm_visit_ok, Ht|exact HL].
Qed.

Lemma own_length h n es L F : own h n es L -> (forall a, In a L -> In a F) -> (length es <= length F)%nat.
Proof.
  intros (HN & _ & HM) Hs. assert (Hlen : length es = length L) by (rewrite <- (map_length Some es), <- HM; apply map_length).
  rewrite Hlen. apply NoDup_incl_length; assumption.
Qed.

Theorem footprint cs h cnt vs n : rlawful rdef rd cs h cnt vs -> In n vs ->
  exists l F, hm_visit h n = Ret l /\ NoDup F /\ (forall a, In a F <-> inside h n a) /\
    N.of_nat (length l) <= N.of_nat (length F) <= 1 + N.of_nat (length l) * (1 + depth_below).
Proof.
  intros H Hn. destruct (rlawful_built _ _ _ _ _ H Hn) as (t & Ht & Hb). pose proof (built_ww t Hb) as HW.
  destruct (cover_ok _ h 0 0 t HW n Ht) as (F & HF & _ & HL). destruct (own_ok _ h 0 0 t HW n Ht) as (L & HO).
  exists (map_visit t), (nodup Nat.eq_dec F). split; [apply hm_visit_ok, Ht|]. split; [apply NoDup_nodup|].
  assert (HF' : forall a, In a (nodup Nat.eq_dec F) <-> inside h n a) by (intros a; rewrite nodup_In; apply HF).
  split; [exact HF'|]. split.
  - pose proof (own_length h n _ L (nodup Nat.eq_dec F) HO) as Hl. change (m_visit t) with (map_visit t) in Hl.
    assert (Hs : forall a, In a L -> In a (nodup Nat.eq_dec F)) by (intros a Ha; apply HF'; apply (proj1 (proj2 HO)), Ha).
    specialize (Hl Hs). lia.
  - assert (Hd : (length (nodup Nat.eq_dec F) <= length F)%nat).
    { apply NoDup_incl_length; [apply NoDup_nodup|]. intros a Ha. apply nodup_In in Ha. exact Ha. }
    change (m_visit t) with (map_visit t) in HL. unfold lvl in HL.
    set (y := length (map_visit t)) in *. set (w := length (nodup Nat.eq_dec F)) in *. set (z := length F) in *. set (q := depth_below) in *.
    match goal with |- N.of_nat ?a <= _ => change a with w end. clearbody y w z q.
    replace (N.to_nat (q + 1 - 0)) with (S (N.to_nat q)) in HL by lia. rewrite <- (N2Nat.id q). set (k := N.to_nat q) in *. clearbody k.
    assert (Hw : (w <= 1 + y * S k)%nat) by (destruct HL as [HL|HL]; nia).
    replace (1 + N.of_nat y * (1 + N.of_nat k)) with (N.of_nat (1 + y * S k)); [generalize dependent (1 + y * S k)%nat; intros m _ Hw; lia|].
    rewrite Nat2N.inj_add, Nat2N.inj_mul, (Nat2N.inj_succ k), <- N.add_1_l. reflexivity.
Qed.

(** The cells that are alive. *)
Theorem live_cells cs h cnt vs : rlawful rdef rd cs h cnt vs ->
  exists A, NoDup A /\ (forall a, In a A <-> cnt a <> 0%nat) /\
    forall n, In n vs -> exists z, hm_size h n = Ret z /\ z <= N.of_nat (length A).
Proof.
  intros H. pose proof (rlawful_rsteps _ _ _ _ H) as Hr. destruct (rlawful_sound _ _ _ _ H) as (ts & (HF & (HB1 & HB2) & HR) & HB).
  exists (filter (fun a => negb (Nat.eqb (cnt a) 0)) (seq 0 (length h))).
  assert (HA : forall a, In a (filter (fun a => negb (Nat.eqb (cnt a) 0)) (seq 0 (length h))) <-> cnt a <> 0%nat).
  { intros a. rewrite filter_In, in_seq, negb_true_iff, Nat.eqb_neq. split; [tauto|]. intros Ha. split; [|exact Ha]. specialize (HB2 a Ha). lia. }
  split; [apply NoDup_filter, seq_NoDup|]. split; [exact HA|].
  intros n Hn. destruct (in_forall2 _ _ _ _ HF Hn) as (t & Hti & Ht). rewrite Forall_forall in HB. specialize (HB t Hti).
  exists (map_size t). split; [apply hm_size_ok, Ht|]. rewrite (built_size t HB).
  destruct (own_ok _ h 0 0 t (built_ww t HB) n Ht) as (L & HO).
  pose proof (own_length h n _ L (filter (fun a => negb (Nat.eqb (cnt a) 0)) (seq 0 (length h))) HO) as Hl.
  change (m_visit t) with (map_visit t) in Hl.
  assert (Hs : forall a, In a L -> In a (filter (fun a => negb (Nat.eqb (cnt a) 0)) (seq 0 (length h)))).
  { intros a Ha. apply HA. apply (rc_alive rdef rd cs h cnt vs a Hr). exists n. split; [exact Hn|]. apply (proj1 (proj2 HO)), Ha. }
  specialize (Hl Hs). lia.
Qed.

End Hist.
