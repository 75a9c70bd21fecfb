(** What threads see of shared maps does not depend on how they interleave. *)
From Coq Require Import NArith Arith List Bool Lia.
From Verif Require Import Base Words Bia Node Spec Trans Transform SpecT Joint JointT Api Reach Versions VersionsP
  Heap SpecH HeapP HeapOpP HeapHist HeapHistP HeapBulk HeapRun HeapRunP HeapPlaceP Conc.
Import ListNotations.

Section Firstn.
Context {K V : Type}.
Notation heap := (heap K V).
Implicit Types (h g : heap).

Lemma ext_firstn g t : ext (firstn t g) g.
Proof. exists (skipn t g). symmetry. apply firstn_skipn. Qed.
Lemma ext_until h g t : ext h g -> (length h <= t)%nat -> ext h (firstn t g).
Proof.
  intros (l & ->) Hl. rewrite firstn_app, firstn_all2 by exact Hl. eexists. reflexivity.
Qed.
End Firstn.

Section ConcP.
Context {E : Env} {K V R : Type} {KK : Key K}.
Context (rdef : R) (rd : R -> R -> R).
Notation heap := (heap K V).
Implicit Types (h g : heap).

(** A call looks at its own maps only. *)
Definition alone (c : call K V R) : call K V R :=
  match c with
  | CInsert _ k v replace => CInsert 0 k v replace
  | CRemove _ k => CRemove 0 k
  | CTransform _ st op => CTransform 0 st op
  | CTransmute _ op => CTransmute 0 op
  | CTT _ _ st both lop rop => CTT 0 1 st both lop rop
  | CTM _ _ st both lop rop => CTM 0 1 st both lop rop
  | CMT _ _ st both lop rop => CMT 0 1 st both lop rop
  | CMM _ _ both lop rop => CMM 0 1 both lop rop
  end.

Lemma hrun_alone {NZ : Noise K V} h vs c ns : Forall2 (fun i n => nth_error vs i = Some n) (uses c) ns ->
  hrun rdef rd h vs c = hrun rdef rd h ns (alone c).
Proof.
  intros H. destruct c; cbn [uses] in H; inversion H as [|i0 n0 is ns0 H1 H2]; subst; inversion H2 as [|i1 n1 is1 ns1 H3 H4]; subst;
    try (inversion H4; subst); cbn [hrun alone nth_error unwrap bind]; rewrite H1; try rewrite H3; reflexivity.
Qed.

Lemma derive_alone (ts us : list (trie K V)) c : Forall2 (fun i t => nth_error ts i = Some t) (uses c) us ->
  derive rdef rd ts c = derive rdef rd us (alone c).
Proof.
  intros H. destruct c; cbn [uses] in H; inversion H as [|i0 n0 is ns0 H1 H2]; subst; inversion H2 as [|i1 n1 is1 ns1 H3 H4]; subst;
    try (inversion H4; subst); cbn [derive alone]; rewrite (nth_version _ _ _ H1); try rewrite (nth_version _ _ _ H3); reflexivity.
Qed.

Lemma uses_alone (c : call K V R) : Forall (fun i => (i < length (uses c))%nat) (uses (alone c)).
Proof. destruct c; repeat constructor. Qed.

(** A map stands for its tree from the time on when it was handed out. *)
Definition stands g (m : known) (t : trie K V) : Prop := (snd m <= length g)%nat /\ rep (firstn (snd m) g) (fst m) t.

Lemma stands_rep g m t at_ : stands g m t -> (snd m <= at_)%nat -> rep (firstn at_ g) (fst m) t.
Proof.
  intros (Hl & H) Ha. eapply rep_ext; [exact H|]. apply ext_until; [apply ext_firstn|]. rewrite firstn_length. lia.
Qed.

Lemma stands_end g m t : stands g m t -> rep g (fst m) t.
Proof. intros (Hl & H). eapply rep_ext; [exact H|apply ext_firstn]. Qed.

Lemma ext_eq h g : ext h g -> h = firstn (length h) g.
Proof. intros (l & ->). rewrite firstn_app, Nat.sub_diag, firstn_all, app_nil_r. reflexivity. Qed.

Lemma ready_rep g ms ts t (c : call K V R) : Forall2 (stands g) ms ts -> ready ms t c ->
  exists ns us, Forall2 (fun i n => nth_error (map fst ms) i = Some n) (uses c) ns /\
    Forall2 (fun i u => nth_error ts i = Some u) (uses c) us /\ Forall2 (rep (firstn t g)) ns us.
Proof.
  intros HF. unfold ready. induction (uses c) as [|i is IH]; intros H; [exists [], []; repeat constructor|].
  destruct IH as (ns & us & H1 & H2 & H3); [intros j Hj; apply H; right; exact Hj|].
  destruct (H i (or_introl eq_refl)) as (n & t' & Hi & Ht). pose proof (nth_rel _ _ _ HF i) as Ho. rewrite Hi in Ho.
  inversion Ho as [m u Hs E1 E2|]; subst. exists (n :: ns), (u :: us). split; [|split]; constructor; try assumption.
  - unfold known in *. rewrite nth_error_map, Hi. reflexivity.
  - symmetry. exact E2.
  - exact (stands_rep _ (n, t') _ t Hs Ht).
Qed.

(** One call beside others. *)
Definition beside (p : hnode * hgot R * heap) (q : trie K V * got K V R) : Prop :=
  rep (snd p) (fst (fst p)) (fst q) /\ same_got (snd p) (snd (fst p)) (snd q).

Lemma call_ok (NZ : Noise K V) g ms ts t c : Forall2 (stands g) ms ts -> ready ms t c ->
  refines beside (hrun (NZ := NZ) rdef rd (firstn t g) (map fst ms) c) (derive rdef rd ts c).
Proof.
  intros HF HR. destruct (ready_rep g ms ts t c HF HR) as (ns & us & H1 & H2 & H3).
  rewrite (hrun_alone _ _ _ _ H1), (derive_alone _ _ _ H2).
  eapply refines_weak; [apply (hrun_ok rdef rd (firstn t g) ns us (alone c) H3)|].
  - assert (Hl : length (uses c) = length ns) by (clear - H1; induction H1; cbn; congruence). rewrite <- Hl. apply uses_alone.
  - intros p q (_ & Hr & Hg & _). split; assumption.
Qed.

Lemma threads_ok g ms cs ms' xs : threads rdef rd g ms cs ms' xs -> forall ts, Forall2 (stands g) ms ts ->
  exists ts' ys, versions rdef rd ts cs = Ret (ts', ys) /\ Forall2 (stands g) ms' ts' /\ Forall2 (same_got g) xs ys.
Proof.
  induction 1 as [ms|ms c t NZ n x h cs ms' xs Hl HR Hrun He Hth IH]; intros ts HF.
  - exists ts, []. repeat constructor. exact HF.
  - pose proof (call_ok NZ g ms ts t c HF HR) as Ho. rewrite Hrun in Ho. inversion Ho as [p [u y] (Hr & Hg) E1 E2| |]; subst. cbn [fst snd] in *.
    destruct (IH (ts ++ [u])) as (ts' & ys & HV & HF' & HG).
    { apply forall2_snoc; [exact HF|]. split; cbn [fst snd]; [apply ext_len, He|]. rewrite <- (ext_eq h g He). exact Hr. }
    exists ts', (y :: ys). cbn [versions]. rewrite <- E2. cbn [bind]. rewrite HV. cbn [bind]. split; [reflexivity|]. split; [exact HF'|].
    constructor; [eapply same_got_ext; eassumption|exact HG].
Qed.

Lemma fresh_stands g ms : Forall (fresh g) ms -> Forall2 (stands g) ms (repeat map_new (length ms)).
Proof.
  induction 1 as [|m ms (NZ & t & h & Ht & Hn & Hl & He) Hms IH]; cbn [length repeat]; constructor; [|exact IH].
  destruct (hm_new_ok _ _ _ Hn) as (_ & Hr & _). split; rewrite Hl; [apply ext_len, He|]. rewrite <- (ext_eq h g He). exact Hr.
Qed.

(** ** The theorems *)

(** Beside other threads a call does what it does alone. *)
Theorem call_beside g ms0 cs ms xs : Forall (fresh g) ms0 -> threads rdef rd g ms0 cs ms xs ->
  exists ts ys, versions rdef rd (repeat map_new (length ms0)) cs = Ret (ts, ys) /\
  forall t c (others : Noise K V), ready ms t c ->
    refines (fun p q => answers (snd p) (fst (fst p)) (fst q) /\ same_got (snd p) (snd (fst p)) (snd q))
      (hrun (NZ := others) rdef rd (firstn t g) (map fst ms) c) (derive rdef rd ts c).
Proof.
  intros H0 H. destruct (threads_ok _ _ _ _ _ H _ (fresh_stands _ _ H0)) as (ts & ys & HV & HF & HG). exists ts, ys. split; [exact HV|].
  intros t c NZ HR. eapply refines_weak; [apply (call_ok NZ g ms ts t c HF HR)|]. intros p q (Hr & Hg). split; [apply rep_answers, Hr|exact Hg].
Qed.

Theorem threads_versions g ms0 cs ms xs : Forall (fresh g) ms0 -> threads rdef rd g ms0 cs ms xs ->
  exists ts ys, versions rdef rd (repeat map_new (length ms0)) cs = Ret (ts, ys) /\
    Forall2 (fun m u => (snd m <= length g)%nat /\ forall t, (snd m <= t)%nat -> answers (firstn t g) (fst m) u) ms ts /\
    Forall2 (same_got g) xs ys.
Proof.
  intros H0 H. destruct (threads_ok _ _ _ _ _ H _ (fresh_stands _ _ H0)) as (ts & ys & HV & HF & HG). exists ts, ys. split; [exact HV|].
  split; [|exact HG]. eapply forall2_impl; [|exact HF]. intros m u Hs. split; [apply Hs|]. intros t Ht. apply rep_answers. eapply stands_rep; eassumption.
Qed.

Theorem threads_alike g g' ms0 ms0' cs ms ms' xs xs' : Forall (fresh g) ms0 -> Forall (fresh g') ms0' -> length ms0 = length ms0' ->
  threads rdef rd g ms0 cs ms xs -> threads rdef rd g' ms0' cs ms' xs' ->
  Forall2 (fun m m' => alike g g' (fst m) (fst m')) ms ms' /\ Forall2 (same_answer g g') xs xs'.
Proof.
  intros H0 H0' Hl H H'. destruct (threads_ok _ _ _ _ _ H _ (fresh_stands _ _ H0)) as (ts & ys & HV & HF & HG).
  destruct (threads_ok _ _ _ _ _ H' _ (fresh_stands _ _ H0')) as (ts' & ys' & HV' & HF' & HG').
  rewrite <- Hl, HV in HV'. injection HV' as <- <-. split.
  - clear - HF HF'. revert ms' HF'. induction HF as [|m t ms ts Hm HF IH]; intros ms' HF'; inversion HF' as [|m2 t2 ms2 ts2 Hm2 HF2]; subst; constructor.
    + destruct (rep_answers _ _ _ (stands_end _ _ _ Hm)) as (A1 & A2 & A3). destruct (rep_answers _ _ _ (stands_end _ _ _ Hm2)) as (B1 & B2 & B3).
      split; [congruence|]. split; [congruence|]. intros Q KQ q. rewrite A3, B3. reflexivity.
    + apply IH, HF2.
  - clear - HG HG'. revert xs' HG'. induction HG as [|x y xs ys Hx HG IH]; intros xs' HG'; inversion HG' as [|x2 y2 xs2 ys2 Hx2 HG2]; subst; constructor.
    + exists y. split; assumption.
    + apply IH, HG2.
Qed.

Lemma reachable_repeat n : Forall reachable (repeat (map_new (K := K) (V := V)) n).
Proof. induction n; cbn [repeat]; constructor; [constructor|assumption]. Qed.

Lemma visit_repeat n : map map_visit (repeat (map_new (K := K) (V := V)) n) = repeat [] n.
Proof. induction n as [|n IH]; cbn [repeat map]; [reflexivity|]. rewrite IH. reflexivity. Qed.

Theorem threads_spec g ms0 cs ms xs : Forall (fresh g) ms0 -> contracts rdef rd (repeat map_new (length ms0)) cs -> threads rdef rd g ms0 cs ms xs ->
  exists ls ys, spec_versions rdef rd (repeat [] (length ms0)) cs ls ys /\
    Forall2 (fun m l => forall t, (snd m <= t)%nat -> holds_entries (firstn t g) (fst m) l) ms ls /\ Forall2 (same_got g) xs ys.
Proof.
  intros H0 HC H. destruct (threads_versions g ms0 cs ms xs H0 H) as (ts & ys & HV & HF & HG).
  destruct (versions_ok rdef rd cs _ ts ys (reachable_repeat _) HC HV) as (H1 & H2 & _). rewrite visit_repeat in H2.
  exists (map map_visit ts), ys. split; [exact H2|]. split; [|exact HG].
  clear - HF H1. induction HF as [|m u ms ts (_ & Hm) HF IH]; cbn [map]; constructor.
  - intros t Ht. destruct (reachable_shows _ (Forall_inv H1)) as (S1 & S2 & S3 & S4). destruct (Hm t Ht) as (A1 & A2 & A3).
    rewrite S2 in A1. split; [exact A2|]. split; [exact A1|]. split; [exact S4|]. intros Q KQ q. rewrite A3, S1. cbn [bind]. destruct (lookup _ _); reflexivity.
  - apply IH. apply (Forall_inv_tail H1).
Qed.

(** A history of one thread is such an execution. *)
Lemma hruns_threads cs : forall h vs ts ms vs' xs g, hruns rdef rd h vs cs = Ret (vs', xs, g) -> Forall2 (rep h) vs ts -> named (length vs) cs ->
  map fst ms = vs -> Forall (fun m => (snd m <= length h)%nat) ms ->
  forall g', ext g g' -> exists ms', threads rdef rd g' ms cs ms' xs /\ map fst ms' = vs'.
Proof.
  induction cs as [|c cs IH]; intros h vs ts ms vs' xs g H HF HN Hvs Hms g' Hg; cbn [hruns] in H.
  - injection H as <- <- <-. exists ms. split; [constructor|exact Hvs].
  - destruct HN as (HU & HN). pose proof (hrun_ok rdef rd h vs ts c HF HU) as Ho.
    destruct (hrun rdef rd h vs c) as [[[n x] h1]| |] eqn:Hrun; try discriminate. cbn [bind fst snd] in H.
    inversion Ho as [p [u y] (He & Hp & _) E1 E2| |]; subst. cbn [fst snd] in *.
    assert (HF1 : Forall2 (rep h1) (map fst ms ++ [n]) (ts ++ [u])).
    { apply forall2_snoc; [eapply rep_versions_ext; eassumption|exact Hp]. }
    assert (HN1 : named (length (map fst ms ++ [n])) cs) by (rewrite app_length; cbn [length]; rewrite Nat.add_1_r; exact HN).
    pose proof (hruns_ok rdef rd cs h1 _ _ HF1 HN1) as Hr1.
    destruct (hruns rdef rd h1 (map fst ms ++ [n]) cs) as [[[vs2 xs2] h2]| |] eqn:Hruns; try discriminate. cbn [bind fst snd] in H. injection H as <- <- <-.
    inversion Hr1 as [p2 [u2 y2] (He2 & _) E3 E4| |]; subst. cbn [fst snd] in *.
    assert (Hg1 : ext h1 g') by (eapply ext_trans; eassumption). assert (Hg0 : ext h g') by (eapply ext_trans; eassumption).
    destruct (IH h1 (map fst ms ++ [n]) (ts ++ [u]) (ms ++ [(n, length h1)]) vs2 xs2 h2) with (g' := g') as (ms' & Hth & Hms'); try assumption.
    + rewrite map_app. reflexivity.
    + apply Forall_app. split; [|constructor; [apply le_n|constructor]]. eapply Forall_impl; [|exact Hms]. intros m Hm. apply ext_len in He. cbn in *. lia.
    + exists ms'. split; [|exact Hms']. eapply th_call with (t := length h) (h := h1) (others := quiet).
      * apply ext_len, Hg0.
      * intros i Hi. rewrite Forall_forall in HU. specialize (HU i Hi). rewrite map_length in HU.
        destruct (nth_error ms i) as [[n2 t2]|] eqn:Hn; [|apply nth_error_None in Hn; lia]. exists n2, t2. split; [exact Hn|].
        rewrite Forall_forall in Hms. apply (Hms (n2, t2)). eapply nth_error_In, Hn.
      * rewrite <- (ext_eq h g' Hg0). exact Hrun.
      * exact Hg1.
      * exact Hth.
Qed.

Theorem alone_threads cs n0 h0 vs xs g : hm_new [] = (n0, h0) -> named 1 cs -> hruns rdef rd h0 [n0] cs = Ret (vs, xs, g) ->
  exists ms0 ms, length ms0 = 1%nat /\ Forall (fresh g) ms0 /\ threads rdef rd g ms0 cs ms xs /\ map fst ms = vs.
Proof.
  intros H0 HN H. pose proof (new_rep _ _ H0) as HF0. pose proof (hruns_ok rdef rd cs h0 [n0] [map_new] HF0 HN) as Ho. rewrite H in Ho.
  inversion Ho as [p q (He & _) E1 E2| |]; subst. cbn [fst snd] in *.
  destruct (hruns_threads cs h0 [n0] [map_new] [(n0, length h0)] vs xs g H HF0 HN eq_refl) with (g' := g) as (ms & Hth & Hms);
    [repeat constructor|apply ext_refl|].
  exists [(n0, length h0)], ms. split; [reflexivity|]. split; [|split; assumption]. constructor; [|constructor].
  exists quiet, 0%nat, h0. split; [lia|]. split; [exact H0|]. split; [reflexivity|exact He].
Qed.

End ConcP.
