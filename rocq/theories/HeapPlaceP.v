(** For the theorems of PropBulk.v: where the maps of bulk operations are. *)
From Coq Require Import NArith Arith List Bool Lia.
From Verif Require Import Base Words Bia Node Spec Trans Transform SpecT Joint SpecJ JointT Api Reach ReachP Versions VersionsP
  Heap SpecH HeapP HeapOpP HeapHist HeapHistP HeapBulk HeapRun HeapRunP.
Import ListNotations.
Open Scope N_scope.

Section One.
Context {E : Env} {K V R : Type} {KK : Key K}.
Context (rdef : R) (rd : R -> R -> R).
Notation heap := (heap K V).
Implicit Types (h : heap).

Theorem call_places cs h vs c n' x h' : hsteps rdef rd [] [] cs h vs -> Forall (fun i => (i < length vs)%nat) (uses c) ->
  hrun rdef rd h vs c = Ret (n', x, h') ->
  ext h h' /\ hstep rdef rd h vs (HCall c) h' (vs ++ [n']) /\
  forall a, inside h' n' a -> (length h <= a)%nat \/ exists i n, In i (keeps c) /\ nth_error vs i = Some n /\ inside h n a.
Proof.
  intros H HU Hr. destruct (hsteps_ok _ _ _ _ _ _ _ _ H (start_ok (K := K) (V := V))) as (_ & ts & _ & HF).
  pose proof (hrun_ok rdef rd h vs ts c HF HU) as Ho. rewrite Hr in Ho. inversion Ho as [p q (He & _ & _ & Hi & Hs) E1 E2| |]; subst.
  cbn [fst snd] in *. auto.
Qed.

Lemma new_rep n0 h0 : hm_new (K := K) (V := V) [] = (n0, h0) -> Forall2 (rep h0) [n0] [map_new].
Proof. intros H. destruct (hm_new_ok _ _ _ H) as (_ & Hr & _). constructor; [exact Hr|constructor]. Qed.

Lemma rep_answers h n t : rep h n t -> answers h n t.
Proof.
  intros H. split; [apply hm_size_ok, H|]. split; [apply hm_visit_ok, H|]. intros Q KQ q. apply hm_get_ok, H.
Qed.

Theorem runs_same (cs : list (call K V R)) n0 h0 : hm_new [] = (n0, h0) -> named 1 cs ->
  refines (fun p q => Forall2 (answers (snd p)) (fst (fst p)) (fst q) /\ Forall2 (same_got (snd p)) (snd (fst p)) (snd q))
    (hruns rdef rd h0 [n0] cs) (versions rdef rd [map_new] cs).
Proof.
  intros H0 HN. eapply refines_weak; [apply (hruns_ok rdef rd cs h0 [n0] [map_new] (new_rep _ _ H0) HN)|].
  intros p q (_ & HF & HG & _). split; [|exact HG]. eapply forall2_impl; [|exact HF]. intros. apply rep_answers. assumption.
Qed.

Theorem runs_lawful (cs : list (call K V R)) n0 h0 vs xs h' : hm_new [] = (n0, h0) -> named 1 cs -> contracts rdef rd [map_new] cs ->
  hruns rdef rd h0 [n0] cs = Ret (vs, xs, h') ->
  lawful rdef rd [] [] (HNew :: map HCall cs) h' vs /\
  exists ls ys, spec_versions rdef rd [[]] cs ls ys /\ Forall2 (holds_entries h') vs ls /\ Forall2 (same_got h') xs ys.
Proof.
  intros H0 HN HC Hr. pose proof (new_rep _ _ H0) as HF0. split.
  - eapply lw_cons; [exact I|apply hs_new; exact H0|]. cbn [app]. eapply hruns_lawful; eassumption.
  - pose proof (hruns_ok rdef rd cs h0 [n0] [map_new] HF0 HN) as Ho. rewrite Hr in Ho.
    inversion Ho as [p [ts ys] (_ & HF & HG & _) E1 E2| |]; subst. cbn [fst snd] in *.
    destruct (versions_refine rdef rd cs ts ys HC (eq_sym E2)) as (_ & ls & Hls & Hsh). exists ls, ys. split; [exact Hls|]. split; [|exact HG].
    clear - HF Hsh. revert ls Hsh. induction HF as [|n t vs ts Hn HF IH]; intros ls Hsh; inversion Hsh as [|t2 l2 ts2 ls2 H1 H2]; subst; constructor.
    + destruct H1 as (H1 & H3 & H4 & H5). destruct (rep_answers _ _ _ Hn) as (A1 & A2 & A3). rewrite H3 in A1. rewrite H4 in A2.
      split; [exact A2|]. split; [exact A1|]. split; [exact H5|]. intros Q KQ q. rewrite A3, H1. cbn [bind]. destruct (lookup _ _); reflexivity.
    + apply IH, H2.
Qed.

Theorem transform_places cs h vs i n st (op : transform_op (K * V) V R) : lawful rdef rd [] [] cs h vs -> nth_error vs i = Some n ->
  exists t, reachable t /\ answers h n t /\
  refines (fun p q => ext h (snd p) /\ answers (snd p) (fst (fst p)) (fst (fst q)) /\ snd (fst p) = snd (fst q) /\
    shares h n (snd p) (fst (fst p)) /\ (snd q = Self -> fst (fst p) = n))
   (hm_transform rdef rd st op h n) (map_transform rdef rd st op t).
Proof.
  intros HL Hi. destruct (lawful_rep _ _ _ _ _ _ _ HL Hi) as (t & Ht & Hrt). exists t. split; [exact Hrt|]. split; [apply rep_answers, Ht|].
  eapply refines_weak; [apply (hm_transform_ok rdef rd st op h n t Ht)|].
  intros [[n' r'] w] [[t' r] o] ((He & Hr & Hin & Hx) & Ho). cbn [fst snd] in *.
  split; [exact He|]. split; [apply rep_answers, Hr|]. split; [exact Hx|]. split; [|intros ->; exact Ho].
  intros a Ha. destruct (Hin a Ha) as [Hl|(m & [<-|[]] & Hm)]; [left|right]; assumption.
Qed.

Theorem tt_places cs h vs i j n m st (both : joint_op (K * V) V R) lop rop : lawful rdef rd [] [] cs h vs ->
  nth_error vs i = Some n -> nth_error vs j = Some m ->
  exists t u, reachable t /\ reachable u /\ answers h n t /\ answers h m u /\
  refines (fun p q => ext h (snd p) /\ answers (snd p) (fst (fst p)) (fst (fst q)) /\ snd (fst p) = snd (fst q) /\
    (forall a, inside (snd p) (fst (fst p)) a -> (length h <= a)%nat \/ inside h n a \/ inside h m a) /\
    (snd q = Self -> fst (fst p) = n) /\ (snd q = Right -> fst (fst p) = m))
   (hm_tt rdef rd st both lop rop h n m) (map_tt rdef rd st both lop rop t u).
Proof.
  intros HL Hi Hj. destruct (lawful_rep _ _ _ _ _ _ _ HL Hi) as (t & Ht & Hrt). destruct (lawful_rep _ _ _ _ _ _ _ HL Hj) as (u & Hu & Hru).
  exists t, u. split; [exact Hrt|]. split; [exact Hru|]. split; [apply rep_answers, Ht|]. split; [apply rep_answers, Hu|].
  eapply refines_weak; [apply (hm_tt_ok rdef rd st both lop rop h n m t u Ht Hu)|].
  intros [[n' r'] w] [[t' r] o] ((He & Hr & Hin & Hx) & Ho). cbn [fst snd] in *.
  split; [exact He|]. split; [apply rep_answers, Hr|]. split; [exact Hx|]. split; [|split; intros ->; exact Ho].
  intros a Ha. destruct (Hin a Ha) as [Hl|(x & [<-|[<-|[]]] & Hm)]; auto.
Qed.

End One.

Section Two.
Context {E : Env} {K V L W R : Type} {KK : Key K} {KL : Key L}.
Context (rdef : R) (rd : R -> R -> R).
Context (cs : list (hcall K V R)) (h : heap K V) (vs : list hnode) (i : nat) (n : hnode).
Context (HL : lawful rdef rd [] [] cs h vs) (Hi : nth_error vs i = Some n).

Theorem transmute_places (op : transmute_op (K * V) L W R) (w : heap L W) :
  exists t, reachable t /\ answers h n t /\
  refines (fun p q => ext w (snd p) /\ answers (snd p) (fst (fst p)) (fst q) /\ snd (fst p) = snd q /\
    forall a, inside (snd p) (fst (fst p)) a -> (length w <= a)%nat)
   (hm_transmute rdef rd op h n w) (map_transmute rdef rd op t).
Proof.
  destruct (lawful_rep _ _ _ _ _ _ _ HL Hi) as (t & Ht & Hrt). exists t. split; [exact Hrt|]. split; [apply rep_answers, Ht|].
  eapply refines_weak; [apply (hm_transmute_ok rdef rd op h n t w Ht)|].
  intros [[n' r'] w'] [t' r] (He & Hr & Hin & Hx). cbn [fst snd] in *.
  split; [exact He|]. split; [apply rep_answers, Hr|]. split; [exact Hx|].
  intros a Ha. destruct (Hin a Ha) as [Hl|(m & [] & Hm)]; assumption.
Qed.

Context (cs' : list (hcall L W R)) (h' : heap L W) (vs' : list hnode) (j : nat) (m : hnode).
Context (HL' : lawful rdef rd [] [] cs' h' vs') (Hj : nth_error vs' j = Some m).

Theorem tm_places st (both : transform_op ((K * V) * (L * W)) V R) lop rop :
  exists t u, reachable t /\ reachable u /\ answers h n t /\ answers h' m u /\
  refines (fun p q => ext h (snd p) /\ answers (snd p) (fst (fst p)) (fst (fst q)) /\ snd (fst p) = snd (fst q) /\
    shares h n (snd p) (fst (fst p)) /\ (snd q = Self -> fst (fst p) = n))
   (hm_tm rdef rd st both lop rop h n h' m) (map_tm rdef rd st both lop rop t u).
Proof.
  destruct (lawful_rep _ _ _ _ _ _ _ HL Hi) as (t & Ht & Hrt). destruct (lawful_rep _ _ _ _ _ _ _ HL' Hj) as (u & Hu & Hru).
  exists t, u. split; [exact Hrt|]. split; [exact Hru|]. split; [apply rep_answers, Ht|]. split; [apply rep_answers, Hu|].
  eapply refines_weak; [apply (hm_tm_ok rdef rd st both lop rop h n h' m t u Ht Hu)|].
  intros [[n' r'] w] [[t' r] o] ((He & Hr & Hin & Hx) & Ho). cbn [fst snd] in *.
  split; [exact He|]. split; [apply rep_answers, Hr|]. split; [exact Hx|]. split; [|intros ->; exact Ho].
  intros a Ha. destruct (Hin a Ha) as [Hl|(x & [<-|[]] & Hm)]; [left|right]; assumption.
Qed.

Theorem mt_places st (both : transform_op ((K * V) * (L * W)) W R) lop rop :
  exists t u, reachable t /\ reachable u /\ answers h n t /\ answers h' m u /\
  refines (fun p q => ext h' (snd p) /\ answers (snd p) (fst (fst p)) (fst (fst q)) /\ snd (fst p) = snd (fst q) /\
    shares h' m (snd p) (fst (fst p)) /\ (snd q = Right -> fst (fst p) = m))
   (hm_mt rdef rd st both lop rop h n h' m) (map_mt rdef rd st both lop rop t u).
Proof.
  destruct (lawful_rep _ _ _ _ _ _ _ HL Hi) as (t & Ht & Hrt). destruct (lawful_rep _ _ _ _ _ _ _ HL' Hj) as (u & Hu & Hru).
  exists t, u. split; [exact Hrt|]. split; [exact Hru|]. split; [apply rep_answers, Ht|]. split; [apply rep_answers, Hu|].
  eapply refines_weak; [apply (hm_mt_ok rdef rd st both lop rop h n h' m t u Ht Hu)|].
  intros [[n' r'] w] [[t' r] o] ((He & Hr & Hin & Hx) & Ho). cbn [fst snd] in *.
  split; [exact He|]. split; [apply rep_answers, Hr|]. split; [exact Hx|]. split; [|intros ->; exact Ho].
  intros a Ha. destruct (Hin a Ha) as [Hl|(x & [<-|[]] & Hm)]; [left|right]; assumption.
Qed.

Theorem mm_places {S X} {KS : Key S} (both : transmute_op ((K * V) * (L * W)) S X R) lop rop (w : heap S X) :
  exists t u, reachable t /\ reachable u /\ answers h n t /\ answers h' m u /\
  refines (fun p q => ext w (snd p) /\ answers (snd p) (fst (fst p)) (fst q) /\ snd (fst p) = snd q /\
    forall a, inside (snd p) (fst (fst p)) a -> (length w <= a)%nat)
   (hm_mm rdef rd both lop rop h n h' m w) (map_mm rdef rd both lop rop t u).
Proof.
  destruct (lawful_rep _ _ _ _ _ _ _ HL Hi) as (t & Ht & Hrt). destruct (lawful_rep _ _ _ _ _ _ _ HL' Hj) as (u & Hu & Hru).
  exists t, u. split; [exact Hrt|]. split; [exact Hru|]. split; [apply rep_answers, Ht|]. split; [apply rep_answers, Hu|].
  eapply refines_weak; [apply (hm_mm_ok rdef rd both lop rop h n h' m w t u Ht Hu)|].
  intros [[n' r'] w'] [t' r] (He & Hr & Hin & Hx). cbn [fst snd] in *.
  split; [exact He|]. split; [apply rep_answers, Hr|]. split; [exact Hx|].
  intros a Ha. destruct (Hin a Ha) as [Hl|(x & [] & Hm)]; assumption.
Qed.

End Two.
