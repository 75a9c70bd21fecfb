(** Reasoning about programs that call closures. *)
From Coq Require Import NArith Arith List Bool Lia Permutation.
From Verif Require Import Base Words Flag Bia Node BiaP Trans Eff JoinP.
Import ListNotations.
Open Scope N_scope.

Section Exec.
Context {Q : Type} {A : Q -> Type}.

(** The calls of a trace. *)
Definition calls (tr : list (event (A := A))) : list Q := map asked tr.

Lemma exec_bind {X Y} (p : prog A X) (k : X -> prog A Y) : forall tr o,
  exec (pbind p k) tr o <->
  (exists tr1 tr2 x, tr = tr1 ++ tr2 /\ exec p tr1 (Ret x) /\ exec (k x) tr2 o) \/
  (exec p tr Panic /\ o = Panic) \/ (exec p tr Diverge /\ o = Diverge).
Proof.
  induction p as [x| | |q kk IH]; intros tr o; cbn [pbind exec].
  - split.
    + intros H. left. exists [], tr, x. auto.
    + intros [(t1 & t2 & y & -> & [-> Hy] & He)|[[[_ ?] _]|[[_ ?] _]]]; [injection Hy as <-; exact He|discriminate..].
  - split.
    + intros [-> ->]. auto.
    + intros [(t1 & t2 & y & _ & [_ ?] & _)|[[[-> _] ->]|[[_ ?] _]]]; [discriminate|auto|discriminate].
  - split.
    + intros [-> ->]. auto.
    + intros [(t1 & t2 & y & _ & [_ ?] & _)|[[[_ ?] _]|[[-> _] ->]]]; [discriminate|discriminate|auto].
  - split.
    + intros [(a & tr' & -> & H)|[-> ->]].
      * apply IH in H. destruct H as [(t1 & t2 & y & -> & H1 & H2)|[[H1 ->]|[H1 ->]]].
        { left. exists (answer q a :: t1), t2, y. split; [reflexivity|]. split; [|assumption]. left. eauto. }
        { right. left. split; [|reflexivity]. left. eauto. }
        { right. right. split; [|reflexivity]. left. eauto. }
      * right. left. auto.
    + intros [(t1 & t2 & y & -> & H1 & H2)|[[H1 ->]|[H1 ->]]].
      * destruct H1 as [(a & tr' & -> & H)|[_ ?]]; [|discriminate]. left. exists a, (tr' ++ t2). split; [reflexivity|].
        apply IH. left. exists tr', t2, y. auto.
      * destruct H1 as [(a & tr' & -> & H)|[-> _]]; [|auto]. left. exists a, tr'. split; [reflexivity|]. apply IH. auto.
      * destruct H1 as [(a & tr' & -> & H)|[_ ?]]; [|discriminate]. left. exists a, tr'. split; [reflexivity|]. apply IH. auto.
Qed.

Lemma exec_lift {X} (o : outcome X) tr o' : exec (A := A) (lift o) tr o' <-> tr = [] /\ o' = o.
Proof. destruct o; reflexivity. Qed.

(** ** Running with functions *)

Lemma run_bind {X Y} f (p : prog A X) (k : X -> prog A Y) : run f (pbind p k) = bind (run f p) (fun x => run f (k x)).
Proof. induction p as [x| | |q kk IH]; cbn; auto. Qed.
Lemma run_lift {X} f (o : outcome X) : run (A := A) f (lift o) = o.
Proof. destruct o; reflexivity. Qed.

(** [f] answers as recorded. *)
Definition agrees (f : forall q, A q) (e : event) : Prop := projT2 e = Some (f (projT1 e)).

Lemma exec_run {X} f (p : prog A X) : forall tr o, exec p tr o -> Forall (agrees f) tr -> o = run f p.
Proof.
  induction p as [x| | |q kk IH]; intros tr o; cbn [exec run].
  - intros [_ ->] _. reflexivity.
  - intros [_ ->] _. reflexivity.
  - intros [_ ->] _. reflexivity.
  - intros [(a & tr' & -> & H)|[-> ->]] HF; inversion HF as [|e l He Hl]; subst.
    + unfold agrees in He. cbn in He. injection He as ->. eapply IH; eassumption.
    + discriminate.
Qed.

Lemma run_exec {X} f (p : prog A X) : exists tr, exec p tr (run f p) /\ Forall (agrees f) tr.
Proof.
  induction p as [x| | |q kk IH]; cbn [exec run].
  1-3: exists []; auto.
  destruct (IH (f q)) as (tr & H1 & H2). exists (answer q (f q) :: tr). split.
  - left. eauto.
  - constructor; [reflexivity|assumption].
Qed.

(** A closure that panics takes the operation down. *)
Lemma exec_broke {X} (p : prog A X) : forall tr o q, exec p tr o -> In (broke q) tr -> o = Panic.
Proof.
  induction p as [x| | |q kk IH]; intros tr o q'; cbn [exec].
  1-3: intros [-> _] [].
  intros [(a & tr' & -> & H)|[-> ->]] Hin; [|reflexivity].
  destruct Hin as [Hin|Hin]; [|eapply IH; eassumption].
  exfalso. apply (f_equal (fun e : event => match projT2 e with Some _ => true | None => false end)) in Hin. discriminate.
Qed.

(** The answer of every call but the last is there, and so is the last when
    something is returned. *)
Lemma exec_answered {X} (p : prog A X) : forall tr x, exec p tr (Ret x) -> Forall (fun e : event => exists a, projT2 e = Some a) tr.
Proof.
  induction p as [y| | |q kk IH]; intros tr x; cbn [exec].
  1-3: intros [-> _]; constructor.
  intros [(a & tr' & -> & H)|[_ ?]]; [|discriminate]. constructor; [exists a; reflexivity|]. eapply IH; eassumption.
Qed.

(** ** Calls as resources *)

(** With the calls [l] to spend, [p] spends some of them, each once, and leaves
    [l'] with [G x l'] if it returns [x]. *)
Definition uses {X} (l : list Q) (p : prog A X) (G : X -> list Q -> Prop) : Prop :=
  forall tr o, exec p tr o -> exists l', Permutation (calls tr ++ l') l /\ forall x, o = Ret x -> G x l'.

Lemma uses_perm {X} l l' (p : prog A X) G : Permutation l l' -> uses l p G -> uses l' p G.
Proof. intros HP H tr o He. destruct (H tr o He) as (k & H1 & H2). exists k. split; [|assumption]. rewrite H1. assumption. Qed.

Lemma uses_weak {X} l (p : prog A X) (G G' : X -> list Q -> Prop) : uses l p G -> (forall x l', G x l' -> G' x l') -> uses l p G'.
Proof. intros H HG tr o He. destruct (H tr o He) as (k & H1 & H2). exists k. split; [assumption|]. auto. Qed.

Lemma uses_ret {X} l (x : X) (G : X -> list Q -> Prop) : G x l -> uses l (PRet x) G.
Proof. intros H tr o [-> ->]. exists l. split; [reflexivity|]. intros y [= <-]. assumption. Qed.

Lemma uses_lift {X} l (o : outcome X) (G : X -> list Q -> Prop) : (forall x, o = Ret x -> G x l) -> uses l (lift o) G.
Proof. intros H tr o' He. apply exec_lift in He. destruct He as [-> ->]. exists l. auto. Qed.

Lemma uses_bind {X Y} l (p : prog A X) (k : X -> prog A Y) G :
  uses l p (fun x l' => uses l' (k x) G) -> uses l (pbind p k) G.
Proof.
  intros H tr o He. apply exec_bind in He. destruct He as [(t1 & t2 & x & -> & H1 & H2)|[[H1 ->]|[H1 ->]]].
  - destruct (H _ _ H1) as (l1 & HP & HK). destruct (HK x eq_refl _ _ H2) as (l2 & HP2 & HG). exists l2. split; [|assumption].
    unfold calls in *. rewrite map_app, <- app_assoc, HP2. assumption.
  - destruct (H _ _ H1) as (l1 & HP & _). exists l1. split; [assumption|]. discriminate.
  - destruct (H _ _ H1) as (l1 & HP & _). exists l1. split; [assumption|]. discriminate.
Qed.

Lemma uses_ask {X} q l l' (k : A q -> prog A X) G : Permutation (q :: l') l -> (forall a, uses l' (k a) G) -> uses l (PAsk q k) G.
Proof.
  intros HP H tr o [(a & tr' & -> & He)|[-> ->]].
  - destruct (H a _ _ He) as (l2 & HP2 & HG). exists l2. split; [|assumption]. cbn. rewrite HP2. assumption.
  - exists l'. split; [assumption|]. discriminate.
Qed.

Lemma uses_frame {X} l f (p : prog A X) (G : X -> list Q -> Prop) :
  uses l p G -> uses (l ++ f) p (fun x l' => exists l0, G x l0 /\ Permutation (l0 ++ f) l').
Proof.
  intros H tr o He. destruct (H tr o He) as (l' & HP & HG). exists (l' ++ f). split.
  - rewrite app_assoc. apply Permutation_app_tail. assumption.
  - intros x Hx. eauto.
Qed.

(** [p] makes exactly the calls [l] if it returns, and at most those if not. *)
Definition spends {X} (l : list Q) (p : prog A X) : Prop := uses l p (fun _ l' => l' = []).

Lemma spends_perm {X} l l' (p : prog A X) : Permutation l l' -> spends l p -> spends l' p.
Proof. apply uses_perm. Qed.

Lemma spends_uses {X} l f l' (p : prog A X) (G : X -> list Q -> Prop) :
  spends l p -> Permutation (l ++ f) l' -> (forall x, G x f) -> (forall x a b, Permutation a b -> G x a -> G x b) -> uses l' p G.
Proof.
  intros H HP HG Hinv. apply (uses_perm _ _ _ _ HP). eapply uses_weak; [apply uses_frame; exact H|].
  intros x k (l0 & -> & HP0). eapply Hinv; [exact HP0|]. apply HG.
Qed.

Lemma spends_bind {X Y} l1 l2 (p : prog A X) (k : X -> prog A Y) :
  spends l1 p -> (forall x, spends l2 (k x)) -> spends (l1 ++ l2) (pbind p k).
Proof.
  intros H1 H2. apply uses_bind. eapply uses_weak; [apply uses_frame; exact H1|].
  intros x k' (l0 & -> & HP). eapply uses_perm; [exact HP|]. apply H2.
Qed.

Lemma spends_ret {X} (x : X) : spends [] (PRet x).
Proof. apply uses_ret. reflexivity. Qed.

Lemma spends_lift {X} (o : outcome X) : spends [] (lift o).
Proof. apply uses_lift. reflexivity. Qed.

(** Nothing follows that calls a closure. *)
Lemma spends_then {X Y} l (p : prog A X) (k : X -> prog A Y) :
  spends l p -> (forall x, spends [] (k x)) -> spends l (pbind p k).
Proof. intros H1 H2. rewrite <- (app_nil_r l). apply spends_bind; assumption. Qed.

Lemma spends_first {X Y} l (o : outcome X) (k : X -> prog A Y) :
  (forall x, o = Ret x -> spends l (k x)) -> spends l (pbind (lift o) k).
Proof. intros H. apply uses_bind. apply uses_lift. exact H. Qed.

Lemma spends_ask {X} q (k : A q -> prog A X) : (forall a, spends [] (k a)) -> spends [q] (PAsk q k).
Proof. intros H. eapply uses_ask; [reflexivity|]. exact H. Qed.

End Exec.

(** * Loops *)
Section Loop.
Context {E : Env} {Q : Type} {A : Q -> Type} {K V R : Type}.
Context (rdef : R) (rd : R -> R -> R).

Lemma spends_loop (step : acc K V R -> N -> prog A (acc K V R)) (g : N -> list Q) l :
  (forall a i, In i l -> spends (g i) (step a i)) -> forall a, spends (flat_map g l) (eloop step l a).
Proof.
  induction l as [|i l IH]; intros H a; cbn [eloop flat_map]; [apply spends_ret|].
  apply spends_bind; [apply H; left; reflexivity|]. intros a'. apply IH. auto with datatypes.
Qed.

Lemma range_split m n : m <= n -> range 0 m ++ range m n = range 0 n.
Proof.
  intros H. unfold range. rewrite <- map_app. f_equal.
  rewrite N.sub_0_r. replace (N.to_nat (n - 0)) with (N.to_nat m + N.to_nat (n - m))%nat by lia.
  rewrite seq_app. f_equal.
Qed.

Lemma spends_run_loop st (step : acc K V R -> N -> prog A (acc K V R)) (g : N -> list Q) :
  (forall a i, i < max_ones fw -> spends (g i) (step a i)) ->
  spends (flat_map g (range 0 (max_ones fw))) (erun_loop rdef rd st step).
Proof.
  intros H. destruct st; cbn [erun_loop].
  - apply spends_loop. intros a i Hi. apply H. apply range_in in Hi. lia.
  - unfold ehalves. rewrite <- (range_split (max_ones fw / 2)) by (apply N.div_le_upper_bound; lia).
    rewrite flat_map_app. apply spends_bind.
    { apply spends_loop. intros a i Hi. apply H. apply range_in in Hi. pose proof (N.div_le_upper_bound (max_ones fw) 2 (max_ones fw)). lia. }
    intros l. apply spends_then.
    { apply spends_loop. intros a i Hi. apply H. apply range_in in Hi. lia. }
    intros r. apply spends_lift.
Qed.

(** Running a loop with functions. *)
Lemma run_eloop f (step : acc K V R -> N -> prog A (acc K V R)) step' l :
  (forall a i, run f (step a i) = step' a i) -> forall a, run f (eloop step l a) = loop step' l a.
Proof.
  intros H. induction l as [|i l IH]; intros a; cbn [eloop loop]; [reflexivity|].
  rewrite run_bind, H. destruct (step' a i); cbn [bind]; auto.
Qed.

Lemma run_erun_loop f st (step : acc K V R -> N -> prog A (acc K V R)) step' :
  (forall a i, run f (step a i) = step' a i) -> run f (erun_loop rdef rd st step) = run_loop rdef rd st step'.
Proof.
  intros H. destruct st; cbn [erun_loop run_loop]; [apply run_eloop; assumption|].
  unfold ehalves, halves. rewrite run_bind, (run_eloop f step step') by assumption.
  destruct (loop step' _ _) as [l| |]; cbn [bind]; try reflexivity.
  rewrite run_bind, (run_eloop f step step') by assumption.
  destruct (loop step' _ _) as [r| |]; cbn [bind]; try reflexivity. apply run_lift.
Qed.

End Loop.
