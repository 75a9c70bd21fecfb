(** Two runs side by side: one with constants, one with closures answering them.  The
    vocabulary, and one map. *)
From Coq Require Import NArith Arith List Bool Lia ZifyBool ZifyN ZifyNat.
From Verif Require Import Base Words WordsP Flag Bia BiaP Node Inv Api Trans Transform Joint JointT Profile Eff EffP EffApi Ask AskP AskT AskJ LoopP SpecConst.
Import ListNotations.
Open Scope N_scope.

Section Sim.
Context {Q : Type} {A : Q -> Type} (keep soft : Q -> bool) (fair : event (A := A) -> Prop).
Notation event := (event (A := A)).

Notation kept := (calls_kept keep).
Notation same := (same keep soft fair).
Definition sim {X Y} (P : X -> Y -> Prop) (p : prog A X) (p1 : prog A Y) : Prop :=
  forall tr o, exec p tr o -> exists tr1 o1, exec p1 tr1 o1 /\ same tr tr1 /\ orel P o o1.
(** It may return without a call that is kept. *)
Definition idle {Y} (p1 : prog A Y) (G : Y -> Prop) : Prop :=
  exists tr1 y, exec p1 tr1 (Ret y) /\ kept tr1 = [] /\ Forall fair tr1 /\ unbroken tr1 /\ G y.
Definition any {X} (_ : X) : Prop := True.
Definition any2 {X Y} (_ : X) (_ : Y) : Prop := True.

Lemma same_nil : same [] [].
Proof. split; [reflexivity|]. split; [constructor|]. split; [constructor|]. split; [tauto|constructor]. Qed.
Lemma same_app a a1 b b1 : same a a1 -> same b b1 -> same (a ++ b) (a1 ++ b1).
Proof.
  intros (H1 & H0 & H2 & H3 & H4) (G1 & G0 & G2 & G3 & G4). unfold SpecConst.same, calls_kept in *. rewrite !filter_app, H1, G1. split; [reflexivity|].
  split; [apply Forall_app; auto|]. split; [apply Forall_app; auto|]. split; [|rewrite !app_length; lia].
  intros [q Hq]. apply in_app_or in Hq. destruct Hq as [Hq|Hq]; [destruct (H3 (ex_intro _ q Hq)) as [q' H]|destruct (G3 (ex_intro _ q Hq)) as [q' H]];
    exists q'; apply in_or_app; auto.
Qed.
Lemma sim_ret {X Y} (P : X -> Y -> Prop) x y : P x y -> sim P (PRet x) (PRet y).
Proof. intros H tr o [-> ->]. exists [], (Ret y). split; [split; reflexivity|]. split; [apply same_nil|exact H]. Qed.
Lemma sim_lift {X Y} (P : X -> Y -> Prop) o o1 : orel P o o1 -> sim P (lift o) (lift o1).
Proof.
  intros H tr o' He. apply exec_lift in He. destruct He as [-> ->]. exists [], o1. split; [apply exec_lift; auto|]. split; [apply same_nil|exact H].
Qed.
Lemma sim_bind {X Y Z U} (P : X -> Y -> Prop) (G : Z -> U -> Prop) p p1 k k1 :
  sim P p p1 -> (forall x y, P x y -> sim G (k x) (k1 y)) -> sim G (pbind p k) (pbind p1 k1).
Proof.
  intros Hp Hk tr o He. apply exec_bind in He. destruct He as [(t1 & t2 & x & -> & H1 & H2)|[[H1 ->]|[H1 ->]]].
  - destruct (Hp _ _ H1) as (u1 & o1 & E1 & S1 & R1). destruct o1 as [y| |]; [|contradiction..].
    destruct (Hk x y R1 _ _ H2) as (u2 & o2 & E2 & S2 & R2). exists (u1 ++ u2), o2. split; [apply exec_bind; left; exists u1, u2, y; auto|].
    split; [apply same_app; assumption|assumption].
  - destruct (Hp _ _ H1) as (u1 & [y| |] & E1 & S1 & R1); try contradiction. exists u1, Panic. split; [apply exec_bind; right; left; auto|]. auto.
  - destruct (Hp _ _ H1) as (u1 & [y| |] & E1 & S1 & R1); try contradiction. exists u1, Diverge. split; [apply exec_bind; right; right; auto|]. auto.
Qed.
Lemma sim_weak {X Y} (P P' : X -> Y -> Prop) p p1 : sim P p p1 -> (forall x y, P x y -> P' x y) -> sim P' p p1.
Proof.
  intros H HP tr o He. destruct (H _ _ He) as (tr1 & o1 & H1 & H2 & H3). exists tr1, o1. split; [assumption|]. split; [assumption|].
  destruct o, o1; cbn in *; auto.
Qed.
Lemma sim_ask (q : Q) : keep q = true -> (forall a, fair (answer q a)) -> fair (broke q) -> sim eq (PAsk (A := A) q PRet) (PAsk q PRet).
Proof.
  intros H0 H1 H2 tr o He. exists tr, o. split; [exact He|]. cbn [exec] in He. split.
  - split; [reflexivity|]. destruct He as [(a & tr' & -> & -> & ->)|[-> ->]].
    + split; [repeat constructor; cbn; rewrite H0; reflexivity|]. split; [repeat constructor; auto|]. split; [tauto|lia].
    + split; [repeat constructor; cbn; rewrite H0; reflexivity|]. split; [repeat constructor; auto|]. split; [tauto|lia].
  - destruct o; cbn; auto.
Qed.
Lemma idle_ret {Y} (y : Y) (G : Y -> Prop) : G y -> idle (PRet y) G.
Proof. intros H. exists [], y. repeat split; auto. intros q []. Qed.
Lemma idle_bind {X Y} p (k : X -> prog A Y) P G : idle p P -> (forall x, P x -> idle (k x) G) -> idle (pbind p k) G.
Proof.
  intros (t1 & x & E1 & K1 & F1 & U1 & P1) Hk. destruct (Hk x P1) as (t2 & y & E2 & K2 & F2 & U2 & P2). exists (t1 ++ t2), y.
  split; [apply exec_bind; left; exists t1, t2, x; auto|]. unfold calls_kept in *. rewrite filter_app, K1, K2. split; [reflexivity|].
  split; [apply Forall_app; auto|]. split; [|assumption]. intros q Hq. apply in_app_or in Hq. destruct Hq; [eapply U1|eapply U2]; eassumption.
Qed.
Lemma idle_weak {Y} (p : prog A Y) (P G : Y -> Prop) : idle p P -> (forall y, P y -> G y) -> idle p G.
Proof. intros (t & y & H1 & H2 & H3 & H4 & H5) H. exists t, y. auto 7. Qed.
Lemma sim_idle {X Y} (P : X -> Y -> Prop) x p1 : idle p1 (P x) -> sim P (PRet x) p1.
Proof.
  intros (tr1 & y & E1 & K1 & F1 & U1 & G1) tr o [-> ->]. exists tr1, (Ret y). split; [assumption|]. split; [|exact G1].
  split; [exact K1|]. split; [constructor|]. split; [exact F1|]. split; [|apply Nat.le_0_l]. intros [q Hq]. destruct (U1 q Hq).
Qed.

(** * Operations *)
Inductive tlike {I V R} : etransform A I V R -> etransform A I V R -> Prop :=
| tl_same f : (forall i, sim eq (f i) (f i)) -> tlike (EGeneric f) (EGeneric f)
| tl_keep r f : (forall i, idle (f i) (eq (VUnchanged r))) -> tlike (EUnchanged r) (EGeneric f)
| tl_drop r f : (forall i, idle (f i) (eq (VDropped r))) -> tlike (ERemoved r) (EGeneric f).
Inductive mlike {I S X R} : etransmute A I S X R -> etransmute A I S X R -> Prop :=
| ml_same f : (forall i, sim eq (f i) (f i)) -> mlike (EMGeneric f) (EMGeneric f)
| ml_drop r f : (forall i, idle (f i) (eq (KDropped r))) -> mlike (EMRemoved r) (EMGeneric f).
Lemma etcall_sim {I V R} op op1 (i : I) : tlike (V := V) (R := R) op op1 -> sim eq (etcall op i) (etcall op1 i).
Proof. intros [f H|r f H|r f H]; cbn [etcall]; [apply H|apply sim_idle; apply H..]. Qed.
Lemma emcall_sim {I S X R} op op1 (i : I) : mlike (S := S) (X := X) (R := R) op op1 -> sim eq (emcall op i) (emcall op1 i).
Proof. intros [f H|r f H]; cbn [emcall]; [apply H|apply sim_idle; apply H]. Qed.
Lemma tlike_flip {I J V R} (op op1 : etransform A (I * J) V R) : tlike op op1 -> tlike (etflip op) (etflip op1).
Proof. intros [f H|r f H|r f H]; cbn [etflip]; constructor; intros i; apply H. Qed.
Lemma mlike_flip {I J S X R} (op op1 : etransmute A (I * J) S X R) : mlike op op1 -> mlike (emflip op) (emflip op1).
Proof. intros [f H|r f H]; cbn [emflip]; constructor; intros i; apply H. Qed.

End Sim.

(** * Results that differ in the reduction only *)
Definition nrel {E : Env} {K V R} (n n1 : nres K V R) : Prop :=
  match n, n1 with
  | NRC c _, NRC c1 _ => c = c1
  | NRL l _, NRL l1 _ => l = l1
  | NRS s _, NRS s1 _ => s = s1
  | NRZ _, NRZ _ => True
  | _, _ => False
  end.
Definition trel {E : Env} {K V R} (t t1 : tres K V R) : Prop :=
  match t, t1 with TU _, TU _ => True | TN n, TN n1 => nrel n n1 | _, _ => False end.
Definition arel {E : Env} {K V R} (a a1 : acc K V R) : Prop :=
  a_size a = a_size a1 /\ a_bits a = a_bits a1 /\ a_values a = a_values a1 /\ a_ul a = a_ul a1 /\ a_ur a = a_ur a1.

Lemma nnode_rel {E : Env} {K V R} (n n1 : nres K V R) : nrel n n1 -> nnode n = nnode n1.
Proof. destruct n, n1; cbn; intros []; reflexivity. Qed.
Lemma tout_rel {E : Env} {K V R} m (t t1 : tres K V R) : trel t t1 -> tout m t = tout m t1.
Proof. destruct t, t1; cbn; intros H; [reflexivity|contradiction..|apply nnode_rel, H]. Qed.
Lemma n_with_rel {E : Env} {K V R} (n n1 : nres K V R) z z1 : nrel n n1 -> nrel (n_with n z) (n_with n1 z1).
Proof. destruct n, n1; cbn; auto. Qed.
Lemma t_with_rel {E : Env} {K V R} (t t1 : tres K V R) z z1 : trel t t1 -> trel (t_with t z) (t_with t1 z1).
Proof. destruct t, t1; cbn; auto using n_with_rel. Qed.
Lemma n_cons_rel {E : Env} {K V R} k v (n n1 : nres K V R) z z1 : nrel n n1 -> nrel (n_cons k v n z) (n_cons k v n1 z1).
Proof. destruct n, n1; cbn; intros []; reflexivity. Qed.
Lemma t_cons_rel {E : Env} {K V R} this k v (t t1 : tres K V R) z z1 : trel t t1 -> trel (t_cons this k v t z) (t_cons this k v t1 z1).
Proof. destruct t, t1; cbn; try contradiction; [|apply n_cons_rel]. intros _. destruct this; cbn; reflexivity. Qed.
