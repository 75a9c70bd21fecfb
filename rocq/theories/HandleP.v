(** Code with its calls replaced ([handle] of AskSet.v): its calls are those of the code it
    stands for, spelled out. *)
From Coq Require Import NArith List Bool Permutation Lia.
From Verif Require Import Base Words Flag Bia Node Api Trans Eff EffP EffApi EffMapP Ask AskT SpecAskT AskTP JoinP AskSet.
Import ListNotations.
Open Scope N_scope.

Lemma forall2_flip {X Y} (P : X -> Y -> Prop) l l' : Forall2 P l l' -> Forall2 (fun y x => P x y) l' l.
Proof. induction 1; constructor; assumption. Qed.

(** Code that only calls: it ends unless a call panics. *)
Section Tame.
Context {Q : Type} {A : Q -> Type}.
Fixpoint only_asks {X} (p : prog A X) : Prop :=
  match p with
  | PRet _ => True
  | PPanic | PDiverge => False
  | PAsk q k => forall a, only_asks (k a)
  end.
Lemma only_ends {X} (p : prog A X) : only_asks p -> forall t o, exec p t o ->
  (unbroken t /\ exists x, o = Ret x) \/ (exists t1 q, t = t1 ++ [broke q] /\ unbroken t1 /\ o = Panic).
Proof.
  induction p as [x| | |q k IH]; cbn [only_asks]; intros Hp t o; try contradiction; cbn [exec].
  - intros [-> ->]. left. split; [intros q []|eauto].
  - intros [(a & t' & -> & He)|[-> ->]].
    + destruct (IH a (Hp a) _ _ He) as [[HU Hx]|(t1 & q1 & -> & HU & ->)].
      * left. split; [|exact Hx]. intros q' [Hq|Hq]; [discriminate (f_equal (fun e => match projT2 e with Some _ => true | None => false end) Hq)|exact (HU _ Hq)].
      * right. exists (answer q a :: t1), q1. split; [reflexivity|]. split; [|reflexivity].
        intros q' [Hq|Hq]; [discriminate (f_equal (fun e => match projT2 e with Some _ => true | None => false end) Hq)|exact (HU _ Hq)].
    + right. exists [], q. split; [reflexivity|]. split; [intros q' []|reflexivity].
Qed.
Lemma unbroken_app (t t' : list (event (A := A))) : unbroken (t ++ t') <-> unbroken t /\ unbroken t'.
Proof.
  split; [intros H; split; intros q Hq; apply (H q), in_or_app; auto|].
  intros [H H'] q Hq. apply in_app_or in Hq as [Hq|Hq]; [exact (H _ Hq)|exact (H' _ Hq)].
Qed.
End Tame.

Section Spread.
Context {Q Q' : Type} {A : Q -> Type} {A' : Q' -> Type} (H : forall q, prog A (A' q)).
Notation event := (event (A := A)).
Notation event' := (Eff.event (A := A')).

(** [tr'] are calls of the code underneath, [tr] what they are spelled out to. *)
Fixpoint spread (tr' : list event') (tr : list event) : Prop :=
  match tr' with
  | [] => tr = []
  | existT _ q (Some a) :: tr1 => exists t tr2, tr = t ++ tr2 /\ exec (H q) t (Ret a) /\ spread tr1 tr2
  | existT _ q None :: tr1 => tr1 = [] /\ exec (H q) tr Panic
  end.

Lemma handle_exec {X} (p : prog A' X) : forall tr' tr o, exec p tr' o -> spread tr' tr -> exec (handle H p) tr o.
Proof.
  induction p as [x| | |q k IH]; intros tr' tr o; cbn [exec handle].
  1-3: intros [-> ->] HS; cbn in HS; subst; auto.
  intros [(a & t' & -> & He)|[-> ->]] HS; cbn in HS; apply exec_bind.
  - destruct HS as (t & tr2 & -> & Ht & HS). left. exists t, tr2, a. split; [reflexivity|]. split; [exact Ht|]. exact (IH a _ _ _ He HS).
  - right. left. split; [apply HS|reflexivity].
Qed.

Context (HO : forall q, only_asks (H q)).

Lemma exec_handle {X} (p : prog A' X) : forall tr o, exec (handle H p) tr o -> exists tr', exec p tr' o /\ spread tr' tr.
Proof.
  induction p as [x| | |q k IH]; intros tr o; cbn [handle].
  1-3: cbn [exec]; intros [-> ->]; exists []; cbn; auto.
  intros He. apply exec_bind in He as [(t & tr2 & a & -> & Ht & He)|[[He ->]|[He ->]]].
  - destruct (IH a _ _ He) as (tr' & He' & HS). exists (answer q a :: tr'). split; [left; eauto|]. exists t, tr2. auto.
  - exists [broke q]. split; [right; auto|]. cbn. auto.
  - destruct (only_ends _ (HO q) _ _ He) as [[_ [x Hx]]|(t1 & q1 & _ & _ & Hx)]; discriminate Hx.
Qed.

Lemma spread_answer tr' tr q a : spread tr' tr -> In (answer q a) tr' -> exists t, exec (H q) t (Ret a) /\ incl t tr.
Proof.
  revert tr. induction tr' as [|[q1 [a1|]] tr' IH]; intros tr HS Hi; cbn [spread] in HS; [destruct Hi| |].
  - destruct HS as (t & tr2 & -> & Ht & HS). destruct Hi as [Hi|Hi].
    + exists t. split; [|apply incl_appl, incl_refl].
      change (match answer q a with existT _ q (Some a) => exec (H q) t (Ret a) | _ => False end). rewrite <- Hi. exact Ht.
    + destruct (IH _ HS Hi) as (t' & Ht' & Hi'). exists t'. split; [exact Ht'|]. apply incl_appr, Hi'.
  - destruct HS as [-> _]. destruct Hi as [Hi|[]]. discriminate (f_equal (fun e => match projT2 e with Some _ => true | None => false end) Hi).
Qed.

Lemma spread_broke tr' tr q : spread tr' tr -> In (broke q) tr' -> exists q', In (broke q') tr.
Proof.
  revert tr. induction tr' as [|[q1 [a1|]] tr' IH]; intros tr HS Hi; cbn [spread] in HS; [destruct Hi| |].
  - destruct HS as (t & tr2 & -> & Ht & HS). destruct Hi as [Hi|Hi].
    + discriminate (f_equal (fun e => match projT2 e with Some _ => true | None => false end) Hi).
    + destruct (IH _ HS Hi) as (q' & Hq). exists q'. apply in_or_app. auto.
  - destruct HS as [-> Ht]. destruct (only_ends _ (HO q1) _ _ Ht) as [[_ [x Hx]]|(t1 & q2 & -> & _ & _)]; [discriminate Hx|].
    exists q2. apply in_or_app. right. left. reflexivity.
Qed.

Lemma spread_unbroken tr' tr : spread tr' tr -> unbroken tr' -> unbroken tr.
Proof.
  revert tr. induction tr' as [|[q1 [a1|]] tr' IH]; intros tr HS HU; cbn [spread] in HS.
  - subst. intros q [].
  - destruct HS as (t & tr2 & -> & Ht & HS). apply unbroken_app. split; [|apply IH; [exact HS|intros q Hq; apply (HU q); right; exact Hq]].
    destruct (only_ends _ (HO q1) _ _ Ht) as [[HU' _]|(t1 & q2 & _ & _ & Hx)]; [exact HU'|discriminate Hx].
  - exfalso. apply (HU q1). left. reflexivity.
Qed.

Lemma spread_last tr1 q tr : spread (tr1 ++ [broke q]) tr -> unbroken tr1 -> exists tr2 q', tr = tr2 ++ [broke q'] /\ unbroken tr2.
Proof.
  revert tr. induction tr1 as [|[q1 [a1|]] tr1 IH]; intros tr HS HU; cbn [spread app] in HS.
  - destruct HS as [_ Ht]. destruct (only_ends _ (HO q) _ _ Ht) as [[_ [x Hx]]|(t1 & q2 & -> & HU' & _)]; [discriminate Hx|]. eauto.
  - destruct HS as (t & tr2 & -> & Ht & HS). destruct (IH _ HS) as (tr3 & q' & -> & HU'); [intros q2 Hq; apply (HU q2); right; exact Hq|].
    exists (t ++ tr3), q'. split; [apply app_assoc|]. apply unbroken_app. split; [|exact HU'].
    destruct (only_ends _ (HO q1) _ _ Ht) as [[HU2 _]|(t1 & q2 & _ & _ & Hx)]; [exact HU2|discriminate Hx].
  - exfalso. apply (HU q1). left. reflexivity.
Qed.

(** What is read off the questions only. *)
Lemma spread_told {T} (told : Q -> list T) (told' : Q' -> list T) :
  (forall q t o, exec (H q) t o -> flat_map (fun e => told (asked e)) t = told' q) ->
  forall tr' tr, spread tr' tr -> flat_map (fun e => told (asked e)) tr = flat_map (fun e => told' (asked e)) tr'.
Proof.
  intros HT. induction tr' as [|[q1 [a1|]] tr' IH]; intros tr HS; cbn [spread] in HS.
  - subst. reflexivity.
  - destruct HS as (t & tr2 & -> & Ht & HS). rewrite flat_map_app, (HT _ _ _ Ht), (IH _ HS). reflexivity.
  - destruct HS as [-> Ht]. rewrite (HT _ _ _ Ht). cbn. rewrite app_nil_r. reflexivity.
Qed.

(** * Bookkeeping *)
Context {I I' C R : Type} (see : event -> item I C R) (see' : event' -> item I' C R).
Context (rel : I -> I' -> Prop) (heard : C -> bool) (extra : I -> list C).

(** An answered call and what it is spelled out to. *)
Inductive block : item I' C R -> list (item I C R) -> Prop :=
| bl_op i i' : rel i i' -> block (ItOp i') (ItOp i :: map ItClone (extra i))
| bl_reduce a b r : block (ItReduce a b r) [ItReduce a b r]
| bl_default r : block (ItDefault r) [ItDefault r]
| bl_clone c : heard c = true -> block (ItClone c) [ItClone c]
| bl_silent c : heard c = false -> block (ItClone c) []
| bl_none : block ItNone [ItNone].

Context (HB : forall q a t, exec (H q) t (Ret a) -> block (see' (answer q a)) (map see t)).

Let op1 (x : item I C R) : list I := match x with ItOp i => [i] | _ => [] end.
Let cl1 (x : item I C R) : list C := match x with ItClone c => [c] | _ => [] end.
Let rd1 (x : item I C R) : bool := match x with ItReduce _ _ _ => true | _ => false end.
Let df1 (x : item I C R) : bool := match x with ItDefault _ => true | _ => false end.
Lemma ops_items t : ops see t = flat_map op1 (map see t).
Proof. induction t as [|e t IH]; cbn; [reflexivity|]. unfold ops in IH. rewrite <- IH. reflexivity. Qed.
Lemma clones_items t : clones see t = flat_map cl1 (map see t).
Proof. induction t as [|e t IH]; cbn; [reflexivity|]. unfold clones in IH. rewrite <- IH. reflexivity. Qed.
Lemma reduces_items t : reduces see t = lenN (filter rd1 (map see t)).
Proof. unfold reduces, lenN. f_equal. induction t as [|e t IH]; cbn; [reflexivity|]. destruct (see e); cbn; rewrite ?IH; reflexivity. Qed.
Lemma defaults_items t : defaults see t = lenN (filter df1 (map see t)).
Proof. unfold defaults, lenN. f_equal. induction t as [|e t IH]; cbn; [reflexivity|]. destruct (see e); cbn; rewrite ?IH; reflexivity. Qed.
Lemma plain_clones cs : flat_map op1 (map ItClone cs) = [] /\ flat_map cl1 (map ItClone cs) = cs /\ filter rd1 (map ItClone cs) = [] /\ filter df1 (map ItClone cs) = [].
Proof. induction cs as [|c cs (H1 & H2 & H3 & H4)]; cbn; [auto|]. rewrite H1, H2, H3, H4. auto. Qed.

Lemma spread_books tr' tr : spread tr' tr -> unbroken tr' ->
  Forall2 rel (ops see tr) (ops see' tr') /\ reduces see tr = reduces see' tr' /\ defaults see tr = defaults see' tr' /\
  Permutation (clones see tr) (filter heard (clones see' tr') ++ flat_map extra (ops see tr)).
Proof.
  revert tr. induction tr' as [|[q1 [a1|]] tr' IH]; intros tr HS HU; cbn [spread] in HS.
  - subst. cbn. split; [constructor|]. repeat split. constructor.
  - destruct HS as (t & tr2 & -> & Ht & HS). destruct (IH _ HS) as (I1 & I2 & I3 & I4); [intros q Hq; apply (HU q); right; exact Hq|].
    rewrite ops_app, reduces_app, defaults_app, clones_app. pose proof (HB _ _ _ Ht) as Hb. change (existT _ q1 (Some a1)) with (answer q1 a1).
    rewrite (ops_items t), (reduces_items t), (defaults_items t), (clones_items t).
    change (answer q1 a1 :: tr') with ([answer q1 a1] ++ tr'). rewrite (ops_app see'), (reduces_app see'), (defaults_app see'), (clones_app see'), filter_app, flat_map_app.
    unfold ops at 2, reduces at 2, defaults at 2, clones at 2. cbn [flat_map filter].
    set (o1 := ops see tr2) in *. set (o1' := ops see' tr') in *. set (r1 := reduces see tr2) in *. set (r1' := reduces see' tr') in *.
    set (d1 := defaults see tr2) in *. set (d1' := defaults see' tr') in *. set (c1 := clones see tr2) in *. set (c1' := clones see' tr') in *.
    inversion Hb as [i i' Hr E1 E2|a b r E1 E2|r E1 E2|c Hc E1 E2|c Hc E1 E2|E1 E2]; cbn [app flat_map op1 cl1 rd1 df1 filter map].
    1: destruct (plain_clones (extra i)) as (P1 & P2 & P3 & P4); fold op1 in P1; rewrite P1, P2, P3, P4; cbn [app].
    all: rewrite ?Hc, ?app_nil_r; cbn [app lenN length filter]; rewrite I2, I3.
    all: repeat split; try (constructor; assumption); try assumption; auto.
    + rewrite I4. rewrite app_assoc, (Permutation_app_comm (extra i)), <- app_assoc. reflexivity.
  - exfalso. apply (HU q1). left. reflexivity.
Qed.

Lemma spread_seen tr' tr e : spread tr' tr -> unbroken tr' -> In e tr' -> exists t, incl t tr /\ block (see' e) (map see t).
Proof.
  intros HS HU Hi. destruct e as [q [a|]]; [|destruct (HU _ Hi)]. destruct (spread_answer _ _ _ _ HS Hi) as (t & Ht & Hi'). eauto.
Qed.

Lemma spread_reduced tr' tr l r : spread tr' tr -> unbroken tr' -> reduced see' tr' l r -> reduced see tr l r.
Proof.
  intros HS HU. induction 1 as [r|e r Hi He|e l1 l2 a b r Hi He _ IH1 _ IH2]; [constructor| |].
  - destruct (spread_seen _ _ _ HS HU Hi) as (t & Ht & Hb). rewrite He in Hb. inversion Hb as [| |r' E1 E2| | |]; subst.
    destruct t as [|e' [|]]; try discriminate E2. injection E2 as E2. apply red_default with e'; [apply Ht; left; reflexivity|auto].
  - destruct (spread_seen _ _ _ HS HU Hi) as (t & Ht & Hb). rewrite He in Hb. inversion Hb as [|a' b' r' E1 E2| | | |]; subst.
    destruct t as [|e' [|]]; try discriminate E2. injection E2 as E2. apply red_both with e' a b; [apply Ht; left; reflexivity|auto|assumption|assumption].
Qed.

Lemma spread_settled rof rof' cost cost' tr' tr is' r : (forall i i', rel i i' -> rof i = rof' i' /\ Permutation (filter heard (cost' i') ++ extra i) (cost i)) ->
  spread tr' tr -> unbroken tr' -> settled see' rof' cost' tr' is' r -> exists is, Forall2 rel is is' /\ settled see rof cost tr is r.
Proof.
  intros HR HS HU (S1 & S2 & S3 & rest & S4). destruct (spread_books _ _ HS HU) as (B1 & B2 & B3 & B4).
  destruct (Permutation_Forall2 S1 (forall2_flip _ _ _ B1)) as (is & P1 & P2). apply forall2_flip in P2.
  assert (Hrof : map rof is = map rof' is') by (clear - P2 HR; induction P2 as [|i i' is is' Hr _ IH]; cbn; [reflexivity|]; rewrite IH, (proj1 (HR _ _ Hr)); reflexivity).
  exists is. split; [exact P2|]. split; [exact P1|]. split; [rewrite Hrof; exact (spread_reduced _ _ _ _ HS HU S2)|].
  split; [rewrite B2, B3, S3; unfold lenN; f_equal; f_equal; symmetry; clear - P2; induction P2; cbn; congruence|].
  exists (filter heard rest). rewrite B4.
  assert (HC : Permutation (filter heard (flat_map cost' is') ++ flat_map extra is) (flat_map cost is)).
  { clear - P2 HR. induction P2 as [|i i' is is' Hr _ IH]; cbn; [constructor|]. rewrite filter_app, <- (proj2 (HR _ _ Hr)), <- IH.
    rewrite <- !app_assoc. apply Permutation_app_head. rewrite !app_assoc. apply Permutation_app_tail, Permutation_app_comm. }
  rewrite <- HC. rewrite <- app_assoc, (Permutation_app_comm (flat_map extra _)), app_assoc. apply Permutation_app; [|apply Permutation_flat_map, P1].
  rewrite <- filter_app. apply filter_perm, S4.
Qed.
End Spread.
