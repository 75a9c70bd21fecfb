(** How often the joint operations compare and hash keys, whatever is answered: the rules,
    and everything below the traversals. *)
From Coq Require Import NArith Arith List Bool Lia ZifyBool ZifyN ZifyNat.
From Verif Require Import Base Words Flag Bia Node Api Trans Transform Joint JointT Eff EffP EffApi Ask AskT AskJ AskTw SpecCount JointLeafP.
Import ListNotations.
Open Scope N_scope.

(** * The rules *)
Section Rules.
Context {Q : Type} {A : Q -> Type} (fe fh : Q -> bool).
Notation event := (event (A := A)).
Implicit Types tr : list event.

(** At most [e] comparisons and [h] hashes, and [P] of what is returned. *)
Definition asks {X} (e h : N) (P : X -> Prop) (p : prog A X) : Prop :=
  forall tr o, exec p tr o -> tally fe tr <= e /\ tally fh tr <= h /\ (forall x, o = Ret x -> P x).
Definition any {X} (x : X) : Prop := True.
(** None at all. *)
Definition free {X} (p : prog A X) : Prop := asks 0 0 any p.

Lemma tally_app f tr tr' : tally f (tr ++ tr') = tally f tr + tally f tr'.
Proof. unfold tally. rewrite filter_app, app_length. lia. Qed.
Lemma tally_cons f (e : event) tr : tally f (e :: tr) = (if f (asked e) then 1 else 0) + tally f tr.
Proof. unfold tally. cbn [filter]. destruct (f (asked e)); cbn [length]; lia. Qed.
Lemma tally_nil f : tally f ([] : list event) = 0.
Proof. reflexivity. Qed.

Lemma asks_weak {X} e h e' h' (P P' : X -> Prop) (p : prog A X) : asks e h P p -> e <= e' -> h <= h' -> (forall x, P x -> P' x) -> asks e' h' P' p.
Proof. intros H He Hh HP tr o Hx. destruct (H tr o Hx) as (A1 & A2 & A3). repeat split; [lia|lia|]. intros x ->. apply HP, A3. reflexivity. Qed.
Lemma asks_ret {X} e h (P : X -> Prop) (x : X) : P x -> asks e h P (PRet x).
Proof. intros H tr o [-> ->]. rewrite !tally_nil. repeat split; [lia|lia|]. intros y [= <-]. exact H. Qed.
Lemma asks_panic {X} e h (P : X -> Prop) : asks e h P PPanic.
Proof. intros tr o [-> ->]. rewrite !tally_nil. repeat split; [lia|lia|]. discriminate. Qed.
Lemma asks_lift {X} e h (o : outcome X) : asks e h (fun x => o = Ret x) (lift o).
Proof. intros tr o' Hx. apply exec_lift in Hx. destruct Hx as [-> ->]. rewrite !tally_nil. repeat split; [lia|lia|]. auto. Qed.
Lemma asks_bind {X Y} e1 h1 e2 h2 e h (P : X -> Prop) (P' : Y -> Prop) (p : prog A X) (f : X -> prog A Y) :
  asks e1 h1 P p -> (forall x, P x -> asks e2 h2 P' (f x)) -> e1 + e2 <= e -> h1 + h2 <= h -> asks e h P' (pbind p f).
Proof.
  intros Hp Hf He Hh tr o Hx. apply exec_bind in Hx. destruct Hx as [(t1 & t2 & x & -> & H1 & H2)|[[H1 ->]|[H1 ->]]];
    destruct (Hp _ _ H1) as (A1 & A2 & A3).
  - destruct (Hf x (A3 x eq_refl) _ _ H2) as (B1 & B2 & B3). rewrite !tally_app. repeat split; [lia|lia|exact B3].
  - repeat split; [lia|lia|discriminate].
  - repeat split; [lia|lia|discriminate].
Qed.
Lemma asks_free {X Y} e h (P : Y -> Prop) (p : prog A X) (f : X -> prog A Y) : free p -> (forall x, asks e h P (f x)) -> asks e h P (pbind p f).
Proof. intros Hp Hf. eapply asks_bind; [exact Hp|intros x _; apply Hf|lia|lia]. Qed.
Lemma asks_pure {X Y} e h (P : Y -> Prop) (o : outcome X) (f : X -> prog A Y) : (forall x, o = Ret x -> asks e h P (f x)) -> asks e h P (pbind (lift o) f).
Proof. intros Hf. eapply (asks_bind 0 0); [apply asks_lift|exact Hf|lia|lia]. Qed.
Lemma asks_ask {X} q e h (P : X -> Prop) (k : A q -> prog A X) : (forall a, asks e h P (k a)) ->
  asks ((if fe q then 1 else 0) + e) ((if fh q then 1 else 0) + h) P (PAsk q k).
Proof.
  intros Hk tr o [(a & tr' & -> & Hx)|[-> ->]].
  - destruct (Hk a _ _ Hx) as (A1 & A2 & A3). rewrite !tally_cons. cbn [asked answer projT1]. repeat split; [lia|lia|exact A3].
  - rewrite !tally_cons, !tally_nil. cbn [asked broke projT1]. repeat split; [lia|lia|discriminate].
Qed.

Lemma free_lift {X} (o : outcome X) : free (lift o).
Proof. eapply asks_weak; [apply (asks_lift 0 0)|lia|lia|intros; exact Logic.I]. Qed.

End Rules.

(** What the operations are made of asks for no comparison and no hash. *)
Definition quiet {Q : Type} {A : Q -> Type} (fe fh : Q -> bool) {I V R} (op : etransform A I V R) : Prop := forall i, free fe fh (etcall op i).
Definition mquiet {Q : Type} {A : Q -> Type} (fe fh : Q -> bool) {I S X R} (op : etransmute A I S X R) : Prop := forall i, free fe fh (emcall op i).
Definition jquiet {Q : Type} {A : Q -> Type} (fe fh : Q -> bool) {I V R} (op : ejoint A I V R) : Prop := forall a b, free fe fh (ejcall op a b).
(** A comparison and a hash cost what they say. *)
Record priced {E : Env} {Q : Type} {A : Q -> Type} (fe fh : Q -> bool) {K L} (ky : keyed A K L) : Prop := Priced {
  pr_hash : forall k, asks fe fh 0 1 any (ky_hash ky k);
  pr_hash' : forall l, asks fe fh 0 1 any (ky_hash' ky l);
  pr_eq : forall k l, asks fe fh 1 0 any (ky_eq ky k l);
  pr_eq' : forall l k, asks fe fh 1 0 any (ky_eq' ky l k)
}.

Ltac quick := solve [auto | apply free_lift].
(** Goes through code of which only calls named in the context cost something. *)
Ltac walk := repeat (cbn beta; match goal with
  | |- free _ _ _ => unfold free
  | |- asks _ _ _ _ _ (PRet _) => apply asks_ret; first [exact Logic.I | idtac]
  | |- asks _ _ _ _ _ PPanic => apply asks_panic
  | |- asks _ _ _ _ any (lift _) => eapply asks_weak; [apply free_lift|lia|lia|auto]
  | |- asks _ _ _ _ _ (pbind (lift _) _) => apply asks_pure; intros
  | |- asks _ _ _ _ _ (pbind (PRet _) _) => cbn [pbind]
  | |- asks _ _ _ _ _ (pbind _ _) => apply asks_free; [quick|intros]
  | |- asks _ _ _ _ _ (match ?x with _ => _ end) => destruct x
  | |- asks _ _ 0 0 any _ => progress auto
  end).

Section Flip.
Context {E : Env} {Q : Type} {A : Q -> Type} (fe fh : Q -> bool).
Lemma priced_flip {K L} (ky : keyed A K L) : priced fe fh ky -> priced fe fh (ky_flip ky).
Proof. intros [H1 H2 H3 H4]. constructor; assumption. Qed.
Lemma quiet_flip {I J V R} (op : etransform A (I * J) V R) : quiet fe fh op -> quiet fe fh (etflip op).
Proof. intros H [j i]. specialize (H (i, j)). destruct op; exact H. Qed.
Lemma mquiet_flip {I J S X R} (op : etransmute A (I * J) S X R) : mquiet fe fh op -> mquiet fe fh (emflip op).
Proof. intros H [j i]. specialize (H (i, j)). destruct op; exact H. Qed.
Lemma jquiet_flip {I V R} (op : ejoint A I V R) : jquiet fe fh op -> jquiet fe fh (ejflip op).
Proof.
  intros H a b. destruct op as [f []| | | |]; try (apply asks_ret; exact Logic.I); cbn [ejflip negb ejcall].
  - specialize (H b a). cbn [ejcall] in H. intros tr o Hx.
    assert (Hb : exists o', exec (let+ o := f a b in PRet (bres_flip o)) tr o').
    { destruct o as [x| |].
      - exists (Ret (bres_flip x)). apply exec_bind. left. exists tr, [], x. rewrite app_nil_r. repeat split; assumption.
      - exists Panic. apply exec_bind. right. left. split; [assumption|reflexivity].
      - exists Diverge. apply exec_bind. right. right. split; [assumption|reflexivity]. }
    destruct Hb as (o' & Ho'). destruct (H _ _ Ho') as (A1 & A2 & _). repeat split; assumption.
  - apply asks_free; [exact (H b a)|]. intros x. apply asks_ret. exact Logic.I.
Qed.
End Flip.

(** * transform and transmute *)
Section One.
Context {E : Env} {Q : Type} {A : Q -> Type} (fe fh : Q -> bool) {R : Type}.
Context (def : prog A R) (red : R -> R -> prog A R) (Hdef : free fe fh def) (Hred : forall a b, free fe fh (red a b)).

Section Push.
Context {K V : Type}.
Lemma apush_free (a : acc K V R) i n s r : free fe fh (apush red a i n s r).
Proof. unfold apush. walk. Qed.
Lemma apush_new_free (a : acc K V R) i n : free fe fh (apush_new red a i n).
Proof. destruct n; cbn [apush_new]; try apply apush_free. walk. Qed.

(** Costs of a loop. *)
Definition tot (c : N -> N) (l : list N) : N := fold_right (fun i s => c i + s) 0 l.
Lemma tot_app c l l' : tot c (l ++ l') = tot c l + tot c l'.
Proof. induction l as [|i l IH]; cbn [app tot fold_right] in *; [reflexivity|]. fold (tot c (l ++ l')) (tot c l). rewrite IH. lia. Qed.
Lemma eloop_asks (step : acc K V R -> N -> prog A (acc K V R)) ce ch l : forall a,
  (forall i a, In i l -> asks fe fh (ce i) (ch i) any (step a i)) -> asks fe fh (tot ce l) (tot ch l) any (eloop step l a).
Proof.
  induction l as [|i l IH]; intros a Hs; cbn [eloop]; [apply asks_ret; exact Logic.I|]. cbn [tot fold_right].
  eapply asks_bind; [apply Hs; left; reflexivity| |reflexivity|reflexivity]. intros b _. apply IH. intros j b' Hj. apply Hs. right. exact Hj.
Qed.
Lemma aloop_asks (step : acc K V R -> N -> prog A (acc K V R)) ce ch l :
  (forall i a, In i l -> asks fe fh (ce i) (ch i) any (step a i)) -> asks fe fh (tot ce l) (tot ch l) any (aloop def step l).
Proof. intros Hs. unfold aloop. apply asks_free; [exact Hdef|]. intros r. apply eloop_asks. exact Hs. Qed.
Lemma arun_loop_asks st (step : acc K V R -> N -> prog A (acc K V R)) ce ch :
  (forall i a, i < max_ones fw -> asks fe fh (ce i) (ch i) any (step a i)) ->
  asks fe fh (tot ce (range 0 (max_ones fw))) (tot ch (range 0 (max_ones fw))) any (arun_loop def red st step).
Proof.
  intros Hs. destruct st; cbn [arun_loop].
  - apply aloop_asks. intros i a Hi. apply Hs. apply BiaP.range_in in Hi. lia.
  - assert (Hh : max_ones fw / 2 <= max_ones fw) by (apply N.div_le_upper_bound; lia).
    rewrite (BiaP.range_app 0 (max_ones fw / 2) (max_ones fw)), !tot_app by lia.
    unfold ahalves. eapply asks_bind; [apply aloop_asks| |reflexivity|reflexivity].
    + intros i a Hi. apply Hs. apply BiaP.range_in in Hi. lia.
    + intros l _. eapply (asks_bind _ _ _ _ 0 0); [apply aloop_asks| |rewrite N.add_0_r; reflexivity|rewrite N.add_0_r; reflexivity].
      * intros i a Hi. apply Hs. apply BiaP.range_in in Hi. lia.
      * intros r _. walk.
Qed.
End Push.

Section T.
Context {K V : Type} (ck : K -> prog A K) (cv : V -> prog A V) (Hck : forall k, free fe fh (ck k)) (Hcv : forall v, free fe fh (cv v)).

Lemma as_transform_free op (s : snode K V) : quiet fe fh op -> free fe fh (as_transform (R := R) ck op s).
Proof. intros Hop. unfold as_transform, quiet in *. walk. Qed.
Lemma al_transform_result_free (l : lnode K V) o (t : tres K V R) : free fe fh (al_transform_result red ck cv l o t).
Proof. unfold al_transform_result. walk. Qed.
Lemma al_transform_free op (l : lnode K V) : quiet fe fh op -> free fe fh (al_transform red ck cv op l).
Proof.
  intros Hop. induction l as [k v n IH z|k v s z]; cbn [al_transform]; destruct op as [f|r|r]; try (apply asks_ret; exact Logic.I);
    (apply asks_free; [first [exact IH | apply as_transform_free; exact Hop]|]); intros t; (apply asks_free; [exact (Hop (k, v))|]);
    intros o; apply al_transform_result_free.
Qed.
Lemma an_transform_free op (n : lnext K V) : quiet fe fh op -> free fe fh (an_transform red ck cv op n).
Proof. intros Hop. destruct n; [apply al_transform_free|apply as_transform_free]; exact Hop. Qed.
End T.

Section M.
Context {K V S X : Type}.
Lemma as_transmute_free (op : etransmute A (K * V) S X R) (s : snode K V) : mquiet fe fh op -> free fe fh (as_transmute op s).
Proof. intros Hop. unfold as_transmute, mquiet in *. walk. Qed.
Lemma al_transmute_result_free o (t : nres S X R) : free fe fh (al_transmute_result red o t).
Proof. unfold al_transmute_result. walk. Qed.
Lemma al_transmute_free (op : etransmute A (K * V) S X R) (l : lnode K V) : mquiet fe fh op -> free fe fh (al_transmute red op l).
Proof.
  intros Hop. induction l as [k v n IH z|k v s z]; cbn [al_transmute]; destruct op as [f|r]; try (apply asks_ret; exact Logic.I);
    (apply asks_free; [first [exact IH | apply as_transmute_free; exact Hop]|]); intros t; (apply asks_free; [exact (Hop (k, v))|]);
    intros o; apply al_transmute_result_free.
Qed.
Lemma an_transmute_free (op : etransmute A (K * V) S X R) (n : lnext K V) : mquiet fe fh op -> free fe fh (an_transmute red op n).
Proof. intros Hop. destruct n; [apply al_transmute_free|apply as_transmute_free]; exact Hop. Qed.
End M.
End One.
(** * Lists and leaves *)
Section Assoc.
Context {Q : Type} {A : Q -> Type} (fe fh : Q -> bool).
Lemma asks_assoc {X Y Z} e h (P : Z -> Prop) (p : prog A X) (f : X -> prog A Y) (g : Y -> prog A Z) :
  asks fe fh e h P (pbind p (fun x => pbind (f x) g)) -> asks fe fh e h P (pbind (pbind p f) g).
Proof.
  intros H tr o Hx. apply H. clear H. apply exec_bind in Hx. apply exec_bind.
  destruct Hx as [(t1 & t2 & y & -> & H1 & H2)|[[H1 ->]|[H1 ->]]]; apply exec_bind in H1.
  - destruct H1 as [(t3 & t4 & x & -> & H3 & H4)|[[_ H]|[_ H]]]; try discriminate. left. exists t3, (t4 ++ t2), x.
    rewrite app_assoc. repeat split; [exact H3|]. apply exec_bind. left. exists t4, t2, y. auto.
  - destruct H1 as [(t3 & t4 & x & -> & H3 & H4)|[[H3 _]|[_ H]]]; try discriminate.
    + left. exists t3, t4, x. repeat split; [exact H3|]. apply exec_bind. right. left. auto.
    + right. left. auto.
  - destruct H1 as [(t3 & t4 & x & -> & H3 & H4)|[[_ H]|[H3 _]]]; try discriminate.
    + left. exists t3, t4, x. repeat split; [exact H3|]. apply exec_bind. right. right. auto.
    + right. right. auto.
Qed.
Lemma asks_eq {X Y} e h (P : Y -> Prop) (p : prog A X) (f : X -> prog A Y) : asks fe fh 1 0 any p ->
  1 <= e -> (forall x, asks fe fh (e - 1) h P (f x)) -> asks fe fh e h P (pbind p f).
Proof. intros Hp He Hf. eapply asks_bind; [exact Hp|intros x _; apply Hf|lia|lia]. Qed.
Lemma asks_hash {X Y} e h (P : Y -> Prop) (p : prog A X) (f : X -> prog A Y) : asks fe fh 0 1 any p ->
  1 <= h -> (forall x, asks fe fh e (h - 1) P (f x)) -> asks fe fh e h P (pbind p f).
Proof. intros Hp He Hf. eapply asks_bind; [exact Hp|intros x _; apply Hf|lia|lia]. Qed.
Lemma asks_then {X Y} e1 h1 e h (P : X -> Prop) (P' : Y -> Prop) (p : prog A X) (f : X -> prog A Y) : asks fe fh e1 h1 P p ->
  e1 <= e -> h1 <= h -> (forall x, P x -> asks fe fh (e - e1) (h - h1) P' (f x)) -> asks fe fh e h P' (pbind p f).
Proof. intros Hp He Hh Hf. eapply asks_bind; [exact Hp|exact Hf|lia|lia]. Qed.

Lemma aposition_asks {B} (p : B -> prog A bool) l : (forall b, asks fe fh 1 0 any (p b)) ->
  asks fe fh (lenN l) 0 any (aposition p l).
Proof.
  intros Hp. induction l as [|b l IH]; cbn [aposition]; [apply asks_ret; exact Logic.I|]. unfold lenN in *. cbn [length].
  apply asks_eq; [apply Hp|lia|]. intros [|]; [apply asks_ret; exact Logic.I|]. eapply asks_then; [exact IH|lia|lia|].
  intros o _. apply asks_ret. exact Logic.I.
Qed.
Lemma swap_remove_len {B} i (l : list B) b l' : swap_remove i l = Some (b, l') -> lenN l' + 1 = lenN l.
Proof.
  unfold swap_remove. destruct (nth_error l i) as [c|] eqn:Hn; [|discriminate]. intros He.
  assert (Hl : l' = removelast (firstn i l ++ last l c :: skipn (Datatypes.S i) l)) by congruence. rewrite Hl. clear He Hl.
  assert (Hi : (i < length l)%nat) by (apply nth_error_Some; rewrite Hn; discriminate).
  assert (Hr : forall m : list B, length (removelast m) = pred (length m)).
  { intros m. induction m as [|x [|y m] IH]; [reflexivity|reflexivity|]. cbn [removelast length] in *. rewrite IH. reflexivity. }
  pose proof (skipn_length (Datatypes.S i) l) as Hk. unfold lenN. rewrite Hr, app_length, firstn_length.
  change (length (last l c :: skipn (Datatypes.S i) l)) with (Datatypes.S (length (skipn (Datatypes.S i) l))). lia.
Qed.
Lemma atake_key_asks {L W} (eq : L -> prog A bool) (rights : list (L * W)) : (forall l, asks fe fh 1 0 any (eq l)) ->
  asks fe fh (lenN rights) 0 (fun o => forall e rs, o = Some (e, rs) -> lenN rs + 1 = lenN rights) (atake_key eq rights).
Proof.
  intros Hq. unfold atake_key. eapply asks_then; [apply (aposition_asks (fun e => eq (fst e)) rights); intros b; apply Hq|lia|lia|].
  intros o _. apply asks_ret. intros e rs. destruct o as [i|]; [|discriminate]. apply swap_remove_len.
Qed.
End Assoc.

Ltac go := repeat (cbn beta; match goal with
  | |- asks _ _ _ _ _ (pbind (pbind _ _) _) => apply asks_assoc
  | |- asks _ _ _ _ _ (pbind (match ?x with _ => _ end) _) => destruct x
  | |- asks _ _ _ _ _ (pbind PPanic _) => cbn [pbind]
  | _ => progress walk
  end).

Lemma l_len {K V} (l : lnode K V) : 2 <= lenN (l_visit l).
Proof. unfold lenN. induction l as [k v n IH z|k v s z]; cbn [l_visit s_visit length]; lia. Qed.
