(** With a client whose code consists of functions, AskT.v is Transform.v. *)
From Coq Require Import NArith Arith List Bool Lia.
From Verif Require Import Base Words Flag Bia BiaP Node Inv Api Trans Transform Profile Eff EffP EffTP EffApi AskT.
Import ListNotations.
Open Scope N_scope.

Section Loop.
Context {E : Env} {Q : Type} {A : Q -> Type} {K V R : Type} (f : forall q, A q).
Context (def : prog A R) (red : R -> R -> prog A R) (rdef : R) (rd : R -> R -> R).
Context (Hdef : run f def = Ret rdef) (Hred : forall a b, run f (red a b) = Ret (rd a b)).

Lemma apush_run (a : acc K V R) i n s r : run f (apush red a i n s r) = push rd a i n s r.
Proof.
  unfold apush, push. rewrite run_bind, run_lift. destruct (unwrap_ok (nth_bit fw i)) as [bit| |]; cbn [bind]; try reflexivity.
  rewrite run_bind, run_lift. destruct (unwrap_ok (bit_insert (a_bits a) bit)) as [bits| |]; cbn [bind]; try reflexivity.
  rewrite run_bind, Hred. reflexivity.
Qed.
Lemma apush_new_run (a : acc K V R) i n : run f (apush_new red a i n) = push_new rd a i n.
Proof. destruct n; cbn [apush_new push_new]; try apply apush_run. rewrite run_bind, Hred. reflexivity. Qed.

Context (step : acc K V R -> N -> prog A (acc K V R)) (step' : acc K V R -> N -> outcome (acc K V R)).
Context (Hstep : forall a i, run f (step a i) = step' a i).

Lemma aloop_run l : run f (aloop def step l) = loop step' l (acc0 rdef).
Proof. unfold aloop. rewrite run_bind, Hdef. apply run_eloop. assumption. Qed.

Lemma arun_run st : run f (arun_loop def red st step) = run_loop rdef rd st step'.
Proof.
  destruct st; cbn [arun_loop run_loop]; [apply aloop_run|]. unfold ahalves, halves. rewrite run_bind, aloop_run.
  destruct (loop step' _ _) as [l| |]; cbn [bind]; try reflexivity.
  rewrite run_bind, aloop_run. destruct (loop step' (range (max_ones fw / 2) (max_ones fw)) _) as [r| |]; cbn [bind]; try reflexivity.
  rewrite run_bind, run_lift. destruct (unwrap_ok _) as [bits| |]; cbn [bind]; try reflexivity. rewrite run_bind, Hred. reflexivity.
Qed.
End Loop.

Section Transform.
Context {E : Env} {Q : Type} {A : Q -> Type} {K V R : Type} (f : forall q, A q).
Context (def : prog A R) (red : R -> R -> prog A R) (ck : K -> prog A K) (cv : V -> prog A V) (rdef : R) (rd : R -> R -> R).
Context (Hdef : run f def = Ret rdef) (Hred : forall a b, run f (red a b) = Ret (rd a b)).
Context (Hck : forall k, run f (ck k) = Ret k) (Hcv : forall v, run f (cv v) = Ret v).
Context (op : etransform A (K * V) V R) (op' : transform_op (K * V) V R) (HS : tsame f op op').

Lemma as_transform_run s : run f (as_transform ck op s) = Ret (s_transform op' s).
Proof.
  unfold as_transform, s_transform. rewrite run_bind, (etcall_run _ _ _ _ HS). cbn [bind].
  destruct (tcall op' (s_key s, s_value s)); try reflexivity. rewrite run_bind, Hck. reflexivity.
Qed.

Lemma al_result_run this o next : run f (al_transform_result red ck cv this o next) = Ret (l_transform_result rd this o next).
Proof.
  destruct o, next as [|[]]; cbn [al_transform_result l_transform_result];
    repeat (rewrite run_bind, ?Hck, ?Hcv, ?Hred; cbn [bind]); reflexivity.
Qed.

Lemma al_transform_run l : run f (al_transform red ck cv op l) = Ret (l_transform rd op' l).
Proof.
  induction l as [k v n IH z|k v s z]; pose proof HS as HS'; destruct op as [g|r|r] eqn:Hop, op' as [h|r'|r'] eqn:Hop'; cbn in HS'; try contradiction;
    try (cbn; subst; reflexivity); cbn [al_transform l_transform]; rewrite run_bind.
  - rewrite IH. cbn [bind]. rewrite run_bind, (etcall_run _ _ _ _ HS). apply al_result_run.
  - rewrite <- Hop, <- Hop' in *. rewrite as_transform_run. cbn [bind]. rewrite run_bind, (etcall_run _ _ _ _ HS). apply al_result_run.
Qed.

Lemma am_transform_run st n : run f (am_transform def red ck cv st op n) = m_transform rdef rd st op' n.
Proof.
  induction n as [bits values x IH|l|s] using mnode_ind'; cbn [am_transform m_transform].
  - pose proof HS as HS'. destruct op as [g|r|r] eqn:Hop, op' as [h|r'|r'] eqn:Hop'; cbn in HS'; try contradiction; try (subst; reflexivity).
    rewrite <- Hop, <- Hop' in *. rewrite run_bind.
    rewrite (arun_run f def red rdef rd Hdef Hred _ (c_transform_step rd (BIA bits (map (fun c => (c, m_transform rdef rd st op' c)) values) x))).
    { destruct (run_loop rdef rd st _) as [a| |]; cbn [bind]; try reflexivity. apply run_lift. }
    intros a i. unfold ac_transform_step, c_transform_step. rewrite run_bind, run_lift.
    destruct (bat_bit_index_child (fun c => (c, am_transform def red ck cv st op c)) (fun c => (c, m_transform rdef rd st op' c)) bits values x i)
      as [(c & Hc & -> & ->)|[(e & -> & ->)|[[-> ->]|[-> ->]]]]; cbn [bind]; try reflexivity.
    rewrite run_bind. rewrite Forall_forall in IH. rewrite (IH c Hc).
    destruct (m_transform rdef rd st op' c) as [t| |]; cbn [bind]; try reflexivity. destruct t as [r|n].
    + apply (apush_run f red rd Hred).
    + rewrite run_bind, (apush_new_run f red rd Hred). destruct (push_new rd a i n); reflexivity.
  - rewrite al_transform_run. reflexivity.
  - rewrite as_transform_run. reflexivity.
Qed.
End Transform.

Section Transmute.
Context {E : Env} {Q : Type} {A : Q -> Type} {K V S X R : Type} (f : forall q, A q).
Context (def : prog A R) (red : R -> R -> prog A R) (rdef : R) (rd : R -> R -> R).
Context (Hdef : run f def = Ret rdef) (Hred : forall a b, run f (red a b) = Ret (rd a b)).
Context (op : etransmute A (K * V) S X R) (op' : transmute_op (K * V) S X R) (HS : msame f op op').

Lemma as_transmute_run s : run f (as_transmute op s) = Ret (s_transmute op' s).
Proof. unfold as_transmute, s_transmute. rewrite run_bind, (emcall_run _ _ _ _ HS). reflexivity. Qed.

Lemma al_mresult_run (o : kres S X R) (next : nres S X R) : run f (al_transmute_result red o next) = Ret (l_transmute_result rd o next).
Proof. destruct o, next; cbn [al_transmute_result l_transmute_result]; rewrite run_bind, Hred; reflexivity. Qed.

Lemma al_transmute_run l : run f (al_transmute red op l) = Ret (l_transmute rd op' l).
Proof.
  induction l as [k v n IH z|k v s z]; pose proof HS as HS'; destruct op as [g|r] eqn:Hop, op' as [h|r'] eqn:Hop'; cbn in HS'; try contradiction;
    try (cbn; subst; reflexivity); cbn [al_transmute l_transmute]; rewrite run_bind.
  - rewrite IH. cbn [bind]. rewrite run_bind, (emcall_run _ _ _ _ HS). apply al_mresult_run.
  - rewrite <- Hop, <- Hop' in *. rewrite as_transmute_run. cbn [bind]. rewrite run_bind, (emcall_run _ _ _ _ HS). apply al_mresult_run.
Qed.

Lemma am_transmute_run n : run f (am_transmute def red op n) = m_transmute rdef rd op' n.
Proof.
  induction n as [bits values x IH|l|s] using mnode_ind'; cbn [am_transmute m_transmute].
  - pose proof HS as HS'. destruct op as [g|r] eqn:Hop, op' as [h|r'] eqn:Hop'; cbn in HS'; try contradiction; try (subst; reflexivity).
    rewrite <- Hop, <- Hop' in *. rewrite run_bind.
    rewrite (aloop_run f def rdef Hdef _ (c_transmute_step rd (BIA bits (map (m_transmute rdef rd op') values) x))).
    { destruct (loop _ _ _) as [a| |]; cbn [bind]; try reflexivity. apply run_lift. }
    intros a i. unfold ac_transmute_step, c_transmute_step. rewrite run_bind, run_lift.
    destruct (bat_bit_index_child (am_transmute def red op) (m_transmute rdef rd op') bits values x i)
      as [(c & Hc & -> & ->)|[(e & -> & ->)|[[-> ->]|[-> ->]]]]; cbn [bind]; try reflexivity.
    rewrite run_bind. rewrite Forall_forall in IH. rewrite (IH c Hc).
    destruct (m_transmute rdef rd op' c) as [t| |]; cbn [bind]; try reflexivity. apply (apush_new_run f red rd Hred).
  - rewrite al_transmute_run. reflexivity.
  - rewrite as_transmute_run. reflexivity.
Qed.
End Transmute.

(** * The public operations *)
Section Api.
Context {E : Env} {K V T R : Type} (rdef : R) (rd : R -> R -> R) (g : K * V -> T).

(** Functions in the place of the client's code; clones are what they copy. *)
Definition functions (q : tcalls K V R) : treply K V T R q :=
  match q return treply K V T R q with
  | TOp e => g e
  | TReduce a b => rd a b
  | TDefault => rdef
  | TKey k => k
  | TValue v => v
  end.
End Api.

Lemma ask_transform_run {E : Env} {K V R} rdef rd (g : K * V -> vres V R) st w m :
  run (functions rdef rd g) (ask_transform st w m) = map_transform rdef rd st (tw_fun w g) m.
Proof.
  unfold ask_transform, map_transform. rewrite run_bind.
  rewrite (am_transform_run (functions rdef rd g) _ _ _ _ rdef rd) with (op' := tw_fun w g); [|try reflexivity..].
  - destruct (m_transform rdef rd st (tw_fun w g) m) as [[r|n]| |]; reflexivity.
  - destruct w; cbn; auto.
Qed.

Lemma ask_transmute_run {E : Env} {K V S X R} rdef rd (g : K * V -> kres S X R) w m :
  run (functions rdef rd g) (ask_transmute w m) = map_transmute rdef rd (mw_fun w g) m.
Proof.
  unfold ask_transmute, map_transmute. rewrite run_bind.
  rewrite (am_transmute_run (functions rdef rd g) _ _ rdef rd) with (op' := mw_fun w g); [|try reflexivity..].
  - destruct (m_transmute rdef rd (mw_fun w g) m) as [n| |]; reflexivity.
  - destruct w; cbn; auto.
Qed.
