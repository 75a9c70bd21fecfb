(** transform, transmute and visit call their closure once per entry, and
    return what the model with functions returns. *)
From Coq Require Import NArith Arith List Bool Lia Permutation.
From Verif Require Import Base Words Flag Bia BiaP Node Inv Api Trans Transform Profile Eff EffT EffP JoinP.
Import ListNotations.
Open Scope N_scope.

(** * Operations *)
Section Ops.
Context {Q : Type} {A : Q -> Type}.

(** What a call of the operation costs. *)
Definition tcost {I V R} (tk : I -> list Q) (op : etransform A I V R) : Prop :=
  match op with
  | EGeneric f => forall i, spends (tk i) (f i)
  | _ => forall i, tk i = []
  end.
Definition mcost {I S X R} (tk : I -> list Q) (op : etransmute A I S X R) : Prop :=
  match op with
  | EMGeneric f => forall i, spends (tk i) (f i)
  | _ => forall i, tk i = []
  end.
Definition jcost {I V R} (tk : I -> I -> list Q) (op : ejoint A I V R) : Prop :=
  match op with
  | EJGeneric f flipped => forall a b, if flipped then spends (tk b a) (f a b) else spends (tk a b) (f a b)
  | _ => forall a b, tk a b = []
  end.

Lemma etcall_spends {I V R} tk (op : etransform A I V R) i : tcost tk op -> spends (tk i) (etcall op i).
Proof. destruct op; cbn; intros H; [apply H|rewrite H; apply spends_ret..]. Qed.
Lemma emcall_spends {I S X R} tk (op : etransmute A I S X R) i : mcost tk op -> spends (tk i) (emcall op i).
Proof. destruct op; cbn; intros H; [apply H|rewrite H; apply spends_ret..]. Qed.
Lemma ejcall_spends {I V R} tk (op : ejoint A I V R) a b : jcost tk op -> spends (tk a b) (ejcall op a b).
Proof.
  destruct op as [f fl| | | |]; cbn; intros H; [|rewrite H; apply spends_ret..].
  specialize (H b a) as H1. specialize (H a b) as H2. destruct fl; [|assumption].
  apply spends_then; [assumption|]. intros x. apply spends_ret.
Qed.

Lemma tcost_flip {I J V R} tk (op : etransform A (I * J) V R) : tcost tk op -> tcost (fun p => tk (snd p, fst p)) (etflip op).
Proof. destruct op; cbn; auto. Qed.
Lemma mcost_flip {I J S X R} tk (op : etransmute A (I * J) S X R) : mcost tk op -> mcost (fun p => tk (snd p, fst p)) (emflip op).
Proof. destruct op; cbn; auto. Qed.
Lemma jcost_flip {I V R} tk (op : ejoint A I V R) : jcost tk op -> jcost (fun a b => tk b a) (ejflip op).
Proof. destruct op as [f fl| | | |]; cbn; auto. intros H a b. specialize (H a b). destruct fl; assumption. Qed.

(** The same operation with a function for a closure. *)
Definition tsame {I V R} (f : forall q, A q) (op : etransform A I V R) (op' : transform_op I V R) : Prop :=
  match op, op' with
  | EGeneric g, TGeneric h => forall i, run f (g i) = Ret (h i)
  | EUnchanged r, TUnchanged r' => r = r'
  | ERemoved r, TRemoved r' => r = r'
  | _, _ => False
  end.
Definition msame {I S X R} (f : forall q, A q) (op : etransmute A I S X R) (op' : transmute_op I S X R) : Prop :=
  match op, op' with
  | EMGeneric g, MGeneric h => forall i, run f (g i) = Ret (h i)
  | EMRemoved r, MRemoved r' => r = r'
  | _, _ => False
  end.
Definition jsame {I V R} (f : forall q, A q) (op : ejoint A I V R) (op' : joint_op I V R) : Prop :=
  match op, op' with
  | EJGeneric g fl, JGeneric h fl' => fl = fl' /\ forall a b, run f (g a b) = Ret (h a b)
  | EJUnchangedLR r, JUnchangedLR r' => r = r'
  | EJUnchangedL r, JUnchangedL r' => r = r'
  | EJUnchangedR r, JUnchangedR r' => r = r'
  | EJRemoved r, JRemoved r' => r = r'
  | _, _ => False
  end.

Lemma etcall_run {I V R} f (op : etransform A I V R) op' i : tsame f op op' -> run f (etcall op i) = Ret (tcall op' i).
Proof. destruct op, op'; cbn; intros H; try contradiction; [apply H|subst; reflexivity..]. Qed.
Lemma emcall_run {I S X R} f (op : etransmute A I S X R) op' i : msame f op op' -> run f (emcall op i) = Ret (mcall op' i).
Proof. destruct op, op'; cbn; intros H; try contradiction; [apply H|subst; reflexivity..]. Qed.
Lemma ejcall_run {I V R} f (op : ejoint A I V R) op' a b : jsame f op op' -> run f (ejcall op a b) = Ret (jcall op' a b).
Proof.
  destruct op as [g fl| | | |], op'; cbn; intros H; try contradiction; [|subst; reflexivity..].
  destruct H as [<- H]. destruct fl; [|apply H]. rewrite run_bind, H. reflexivity.
Qed.
Lemma tsame_flip {I J V R} f (op : etransform A (I * J) V R) op' : tsame f op op' -> tsame f (etflip op) (tflip op').
Proof. destruct op, op'; cbn; auto. Qed.
Lemma msame_flip {I J S X R} f (op : etransmute A (I * J) S X R) op' : msame f op op' -> msame f (emflip op) (mflip op').
Proof. destruct op, op'; cbn; auto. Qed.
Lemma jsame_flip {I V R} f (op : ejoint A I V R) op' : jsame f op op' -> jsame f (ejflip op) (jflip op').
Proof. destruct op, op'; cbn; auto. intros [<- H]. auto. Qed.

End Ops.

Lemma flat_map_nil {A B} (f : A -> list B) l : (forall a, f a = []) -> flat_map f l = [].
Proof. intros H. induction l; cbn; [reflexivity|]. rewrite H. assumption. Qed.

Lemma flat_map_slot {A B C} (f : B -> list C) (g : A -> list B) l : flat_map f (flat_map g l) = flat_map (fun a => flat_map f (g a)) l.
Proof. induction l; cbn; [reflexivity|]. rewrite flat_map_app, IHl. reflexivity. Qed.

(** * transform *)
Section Transform.
Context {E : Env} {Q : Type} {A : Q -> Type} {K V R : Type} {KK : Key K}.
Context (rdef : R) (rd : R -> R -> R).

Section Spends.
Context (tk : K * V -> list Q).

Lemma es_transform_spends (op : etransform A (K * V) V R) s : tcost tk op -> spends (tk (s_key s, s_value s)) (es_transform op s).
Proof. intros HT. apply spends_then; [apply etcall_spends; assumption|]. intros x. apply spends_ret. Qed.

Lemma el_transform_spends (op : etransform A (K * V) V R) l : tcost tk op -> spends (flat_map tk (l_visit l)) (el_transform rd op l).
Proof.
  intros HT. assert (HS : forall k v (l : lnode K V) (p : prog A (tres K V R)) rest, l_key l = k -> l_value l = v -> spends rest p ->
    spends (tk (k, v) ++ rest) (let+ next := p in let+ o := etcall op (l_key l, l_value l) in PRet (l_transform_result rd l o next))).
  { intros k v l0 p rest <- <- Hp. eapply spends_perm; [apply Permutation_app_comm|]. apply spends_bind; [assumption|].
    intros x. apply spends_then; [apply etcall_spends; assumption|]. intros y. apply spends_ret. }
  induction l as [k v n IH z|k v s z]; cbn [el_transform l_visit flat_map]; destruct op as [g|r|r] eqn:Hop.
  1,4: apply HS; try reflexivity.
  - exact IH.
  - unfold s_visit. cbn [flat_map]. rewrite app_nil_r. apply es_transform_spends. exact HT.
  - rewrite (flat_map_nil tk) by exact HT. rewrite HT. apply spends_ret.
  - rewrite (flat_map_nil tk) by exact HT. rewrite HT. apply spends_ret.
  - rewrite (flat_map_nil tk) by exact HT. rewrite HT. apply spends_ret.
  - rewrite (flat_map_nil tk) by exact HT. rewrite HT. apply spends_ret.
Qed.

Lemma em_transform_spends (op : etransform A (K * V) V R) st d p n : tcost tk op -> wf d p n -> spends (flat_map tk (m_visit n)) (em_transform rdef rd st op n).
Proof.
  intros HT HW. induction HW as [d p s Hs|d p l g HL Hl|d p bits values x Ho Hp Hok Hne Hx Hch IH].
  - cbn [em_transform m_visit]. unfold s_visit. cbn [flat_map]. rewrite app_nil_r. apply es_transform_spends. assumption.
  - apply el_transform_spends. assumption.
  - rewrite (visit_C _ _ _ _ Hok), flat_map_slot. cbn [em_transform]. destruct op as [g|r|r] eqn:Hop.
    + apply spends_then; [|intros a; apply spends_lift]. apply spends_run_loop. intros a i Hi. unfold ec_transform_step.
      rewrite bat_bit_index_slot by assumption. cbn [lift pbind].
      destruct (getv bits values i) as [c|] eqn:Hc; cbn [ovisit]; [|apply spends_ret].
      apply spends_then; [apply (IH i c Hc)|]. intros t. apply spends_lift.
    + rewrite flat_map_nil; [apply spends_ret|]. intros i. apply flat_map_nil. exact HT.
    + rewrite flat_map_nil; [apply spends_ret|]. intros i. apply flat_map_nil. exact HT.
Qed.

Lemma emap_transform_spends (op : etransform A (K * V) V R) st d p m : tcost tk op -> wf d p m -> spends (flat_map tk (map_visit m)) (emap_transform rdef rd st op m).
Proof. intros HT HW. apply spends_then; [eapply em_transform_spends; eassumption|]. intros x. apply spends_ret. Qed.

End Spends.

Section Run.
Context (f : forall q, A q) (op : etransform A (K * V) V R) (op' : transform_op (K * V) V R) (HS : tsame f op op').

Lemma es_transform_run s : run f (es_transform op s) = Ret (s_transform op' s).
Proof. unfold es_transform, s_transform. rewrite run_bind, (etcall_run _ _ _ _ HS). reflexivity. Qed.

Lemma el_transform_run l : run f (el_transform rd op l) = Ret (l_transform rd op' l).
Proof.
  induction l as [k v n IH z|k v s z]; pose proof HS as HS'; destruct op as [g|r|r] eqn:Hop, op' as [h|r'|r'] eqn:Hop'; cbn in HS'; try contradiction;
    try (cbn; subst; reflexivity); cbn [el_transform l_transform]; rewrite run_bind.
  - rewrite IH. cbn [bind]. rewrite run_bind, (etcall_run _ _ _ _ HS). reflexivity.
  - rewrite <- Hop, <- Hop' in *. rewrite es_transform_run. cbn [bind]. rewrite run_bind, (etcall_run _ _ _ _ HS). reflexivity.
Qed.

(** Children looked up by bit index. *)
Lemma bat_bit_index_child {T U} (F : mnode K V -> T) (G : mnode K V -> U) bits values x i :
  (exists c, In c values /\ bat_bit_index fw (BIA bits (map F values) x) i = Ret (Ok (F c)) /\
     bat_bit_index fw (BIA bits (map G values) x) i = Ret (Ok (G c))) \/
  (exists e, bat_bit_index fw (BIA bits (map F values) x) i = Ret (Err e) /\
     bat_bit_index fw (BIA bits (map G values) x) i = Ret (Err e)) \/
  (bat_bit_index fw (BIA bits (map F values) x) i = Panic /\ bat_bit_index fw (BIA bits (map G values) x) i = Panic) \/
  (bat_bit_index fw (BIA bits (map F values) x) i = Diverge /\ bat_bit_index fw (BIA bits (map G values) x) i = Diverge).
Proof.
  rewrite !bat_bit_index_map. destruct (bat_bit_index fw (BIA bits values x) i) as [[c|e]| |] eqn:H; cbn [bind].
  - left. exists c. split; [|auto]. unfold bat_bit_index in H.
    cbn in H. destruct (nth_bit fw i) as [bit|]; [|discriminate]. destruct (bit_index bits bit) as [j|]; [|discriminate].
    unfold nthN in H. destruct (nth_error values (N.to_nat j)) as [c'|] eqn:Hn; [|discriminate].
    injection H as <-. eapply nth_error_In. exact Hn.
  - right. left. eauto.
  - auto.
  - auto.
Qed.

Lemma em_transform_run st n : run f (em_transform rdef rd st op n) = m_transform rdef rd st op' n.
Proof.
  induction n as [bits values x IH|l|s] using mnode_ind'; cbn [em_transform m_transform].
  - pose proof HS as HS'. destruct op as [g|r|r] eqn:Hop, op' as [h|r'|r'] eqn:Hop'; cbn in HS'; try contradiction; try (subst; reflexivity).
    rewrite <- Hop, <- Hop' in *. rewrite run_bind.
    rewrite (run_erun_loop rdef rd f st _ (c_transform_step rd (BIA bits (map (fun c => (c, m_transform rdef rd st op' c)) values) x))).
    { destruct (run_loop rdef rd st _) as [a| |]; cbn [bind]; try reflexivity. apply run_lift. }
    intros a i. unfold ec_transform_step, c_transform_step. rewrite run_bind, run_lift.
    destruct (bat_bit_index_child (fun c => (c, em_transform rdef rd st op c)) (fun c => (c, m_transform rdef rd st op' c)) bits values x i)
      as [(c & Hc & -> & ->)|[(e & -> & ->)|[[-> ->]|[-> ->]]]]; cbn [bind]; try reflexivity.
    rewrite run_bind. rewrite Forall_forall in IH. rewrite (IH c Hc).
    destruct (m_transform rdef rd st op' c) as [t| |]; cbn [bind]; try reflexivity. apply run_lift.
  - rewrite el_transform_run. reflexivity.
  - rewrite es_transform_run. reflexivity.
Qed.

Lemma emap_transform_run st m : run f (emap_transform rdef rd st op m) = map_transform rdef rd st op' m.
Proof.
  unfold emap_transform, map_transform. rewrite run_bind, em_transform_run.
  destruct (m_transform rdef rd st op' m) as [[r|n]| |]; reflexivity.
Qed.

End Run.
End Transform.

(** * transmute *)
Section Transmute.
Context {E : Env} {Q : Type} {A : Q -> Type} {K V S X R : Type} {KK : Key K}.
Context (rdef : R) (rd : R -> R -> R).

Section Spends.
Context (tk : K * V -> list Q).

Lemma es_transmute_spends (op : etransmute A (K * V) S X R) s : mcost tk op -> spends (tk (s_key s, s_value s)) (es_transmute op s).
Proof. intros HT. apply spends_then; [apply emcall_spends; assumption|]. intros x. apply spends_ret. Qed.

Lemma el_transmute_spends (op : etransmute A (K * V) S X R) l : mcost tk op -> spends (flat_map tk (l_visit l)) (el_transmute rd op l).
Proof.
  intros HT. assert (HS : forall k v (l : lnode K V) (p : prog A (nres S X R)) rest, l_key l = k -> l_value l = v -> spends rest p ->
    spends (tk (k, v) ++ rest) (let+ next := p in let+ o := emcall op (l_key l, l_value l) in PRet (l_transmute_result rd o next))).
  { intros k v l0 p rest <- <- Hp. eapply spends_perm; [apply Permutation_app_comm|]. apply spends_bind; [assumption|].
    intros x. apply spends_then; [apply emcall_spends; assumption|]. intros y. apply spends_ret. }
  induction l as [k v n IH z|k v s z]; cbn [el_transmute l_visit flat_map]; destruct op as [g|r] eqn:Hop.
  1,3: apply HS; try reflexivity.
  - exact IH.
  - unfold s_visit. cbn [flat_map]. rewrite app_nil_r. apply es_transmute_spends. exact HT.
  - rewrite (flat_map_nil tk) by exact HT. rewrite HT. apply spends_ret.
  - rewrite (flat_map_nil tk) by exact HT. rewrite HT. apply spends_ret.
Qed.

Lemma em_transmute_spends (op : etransmute A (K * V) S X R) d p n : mcost tk op -> wf d p n -> spends (flat_map tk (m_visit n)) (em_transmute rdef rd op n).
Proof.
  intros HT HW. induction HW as [d p s Hs|d p l g HL Hl|d p bits values x Ho Hp Hok Hne Hx Hch IH].
  - cbn [em_transmute m_visit]. unfold s_visit. cbn [flat_map]. rewrite app_nil_r. apply es_transmute_spends. assumption.
  - apply el_transmute_spends. assumption.
  - rewrite (visit_C _ _ _ _ Hok), flat_map_slot. cbn [em_transmute]. destruct op as [g|r] eqn:Hop.
    + apply spends_then; [|intros a; apply spends_lift]. apply spends_loop. intros a i Hi. apply range_in in Hi. unfold ec_transmute_step.
      rewrite bat_bit_index_slot by (assumption || lia). cbn [lift pbind].
      destruct (getv bits values i) as [c|] eqn:Hc; cbn [ovisit]; [|apply spends_ret].
      apply spends_then; [apply (IH i c Hc)|]. intros t. apply spends_lift.
    + rewrite flat_map_nil; [apply spends_ret|]. intros i. apply flat_map_nil. exact HT.
Qed.

Lemma emap_transmute_spends (op : etransmute A (K * V) S X R) d p m : mcost tk op -> wf d p m -> spends (flat_map tk (map_visit m)) (emap_transmute rdef rd op m).
Proof. intros HT HW. apply spends_then; [eapply em_transmute_spends; eassumption|]. intros x. apply spends_ret. Qed.

End Spends.

Section Run.
Context (f : forall q, A q) (op : etransmute A (K * V) S X R) (op' : transmute_op (K * V) S X R) (HS : msame f op op').

Lemma es_transmute_run s : run f (es_transmute op s) = Ret (s_transmute op' s).
Proof. unfold es_transmute, s_transmute. rewrite run_bind, (emcall_run _ _ _ _ HS). reflexivity. Qed.

Lemma el_transmute_run l : run f (el_transmute rd op l) = Ret (l_transmute rd op' l).
Proof.
  induction l as [k v n IH z|k v s z]; pose proof HS as HS'; destruct op as [g|r] eqn:Hop, op' as [h|r'] eqn:Hop'; cbn in HS'; try contradiction;
    try (cbn; subst; reflexivity); cbn [el_transmute l_transmute]; rewrite run_bind.
  - rewrite IH. cbn [bind]. rewrite run_bind, (emcall_run _ _ _ _ HS). reflexivity.
  - rewrite <- Hop, <- Hop' in *. rewrite es_transmute_run. cbn [bind]. rewrite run_bind, (emcall_run _ _ _ _ HS). reflexivity.
Qed.

Lemma em_transmute_run n : run f (em_transmute rdef rd op n) = m_transmute rdef rd op' n.
Proof.
  induction n as [bits values x IH|l|s] using mnode_ind'; cbn [em_transmute m_transmute].
  - pose proof HS as HS'. destruct op as [g|r] eqn:Hop, op' as [h|r'] eqn:Hop'; cbn in HS'; try contradiction; try (subst; reflexivity).
    rewrite <- Hop, <- Hop' in *. rewrite run_bind.
    rewrite (run_eloop f _ (c_transmute_step rd (BIA bits (map (m_transmute rdef rd op') values) x))).
    { destruct (loop _ _ _) as [a| |]; cbn [bind]; try reflexivity. apply run_lift. }
    intros a i. unfold ec_transmute_step, c_transmute_step. rewrite run_bind, run_lift.
    destruct (bat_bit_index_child (em_transmute rdef rd op) (m_transmute rdef rd op') bits values x i)
      as [(c & Hc & -> & ->)|[(e & -> & ->)|[[-> ->]|[-> ->]]]]; cbn [bind]; try reflexivity.
    rewrite run_bind. rewrite Forall_forall in IH. rewrite (IH c Hc).
    destruct (m_transmute rdef rd op' c) as [t| |]; cbn [bind]; try reflexivity. apply run_lift.
  - rewrite el_transmute_run. reflexivity.
  - rewrite es_transmute_run. reflexivity.
Qed.

Lemma emap_transmute_run m : run f (emap_transmute rdef rd op m) = map_transmute rdef rd op' m.
Proof. unfold emap_transmute, map_transmute. rewrite run_bind, em_transmute_run. destruct (m_transmute rdef rd op' m); reflexivity. Qed.

End Run.
End Transmute.

(** * visit: the calls come in the order of [map_visit]. *)
Section Visit.
Context {E : Env} {Q : Type} {A : Q -> Type} {K V : Type}.

(** [p] makes the calls [l] in that order, or a part from the start. *)
Definition follows {X} (l : list Q) (p : prog A X) : Prop :=
  forall tr o, exec p tr o -> exists l', calls tr ++ l' = l /\ forall x, o = Ret x -> l' = [].

Lemma follows_bind {X Y} l1 l2 (p : prog A X) (k : X -> prog A Y) :
  follows l1 p -> (forall x, follows l2 (k x)) -> follows (l1 ++ l2) (pbind p k).
Proof.
  intros H1 H2 tr o He. apply exec_bind in He. destruct He as [(t1 & t2 & x & -> & Ha & Hb)|[[Ha ->]|[Ha ->]]].
  - destruct (H1 _ _ Ha) as (r1 & <- & Hr). rewrite (Hr x eq_refl), app_nil_r. destruct (H2 x _ _ Hb) as (r2 & <- & Hr2).
    exists r2. split; [|assumption]. unfold calls. rewrite map_app, app_assoc. reflexivity.
  - destruct (H1 _ _ Ha) as (r1 & <- & Hr). exists (r1 ++ l2). split; [apply app_assoc|discriminate].
  - destruct (H1 _ _ Ha) as (r1 & <- & Hr). exists (r1 ++ l2). split; [apply app_assoc|discriminate].
Qed.

Lemma follows_ret {X} (x : X) : follows [] (PRet x).
Proof. intros tr o [-> ->]. exists []. auto. Qed.

Context (tk : K * V -> list Q) (op : K * V -> prog A unit) (Hop : forall e, follows (tk e) (op e)).

Lemma el_visit_follows l : follows (flat_map tk (l_visit l)) (el_visit op l).
Proof.
  induction l as [k v n IH z|k v s z]; cbn [el_visit l_visit flat_map l_key l_value]; (apply follows_bind; [apply Hop|intros _]).
  - exact IH.
  - unfold s_visit. cbn [flat_map]. rewrite app_nil_r. apply Hop.
Qed.

Lemma em_visit_follows n : follows (flat_map tk (m_visit n)) (em_visit op n).
Proof.
  induction n as [bits values x IH|l|s] using mnode_ind'; cbn [em_visit m_visit].
  - induction IH as [|c values Hc IHv IHr]; cbn [map concat each]; [apply follows_ret|].
    rewrite flat_map_app. apply follows_bind; [exact Hc|]. intros _. exact IHr.
  - apply el_visit_follows.
  - unfold s_visit. cbn [flat_map]. rewrite app_nil_r. apply Hop.
Qed.

End Visit.
