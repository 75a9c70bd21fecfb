(** No operation but remove leaves a branch that holds a single leaf or list,
    except at the root. *)
From Coq Require Import NArith Arith List Bool Lia.
From Verif Require Import Base Words Flag Bia BiaP Node Api Trans Transform Joint SpecT SpecJ JointT Reach Profile KeepP Lean SidesP.
Import ListNotations.
Open Scope N_scope.

Section Plain.
Context {E : Env} {K V : Type} {KK : Key K}.

Lemma lean_kids (n : mnode K V) : lean n = true -> kids n = true.
Proof. destruct n as [[bits values x]|l|s]; [|reflexivity..]. cbn [lean kids]. intros H. apply andb_true_iff in H. apply H. Qed.
Lemma next_lean (n : lnext K V) : lean (next_mnode n) = true.
Proof. destruct n; reflexivity. Qed.
Lemma child_lean (bits : N) (values : list (mnode K V)) x c : kids (MC (BIA bits values x)) = true -> In c values -> lean c = true.
Proof. cbn [kids]. rewrite forallb_forall. auto. Qed.

Lemma new_bia_eq {A} bits (values : list A) x b : unwrap_ok (new_bia bits values x) = Ret b -> b = BIA bits values x.
Proof.
  unfold new_bia. destruct (negb _); cbn [unwrap_ok]; [discriminate|]. destruct (_ <=? _); cbn [unwrap_ok]; [|discriminate]. intros [= <-]. reflexivity.
Qed.

(** * Branches made for two leaves *)
Lemma c_lift_lean f : forall (a b : mnode K V) fa fb, lean a = true -> lean b = true ->
  holds (fun c => lean (MC c) = true) (c_lift f a fa b fb).
Proof.
  induction f as [|f IH]; intros a b fa fb Ha Hb; cbn [c_lift]; [intros t; discriminate|].
  destruct (_ =? _).
  - eapply (holds_bind (fun _ => True)); [intros ? ?; exact Logic.I|]. intros tn _.
    eapply (holds_bind (fun _ => True)); [intros ? ?; exact Logic.I|]. intros tn' _.
    eapply (holds_bind (fun _ => True)); [intros ? ?; exact Logic.I|]. intros rn _.
    eapply (holds_bind (fun _ => True)); [intros ? ?; exact Logic.I|]. intros rn' _.
    eapply holds_bind; [apply IH; assumption|]. intros c Hc t Ht. apply new_bia_eq in Ht. subst t.
    cbn [lean forked forallb]. cbn [lean] in Hc. rewrite Hc. reflexivity.
  - eapply (holds_bind (fun _ => True)); [intros ? ?; exact Logic.I|]. intros flags _.
    eapply (holds_bind (fun _ => True)); [intros ? ?; exact Logic.I|]. intros i _ t Ht. apply new_bia_eq in Ht. subst t.
    destruct (i =? 0); cbn [lean forked forallb]; rewrite Ha, Hb; [destruct a|destruct b]; reflexivity.
Qed.

(** * Insert *)
Definition ires_lean (r : insert_result K V) : Prop := match r with IC c _ _ _ => lean (MC c) = true | _ => True end.
Definition ires_kids (r : insert_result K V) : Prop := match r with IC c _ _ _ => kids (MC c) = true | _ => True end.

Lemma l_lift_lean (n : lnext K V) k v f : holds ires_lean (l_lift n k v f).
Proof.
  unfold l_lift. destruct (_ =? _); [apply holds_ret; exact Logic.I|].
  eapply (holds_bind (fun _ => True)); [intros ? ?; exact Logic.I|]. intros a _.
  eapply (holds_bind (fun _ => True)); [intros ? ?; exact Logic.I|]. intros b _.
  eapply holds_bind; [apply c_lift_lean; [apply next_lean|reflexivity]|]. intros c Hc. apply holds_ret. exact Hc.
Qed.
Lemma s_insert_lean {Q} {KQ : Key Q} (s : snode K V) (q : Q) k v f b : holds ires_lean (s_insert s q k v f b).
Proof.
  unfold s_insert. destruct (keqb _ _); [destruct b; apply holds_ret; exact Logic.I|].
  eapply (holds_bind (fun _ => True)); [intros ? ?; exact Logic.I|]. intros a _. apply l_lift_lean.
Qed.
Lemma l_insert_lean {Q} {KQ : Key Q} (l : lnode K V) (q : Q) k v f b : holds ires_lean (l_insert l q k v f b).
Proof.
  unfold l_insert. destruct (l_find l q) as [[fk fv]|].
  - destruct b; [|apply holds_ret; exact Logic.I]. destruct (l_remove_from l q); [intros t; discriminate|apply holds_ret; exact Logic.I..].
  - eapply (holds_bind (fun _ => True)); [intros ? ?; exact Logic.I|]. intros a _. apply l_lift_lean.
Qed.

Lemma forallb_part (values : list (mnode K V)) n m c : forallb lean values = true -> lean c = true ->
  forallb lean (firstn n values ++ c :: skipn m values) = true.
Proof.
  intros H Hc. rewrite forallb_forall in H |- *. intros x Hx. apply in_app_or in Hx. destruct Hx as [Hx|[<-|Hx]].
  - apply H. rewrite <- (firstn_skipn n values). apply in_or_app. left. exact Hx.
  - exact Hc.
  - apply H. rewrite <- (firstn_skipn m values). apply in_or_app. right. exact Hx.
Qed.
Lemma update_kids bits (values : list (mnode K V)) x f c z : forallb lean values = true -> lean c = true ->
  holds (fun b => kids (MC b) = true) (unwrap_ok (bupdated (BIA bits values x) f c z)).
Proof.
  intros H Hc t. unfold bupdated. destruct (bit_index _ _); [|discriminate]. intros Ht. apply new_bia_eq in Ht. subst t.
  cbn [kids bvalues]. apply forallb_part; assumption.
Qed.
(** A branch with two children or one branch keeps two, or its one branch. *)
Lemma update_lean bits (values : list (mnode K V)) x f c z : forallb lean values = true -> lean c = true ->
  forked values = true -> (rooted c = true \/ exists c', bat (BIA bits values x) f = Ok c' /\ rooted c' = false) ->
  holds (fun b => lean (MC b) = true) (unwrap_ok (bupdated (BIA bits values x) f c z)).
Proof.
  intros H Hc Hf Hr t Ht. pose proof (update_kids bits values x f c z H Hc t Ht) as Hk. revert Ht. unfold bupdated.
  unfold bat in Hr. destruct (bit_index _ _) as [i|]; [|discriminate]. cbn [bbits bvalues] in Hr |- *.
  intros Ht. apply new_bia_eq in Ht. subst t. cbn [lean]. cbn [kids] in Hk. rewrite Hk, andb_true_r. unfold values_update in *.
  destruct Hr as [Hr|(c' & Hr & Hr')].
  - destruct (firstn (N.to_nat i) values) as [|a l]; [|destruct a; destruct l; reflexivity].
    destruct c; [|discriminate..]. reflexivity.
  - unfold nthN in Hr. destruct (nth_error values (N.to_nat i)) as [c0|] eqn:Hn; [|discriminate]. injection Hr as ->.
    destruct values as [|a [|a' l]]; [discriminate| |].
    + destruct (N.to_nat i) as [|[|]]; [|discriminate..]. injection Hn as ->. destruct c'; [discriminate|discriminate|discriminate].
    + destruct (N.to_nat i) as [|[|]]; cbn; [destruct c; reflexivity|destruct a; reflexivity|destruct a; reflexivity].
Qed.
Lemma insert_kids bits (values : list (mnode K V)) x f c z : forallb lean values = true -> lean c = true ->
  holds (fun b => kids (MC b) = true) (unwrap_ok (binserted (BIA bits values x) f c z)).
Proof.
  intros H Hc t. unfold binserted. destruct (bit_insert _ _) as [nb|]; [|discriminate]. destruct (bit_index _ _); [|discriminate]. intros Ht. apply new_bia_eq in Ht. subst t.
  cbn [kids bvalues]. apply forallb_part; assumption.
Qed.
Lemma insert_lean bits (values : list (mnode K V)) x f c z : forallb lean values = true -> lean c = true -> forked values = true ->
  holds (fun b => lean (MC b) = true) (unwrap_ok (binserted (BIA bits values x) f c z)).
Proof.
  intros H Hc Hf t Ht. pose proof (insert_kids bits values x f c z H Hc t Ht) as Hk. revert Ht. unfold binserted.
  destruct (bit_insert _ _) as [nb|]; [|discriminate]. destruct (bit_index _ _) as [i|]; [|discriminate].
  intros Ht. apply new_bia_eq in Ht. subst t. cbn [lean]. cbn [kids bvalues] in Hk |- *. rewrite Hk, andb_true_r. unfold values_insert in *.
  destruct values as [|a l]; [discriminate|].
  destruct (N.to_nat i) as [|j]; cbn; [destruct c; reflexivity|]. destruct a; [reflexivity|..]; destruct (firstn j l); reflexivity.
Qed.

Lemma m_insert_lean {Q} {KQ : Key Q} (n : mnode K V) : forall (q : Q) k v f b,
  (lean n = true -> holds ires_lean (m_insert n q k v f b)) /\ (kids n = true -> holds ires_kids (m_insert n q k v f b)).
Proof.
  induction n as [bits values x IH|l|s] using mnode_ind'; intros q k v f b.
  2:{ cbn [m_insert]. split; intros _; [apply l_insert_lean|]. intros t Ht. pose proof (l_insert_lean l q k v f b t Ht) as H. destruct t; try exact H. apply lean_kids. exact H. }
  2:{ cbn [m_insert]. split; intros _; [apply s_insert_lean|]. intros t Ht. pose proof (s_insert_lean s q k v f b t Ht) as H. destruct t; try exact H. apply lean_kids. exact H. }
  rewrite Forall_forall in IH.
  assert (Hboth : forall (P : cnode K V -> Prop),
    (forall fl c z, lean c = true -> (rooted c = true \/ exists c', bat (BIA bits values x) fl = Ok c' /\ rooted c' = false) ->
       holds P (unwrap_ok (bupdated (BIA bits values x) fl c z))) ->
    (forall fl c z, lean c = true -> holds P (unwrap_ok (binserted (BIA bits values x) fl c z))) ->
    forallb lean values = true ->
    holds (fun r => match r with IC c _ _ _ => P c | _ => True end) (m_insert (MC (BIA bits values x)) q k v f b)).
  { intros P HU HI HK. cbn [m_insert].
    eapply (holds_bind (fun _ => True)); [intros ? ?; exact Logic.I|]. intros fl _.
    rewrite bat_map. destruct (bat (BIA bits values x) (fl_flag fl)) as [c|e] eqn:Hb.
    2:{ eapply holds_bind; [apply HI; reflexivity|]. intros a Ha. apply holds_ret. exact Ha. }
    pose proof (bat_in _ _ _ Hb) as Hin. cbn [bvalues] in Hin.
    assert (Hlc : lean c = true) by (rewrite forallb_forall in HK; apply HK; exact Hin).
    destruct c as [c|l|s]; (eapply (holds_bind (fun _ => True)); [intros ? ?; exact Logic.I|]; intros nx _).
    - eapply holds_bind; [exact (proj1 (IH (MC c) Hin _ _ _ _ _) Hlc)|]. intros r Hr. destruct r; [apply holds_ret; exact Logic.I| |intros t; discriminate..].
      eapply (holds_bind (fun _ => True)); [intros ? ?; exact Logic.I|]. intros z _.
      eapply holds_bind; [apply HU; [exact Hr|left; reflexivity]|]. intros a Ha. apply holds_ret. exact Ha.
    - eapply holds_bind; [apply l_insert_lean|]. intros r Hr. destruct r; [apply holds_ret; exact Logic.I| | |intros t; discriminate].
      + eapply holds_bind; [apply HU; [exact Hr|left; reflexivity]|]. intros a Ha. apply holds_ret. exact Ha.
      + eapply (holds_bind (fun _ => True)); [intros ? ?; exact Logic.I|]. intros z _.
        eapply holds_bind; [apply HU; [reflexivity|right; eauto]|]. intros a Ha. apply holds_ret. exact Ha.
    - eapply holds_bind; [apply s_insert_lean|]. intros r Hr. destruct r; [apply holds_ret; exact Logic.I| | |].
      + eapply holds_bind; [apply HU; [exact Hr|left; reflexivity]|]. intros a Ha. apply holds_ret. exact Ha.
      + eapply holds_bind; [apply HU; [reflexivity|right; eauto]|]. intros a Ha. apply holds_ret. exact Ha.
      + eapply holds_bind; [apply HU; [reflexivity|right; eauto]|]. intros a Ha. apply holds_ret. exact Ha. }
  split; intros H.
  - cbn [lean] in H. apply andb_true_iff in H. destruct H as [Hf H]. apply Hboth; [|intros; apply insert_lean; assumption|exact H].
    intros. apply update_lean; assumption.
  - cbn [kids] in H. apply Hboth; [|intros; apply insert_kids; assumption|exact H]. intros. apply update_kids; assumption.
Qed.

Lemma map_insert_kids {Q} {KQ : Key Q} (into : Q -> K) (m : trie K V) q v replace m' e prev : kids m = true ->
  map_insert into m q v replace = Ret (Ok (m', e, prev)) -> kids m' = true.
Proof.
  intros H. unfold map_insert. destruct (flag_new _) as [f| |]; cbn [bind]; [|discriminate..].
  destruct (m_insert m q (into q) v (Some f) replace) as [r| |] eqn:Hr; cbn [bind]; [|discriminate..].
  pose proof (proj2 (m_insert_lean m q (into q) v (Some f) replace) H r Hr) as Hk.
  destruct r; intros [= <- _ _]; try reflexivity; try discriminate. exact Hk.
Qed.
Lemma map_insert_rooted {Q} {KQ : Key Q} (into : Q -> K) (m : trie K V) q v replace m' e prev : rooted m = true ->
  map_insert into m q v replace = Ret (Ok (m', e, prev)) -> rooted m' = true.
Proof.
  intros H. unfold map_insert. destruct (flag_new _) as [f| |]; cbn [bind]; [|discriminate..].
  destruct m as [[bits values x]|l|s]; [|discriminate..].
  destruct (m_insert _ q (into q) v (Some f) replace) as [r| |] eqn:Hr; cbn [bind]; [|discriminate..].
  enough (match r with IFound _ _ | IC _ _ _ _ => True | _ => False end) as Hk by (destruct r; intros [= <- _ _]; try contradiction; reflexivity).
  revert Hr. cbn [m_insert unwrap bind].
  enough (forall o, holds (fun r => match r with IFound _ _ | IC _ _ _ _ => True | _ => False end) o -> o = Ret r -> match r with IFound _ _ | IC _ _ _ _ => True | _ => False end) as Hg
    by (apply Hg; clear Hg; destruct (bat _ _) as [[[c|l|s] rec]|err];
        repeat first [apply holds_ret; exact Logic.I | intros t; discriminate | (eapply (holds_bind (fun _ => True)); [intros ? ?; exact Logic.I|]; intros ? _) | match goal with |- context [match ?r with IFound _ _ => _ | _ => _ end] => destruct r end]).
  intros o Ho. exact (Ho r).
Qed.

End Plain.

(** * The loops *)
Section Loops.
Context {E : Env} {S X R : Type}.
Context (rdef : R) (rd : R -> R -> R).

Definition nlean (n : nres S X R) : Prop := match n with NRC c _ => lean (MC c) = true | _ => True end.
Definition tlean (t : tres S X R) : Prop := match t with TU _ => True | TN n => nlean n end.
Definition jlean (t : jres S X R) : Prop := match t with JN n => nlean n | _ => True end.
Definition alean (a : acc S X R) : Prop := forallb lean (a_values a) = true.

Lemma push_lean a i n z r : alean a -> lean n = true -> holds alean (push rd a i n z r).
Proof.
  intros Ha Hn. unfold push. eapply (holds_bind (fun _ => True)); [intros ? ?; exact Logic.I|]. intros bit _.
  eapply (holds_bind (fun _ => True)); [intros ? ?; exact Logic.I|]. intros bits _. apply holds_ret.
  unfold alean in *. cbn [a_values]. rewrite forallb_app, Ha. cbn [forallb]. rewrite Hn. reflexivity.
Qed.
Lemma push_new_lean a i n : alean a -> nlean n -> holds alean (push_new rd a i n).
Proof.
  intros Ha Hn. destruct n; cbn [push_new]; try (apply push_lean; [exact Ha|]; try exact Hn; reflexivity). apply holds_ret. exact Ha.
Qed.
Lemma loop_lean step l : (forall a i, alean a -> holds alean (step a i)) -> forall a, alean a -> holds alean (loop step l a).
Proof.
  intros H. induction l as [|i l IH]; intros a Ha; cbn [loop]; [apply holds_ret; exact Ha|].
  eapply holds_bind; [apply H; exact Ha|]. exact IH.
Qed.
Lemma run_lean st step : (forall a i, alean a -> holds alean (step a i)) -> holds alean (run_loop rdef rd st step).
Proof.
  intros H. unfold run_loop, halves. destruct st; [apply loop_lean; [exact H|reflexivity]|].
  eapply holds_bind; [apply loop_lean; [exact H|reflexivity]|]. intros l Hl.
  eapply holds_bind; [apply loop_lean; [exact H|reflexivity]|]. intros r Hr.
  eapply (holds_bind (fun _ => True)); [intros ? ?; exact Logic.I|]. intros bits _. apply holds_ret.
  unfold alean in *. cbn [a_values]. rewrite forallb_app, Hl, Hr. reflexivity.
Qed.
Lemma finish_lean a : alean a -> holds nlean (finish a).
Proof.
  unfold alean, finish. intros Ha.
  assert (Hb : forked (a_values a) = true -> holds nlean (let* b := unwrap_ok (new_bia (a_bits a) (a_values a) (a_size a)) in Ret (NRC b (a_red a)))).
  { intros Hf t. destruct (unwrap_ok _) as [b| |] eqn:Hn; cbn [bind]; [|discriminate..]. intros [= <-]. apply new_bia_eq in Hn. subst b.
    cbn [nlean lean]. rewrite Hf, Ha. reflexivity. }
  destruct (a_values a) as [|[c|l|s] [|n2 vs]] eqn:Hv; try (apply holds_ret; exact Logic.I); apply Hb; reflexivity.
Qed.

Lemma nres_trie_kids (n : nres S X R) : nlean n -> kids (fst (nres_trie n)) = true.
Proof. destruct n; cbn [nlean nres_trie fst]; intros H; try reflexivity. apply lean_kids. exact H. Qed.

End Loops.

(** * transform and transmute *)
Section One.
Context {E : Env} {K V S X R : Type}.
Context (rdef : R) (rd : R -> R -> R).

Lemma l_transform_lean (op : transform_op (K * V) V R) l : tlean (l_transform rd op l).
Proof.
  destruct op; [|destruct l; exact Logic.I..]. destruct l; cbn [l_transform]; unfold l_transform_result;
    (destruct (tcall _ _); match goal with |- context [match ?t with TU _ => _ | TN _ => _ end] => destruct t as [|[]] end; cbn [l_next]; exact Logic.I).
Qed.
Lemma s_transform_lean (op : transform_op (K * V) V R) s : tlean (s_transform op s).
Proof. unfold s_transform. destruct (tcall _ _); exact Logic.I. Qed.
Lemma n_transform_lean (op : transform_op (K * V) V R) n : tlean (n_transform rd op n).
Proof. destruct n; [apply l_transform_lean|apply s_transform_lean]. Qed.
Lemma s_transmute_lean (op : transmute_op (K * V) S X R) s : nlean (s_transmute op s).
Proof. unfold s_transmute. destruct (mcall _ _); exact Logic.I. Qed.
Lemma l_transmute_lean (op : transmute_op (K * V) S X R) l : nlean (l_transmute rd op l).
Proof.
  destruct op; [|destruct l; exact Logic.I]. destruct l; cbn [l_transmute]; unfold l_transmute_result;
    (destruct (mcall _ _); match goal with |- context [match ?t with NRC _ _ => _ | _ => _ end] => destruct t end; exact Logic.I).
Qed.
Lemma n_transmute_lean (op : transmute_op (K * V) S X R) n : nlean (n_transmute rd op n).
Proof. destruct n; [apply l_transmute_lean|apply s_transmute_lean]. Qed.

Lemma m_transform_lean st (op : transform_op (K * V) V R) n : kids n = true -> holds tlean (m_transform rdef rd st op n).
Proof.
  induction n as [bits values x IH|l|s] using mnode_ind'; intros H; cbn [m_transform].
  2:{ apply holds_ret. apply l_transform_lean. }
  2:{ apply holds_ret. apply s_transform_lean. }
  destruct op as [f|r|r]; [|apply holds_ret; exact Logic.I..]. rewrite Forall_forall in IH.
  eapply holds_bind.
  - apply run_lean. intros a i Ha. unfold c_transform_step. rewrite bat_bit_index_map.
    destruct (bat_bit_index fw (BIA bits values x) i) as [[c|err]| |] eqn:Hb; cbn [bind]; [|apply holds_ret; exact Ha|intros t; discriminate..].
    apply bat_bit_index_in in Hb. cbn [bvalues] in Hb. pose proof (child_lean _ _ _ _ H Hb) as Hc.
    eapply holds_bind; [apply (IH c Hb); apply lean_kids; exact Hc|]. intros t Ht. destruct t as [r|n]; [apply push_lean; assumption|].
    eapply holds_bind; [apply push_new_lean; [exact Ha|exact Ht]|]. intros a' Ha'. apply holds_ret. exact Ha'.
  - intros a Ha. destruct (a_ul a); [apply holds_ret; exact Logic.I|].
    eapply holds_bind; [apply finish_lean; exact Ha|]. intros n Hn. apply holds_ret. exact Hn.
Qed.
(** A transmuted trie is lean whatever it was made of. *)
Lemma m_transmute_lean (op : transmute_op (K * V) S X R) n : holds nlean (m_transmute rdef rd op n).
Proof.
  induction n as [bits values x IH|l|s] using mnode_ind'; cbn [m_transmute].
  2:{ apply holds_ret. apply l_transmute_lean. }
  2:{ apply holds_ret. apply s_transmute_lean. }
  destruct op as [f|r]; [|apply holds_ret; exact Logic.I]. rewrite Forall_forall in IH.
  eapply holds_bind.
  - apply loop_lean; [|reflexivity]. intros a i Ha. unfold c_transmute_step. rewrite bat_bit_index_map.
    destruct (bat_bit_index fw (BIA bits values x) i) as [[c|err]| |] eqn:Hb; cbn [bind]; [|apply holds_ret; exact Ha|intros t; discriminate..].
    apply bat_bit_index_in in Hb. cbn [bvalues] in Hb.
    eapply holds_bind; [apply (IH c Hb)|]. intros n Hn. apply push_new_lean; assumption.
  - intros a Ha. destruct (_ =? _); [apply finish_lean; exact Ha|intros t; discriminate].
Qed.

End One.

(** * The joint traversals *)
Section Two.
Context {E : Env} {K V L W S X R T : Type} {KL : Key L}.
Context (rdef : R) (rd : R -> R -> R).
Context (good : T -> Prop).
(** Whether nodes of the left and of the right trie are taken over as they are. *)
Context (bl br : bool).
Context (add : acc S X R -> N -> option (mnode K V) -> option (mnode L W) -> T -> outcome (acc S X R)).
Context (Hadd : forall a i ol or t, alean a -> good t ->
  (bl = true -> forall n, ol = Some n -> lean n = true) -> (br = true -> forall n, or = Some n -> lean n = true) -> holds alean (add a i ol or t)).
Context (lone : mnode K V -> outcome T) (rone : mnode L W -> outcome T) (done : acc S X R -> outcome T).
Context (Hlone : forall n, (bl = true -> kids n = true) -> holds good (lone n)).
Context (Hrone : forall n, (br = true -> kids n = true) -> holds good (rone n)).
Context (Hdone : forall a, alean a -> holds good (done a)).
Context (leaf : lnext K V -> lnext L W -> N -> outcome T).
Context (Hleaf : forall a b d, holds good (leaf a b d)).

Lemma m_leaf_lean right n : forall d, (bl = true -> kids n = true) -> holds good (m_leaf rdef add lone rone done leaf right n d).
Proof.
  induction n as [bits values x IH|l|s] using mnode_ind'; intros d H; cbn [m_leaf]; [|apply Hleaf..].
  rewrite Forall_forall in IH.
  eapply (holds_bind (fun _ => True)); [intros ? ?; exact Logic.I|]. intros fo _.
  eapply (holds_bind (fun _ => True)); [intros ? ?; exact Logic.I|]. intros fl _.
  eapply holds_bind; [|exact Hdone]. apply loop_lean; [|reflexivity]. intros a i Ha. unfold cl_step. rewrite bat_bit_index_map.
  assert (Hr : br = true -> forall n, Some (next_mnode right) = Some n -> lean n = true) by (intros _ n [= <-]; apply next_lean).
  destruct (bat_bit_index fw (BIA bits values x) i) as [[c|err]| |] eqn:Hb; cbn [bind]; [| |intros t; discriminate..];
    (eapply (holds_bind (fun _ => True)); [intros ? ?; exact Logic.I|]; intros bit _).
  - apply bat_bit_index_in in Hb. cbn [bvalues] in Hb. pose proof (fun Hz => child_lean _ _ _ _ (H Hz) Hb) as Hc.
    assert (Hl : bl = true -> forall n, Some c = Some n -> lean n = true) by (intros Hz n [= <-]; exact (Hc Hz)).
    destruct (_ =? bit).
    + eapply holds_bind; [apply (IH c Hb); intros Hz; apply lean_kids; exact (Hc Hz)|]. intros t Ht. apply Hadd; assumption.
    + eapply holds_bind; [apply Hlone; intros Hz; apply lean_kids; exact (Hc Hz)|]. intros t Ht. apply Hadd; assumption.
  - destruct (_ =? bit); [|apply holds_ret; exact Ha].
    eapply holds_bind; [apply Hrone; intros _; apply lean_kids; apply next_lean|]. intros t Ht. apply Hadd; try assumption. discriminate.
Qed.

Context (tree_leaf : lnext L W -> mnode K V -> N -> outcome T) (leaf_tree : lnext K V -> mnode L W -> N -> outcome T).
Context (Htl : forall r n d, (bl = true -> kids n = true) -> holds good (tree_leaf r n d)).
Context (Hlt : forall n r d, (br = true -> kids r = true) -> holds good (leaf_tree n r d)).
Context (short : option T) (st : strategy).
Context (Hshort : forall t, short = Some t -> good t).

Lemma m_joint_lean n : forall right d, (bl = true -> kids n = true) -> (br = true -> kids right = true) ->
  holds good (m_joint rdef rd add lone rone done leaf tree_leaf leaf_tree short st n right d).
Proof.
  induction n as [bits values x IH|l|s] using mnode_ind'; intros right d H Hr.
  2,3: destruct right; cbn [m_joint]; [apply Hlt; exact Hr|apply Hleaf..].
  destruct right as [[rbits rvalues rx]|r|r]; cbn [m_joint]; [|apply Htl; exact H..].
  destruct short as [t|] eqn:Hs; [apply holds_ret; apply Hshort; reflexivity|].
  rewrite Forall_forall in IH. eapply holds_bind; [|exact Hdone]. apply run_lean. intros a i Ha. unfold cc_step. rewrite bat_bit_index_map.
  destruct (bat_bit_index fw (BIA bits values x) i) as [[c|err]| |] eqn:Hb; cbn [bind]; [| |intros t; discriminate..];
  (destruct (bat_bit_index fw (BIA rbits rvalues rx) i) as [[c'|err']| |] eqn:Hb'; cbn [bind]; [| |intros t; discriminate..]).
  - apply bat_bit_index_in in Hb. apply bat_bit_index_in in Hb'. cbn [bvalues] in Hb, Hb'.
    pose proof (fun Hz => child_lean _ _ _ _ (H Hz) Hb) as Hc. pose proof (fun Hz => child_lean _ _ _ _ (Hr Hz) Hb') as Hc'.
    eapply holds_bind; [apply (IH c Hb); intros Hz; apply lean_kids; auto|]. intros t Ht.
    apply Hadd; try assumption; intros Hz n [= <-]; auto.
  - apply bat_bit_index_in in Hb. cbn [bvalues] in Hb. pose proof (fun Hz => child_lean _ _ _ _ (H Hz) Hb) as Hc.
    eapply holds_bind; [apply Hlone; intros Hz; apply lean_kids; exact (Hc Hz)|]. intros t Ht.
    apply Hadd; try assumption; [intros Hz n [= <-]; auto|discriminate].
  - apply bat_bit_index_in in Hb'. cbn [bvalues] in Hb'. pose proof (fun Hz => child_lean _ _ _ _ (Hr Hz) Hb') as Hc'.
    eapply holds_bind; [apply Hrone; intros Hz; apply lean_kids; exact (Hc' Hz)|]. intros t Ht.
    apply Hadd; try assumption; [discriminate|intros Hz n [= <-]; auto].
  - apply holds_ret. exact Ha.
Qed.

End Two.

(** * The four families *)
Section Leaves.
Context {E : Env} {K V R : Type} {KK : Key K}.

Lemma n_with_lean (n : nres K V R) r : nlean n -> nlean (n_with n r).
Proof. destruct n; exact (fun H => H). Qed.
Lemma t_with_lean (t : tres K V R) r : tlean t -> tlean (t_with t r).
Proof. destruct t; [exact (fun H => H)|apply n_with_lean]. Qed.
Lemma n_cons_lean k v (n : nres K V R) r : nlean (n_cons k v n r).
Proof. destruct n; exact Logic.I. Qed.
Lemma t_cons_lean that k v (t : tres K V R) r : tlean (t_cons that k v t r).
Proof. destruct t; [exact Logic.I|apply n_cons_lean]. Qed.
Lemma nnode_lean (n : nres K V R) x : nlean n -> nnode n = Some x -> lean x = true.
Proof. destruct n; cbn [nnode]; intros H [= <-]; try reflexivity. exact H. Qed.
Lemma tout_lean (n : mnode K V) (t : tres K V R) x : lean n = true -> tlean t -> tout n t = Some x -> lean x = true.
Proof. destruct t; cbn [tout]; [intros H _ [= <-]; exact H|intros _; apply nnode_lean]. Qed.
Lemma l_transform_result_lean (rd : R -> R -> R) (this : lnode K V) x (t : tres K V R) : tlean (l_transform_result rd this x t).
Proof. unfold l_transform_result. destruct x; destruct t as [|[]]; try destruct (l_next this); exact Logic.I. Qed.
Lemma l_transmute_result_lean (rd : R -> R -> R) x (n : nres K V R) : nlean (l_transmute_result rd x n).
Proof. destruct x; destruct n; exact Logic.I. Qed.

Lemma lift_lean (a b : mnode K V) fa fb (T : Type) (good : T -> Prop) (f : cnode K V -> T) : lean a = true -> lean b = true ->
  (forall c, lean (MC c) = true -> good (f c)) -> holds good (let* c := cnode_lift a fa b fb in Ret (f c)).
Proof. intros Ha Hb Hf. eapply holds_bind; [apply c_lift_lean; assumption|]. intros c Hc. apply holds_ret. auto. Qed.

End Leaves.

Section Families.
Context {E : Env}.

Lemma tm_apart_lean {K V L W R} {KK : Key K} {KL : Key L} (rd : R -> R -> R) lop rop (this : lnext K V) (right : lnext L W) d :
  holds tlean (tm_apart rd lop rop this right d).
Proof.
  unfold tm_apart. eapply (holds_bind (fun _ => True)); [intros ? ?; exact Logic.I|]. intros [lf rf] _.
  pose proof (n_transform_lean rd lop this) as Hl. pose proof (n_transmute_lean rd rop right) as Hr.
  destruct (tout _ _) as [a|] eqn:Ha; [|apply holds_ret; apply (n_with_lean (n_transmute rd rop right)); exact Hr].
  destruct (nnode _) as [b|] eqn:Hb; [|apply holds_ret; apply t_with_lean; exact Hl].
  apply lift_lean; [eapply tout_lean; [apply next_lean|exact Hl|exact Ha]|eapply nnode_lean; eassumption|intros c Hc; exact Hc].
Qed.
Lemma mt_apart_lean {K V L W R} {KK : Key K} {KL : Key L} (rd : R -> R -> R) lop rop (this : lnext K V) (right : lnext L W) d :
  holds tlean (mt_apart rd lop rop this right d).
Proof.
  unfold mt_apart. eapply (holds_bind (fun _ => True)); [intros ? ?; exact Logic.I|]. intros [lf rf] _.
  pose proof (n_transmute_lean rd lop this) as Hl. pose proof (n_transform_lean rd rop right) as Hr.
  destruct (nnode _) as [a|] eqn:Ha; [|apply holds_ret; apply t_with_lean; exact Hr].
  destruct (tout _ _) as [b|] eqn:Hb; [|apply holds_ret; apply (n_with_lean (n_transmute rd lop this)); exact Hl].
  apply lift_lean; [eapply nnode_lean; eassumption|eapply tout_lean; [apply next_lean|exact Hr|exact Hb]|intros c Hc; exact Hc].
Qed.
Lemma mm_apart_lean {K V L W S X R} {KK : Key K} {KL : Key L} {KS : Key S} (rd : R -> R -> R) lop rop (this : lnext K V) (right : lnext L W) d :
  holds nlean (mm_apart (S := S) (X := X) rd lop rop this right d).
Proof.
  unfold mm_apart. eapply (holds_bind (fun _ => True)); [intros ? ?; exact Logic.I|]. intros [lf rf] _.
  pose proof (n_transmute_lean rd lop this) as Hl. pose proof (n_transmute_lean rd rop right) as Hr.
  destruct (nnode (n_transmute rd lop this)) as [a|] eqn:Ha; [|apply holds_ret; apply n_with_lean; exact Hr].
  destruct (nnode (n_transmute rd rop right)) as [b|] eqn:Hb; [|apply holds_ret; apply n_with_lean; exact Hl].
  apply lift_lean; [exact (nnode_lean _ a Hl Ha)|exact (nnode_lean _ b Hr Hb)|intros c Hc; exact Hc].
Qed.
Lemma tt_apart_lean {K V R} {KK : Key K} (rd : R -> R -> R) lop rop (this right : lnext K V) d :
  holds jlean (tt_apart rd lop rop this right d).
Proof.
  unfold tt_apart. eapply (holds_bind (fun _ => True)); [intros ? ?; exact Logic.I|]. intros [lf rf] _.
  pose proof (n_transform_lean rd lop this) as Hl. pose proof (n_transform_lean rd rop right) as Hr.
  destruct (tout (next_mnode this) _) as [a|] eqn:Ha.
  2:{ apply holds_ret. pose proof (t_with_lean _ (rd (tred (n_transform rd lop this)) (tred (n_transform rd rop right))) Hr) as H. destruct (t_with _ _); [exact Logic.I|exact H]. }
  destruct (tout (next_mnode right) _) as [b|] eqn:Hb.
  2:{ apply holds_ret. pose proof (t_with_lean _ (rd (tred (n_transform rd lop this)) (tred (n_transform rd rop right))) Hl) as H. destruct (t_with _ _); [exact Logic.I|exact H]. }
  apply lift_lean; [eapply tout_lean; [apply next_lean|exact Hl|exact Ha]|eapply tout_lean; [apply next_lean|exact Hr|exact Hb]|intros c Hc; exact Hc].
Qed.

(** ** transform_with_transmuted and transmute_with_transformed *)
Section TM.
Context {K V L W R : Type} {KK : Key K} {KL : Key L} (rd : R -> R -> R).
Context (both : transform_op ((K * V) * (L * W)) V R) (lop : transform_op (K * V) V R) (rop : transmute_op (L * W) K V R).
Lemma tm_s_impl_lean s e : tlean (tm_s_impl rd both lop rop s e).
Proof. unfold tm_s_impl. destruct (keqb _ _); [destruct (tcall _ _); exact Logic.I|]. destruct (tcall _ _); destruct (mcall _ _); exact Logic.I. Qed.
Lemma tm_rest_lean this rights : forall t, tlean t -> tlean (tm_rest rd rop this rights t).
Proof.
  induction rights as [|e l IH]; intros t Ht; cbn [tm_rest]; [exact Ht|]. apply IH. destruct (mcall rop e); [apply t_cons_lean|apply t_with_lean; exact Ht].
Qed.
Lemma tm_l_impl_lean this rights : tlean (fst (tm_l_impl rd both lop rop this rights)).
Proof.
  destruct this; cbn [tm_l_impl];
  (match goal with |- context [let (_, _) := ?x in _] => destruct x as [t r1] end);
  (match goal with |- context [let (_, _) := ?x in _] => destruct x as [v r2] end); apply l_transform_result_lean.
Qed.
Lemma tm_lnode_lean a b d : holds tlean (tm_lnode rd both lop rop a b d).
Proof.
  unfold tm_lnode. destruct (_ =? _); [|apply tm_apart_lean].
  eapply (holds_bind (fun _ => True)); [intros ? ?; exact Logic.I|]. intros rights _.
  pose proof (tm_l_impl_lean a rights) as H. destruct (tm_l_impl _ _ _ _ _ _) as [t r]. apply holds_ret. apply tm_rest_lean. exact H.
Qed.
Lemma tm_lsnode_lean a b d : holds tlean (tm_lsnode rd both lop rop a b d).
Proof.
  unfold tm_lsnode. destruct (_ =? _); [|apply tm_apart_lean]. apply holds_ret.
  destruct a; cbn [tm_ls_impl]; destruct (keqb _ _); apply l_transform_result_lean.
Qed.
Lemma tm_snode_lean a b d : holds tlean (tm_snode rd both lop rop a b d).
Proof. unfold tm_snode. destruct (_ =? _); [|apply tm_apart_lean]. apply holds_ret. apply tm_s_impl_lean. Qed.
End TM.
Section MT.
Context {K V L W R : Type} {KK : Key K} {KL : Key L} (rd : R -> R -> R).
Context (both : transform_op ((K * V) * (L * W)) W R) (lop : transmute_op (K * V) L W R) (rop : transform_op (L * W) W R).
Lemma mt_s_impl_lean s e : tlean (mt_s_impl rd both lop rop s e).
Proof. unfold mt_s_impl. destruct (keqb _ _); [destruct (tcall _ _); exact Logic.I|]. destruct (mcall _ _); destruct (tcall _ _); exact Logic.I. Qed.
Lemma mt_ls_impl_lean a b : tlean (mt_ls_impl rd both lop rop a b).
Proof.
  induction a as [k v n IH z|k v s z]; cbn [mt_ls_impl]; (destruct (keqb _ _);
    [cbn [tlean]; unfold mt_hit; destruct (tcall _ _); try apply n_cons_lean; apply n_with_lean; apply n_transmute_lean|]).
  - unfold mt_miss. destruct (mcall _ _); [apply t_cons_lean|]. destruct (mt_ls_impl _ _ _ _ _ _); [exact Logic.I|apply n_with_lean; exact IH].
  - pose proof (mt_s_impl_lean s b) as H. unfold mt_miss. destruct (mcall _ _); [apply t_cons_lean|]. destruct (mt_s_impl _ _ _ _ _ _); [exact Logic.I|apply n_with_lean; exact H].
Qed.
Lemma mt_lsnode_lean a b d : holds tlean (mt_lsnode rd both lop rop a b d).
Proof. unfold mt_lsnode. destruct (_ =? _); [|apply mt_apart_lean]. apply holds_ret. apply mt_ls_impl_lean. Qed.
Lemma mt_snode_lean a b d : holds tlean (mt_snode rd both lop rop a b d).
Proof. unfold mt_snode. destruct (_ =? _); [|apply mt_apart_lean]. apply holds_ret. apply mt_s_impl_lean. Qed.
End MT.
Lemma tm_leaf_lean {K V L W R} {KK : Key K} {KL : Key L} (rd : R -> R -> R) both lop rop (a : lnext K V) (b : lnext L W) d :
  holds tlean (tm_leaf rd both lop rop a b d).
Proof. destruct a; destruct b; [apply tm_lnode_lean|apply tm_lsnode_lean|apply mt_lsnode_lean|apply tm_snode_lean]. Qed.
Lemma mt_leaf_lean {K V L W R} {KK : Key K} {KL : Key L} (rd : R -> R -> R) both lop rop (a : lnext K V) (b : lnext L W) d :
  holds tlean (mt_leaf rd both lop rop a b d).
Proof. destruct a; destruct b; [apply tm_lnode_lean|apply mt_lsnode_lean|apply tm_lsnode_lean|apply mt_snode_lean]. Qed.

Section TMNodes.
Context {K V L W R : Type} {KK : Key K} {KL : Key L} (rdef : R) (rd : R -> R -> R) (st : strategy).
Lemma tm_add_lean keep (a : acc K V R) i (ol : option (mnode K V)) (or : option (mnode L W)) t : alean a -> tlean t ->
  (true = true -> forall n, ol = Some n -> lean n = true) -> (false = true -> forall n, or = Some n -> lean n = true) -> holds alean (tm_add rd keep a i ol or t).
Proof.
  intros Ha Ht Hl _. destruct t as [r|n]; cbn [tm_add].
  - destruct ol as [l|]; cbn [unwrap bind]; [|intros t; discriminate]. eapply holds_bind; [apply push_lean; [exact Ha|auto]|].
    intros a' Ha'. apply holds_ret. destruct keep; exact Ha'.
  - eapply holds_bind; [apply push_new_lean; [exact Ha|exact Ht]|]. intros a' Ha'. apply holds_ret. exact Ha'.
Qed.
Lemma mt_add_lean keep (a : acc L W R) i (ol : option (mnode K V)) (or : option (mnode L W)) t : alean a -> tlean t ->
  (false = true -> forall n, ol = Some n -> lean n = true) -> (true = true -> forall n, or = Some n -> lean n = true) -> holds alean (mt_add rd keep a i ol or t).
Proof.
  intros Ha Ht _ Hr. destruct t as [r|n]; cbn [mt_add].
  - destruct or as [l|]; cbn [unwrap bind]; [|intros t; discriminate]. eapply holds_bind; [apply push_lean; [exact Ha|auto]|].
    intros a' Ha'. apply holds_ret. destruct keep; exact Ha'.
  - eapply holds_bind; [apply push_new_lean; [exact Ha|exact Ht]|]. intros a' Ha'. apply holds_ret. exact Ha'.
Qed.
Lemma tm_done_lean (a : acc K V R) : alean a -> holds tlean (tm_done a).
Proof.
  intros Ha. unfold tm_done. destruct (a_ul a); [apply holds_ret; exact Logic.I|].
  eapply holds_bind; [apply finish_lean; exact Ha|]. intros n Hn. apply holds_ret. exact Hn.
Qed.
Lemma mt_done_lean (a : acc L W R) : alean a -> holds tlean (mt_done a).
Proof.
  intros Ha. unfold mt_done. destruct (a_ur a); [apply holds_ret; exact Logic.I|].
  eapply holds_bind; [apply finish_lean; exact Ha|]. intros n Hn. apply holds_ret. exact Hn.
Qed.
Lemma muted_lean {A B} (op : transmute_op (A * B) K V R) n : holds tlean (let* x := m_transmute rdef rd op n in Ret (TN x)).
Proof. eapply holds_bind; [apply m_transmute_lean|]. intros x Hx. apply holds_ret. exact Hx. Qed.
End TMNodes.

Lemma tm_tree_leaf_lean {K V L W R} {KK : Key K} {KL : Key L} (rdef : R) (rd : R -> R -> R) st both lop rop (right : lnext L W) (n : mnode K V) d :
  kids n = true -> holds tlean (tm_tree_leaf rdef rd st both lop rop right n d).
Proof.
  unfold tm_tree_leaf. intros H. apply m_leaf_lean with (bl := true) (br := false); [..|intros _; exact H].
  - intros *. apply tm_add_lean.
  - intros x Hx. apply m_transform_lean. exact (Hx eq_refl).
  - intros x _. apply muted_lean.
  - apply tm_done_lean.
  - intros *. apply tm_leaf_lean.
Qed.
Lemma mt_tree_leaf_lean {K V L W R} {KK : Key K} {KL : Key L} (rdef : R) (rd : R -> R -> R) st both lop rop (right : lnext L W) (n : mnode K V) d :
  holds tlean (mt_tree_leaf rdef rd st both lop rop right n d).
Proof.
  unfold mt_tree_leaf. apply m_leaf_lean with (bl := false) (br := true); [..|discriminate].
  - intros *. apply mt_add_lean.
  - intros x _. apply muted_lean.
  - intros x Hx. apply m_transform_lean. exact (Hx eq_refl).
  - apply mt_done_lean.
  - intros *. apply mt_leaf_lean.
Qed.
Lemma m_tm_lean {K V L W R} {KK : Key K} {KL : Key L} (rdef : R) (rd : R -> R -> R) st both lop rop (n : mnode K V) (right : mnode L W) d :
  kids n = true -> holds tlean (m_tm rdef rd st both lop rop n right d).
Proof.
  unfold m_tm. intros H. apply m_joint_lean with (bl := true) (br := false); [..|intros _; exact H|discriminate].
  - intros *. apply tm_add_lean.
  - intros x Hx. apply m_transform_lean. exact (Hx eq_refl).
  - intros x _. apply muted_lean.
  - apply tm_done_lean.
  - intros *. apply tm_leaf_lean.
  - intros r x z Hx. apply tm_tree_leaf_lean. exact (Hx eq_refl).
  - intros * _. apply mt_tree_leaf_lean.
  - discriminate.
Qed.
Lemma m_mt_lean {K V L W R} {KK : Key K} {KL : Key L} (rdef : R) (rd : R -> R -> R) st both lop rop (n : mnode K V) (right : mnode L W) d :
  kids right = true -> holds tlean (m_mt rdef rd st both lop rop n right d).
Proof.
  unfold m_mt. intros H. apply m_joint_lean with (bl := false) (br := true); [..|discriminate|intros _; exact H].
  - intros *. apply mt_add_lean.
  - intros x _. apply muted_lean.
  - intros x Hx. apply m_transform_lean. exact (Hx eq_refl).
  - apply mt_done_lean.
  - intros *. apply mt_leaf_lean.
  - intros * _. apply mt_tree_leaf_lean.
  - intros r x z Hx. apply tm_tree_leaf_lean. exact (Hx eq_refl).
  - discriminate.
Qed.

(** ** transmute_with_transmuted *)
Section MM.
Context {K V L W S X R : Type} {KK : Key K} {KL : Key L} {KS : Key S} (rdef : R) (rd : R -> R -> R).
Lemma mm_values_lean both lop rop e e' : nlean (mm_values (K := K) (V := V) (L := L) (W := W) (S := S) (X := X) rd both lop rop e e').
Proof. unfold mm_values. destruct (keqb _ _); [unfold k_nres; destruct (mcall _ _); exact Logic.I|]. destruct (mcall lop e); destruct (mcall rop e'); exact Logic.I. Qed.
Lemma mm_rest_lean (rop : transmute_op (L * W) S X R) rights : forall n, nlean n -> nlean (mm_rest rd rop rights n).
Proof.
  induction rights as [|e l IH]; intros n Hn; cbn [mm_rest]; [exact Hn|]. apply IH. destruct (mcall rop e); [apply n_cons_lean|apply n_with_lean; exact Hn].
Qed.
Lemma mm_l_impl_lean both lop rop (this : lnode K V) (rights : list (L * W)) : nlean (fst (mm_l_impl (S := S) (X := X) rd both lop rop this rights)).
Proof.
  destruct this; cbn [mm_l_impl];
  (match goal with |- context [let (_, _) := ?x in _] => destruct x as [t r1] end);
  (match goal with |- context [let (_, _) := ?x in _] => destruct x as [v r2] end); apply l_transmute_result_lean.
Qed.
Lemma mm_lnode_lean both lop rop (a : lnode K V) (b : lnode L W) d : holds nlean (mm_lnode (S := S) (X := X) rd both lop rop a b d).
Proof.
  unfold mm_lnode. destruct (_ =? _); [|apply mm_apart_lean].
  eapply (holds_bind (fun _ => True)); [intros ? ?; exact Logic.I|]. intros rights _.
  pose proof (mm_l_impl_lean both lop rop a rights) as H. destruct (mm_l_impl _ _ _ _ _ _) as [t r]. apply holds_ret. apply mm_rest_lean. exact H.
Qed.
End MM.
Lemma mm_lsnode_lean {K V L W S X R} {KK : Key K} {KL : Key L} {KS : Key S} (rd : R -> R -> R) both lop rop (a : lnode K V) (b : snode L W) d :
  holds nlean (mm_lsnode (S := S) (X := X) rd both lop rop a b d).
Proof.
  unfold mm_lsnode. destruct (_ =? _); [|apply mm_apart_lean]. apply holds_ret.
  destruct a; cbn [mm_ls_impl]; destruct (keqb _ _); apply l_transmute_result_lean.
Qed.
Lemma mm_leaf_lean {K V L W S X R} {KK : Key K} {KL : Key L} {KS : Key S} (rd : R -> R -> R) both lop rop (a : lnext K V) (b : lnext L W) d :
  holds nlean (mm_leaf (S := S) (X := X) rd both lop rop a b d).
Proof.
  destruct a; destruct b; cbn [mm_leaf]; [apply mm_lnode_lean|apply mm_lsnode_lean|apply mm_lsnode_lean|].
  unfold mm_snode. destruct (_ =? _); [|apply mm_apart_lean]. apply holds_ret. apply mm_values_lean.
Qed.
Lemma mm_add_lean {K V L W S X R} (rd : R -> R -> R) (a : acc S X R) i (ol : option (mnode K V)) (or : option (mnode L W)) n : alean a -> nlean n ->
  (false = true -> forall n, ol = Some n -> lean n = true) -> (false = true -> forall n, or = Some n -> lean n = true) -> holds alean (mm_add rd a i ol or n).
Proof. intros Ha Hn _ _. apply push_new_lean; assumption. Qed.
Lemma mm_tree_leaf_lean {K V L W S X R} {KK : Key K} {KL : Key L} {KS : Key S} (rdef : R) (rd : R -> R -> R) both lop rop (right : lnext L W) (n : mnode K V) d :
  holds nlean (mm_tree_leaf (S := S) (X := X) rdef rd both lop rop right n d).
Proof.
  unfold mm_tree_leaf. apply m_leaf_lean with (bl := false) (br := false); [..|discriminate].
  - intros *. apply mm_add_lean.
  - intros x _. apply m_transmute_lean.
  - intros x _. apply m_transmute_lean.
  - apply finish_lean.
  - intros *. apply mm_leaf_lean.
Qed.
Lemma m_mm_lean {K V L W S X R} {KK : Key K} {KL : Key L} {KS : Key S} (rdef : R) (rd : R -> R -> R) both lop rop (n : mnode K V) (right : mnode L W) d :
  holds nlean (m_mm (S := S) (X := X) rdef rd both lop rop n right d).
Proof.
  unfold m_mm. apply m_joint_lean with (bl := false) (br := false); [..|discriminate|discriminate].
  - intros *. apply mm_add_lean.
  - intros x _. apply m_transmute_lean.
  - intros x _. apply m_transmute_lean.
  - apply finish_lean.
  - intros *. apply mm_leaf_lean.
  - intros * _. apply mm_tree_leaf_lean.
  - intros * _. apply mm_tree_leaf_lean.
  - discriminate.
Qed.

(** ** transform_with_transformed *)
Section TT.
Context {K V R : Type} {KK : Key K} (rdef : R) (rd : R -> R -> R) (st : strategy).

Lemma jlean_flip (t : jres K V R) : jlean t -> jlean (jres_flip t).
Proof. destruct t; exact (fun H => H). Qed.
Lemma next_nres_lean (n : lnext K V) (r : R) : nlean (next_nres n r).
Proof. destruct n; exact Logic.I. Qed.
Lemma tt_s_impl_lean both lop rop s s' : jlean (tt_s_impl (K := K) (V := V) rd both lop rop s s').
Proof. unfold tt_s_impl. destruct (keqb _ _); [destruct (jcall _ _ _); exact Logic.I|]. destruct (tcall lop _); destruct (tcall rop _); exact Logic.I. Qed.
Lemma jt_lean this x that t : tlean t -> jlean (jt (K := K) (V := V) rd this x that t).
Proof.
  intros Ht. unfold jt. destruct x; destruct t as [|[]]; try exact Logic.I; try apply (next_nres_lean (l_next this)). exact Ht.
Qed.
Lemma tj_lean this x that t : jlean t -> jlean (tj (K := K) (V := V) rd this x that t).
Proof.
  intros Ht. unfold tj. destruct x; destruct t as [| | |n]; try exact Logic.I; try apply (next_nres_lean (l_next this)); try apply (n_cons_lean _ _ n). apply (n_with_lean n). exact Ht.
Qed.
Lemma jj_lean this x that t : jlean t -> holds jlean (jj (K := K) (V := V) rd this x that t).
Proof.
  intros Ht. unfold jj.
  destruct x; destruct t as [| | |n]; try (destruct that as [e|]; cbn [unwrap bind]; [|try (intros ? ?; discriminate)]);
    try (apply holds_ret; try exact Logic.I; try apply (next_nres_lean (l_next this)); try apply (n_cons_lean _ _ n); apply (n_with_lean n); exact Ht);
    destruct n; try (intros ? ?; discriminate); apply holds_ret; exact Logic.I.
Qed.
Lemma t_left_lean (t : tres K V R) : tlean t -> jlean (t_left t).
Proof. destruct t; exact (fun H => H). Qed.
Lemma t_right_lean (t : tres K V R) : tlean t -> jlean (t_right t).
Proof. destruct t; exact (fun H => H). Qed.
Lemma tt_l_impl_lean both lop rop this : forall rights, holds (fun p => jlean (fst p)) (tt_l_impl (K := K) (V := V) rd both lop rop this rights).
Proof.
  induction this as [k v n IH z|k v s z]; intros rights; cbn [tt_l_impl].
  - eapply (holds_bind (fun p => jlean (fst (fst p)))).
    + eapply holds_bind; [apply IH|]. intros p Hp. apply holds_ret. exact Hp.
    + intros [[t r1] that] Ht. cbn [fst] in Ht. match goal with |- context [let (_, _) := ?x in _] => destruct x as [y r2] end.
      eapply holds_bind; [apply jj_lean; exact Ht|]. intros t' Ht'. apply holds_ret. exact Ht'.
  - eapply (holds_bind (fun p => jlean (fst (fst p)))).
    + destruct (take_key _ _) as [[e r1]|]; apply holds_ret; [apply tt_s_impl_lean|apply t_left_lean; apply s_transform_lean].
    + intros [[t r1] that] Ht. cbn [fst] in Ht. match goal with |- context [let (_, _) := ?x in _] => destruct x as [y r2] end.
      eapply holds_bind; [apply jj_lean; exact Ht|]. intros t' Ht'. apply holds_ret. exact Ht'.
Qed.
Lemma tt_rest_lean rop this rights : forall t, jlean t -> holds jlean (tt_rest (K := K) (V := V) rd rop this rights t).
Proof.
  induction rights as [|e l IH]; intros t Ht; cbn [tt_rest]; [apply holds_ret; exact Ht|].
  eapply (holds_bind jlean); [|exact IH].
  destruct (tcall rop e); destruct t as [| | |n]; try (intros ? ?; discriminate); apply holds_ret; try exact Logic.I; try apply (n_cons_lean _ _ n). apply (n_with_lean n). exact Ht.
Qed.
Lemma tt_ls_impl_lean both lop rop a b : jlean (tt_ls_impl (K := K) (V := V) rd both lop rop a b).
Proof.
  induction a as [k v n IH z|k v s z]; cbn [tt_ls_impl]; (destruct (keqb _ _); [apply jt_lean; apply n_transform_lean|apply tj_lean]).
  - exact IH.
  - apply tt_s_impl_lean.
Qed.
Lemma tt_lsnode_lean both lop rop a b d : holds jlean (tt_lsnode (K := K) (V := V) rd both lop rop a b d).
Proof. unfold tt_lsnode. destruct (_ =? _); [apply holds_ret; apply tt_ls_impl_lean|apply tt_apart_lean]. Qed.
Lemma tt_leaf_lean both lop rop a b d : holds jlean (tt_leaf (K := K) (V := V) rd both lop rop a b d).
Proof.
  destruct a as [a|a]; destruct b as [b|b]; cbn [tt_leaf].
  - unfold tt_lnode. destruct (_ =? _); [|apply tt_apart_lean].
    eapply (holds_bind (fun _ => True)); [intros ? ?; exact Logic.I|]. intros rights _.
    eapply holds_bind; [apply tt_l_impl_lean|]. intros [t r] Ht. apply tt_rest_lean. exact Ht.
  - apply tt_lsnode_lean.
  - eapply holds_bind; [apply tt_lsnode_lean|]. intros t Ht. apply holds_ret. apply jlean_flip. exact Ht.
  - unfold tt_snode. destruct (_ =? _); [apply holds_ret; apply tt_s_impl_lean|apply tt_apart_lean].
Qed.
Lemma tt_add_lean (a : acc K V R) i ol or t : alean a -> jlean t ->
  (true = true -> forall n, ol = Some n -> lean n = true) -> (true = true -> forall n, or = Some n -> lean n = true) -> holds alean (tt_add rd a i ol or t).
Proof.
  intros Ha Ht Hl Hr. destruct t as [r|r|r|n]; cbn [tt_add].
  - destruct ol as [l|]; cbn [unwrap bind]; [|intros t; discriminate]. apply push_lean; [exact Ha|auto].
  - destruct ol as [l|]; cbn [unwrap bind]; [|intros t; discriminate]. eapply holds_bind; [apply push_lean; [exact Ha|auto]|]. intros a' Ha'. apply holds_ret. exact Ha'.
  - destruct or as [l|]; cbn [unwrap bind]; [|intros t; discriminate]. eapply holds_bind; [apply push_lean; [exact Ha|auto]|]. intros a' Ha'. apply holds_ret. exact Ha'.
  - eapply holds_bind; [apply push_new_lean; [exact Ha|exact Ht]|]. intros a' Ha'. apply holds_ret. exact Ha'.
Qed.
Lemma tt_done_lean (a : acc K V R) : alean a -> holds jlean (tt_done a).
Proof.
  intros Ha. unfold tt_done. destruct (a_ul a); destruct (a_ur a); try (apply holds_ret; exact Logic.I).
  eapply holds_bind; [apply finish_lean; exact Ha|]. intros n Hn. apply holds_ret. exact Hn.
Qed.
Lemma tt_lone_lean op n : kids n = true -> holds jlean (tt_lone (K := K) (V := V) rdef rd st op n).
Proof. intros H. unfold tt_lone. eapply holds_bind; [apply m_transform_lean; exact H|]. intros t Ht. apply holds_ret. apply t_left_lean. exact Ht. Qed.
Lemma tt_rone_lean op n : kids n = true -> holds jlean (tt_rone (K := K) (V := V) rdef rd st op n).
Proof. intros H. unfold tt_rone. eapply holds_bind; [apply m_transform_lean; exact H|]. intros t Ht. apply holds_ret. apply t_right_lean. exact Ht. Qed.
Lemma tt_tree_leaf_lean both lop rop right n d : kids n = true -> holds jlean (tt_tree_leaf (K := K) (V := V) rdef rd st both lop rop right n d).
Proof.
  unfold tt_tree_leaf. intros H. apply m_leaf_lean with (bl := true) (br := true); [..|intros _; exact H].
  - intros *. apply tt_add_lean.
  - intros x Hx. apply tt_lone_lean. exact (Hx eq_refl).
  - intros x Hx. apply tt_rone_lean. exact (Hx eq_refl).
  - apply tt_done_lean.
  - intros *. apply tt_leaf_lean.
Qed.
Lemma m_tt_lean both lop rop n right d : kids n = true -> kids right = true -> holds jlean (m_tt (K := K) (V := V) rdef rd st both lop rop n right d).
Proof.
  unfold m_tt. intros H H'. apply m_joint_lean with (bl := true) (br := true); [..|intros _; exact H|intros _; exact H'].
  - intros *. apply tt_add_lean.
  - intros x Hx. apply tt_lone_lean. exact (Hx eq_refl).
  - intros x Hx. apply tt_rone_lean. exact (Hx eq_refl).
  - apply tt_done_lean.
  - intros *. apply tt_leaf_lean.
  - intros r x z Hx. apply tt_tree_leaf_lean. exact (Hx eq_refl).
  - intros x y z Hy. unfold tt_leaf_tree. eapply holds_bind; [apply tt_tree_leaf_lean; exact (Hy eq_refl)|]. intros t Ht. apply holds_ret. apply jlean_flip. exact Ht.
  - intros t. unfold tt_short. destruct both; try discriminate; destruct lop; try discriminate; destruct rop; try discriminate; intros [= <-]; exact Logic.I.
Qed.

End TT.
End Families.

(** * Every map built without remove *)
Section Unpruned.
Context {E : Env}.

Lemma unpruned_reachable {K V} {KK : Key K} (m : trie K V) : unpruned m -> reachable m.
Proof.
  induction 1; [apply reach_new|eapply reach_insert; [exact IHunpruned|eassumption..]|eapply reach_transform; [exact IHunpruned|eassumption]
    |eapply (reach_transmute K V KK S X KS); eassumption|eapply (reach_tm K V KK L W KL); [exact IHunpruned|eassumption..]
    |eapply (reach_mt K V KK L W KL); [eassumption|exact IHunpruned|eassumption..]|eapply (reach_mm K V KK L W KL S X KS R rdef rd both lop rop); eassumption
    |eapply reach_tt; [exact IHunpruned1|exact IHunpruned2|eassumption..]].
Qed.

Lemma unpruned_kids {K V} {KK : Key K} (m : trie K V) : unpruned m -> kids m = true.
Proof.
  induction 1 as [K V KK|K V KK Q KQ into m q v replace m' e prev _ IH _ H
    |K V KK R rdef rd st op m m' r o _ IH H|K V KK S X KS R rdef rd op m m' r _ _ H
    |K V KK L W KL R rdef rd st both lop rop m right m' r o _ IH _ _ H|K V KK L W KL R rdef rd st both lop rop m right m' r o _ _ IH _ H
    |K V KK L W KL S X KS R rdef rd both lop rop m right m' r _ _ _ _ _ H|K V KK R rdef rd st both lop rop m right m' r o _ IH _ IH' _ H].
  - reflexivity.
  - eapply map_insert_kids; eassumption.
  - unfold map_transform in H. destruct (m_transform _ _ _ _ _) as [t| |] eqn:Ht; cbn [bind] in H; [|discriminate..].
    pose proof (m_transform_lean rdef rd st op m IH t Ht) as Hl. destruct t as [z|n]; [injection H as <- _ _; exact IH|].
    pose proof (nres_trie_kids n Hl) as Hk. injection H as H _. rewrite H in Hk. exact Hk.
  - unfold map_transmute in H. destruct (m_transmute _ _ _ _) as [n| |] eqn:Hn; cbn [bind] in H; [|discriminate..].
    pose proof (nres_trie_kids n (m_transmute_lean rdef rd op m n Hn)) as Hk. injection H as H. rewrite H in Hk. exact Hk.
  - unfold map_tm in H. destruct (m_tm _ _ _ _ _ _ _ _ _) as [t| |] eqn:Ht; cbn [bind] in H; [|discriminate..].
    pose proof (m_tm_lean rdef rd st both lop rop m right 0 IH t Ht) as Hl. destruct t as [z|n]; [injection H as <- _ _; exact IH|].
    pose proof (nres_trie_kids n Hl) as Hk. injection H as H _. rewrite H in Hk. exact Hk.
  - unfold map_mt in H. destruct (m_mt _ _ _ _ _ _ _ _ _) as [t| |] eqn:Ht; cbn [bind] in H; [|discriminate..].
    pose proof (m_mt_lean rdef rd st both lop rop m right 0 IH t Ht) as Hl. destruct t as [z|n]; [injection H as <- _ _; exact IH|].
    pose proof (nres_trie_kids n Hl) as Hk. injection H as H _. rewrite H in Hk. exact Hk.
  - unfold map_mm in H. destruct (m_mm _ _ _ _ _ _ _ _) as [n| |] eqn:Hn; cbn [bind] in H; [|discriminate..].
    pose proof (nres_trie_kids n (m_mm_lean rdef rd both lop rop m right 0 n Hn)) as Hk. injection H as H. rewrite H in Hk. exact Hk.
  - unfold map_tt in H. destruct (m_tt _ _ _ _ _ _ _ _ _) as [t| |] eqn:Ht; cbn [bind] in H; [|discriminate..].
    pose proof (m_tt_lean rdef rd st both lop rop m right 0 IH IH' t Ht) as Hl.
    destruct t as [z|z|z|n]; [injection H as <- _ _; exact IH|injection H as <- _ _; exact IH|injection H as <- _ _; exact IH'|].
    pose proof (nres_trie_kids n Hl) as Hk. injection H as H _. rewrite H in Hk. exact Hk.
Qed.

Lemma grown_unpruned {K V} {KK : Key K} (m : trie K V) : grown m -> unpruned m.
Proof. induction 1; [apply unp_new|eapply unp_insert; eassumption]. Qed.
Lemma grown_rooted {K V} {KK : Key K} (m : trie K V) : grown m -> rooted m = true.
Proof. induction 1; [reflexivity|eapply map_insert_rooted; eassumption]. Qed.

End Unpruned.
