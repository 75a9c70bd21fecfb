(** What insert and remove do to the number of nodes. *)
From Coq Require Import NArith Arith List Bool Lia ZifyBool ZifyN ZifyNat.
From Verif Require Import Base Words Flag Bia BiaP Node Spec Inv NodeP TrieP Api ApiP Reach ReachP Profile KeepP Lean LeanP ShapeP SpecMem TidyP.
Import ListNotations.
Open Scope N_scope.

Lemma total_cons {A} (f : A -> N) a l : total f (a :: l) = f a + total f l.
Proof. reflexivity. Qed.
Lemma total_nil {A} (f : A -> N) : total f [] = 0.
Proof. reflexivity. Qed.
Lemma total_cut {A} (f : A -> N) i : forall (l : list A) a, nth_error l i = Some a -> total f l = total f (firstn i l) + (f a + total f (skipn (S i) l)).
Proof.
  induction i as [|i IH]; intros [|b l] a H; try discriminate.
  - injection H as ->. reflexivity.
  - change (firstn (S i) (b :: l)) with (b :: firstn i l). change (skipn (S (S i)) (b :: l)) with (skipn (S i) l). rewrite !total_cons, (IH l a H). lia.
Qed.
Lemma total_part {A} (f : A -> N) i (l : list A) : total f l = total f (firstn i l) + total f (skipn i l).
Proof. rewrite <- total_app, firstn_skipn. reflexivity. Qed.

Section Step.
Context {E : Env} {K V : Type} {KK : Key K}.

Notation size n := (nodes (shape_of n)).

Lemma update_nodes bits (values : list (mnode K V)) x f c c' z : bat (BIA bits values x) f = Ok c ->
  holds (fun b => size (MC b) + size c = size (MC (BIA bits values x)) + size c') (unwrap_ok (bupdated (BIA bits values x) f c' z)).
Proof.
  unfold bat, bupdated. cbn [bbits bvalues]. destruct (bit_index bits f) as [i|e]; [|intros _ t; discriminate]. intros Hc t Ht. apply new_bia_eq in Ht. subst t.
  unfold nthN in Hc. destruct (nth_error values (N.to_nat i)) as [c0|] eqn:Hn; [|discriminate]. injection Hc as ->.
  rewrite !nodes_C. unfold values_update. rewrite total_app, total_cons, (total_cut _ _ _ _ Hn). lia.
Qed.
Lemma remove_nodes bits (values : list (mnode K V)) x f c z : bat (BIA bits values x) f = Ok c ->
  holds (fun b => size (MC b) + size c = size (MC (BIA bits values x))) (unwrap_ok (bremoved (BIA bits values x) f z)).
Proof.
  unfold bat, bremoved. cbn [bbits bvalues]. destruct (bit_index bits f) as [i|e]; [|intros H; discriminate H].
  destruct (bit_remove bits f) as [nb|]; [|intros _ t; discriminate]. intros Hc t Ht. apply new_bia_eq in Ht. subst t.
  unfold nthN in Hc. destruct (nth_error values (N.to_nat i)) as [c0|] eqn:Hn; [|discriminate]. injection Hc as ->.
  rewrite !nodes_C. unfold values_remove. rewrite total_app, (total_cut _ _ _ _ Hn). lia.
Qed.
Lemma insert_nodes bits (values : list (mnode K V)) x f c z :
  holds (fun b => size (MC b) = size (MC (BIA bits values x)) + size c) (unwrap_ok (binserted (BIA bits values x) f c z)).
Proof.
  unfold binserted. cbn [bbits bvalues]. destruct (bit_insert bits f) as [nb|]; [|intros t; discriminate]. destruct (bit_index nb f) as [i|e]; [|intros t; discriminate].
  intros t Ht. apply new_bia_eq in Ht. subst t. rewrite !nodes_C. unfold values_insert. rewrite total_app, total_cons, (total_part _ (N.to_nat i) values). lia.
Qed.

(** * remove *)
Definition rnodes (b : bool) (n : N) (r : remove_result K V) : Prop :=
  match r with
  | RNotFound => True
  | RC c _ _ => size (MC c) + 1 <= n
  | RL l _ _ => size (ML l) + 1 <= n
  | RS s _ _ => size (MS s) + 1 <= n
  | RZ _ _ => (if b then 2 else 1) <= n
  end.

Lemma l_remove_nodes {Q} {KQ : Key Q} (l : lnode K V) (q : Q) : lok l ->
  match l_remove_from l q with LRNotFound => True | LRL n _ _ => l_size n + 1 = l_size l | LRS _ _ _ => l_size l = 2 end.
Proof.
  induction l as [k v n IH z|k v s z]; cbn [lok l_remove_from l_size].
  - intros [-> Hn]. specialize (IH Hn). destruct (keqb k q); [lia|]. destruct (l_remove_from n q); [exact IH| |]; cbn [l_new l_size]; lia.
  - intros ->. destruct (keqb k q); [reflexivity|]. destruct (keqb _ _); [reflexivity|exact Logic.I].
Qed.

Lemma m_remove_nodes {Q} {KQ : Key Q} (n : mnode K V) : forall d p (q : Q) f, wf d p n -> holds (rnodes (rooted n) (size n)) (m_remove n q f).
Proof.
  induction n as [bits values x IH|l|s] using mnode_ind'; intros d p q f HW.
  2:{ cbn [m_remove]. apply holds_ret. assert (HL : lok l) by (inversion HW; subst; match goal with H : lwf _ _ |- _ => apply H end).
      pose proof (l_remove_nodes l q HL) as H. unfold l_remove. destruct (l_remove_from l q); cbn [rnodes rooted shape_of nodes]; lia. }
  2:{ cbn [m_remove]. apply holds_ret. unfold s_remove. destruct (keqb _ _); cbn [rnodes rooted shape_of nodes]; lia. }
  rewrite Forall_forall in IH. destruct (wf_C_inv _ _ _ _ _ HW) as [Hok Hch]. cbn [m_remove].
  eapply (holds_bind (fun _ => True)); [intros ? ?; exact Logic.I|]. intros fl _.
  rewrite bat_map. destruct (bat (BIA bits values x) (fl_flag fl)) as [c|e] eqn:Hb; [|apply holds_ret; exact Logic.I].
  pose proof (bat_in _ _ _ Hb) as Hin. cbn [bvalues] in Hin. destruct (in_values_get _ _ _ c Hok Hin) as (i & _ & Hi).
  assert (Hpos : size c + 1 <= size (MC (BIA bits values x))).
  { rewrite nodes_C. destruct (In_nth_error _ _ Hin) as [j Hj]. rewrite (total_cut _ _ _ _ Hj). lia. }
  eapply (holds_bind (fun _ => True)); [intros ? ?; exact Logic.I|]. intros nx _.
  eapply holds_bind; [exact (IH c Hin _ _ q nx (Hch i c Hi))|]. intros r Hr. destruct r as [|c' k v|l k v|s k v|k v]; cbn [rnodes] in Hr.
  - apply holds_ret. exact Logic.I.
  - destruct (_ =? 0); [intros t; discriminate|]. eapply (holds_bind (fun _ => True)); [intros ? ?; exact Logic.I|]. intros z _.
    eapply holds_bind; [apply (update_nodes bits values x (fl_flag fl) c (MC c') z Hb)|]. intros b Hs. cbv beta in Hs. apply holds_ret. cbn [rnodes]. lia.
  - eapply (holds_bind (fun _ => True)); [intros ? ?; exact Logic.I|]. intros z _.
    eapply holds_bind; [apply (update_nodes bits values x (fl_flag fl) c (ML l) z Hb)|]. intros b Hs. cbv beta in Hs. apply holds_ret. cbn [rnodes]. lia.
  - eapply (holds_bind (fun _ => True)); [intros ? ?; exact Logic.I|]. intros z _.
    eapply holds_bind; [apply (update_nodes bits values x (fl_flag fl) c (MS s) z Hb)|]. intros b Hs. cbv beta in Hs. apply holds_ret. cbn [rnodes]. lia.
  - destruct (_ =? 1); [apply holds_ret; cbn [rnodes rooted]; destruct (rooted c); lia|]. eapply (holds_bind (fun _ => True)); [intros ? ?; exact Logic.I|]. intros z _.
    eapply holds_bind; [apply (remove_nodes bits values x (fl_flag fl) c z Hb)|]. intros b Hs. cbv beta in Hs. apply holds_ret. cbn [rnodes]. destruct (rooted c); lia.
Qed.

Theorem map_remove_nodes {Q} {KQ : Key Q} (m : trie K V) (q : Q) m' e : reachable m -> map_remove m q = Ret (Ok (m', e)) ->
  size m' + 1 <= size m \/ (rooted m = false /\ m' = map_new /\ size m' = size m).
Proof.
  intros HR. unfold map_remove. destruct (flag_new _) as [f| |]; cbn [bind]; [|discriminate..].
  destruct (m_remove m q (Some f)) as [r| |] eqn:Hr; cbn [bind]; [|discriminate..].
  pose proof (reachable_mwf _ HR) as HW. pose proof (m_remove_nodes m 0 0 q (Some f) HW r Hr) as H.
  destruct r as [|c k v|l k v|s k v|k v]; intros [= <- _]; cbn [rnodes] in H; [left; exact H..|].
  destruct (rooted m) eqn:Hm; [left; exact H|]. right. split; [reflexivity|]. split; [reflexivity|].
  destruct m as [c|l|s]; [discriminate| |reflexivity]. cbn [m_remove] in Hr. unfold l_remove in Hr. destruct (l_remove_from l q); discriminate.
Qed.

(** * insert *)
Definition inodes (n : N) (r : insert_result K V) : Prop :=
  match r with
  | IFound _ _ => True
  | IC c _ _ p => match p with None => n + 1 <= size (MC c) | Some _ => size (MC c) = n end
  | IL l _ _ p => match p with None => n + 1 <= size (ML l) | Some _ => size (ML l) = n end
  | IS s _ _ p => match p with None => n + 1 <= size (MS s) | Some _ => size (MS s) = n end
  end.

Lemma c_lift_nodes f : forall (a b : mnode K V) fa fb, holds (fun c => size a + size b + 1 <= size (MC c)) (c_lift f a fa b fb).
Proof.
  induction f as [|f IH]; intros a b fa fb; cbn [c_lift]; [intros t; discriminate|].
  destruct (_ =? _).
  - eapply (holds_bind (fun _ => True)); [intros ? ?; exact Logic.I|]. intros tn _.
    eapply (holds_bind (fun _ => True)); [intros ? ?; exact Logic.I|]. intros tn' _.
    eapply (holds_bind (fun _ => True)); [intros ? ?; exact Logic.I|]. intros rn _.
    eapply (holds_bind (fun _ => True)); [intros ? ?; exact Logic.I|]. intros rn' _.
    eapply holds_bind; [apply IH|]. intros c Hc t Ht. cbv beta in Hc. apply new_bia_eq in Ht. subst t. rewrite nodes_C, total_cons. lia.
  - eapply (holds_bind (fun _ => True)); [intros ? ?; exact Logic.I|]. intros flags _.
    eapply (holds_bind (fun _ => True)); [intros ? ?; exact Logic.I|]. intros i _ t Ht. apply new_bia_eq in Ht. subst t.
    rewrite nodes_C. destruct (i =? 0); rewrite !total_cons, total_nil; lia.
Qed.
Lemma l_lift_nodes (n : lnext K V) k v f : holds (inodes (size (next_mnode n))) (l_lift n k v f).
Proof.
  unfold l_lift. destruct (_ =? _).
  { apply holds_ret. destruct n as [l|s]; cbn [inodes next_mnode shape_of nodes l_new l_size]; lia. }
  eapply (holds_bind (fun _ => True)); [intros ? ?; exact Logic.I|]. intros a _.
  eapply (holds_bind (fun _ => True)); [intros ? ?; exact Logic.I|]. intros b _.
  eapply holds_bind; [apply c_lift_nodes|]. intros c Hc. cbv beta in Hc. apply holds_ret. cbn [inodes]. cbn [shape_of nodes] in Hc |- *. lia.
Qed.
Lemma s_insert_nodes {Q} {KQ : Key Q} (s : snode K V) (q : Q) k v f b : holds (inodes (size (MS s))) (s_insert s q k v f b).
Proof.
  unfold s_insert. destruct (keqb _ _); [destruct b; apply holds_ret; [reflexivity|exact Logic.I]|].
  eapply (holds_bind (fun _ => True)); [intros ? ?; exact Logic.I|]. intros a _. apply (l_lift_nodes (NS s)).
Qed.
Lemma l_insert_nodes {Q} {KQ : Key Q} (l : lnode K V) (q : Q) k v f b : lok l -> holds (inodes (size (ML l))) (l_insert l q k v f b).
Proof.
  intros HL. unfold l_insert. destruct (l_find l q) as [[fk fv]|].
  - destruct b; [|apply holds_ret; exact Logic.I]. pose proof (l_remove_nodes l q HL) as H.
    destruct (l_remove_from l q); [intros t; discriminate| |]; apply holds_ret; cbn [inodes shape_of nodes l_new l_size]; lia.
  - eapply (holds_bind (fun _ => True)); [intros ? ?; exact Logic.I|]. intros a _. apply (l_lift_nodes (NL l)).
Qed.

Lemma m_insert_nodes {Q} {KQ : Key Q} (n : mnode K V) : forall d p (q : Q) k v f b, wf d p n -> holds (inodes (size n)) (m_insert n q k v f b).
Proof.
  assert (HL : forall d p l, wf (K := K) (V := V) d p (ML l) -> lok l) by (intros d p l HW; inversion HW; subst; match goal with H : lwf _ _ |- _ => apply H end).
  induction n as [bits values x IH|l|s] using mnode_ind'; intros d p q k v f b HW.
  2:{ cbn [m_insert]. apply l_insert_nodes. exact (HL d p l HW). }
  2:{ cbn [m_insert]. apply s_insert_nodes. }
  rewrite Forall_forall in IH. destruct (wf_C_inv _ _ _ _ _ HW) as [Hok Hch]. cbn [m_insert].
  eapply (holds_bind (fun _ => True)); [intros ? ?; exact Logic.I|]. intros fl _.
  rewrite bat_map. destruct (bat (BIA bits values x) (fl_flag fl)) as [c|e] eqn:Hb.
  2:{ eapply holds_bind; [apply (insert_nodes bits values x (fl_flag fl) (MS (SN k v)))|]. intros a Ha. cbv beta in Ha. apply holds_ret. cbn [inodes]. change (nodes (shape_of (MS (SN k v)))) with 1 in Ha. lia. }
  pose proof (bat_in _ _ _ Hb) as Hin. cbn [bvalues] in Hin. destruct (in_values_get _ _ _ c Hok Hin) as (i & _ & Hi).
  assert (Hend : forall z c' k' v' pv, match pv with None => size c + 1 <= size c' | Some _ => size c' = size c end ->
    holds (inodes (size (MC (BIA bits values x)))) (let* a := unwrap_ok (bupdated (BIA bits values x) (fl_flag fl) c' z) in Ret (IC a k' v' pv))).
  { intros z c' k' v' pv H. eapply holds_bind; [apply (update_nodes bits values x (fl_flag fl) c c' z Hb)|]. intros a Ha. cbv beta in Ha. apply holds_ret. cbn [inodes]. destruct pv; lia. }
  destruct c as [c|l|s]; (eapply (holds_bind (fun _ => True)); [intros ? ?; exact Logic.I|]; intros nx _).
  - eapply holds_bind; [exact (IH (MC c) Hin _ _ q k v nx b (Hch i _ Hi))|]. intros r Hr. destruct r as [|c2 k' v' pv|l2 k' v' pv|s2 k' v' pv]; [apply holds_ret; exact Logic.I| |intros t; discriminate..].
    eapply (holds_bind (fun _ => True)); [intros ? ?; exact Logic.I|]. intros z _. apply Hend. exact Hr.
  - eapply holds_bind; [apply (l_insert_nodes l q k v nx b (HL _ _ _ (Hch i _ Hi)))|]. intros r Hr. destruct r as [|c2 k' v' pv|l2 k' v' pv|s2 k' v' pv]; [apply holds_ret; exact Logic.I| | |intros t; discriminate].
    + apply Hend. exact Hr.
    + eapply (holds_bind (fun _ => True)); [intros ? ?; exact Logic.I|]. intros z _. apply Hend. exact Hr.
  - eapply holds_bind; [apply s_insert_nodes|]. intros r Hr. destruct r as [|c2 k' v' pv|l2 k' v' pv|s2 k' v' pv]; [apply holds_ret; exact Logic.I|apply Hend; exact Hr..].
Qed.

Theorem map_insert_nodes {Q} {KQ : Key Q} (into : Q -> K) (m : trie K V) (q : Q) v replace m' e prev : reachable m ->
  map_insert into m q v replace = Ret (Ok (m', e, prev)) ->
  match prev with None => size m + 1 <= size m' | Some _ => size m' = size m end.
Proof.
  intros HR. unfold map_insert. destruct (flag_new _) as [f| |]; cbn [bind]; [|discriminate..].
  destruct (m_insert m q (into q) v (Some f) replace) as [r| |] eqn:Hr; cbn [bind]; [|discriminate..].
  pose proof (m_insert_nodes m 0 0 q (into q) v (Some f) replace (reachable_mwf _ HR) r Hr) as H. destruct r; intros [= <- _ <-]; exact H.
Qed.

End Step.
