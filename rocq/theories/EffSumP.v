(** What the theorems about closures say, put together. *)
From Coq Require Import NArith Arith List Bool Lia Permutation.
From Verif Require Import Base Words Flag Bia Node Spec SpecP Inv Api ApiP Trans Transform Joint JointT SpecT SpecJ JoinP Reach ReachP
  MapP TransMapP Profile Eff EffT EffJ EffP EffTP EffApi EffMapP EffOrdP.
Import ListNotations.
Open Scope N_scope.

Section Visit.
Context {E : Env} {K V : Type}.

Lemma recorded_any (tr : list (event (A := fun _ : K * V => unit))) : unbroken tr -> exists f, Forall (agrees f) tr.
Proof.
  intros HB. exists (fun _ => tt). apply Forall_forall. intros [q [[]|]] Hi; [reflexivity|]. destruct (HB q Hi).
Qed.

Lemma el_visit_run f (l : lnode K V) : run f (el_visit (A := fun _ : K * V => unit) ask l) = Ret tt.
Proof. induction l as [k v n IH z|k v s z]; cbn [el_visit]; rewrite run_bind; cbn [run ask bind]; [exact IH|]. unfold es_visit. cbn [ask run]. destruct (f _). reflexivity. Qed.
Lemma em_visit_run f (n : mnode K V) : run f (em_visit (A := fun _ : K * V => unit) ask n) = Ret tt.
Proof.
  induction n as [bits values x IH|l|s] using mnode_ind'; cbn [em_visit]; [|apply el_visit_run|unfold es_visit; cbn [ask run]; destruct (f _); reflexivity].
  induction IH as [|c values Hc IHv IHr]; cbn [map each]; [reflexivity|]. rewrite run_bind, Hc. exact IHr.
Qed.
End Visit.

Section One.
Context {E : Env} {K V R : Type} {KK : Key K} (rdef : R) (rd : R -> R -> R).

Lemma transform_in_order st (w : tway R) (m : trie K V) tr o : reachable m ->
  exec (emap_transform rdef rd st (tw_op w ask) m) tr o ->
  exists rest, calls tr ++ rest = match w with TwClosure => backwards (map_visit m) | _ => [] end /\ forall x, o = Ret x -> rest = [].
Proof.
  intros HR He. destruct w; [|destruct (transform_makes _ _ _ _ _ _ _ HR He) as (rest & HP & H); exists rest; split;
    [apply Permutation_nil; symmetry; exact HP|exact H]..].
  rewrite <- (map_id (backwards (map_visit m))).
  exact (emap_transform_follows (A := fun _ : K * V => vres V R) rdef rd (fun e => e) ask follows_ask st m (reachable_mwf _ HR) tr o He).
Qed.
Lemma transmute_in_order {S X} (w : mway R) (m : trie K V) tr o : reachable m ->
  exec (emap_transmute (S := S) (X := X) rdef rd (mw_op w ask) m) tr o ->
  exists rest, calls tr ++ rest = match w with MwClosure => backwards (map_visit m) | _ => [] end /\ forall x, o = Ret x -> rest = [].
Proof.
  intros HR He. destruct w; [|destruct (transmute_makes _ _ _ _ _ _ HR He) as (rest & HP & H); exists rest; split;
    [apply Permutation_nil; symmetry; exact HP|exact H]..].
  rewrite <- (map_id (backwards (map_visit m))).
  exact (emap_transmute_follows (A := fun _ : K * V => kres S X R) rdef rd (fun e => e) ask follows_ask m (reachable_mwf _ HR) tr o He).
Qed.

Lemma transform_ends st (w : tway R) (m : trie K V) tr o : reachable m ->
  exec (emap_transform rdef rd st (tw_op w ask) m) tr o ->
  (unbroken tr /\ exists x, o = Ret x) \/ (exists tr' q, tr = tr' ++ [broke q] /\ unbroken tr' /\ o = Panic).
Proof.
  intros HR He. destruct (unbroken_or tr) as [HB|HB].
  - left. split; [assumption|]. destruct (transform_answers _ _ _ _ _ _ _ HR He HB) as (f & _ & ->).
    destruct (transform_exact rdef rd st (tw_fun w f) m HR) as (m' & r & o & -> & _). eauto.
  - right. exact (exec_stops _ _ _ He HB).
Qed.
Lemma transmute_ends {S X} {KS : Key S} (w : mway R) (m : trie K V) tr o : reachable m ->
  (forall q k v r, In (answer q (KTransmuted k v r)) tr -> cls k = cls (fst q)) ->
  exec (emap_transmute (S := S) (X := X) rdef rd (mw_op w ask) m) tr o ->
  (unbroken tr /\ exists x, o = Ret x) \/ (exists tr' q, tr = tr' ++ [broke q] /\ unbroken tr' /\ o = Panic).
Proof.
  intros HR HK He. destruct (unbroken_or tr) as [HB|HB].
  - left. split; [assumption|]. destruct (recorded_one (KDropped rdef) tr HB (transmute_once _ _ _ _ _ _ HR He)) as (f & Hf & Hd).
    rewrite (transmute_as _ _ _ _ _ _ _ He Hf).
    destruct (transmute_exact rdef rd (mw_fun w f) m HR) as (m' & r & -> & _); [|eauto].
    intros e k v r _ Hm. destruct w; [|discriminate]. cbn in Hm. destruct (Hd e) as [H|(q & Hq & H)]; [congruence|].
    rewrite Hm in H. rewrite (HK _ _ _ _ H). exact Hq.
  - right. exact (exec_stops _ _ _ He HB).
Qed.

(** visit: [op] returns nothing. *)
Lemma visit_ends (m : trie K V) tr o : exec (emap_visit (A := fun _ : K * V => unit) ask m) tr o ->
  (calls tr = map_visit m /\ unbroken tr /\ o = Ret tt) \/
  (exists tr' q rest, tr = tr' ++ [broke q] /\ unbroken tr' /\ calls tr ++ rest = map_visit m /\ o = Panic).
Proof.
  intros He. destruct (visit_makes _ _ _ He) as (rest & Hr & Hret). destruct (unbroken_or tr) as [HB|HB].
  - left. assert (Ho : o = Ret tt).
    { destruct (recorded_any tr HB) as [f Hf]. rewrite (exec_run f _ _ _ He Hf). apply em_visit_run. }
    rewrite (Hret tt Ho), app_nil_r in Hr. auto.
  - right. destruct (exec_stops _ _ _ He HB) as (tr' & q & -> & HU & ->). exists tr', q, rest. auto.
Qed.
End One.
