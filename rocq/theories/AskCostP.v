(** How many calls find, remove and insert make, whatever is answered. *)
From Coq Require Import NArith Arith List Bool Lia ZifyBool ZifyN ZifyNat Permutation.
From Verif Require Import Base Words Flag Bia BiaP Node Inv Api Profile Eff EffP Ask SpecAsk.
Import ListNotations.
Open Scope N_scope.

Section AskCostP.
Context {E : Env} {K V L W : Type}.
Notation event := (event (A := @reply E K V L W)).
Notation trace := (list event).
Notation asks := (prog (@reply E K V L W)).
Implicit Types tr : trace.

(** At most so many comparisons, hashes of stored keys, clones of keys and of
    values, and conversions; no hash of the given key. *)
Definition spent (e h k v i : N) tr : Prop :=
  count is_eq tr <= e /\ count is_hash tr <= h /\ count is_key tr <= k /\ count is_value tr <= v /\ count is_into tr <= i /\
  count is_hash_q tr = 0.
Definition spends {X} (e h k v i : N) (p : asks X) : Prop := forall tr o, exec p tr o -> spent e h k v i tr.

Lemma count_app p tr tr' : count p (tr ++ tr') = count p tr + count p tr'.
Proof. unfold count. rewrite filter_app, app_length. lia. Qed.
Lemma count_cons p (e : event) tr : count p (e :: tr) = (if p (asked e) then 1 else 0) + count p tr.
Proof. unfold count. cbn [filter]. destruct (p (asked e)); cbn [length]; lia. Qed.
Lemma count_nil p : count p ([] : trace) = 0.
Proof. reflexivity. Qed.

Lemma spends_weak {X} e h k v i e' h' k' v' i' (p : asks X) : spends e h k v i p ->
  e <= e' -> h <= h' -> k <= k' -> v <= v' -> i <= i' -> spends e' h' k' v' i' p.
Proof. intros H ? ? ? ? ? tr o He. destruct (H tr o He) as (A1 & A2 & A3 & A4 & A5 & A6). repeat split; lia. Qed.

Lemma spends_ret {X} (x : X) : spends 0 0 0 0 0 (PRet x).
Proof. intros tr o [-> _]. repeat split; cbn; lia. Qed.
Lemma spends_lift {X} (o : outcome X) : spends 0 0 0 0 0 (lift o).
Proof. intros tr o' He. apply exec_lift in He. destruct He as [-> _]. repeat split; cbn; lia. Qed.
Lemma spends_panic {X} : spends 0 0 0 0 0 (@PPanic _ (@reply E K V L W) X).
Proof. intros tr o [-> _]. repeat split; cbn; lia. Qed.

Lemma spends_bind {X Y} e h k v i e' h' k' v' i' (p : asks X) (f : X -> asks Y) :
  spends e h k v i p -> (forall x, spends e' h' k' v' i' (f x)) -> spends (e + e') (h + h') (k + k') (v + v') (i + i') (pbind p f).
Proof.
  intros Hp Hf tr o He. apply exec_bind in He. destruct He as [(t1 & t2 & x & -> & H1 & H2)|[[H1 _]|[H1 _]]].
  - destruct (Hp _ _ H1) as (A1 & A2 & A3 & A4 & A5 & A6). destruct (Hf _ _ _ H2) as (B1 & B2 & B3 & B4 & B5 & B6).
    repeat split; rewrite count_app; lia.
  - destruct (Hp _ _ H1) as (A1 & A2 & A3 & A4 & A5 & A6). repeat split; lia.
  - destruct (Hp _ _ H1) as (A1 & A2 & A3 & A4 & A5 & A6). repeat split; lia.
Qed.

Lemma spends_free {X Y} e h k v i (o : outcome X) (f : X -> asks Y) :
  (forall x, o = Ret x -> spends e h k v i (f x)) -> spends e h k v i (pbind (lift o) f).
Proof.
  intros Hf. destruct o as [x| |]; cbn [lift pbind]; [apply Hf; reflexivity|..];
    intros tr o [-> _]; repeat split; cbn; lia.
Qed.

Definition b2n (b : bool) : N := if b then 1 else 0.

Lemma spends_ask {X} c e h k v i (f : reply c -> asks X) : is_hash_q c = false -> (forall a, spends e h k v i (f a)) ->
  spends (b2n (is_eq c) + e) (b2n (is_hash c) + h) (b2n (is_key c) + k) (b2n (is_value c) + v) (b2n (is_into c) + i) (PAsk c f).
Proof.
  intros Hq Hf tr o [(a & tr' & -> & He)|[-> _]].
  - destruct (Hf a _ _ He) as (A1 & A2 & A3 & A4 & A5 & A6). repeat split; rewrite count_cons; cbn [asked answer projT1]; unfold b2n;
      rewrite ?Hq; destruct c; cbn [is_eq is_hash is_key is_value is_into] in *; lia.
  - repeat split; rewrite count_cons, count_nil; cbn [asked broke projT1]; unfold b2n;
      rewrite ?Hq; destruct c; cbn [is_eq is_hash is_key is_value is_into] in *; lia.
Qed.

Lemma spends_eq {X} (key : K) (q : L) e h k v i (f : bool -> asks X) : (forall a, spends e h k v i (f a)) -> spends (1 + e) h k v i (pbind (ask (CEq key q)) f).
Proof. intros H. exact (spends_ask (CEq key q) e h k v i f eq_refl H). Qed.
Lemma spends_key {X} (key : K) e h k v i (f : K -> asks X) : (forall a, spends e h k v i (f a)) -> spends e h (1 + k) v i (pbind (ask (CKey key)) f).
Proof. intros H. exact (spends_ask (CKey key) e h k v i f eq_refl H). Qed.
Lemma spends_value {X} (val : V) e h k v i (f : V -> asks X) : (forall a, spends e h k v i (f a)) -> spends e h k (1 + v) i (pbind (ask (CValue val)) f).
Proof. intros H. exact (spends_ask (CValue val) e h k v i f eq_refl H). Qed.
Lemma spends_hash {X} (key : K) e h k v i (f : word -> asks X) : (forall a, spends e h k v i (f a)) -> spends e (1 + h) k v i (pbind (ask (CHash key)) f).
Proof. intros H. exact (spends_ask (CHash key) e h k v i f eq_refl H). Qed.
Lemma spends_into {X} (q : L) (w : W) e h k v i (f : K * V -> asks X) : (forall a, spends e h k v i (f a)) -> spends e h k v (2 + i) (pbind (into q w) f).
Proof.
  intros H. replace (2 + i) with (1 + (1 + i)) by lia.
  exact (spends_ask (CInto q) e h k v (1 + i) _ eq_refl (fun a => spends_ask (CIntoV w) e h k v i _ eq_refl (fun b => H (a, b)))).
Qed.

Ltac done0 := eapply spends_weak; [first [apply spends_ret|apply spends_panic|apply spends_lift]|lia..].

Lemma as_find_spends s q : spends 1 0 0 0 0 (as_find s q).
Proof. unfold as_find. apply (spends_eq _ _ 0 0 0 0 0). intros [|]; apply spends_ret. Qed.

Lemma al_find_spends l q : spends (lenN (l_visit l)) 0 0 0 0 (al_find l q).
Proof.
  induction l as [k v n IH z|k v s z]; cbn [al_find l_key l_visit]; rewrite lenN_cons; apply spends_eq; intros [|]; try done0.
  - exact IH.
  - apply as_find_spends.
Qed.

Lemma longest_child (values : list (mnode K V)) c : In c values -> longest c <= fold_right N.max 0 (map longest values).
Proof. induction values as [|a vs IH]; intros []; cbn [map fold_right]; [subst; lia|]. specialize (IH H). lia. Qed.

Lemma am_find_spends n : forall q f, spends (longest n) 0 0 0 0 (am_find n q f).
Proof.
  induction n as [bits values x IH|l|s] using mnode_ind'; intros q f; cbn [am_find longest bvalues].
  - rewrite Forall_forall in IH. apply spends_free. intros g _. rewrite bat_map. destruct (bat (BIA bits values x) (fl_flag g)) as [c|] eqn:Hb; [|done0].
    pose proof (bat_in _ _ _ Hb) as Hin. cbn [bvalues] in Hin. pose proof (longest_child _ _ Hin) as Hle. destruct c as [c|l|s].
    + apply spends_free. intros nx _. eapply spends_weak; [apply (IH _ Hin)|lia..].
    + eapply spends_weak; [apply al_find_spends|cbn [longest] in Hle; lia..].
    + eapply spends_weak; [apply as_find_spends|cbn [longest] in Hle; lia..].
  - apply al_find_spends.
  - apply as_find_spends.
Qed.

Lemma as_remove_spends s q : spends 1 0 0 0 0 (as_remove s q).
Proof. unfold as_remove. apply (spends_eq _ _ 0 0 0 0 0). intros [|]; apply spends_ret. Qed.

Lemma l_visit_len (l : lnode K V) : 2 <= lenN (l_visit l).
Proof. destruct l as [k v n z|k v s z]; cbn [l_visit]; rewrite lenN_cons; [|unfold s_visit; rewrite lenN_cons; lia]. destruct n; cbn [l_visit]; rewrite lenN_cons; lia. Qed.

Lemma al_remove_from_spends l q : spends (lenN (l_visit l)) 0 (lenN (l_visit l) - 1) (lenN (l_visit l) - 1) 0 (al_remove_from l q).
Proof.
  induction l as [k v n IH z|k v s z]; cbn [al_remove_from l_key l_visit]; rewrite lenN_cons; apply spends_eq; intros [|]; try done0.
  - pose proof (l_visit_len n) as Hl. eapply spends_weak.
    + eapply (spends_bind _ _ _ _ _ 0 0 1 1 0); [exact IH|]. intros [|n' k' v'|s' k' v'].
      * done0.
      * apply (spends_key k 0 0 0 1 0). intros ck. apply (spends_value v 0 0 0 0 0). intros cv. apply spends_ret.
      * apply (spends_key k 0 0 0 1 0). intros ck. apply (spends_value v 0 0 0 0 0). intros cv. apply spends_ret.
    + lia.
    + lia.
    + lia.
    + lia.
    + lia.
  - eapply spends_weak.
    + eapply (spends_bind _ _ _ _ _ 0 0 1 1 0); [apply as_remove_spends|]. intros [|c' k' v'|n' k' v'|s' k' v'|k' v']; try done0.
      apply (spends_key k 0 0 0 1 0). intros ck. apply (spends_value v 0 0 0 0 0). intros cv. apply spends_ret.
    + reflexivity.
    + lia.
    + unfold s_visit. cbn. lia.
    + unfold s_visit. cbn. lia.
    + lia.
Qed.

Lemma al_remove_spends l q : spends (lenN (l_visit l)) 0 (lenN (l_visit l) - 1) (lenN (l_visit l) - 1) 0 (al_remove l q).
Proof.
  unfold al_remove. eapply spends_weak; [eapply (spends_bind _ _ _ _ _ 0 0 0 0 0); [apply al_remove_from_spends|intros; apply spends_ret]|lia..].
Qed.

Lemma am_remove_spends n : forall q f, spends (longest n) 0 (longest n - 1) (longest n - 1) 0 (am_remove n q f).
Proof.
  induction n as [bits values x IH|l|s] using mnode_ind'; intros q f; cbn [am_remove longest bvalues].
  - rewrite Forall_forall in IH. apply spends_free. intros g _. rewrite bat_map. destruct (bat (BIA bits values x) (fl_flag g)) as [c|] eqn:Hb; [|done0].
    pose proof (bat_in _ _ _ Hb) as Hin. cbn [bvalues] in Hin. pose proof (longest_child _ _ Hin) as Hle.
    apply spends_free. intros nx _. eapply spends_weak.
    + eapply (spends_bind _ _ _ _ _ 0 0 0 0 0); [apply (IH _ Hin)|]. intros [|c' k' v'|n' k' v'|s' k' v'|k' v'].
      * apply spends_ret.
      * destruct (bextra c' =? 0); [apply spends_panic|]. do 2 (apply spends_free; intros ? _). apply spends_ret.
      * do 2 (apply spends_free; intros ? _). apply spends_ret.
      * do 2 (apply spends_free; intros ? _). apply spends_ret.
      * destruct (x =? 1); [apply spends_ret|]. do 2 (apply spends_free; intros ? _). apply spends_ret.
    + lia.
    + lia.
    + lia.
    + lia.
    + lia.
  - apply al_remove_spends.
  - eapply spends_weak; [apply as_remove_spends|lia..].
Qed.

Lemma al_lift_spends nx q w f : spends 0 1 0 0 2 (al_lift nx q w f).
Proof.
  unfold al_lift. apply (spends_hash _ 0 0 0 0 2). intros h. destruct (proj1_sig (h : word) =? fl_hash f).
  - apply (spends_into _ _ 0 0 0 0 0). intros [a b]. apply spends_ret.
  - do 2 (apply spends_free; intros ? _). apply (spends_into _ _ 0 0 0 0 0). intros [a b]. apply spends_free. intros c _. apply spends_ret.
Qed.

Lemma as_insert_spends s q w f rep : spends 1 1 0 0 2 (as_insert s q w f rep).
Proof.
  unfold as_insert. apply (spends_eq _ _ 0 1 0 0 2). intros [|].
  - destruct rep; [|done0]. eapply spends_weak; [apply (spends_into _ _ 0 0 0 0 0); intros [a b]; apply spends_ret|lia..].
  - apply spends_free. intros g _. apply al_lift_spends.
Qed.

Lemma al_insert_spends l q w f rep : spends (2 * lenN (l_visit l)) 1 (lenN (l_visit l) - 1) (lenN (l_visit l) - 1) 2 (al_insert l q w f rep).
Proof.
  unfold al_insert. eapply spends_weak.
  - eapply (spends_bind _ _ _ _ _ (lenN (l_visit l)) 1 (lenN (l_visit l) - 1) (lenN (l_visit l) - 1) 2); [apply al_find_spends|].
    intros [[fk fv]|].
    + destruct rep; [|done0]. eapply spends_weak.
      * eapply (spends_bind _ _ _ _ _ 0 0 0 0 2); [apply al_remove_from_spends|]. intros [|n' k' v'|s' k' v']; [done0|..];
          (apply (spends_into _ _ 0 0 0 0 0); intros [a b]; apply spends_ret).
      * lia.
      * lia.
      * lia.
      * lia.
      * lia.
    + apply spends_free. intros g _. eapply spends_weak; [apply al_lift_spends|lia..].
  - lia.
  - lia.
  - lia.
  - lia.
  - lia.
Qed.

Lemma am_insert_spends n : forall q w f rep, spends (2 * longest n) 1 (longest n - 1) (longest n - 1) 2 (am_insert n q w f rep).
Proof.
  induction n as [bits values x IH|l|s] using mnode_ind'; intros q w f rep; cbn [am_insert longest bvalues].
  - rewrite Forall_forall in IH. apply spends_free. intros g _. rewrite bat_map. destruct (bat (BIA bits values x) (fl_flag g)) as [c|] eqn:Hb.
    + pose proof (bat_in _ _ _ Hb) as Hin. cbn [bvalues] in Hin. pose proof (longest_child _ _ Hin) as Hle. destruct c as [c|l|s].
      * apply spends_free. intros nx _. eapply spends_weak.
        -- eapply (spends_bind _ _ _ _ _ 0 0 0 0 0); [apply (IH _ Hin)|]. intros []; try apply spends_ret; try apply spends_panic.
           do 2 (apply spends_free; intros ? _). apply spends_ret.
        -- lia.
        -- lia.
        -- lia.
        -- lia.
        -- lia.
      * cbn [longest] in Hle. apply spends_free. intros nx _. eapply spends_weak.
        -- eapply (spends_bind _ _ _ _ _ 0 0 0 0 0); [apply al_insert_spends|]. intros []; try apply spends_ret; try apply spends_panic;
             do 2 (try (apply spends_free; intros ? _)); apply spends_ret.
        -- lia.
        -- lia.
        -- lia.
        -- lia.
        -- lia.
      * cbn [longest] in Hle. apply spends_free. intros nx _. eapply spends_weak.
        -- eapply (spends_bind _ _ _ _ _ 0 0 0 0 0); [apply as_insert_spends|]. intros []; try apply spends_ret; try apply spends_panic;
             do 2 (try (apply spends_free; intros ? _)); apply spends_ret.
        -- lia.
        -- lia.
        -- lia.
        -- lia.
        -- lia.
    + eapply spends_weak; [apply (spends_into _ _ 0 0 0 0 0); intros [a b]; apply spends_free; intros ? _; apply spends_ret|lia..].
  - apply al_insert_spends.
  - cbn. eapply spends_weak; [apply as_insert_spends|lia..].
Qed.

End AskCostP.
