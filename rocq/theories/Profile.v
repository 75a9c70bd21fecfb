(** The results depend on the query only through its class, and debug and
    release builds agree whenever the debug build returns. *)
From Coq Require Import NArith Arith List Bool Lia.
From Verif Require Import Base Words Flag Bia BiaP Node Api.
Import ListNotations.
Open Scope N_scope.

(** Induction over nodes with a hypothesis for every child. *)
Lemma mnode_ind' {K V} (P : mnode K V -> Prop) :
  (forall bits values x, Forall P values -> P (MC (BIA bits values x))) ->
  (forall l, P (ML l)) -> (forall s, P (MS s)) -> forall n, P n.
Proof.
  intros HC HL HS. fix IH 1. intros [[bits values x]|l|s]; [|apply HL|apply HS].
  apply HC. induction values as [|c vs IHv]; constructor; [apply IH|exact IHv].
Qed.

Lemma bat_in {A} (b : bia A) bit a : bat b bit = Ok a -> In a (bvalues b).
Proof.
  unfold bat. destruct (bit_index (bbits b) bit); [|discriminate].
  unfold nthN. destruct (nth_error _ _) eqn:H; [|discriminate]. intros Hx. injection Hx as <-.
  eapply nth_error_In. eassumption.
Qed.

(** * Queries *)
Section Query.
Context {E : Env} {K V : Type} {KK : Key K} {Q Q' : Type} {KQ : Key Q} {KQ' : Key Q'}.

Lemma l_find_cls (l : lnode K V) (q : Q) (q' : Q') : cls q = cls q' -> l_find l q = l_find l q'.
Proof. intros H. induction l; cbn [l_find]; unfold s_find, keqb; rewrite H, ?IHl; reflexivity. Qed.

Lemma m_find_cls (n : mnode K V) : forall (q : Q) (q' : Q') f, cls q = cls q' -> m_find n q f = m_find n q' f.
Proof.
  induction n as [bits values x IH|l|s] using mnode_ind'; intros q q' f H; cbn [m_find].
  - destruct f as [f|]; [|reflexivity]. cbn [unwrap bind]. rewrite !bat_map.
    destruct (bat (BIA bits values x) (fl_flag f)) as [c|] eqn:Hb; [|reflexivity].
    apply bat_in in Hb. rewrite Forall_forall in IH. specialize (IH c Hb).
    destruct c; [|rewrite (l_find_cls l q q' H); reflexivity|unfold s_find, keqb; rewrite H; reflexivity].
    destruct (flag_next f); [|reflexivity|reflexivity]. cbn [bind]. apply IH. assumption.
  - rewrite (l_find_cls l q q' H). reflexivity.
  - unfold s_find, keqb. rewrite H. reflexivity.
Qed.

Lemma l_remove_from_cls (l : lnode K V) (q : Q) (q' : Q') : cls q = cls q' -> l_remove_from l q = l_remove_from l q'.
Proof. intros H. induction l; cbn [l_remove_from]; unfold keqb; rewrite H, ?IHl; reflexivity. Qed.

Lemma s_insert_cls (s : snode K V) (q : Q) (q' : Q') k v f r : cls q = cls q' -> s_insert s q k v f r = s_insert s q' k v f r.
Proof. intros H. unfold s_insert, keqb. rewrite H. reflexivity. Qed.

Lemma l_insert_cls (l : lnode K V) (q : Q) (q' : Q') k v f r : cls q = cls q' -> l_insert l q k v f r = l_insert l q' k v f r.
Proof. intros H. unfold l_insert. rewrite (l_find_cls l q q' H), (l_remove_from_cls l q q' H). reflexivity. Qed.

Lemma m_insert_cls (n : mnode K V) : forall (q : Q) (q' : Q') k v f r, cls q = cls q' ->
  m_insert n q k v f r = m_insert n q' k v f r.
Proof.
  induction n as [bits values x IH|l|s] using mnode_ind'; intros q q' k v f r H; cbn [m_insert].
  - destruct f as [f|]; [|reflexivity]. cbn [unwrap bind]. rewrite !bat_map.
    destruct (bat (BIA bits values x) (fl_flag f)) as [c|] eqn:Hb; [|reflexivity].
    apply bat_in in Hb. rewrite Forall_forall in IH. specialize (IH c Hb).
    destruct c; (destruct (flag_next f) as [nx| |]; [|reflexivity|reflexivity]); cbn [bind].
    + rewrite (IH q q' k v nx r H). reflexivity.
    + rewrite (l_insert_cls l q q' k v nx r H). reflexivity.
    + rewrite (s_insert_cls s q q' k v nx r H). reflexivity.
  - apply l_insert_cls. assumption.
  - apply s_insert_cls. assumption.
Qed.

Lemma m_remove_cls (n : mnode K V) : forall (q : Q) (q' : Q') f, cls q = cls q' -> m_remove n q f = m_remove n q' f.
Proof.
  induction n as [bits values x IH|l|s] using mnode_ind'; intros q q' f H; cbn [m_remove].
  - destruct f as [f|]; [|reflexivity]. cbn [unwrap bind]. rewrite !bat_map.
    destruct (bat (BIA bits values x) (fl_flag f)) as [c|] eqn:Hb; [|reflexivity].
    apply bat_in in Hb. rewrite Forall_forall in IH. specialize (IH c Hb).
    destruct (flag_next f) as [nx| |]; [|reflexivity|reflexivity]. cbn [bind].
    rewrite (IH q q' nx H). reflexivity.
  - unfold l_remove. rewrite (l_remove_from_cls l q q' H). reflexivity.
  - unfold s_remove, keqb. rewrite H. reflexivity.
Qed.

Lemma map_find_cls (m : trie K V) (q : Q) (q' : Q') : cls q = cls q' -> map_find m q = map_find m q'.
Proof.
  intros H. unfold map_find, hashk. rewrite H. destruct (flag_new (hash (cls q'))); [|reflexivity|reflexivity].
  cbn [bind]. rewrite (m_find_cls m q q' _ H). reflexivity.
Qed.

Lemma map_remove_cls (m : trie K V) (q : Q) (q' : Q') : cls q = cls q' -> map_remove m q = map_remove m q'.
Proof.
  intros H. unfold map_remove, hashk. rewrite H. destruct (flag_new (hash (cls q'))); [|reflexivity|reflexivity].
  cbn [bind]. rewrite (m_remove_cls m q q' _ H). reflexivity.
Qed.

Lemma map_insert_cls (into : Q -> K) (into' : Q' -> K) (m : trie K V) (q : Q) (q' : Q') v r :
  cls q = cls q' -> into q = into' q' -> map_insert into m q v r = map_insert into' m q' v r.
Proof.
  intros H Hi. unfold map_insert, hashk. rewrite H, Hi. destruct (flag_new (hash (cls q'))); [|reflexivity|reflexivity].
  cbn [bind]. rewrite (m_insert_cls m q q' _ _ _ _ H). reflexivity.
Qed.

End Query.

(** * Build profiles *)

(** The same environment without overflow checks. *)
Definition release (E : Env) : Env := {|
  C := @C E; ceqb := @ceqb E; ceqb_eq := @ceqb_eq E; hash := @hash E; hw := @hw E; fw := @fw E;
  hash_lt := @hash_lt E; checked := false; fuel := @fuel E; fuel_ge := @fuel_ge E |}.

(** [o] is what a debug build does, [o'] a release build. *)
Definition dle {A} (o o' : outcome A) : Prop := o = Panic \/ o = o'.

Lemma dle_refl {A} (o : outcome A) : dle o o.
Proof. right. reflexivity. Qed.

Lemma dle_bind {A B} (o o' : outcome A) (f f' : A -> outcome B) :
  dle o o' -> (forall a, dle (f a) (f' a)) -> dle (bind o f) (bind o' f').
Proof.
  intros [ -> | -> ] Hf; [left; reflexivity|]. destruct o'; cbn [bind]; [apply Hf|left; reflexivity|right; reflexivity].
Qed.

Section Profile.
Context (E : Env) {K V : Type} (KK : @Key E K) {Q : Type} (KQ : @Key E Q).
Let R := release E.
Let KKR : @Key R K := KK.
Let KQR : @Key R Q := KQ.

Lemma dle_at_depth h d : dle (@flag_new_at_depth E h d) (@flag_new_at_depth R h d).
Proof.
  unfold flag_new_at_depth. change (@hw R) with (@hw E). change (@fw R) with (@fw E).
  destruct (8 * max_ones hw <=? d * log_b fw); [apply dle_refl|].
  apply dle_bind; [|intros; apply dle_refl].
  unfold shr. destruct (d * log_b fw <? max_ones hw); [apply dle_refl|].
  change (@checked R) with false. destruct (@checked E); [left; reflexivity|apply dle_refl].
Qed.

Lemma dle_next f : dle (@flag_next E f) (@flag_next R f).
Proof. apply dle_at_depth. Qed.

Lemma dle_lift n : forall this tf right rf, dle (@c_lift E K V n this tf right rf) (@c_lift R K V n this tf right rf).
Proof.
  induction n as [|n IH]; intros this tf right rf; cbn [c_lift]; [apply dle_refl|].
  destruct (fl_flag tf =? fl_flag rf); [|apply dle_refl].
  apply dle_bind; [apply dle_next|]. intros a. apply dle_bind; [apply dle_refl|]. intros b.
  apply dle_bind; [apply dle_next|]. intros c. apply dle_bind; [apply dle_refl|]. intros d.
  apply dle_bind; [apply IH|]. intros e. apply dle_refl.
Qed.

Lemma dle_l_lift nx k v f : dle (@l_lift E K V KK nx k v f) (@l_lift R K V KKR nx k v f).
Proof.
  unfold l_lift. change (@hashk R K KKR (next_key nx)) with (@hashk E K KK (next_key nx)).
  destruct (hashk (next_key nx) =? fl_hash f); [apply dle_refl|].
  apply dle_bind; [apply dle_at_depth|]. intros a. apply dle_bind; [apply dle_refl|]. intros b.
  apply dle_bind; [apply dle_lift|]. intros c. apply dle_refl.
Qed.

Lemma dle_s_insert s q k v f r : dle (@s_insert E K V KK Q KQ s q k v f r) (@s_insert R K V KKR Q KQR s q k v f r).
Proof.
  unfold s_insert. change (@keqb R K Q KKR KQR (s_key s) q) with (@keqb E K Q KK KQ (s_key s) q).
  destruct (keqb (s_key s) q); [destruct r; apply dle_refl|].
  apply dle_bind; [apply dle_refl|]. intros a. apply dle_l_lift.
Qed.

Lemma dle_l_insert l q k v f r : dle (@l_insert E K V KK Q KQ l q k v f r) (@l_insert R K V KKR Q KQR l q k v f r).
Proof.
  unfold l_insert. change (@l_find R K V KKR Q KQR l q) with (@l_find E K V KK Q KQ l q).
  change (@l_remove_from R K V KKR Q KQR l q) with (@l_remove_from E K V KK Q KQ l q).
  destruct (l_find l q) as [[fk fv]|].
  - apply dle_refl.
  - apply dle_bind; [apply dle_refl|]. intros a. apply dle_l_lift.
Qed.

Lemma dle_m_insert (n : mnode K V) : forall q k v f r,
  dle (@m_insert E K V KK Q KQ n q k v f r) (@m_insert R K V KKR Q KQR n q k v f r).
Proof.
  induction n as [bits values x IH|l|s] using mnode_ind'; intros q k v f r; cbn [m_insert].
  - apply dle_bind; [apply dle_refl|]. intros g. rewrite !bat_map.
    destruct (bat (BIA bits values x) (fl_flag g)) as [c|] eqn:Hb; [|apply dle_refl].
    apply bat_in in Hb. rewrite Forall_forall in IH. specialize (IH c Hb).
    destruct c; (apply dle_bind; [apply dle_next|]); intros nx.
    + apply dle_bind; [apply IH|]. intros res. apply dle_refl.
    + apply dle_bind; [apply dle_l_insert|]. intros res. apply dle_refl.
    + apply dle_bind; [apply dle_s_insert|]. intros res. apply dle_refl.
  - apply dle_l_insert.
  - apply dle_s_insert.
Qed.

Lemma dle_m_remove (n : mnode K V) : forall q f,
  dle (@m_remove E K V KK Q KQ n q f) (@m_remove R K V KKR Q KQR n q f).
Proof.
  induction n as [bits values x IH|l|s] using mnode_ind'; intros q f; cbn [m_remove]; try apply dle_refl.
  apply dle_bind; [apply dle_refl|]. intros g. rewrite !bat_map.
  destruct (bat (BIA bits values x) (fl_flag g)) as [c|] eqn:Hb; [|apply dle_refl].
  apply bat_in in Hb. rewrite Forall_forall in IH. specialize (IH c Hb).
  apply dle_bind; [apply dle_next|]. intros nx. apply dle_bind; [apply IH|]. intros res. apply dle_refl.
Qed.

Lemma dle_m_find (n : mnode K V) : forall q f,
  dle (@m_find E K V KK Q KQ n q f) (@m_find R K V KKR Q KQR n q f).
Proof.
  induction n as [bits values x IH|l|s] using mnode_ind'; intros q f; cbn [m_find]; try apply dle_refl.
  apply dle_bind; [apply dle_refl|]. intros g. rewrite !bat_map.
  destruct (bat (BIA bits values x) (fl_flag g)) as [c|] eqn:Hb; [|apply dle_refl].
  apply bat_in in Hb. rewrite Forall_forall in IH. specialize (IH c Hb).
  destruct c; try apply dle_refl. apply dle_bind; [apply dle_next|]. intros nx. apply IH.
Qed.

Theorem debug_find m q r : @map_find E K V KK Q KQ m q = Ret r -> @map_find R K V KKR Q KQR m q = Ret r.
Proof.
  intros H. unfold map_find in *. change (@flag_new R) with (@flag_new E).
  change (@hashk R Q KQR q) with (@hashk E Q KQ q). destruct (flag_new (hashk q)) as [f| |]; [|discriminate..].
  cbn [bind] in *. destruct (dle_m_find m q (Some f)) as [He|He]; rewrite He in H; [discriminate|exact H].
Qed.

Theorem debug_insert into m q v rep r :
  @map_insert E K V KK Q KQ into m q v rep = Ret r -> @map_insert R K V KKR Q KQR into m q v rep = Ret r.
Proof.
  intros H. unfold map_insert in *. change (@flag_new R) with (@flag_new E).
  change (@hashk R Q KQR q) with (@hashk E Q KQ q). destruct (flag_new (hashk q)) as [f| |]; [|discriminate..].
  cbn [bind] in *. destruct (dle_m_insert m q (into q) v (Some f) rep) as [He|He]; rewrite He in H; [discriminate|exact H].
Qed.

Theorem debug_remove m q r :
  @map_remove E K V KK Q KQ m q = Ret r -> @map_remove R K V KKR Q KQR m q = Ret r.
Proof.
  intros H. unfold map_remove in *. change (@flag_new R) with (@flag_new E).
  change (@hashk R Q KQR q) with (@hashk E Q KQ q). destruct (flag_new (hashk q)) as [f| |]; [|discriminate..].
  cbn [bind] in *. destruct (dle_m_remove m q (Some f)) as [He|He]; rewrite He in H; [discriminate|exact H].
Qed.

End Profile.
