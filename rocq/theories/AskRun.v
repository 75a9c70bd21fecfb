(** With keys and values that keep their contracts, Ask.v is Node.v and Api.v. *)
From Coq Require Import NArith List Bool Lia.
From Verif Require Import Base Words Flag Bia BiaP Node Api Profile Eff EffP Ask.
Import ListNotations.
Open Scope N_scope.

Section AskRun.
Context {E : Env} {K V L W : Type} {KK : Key K} {KL : Key L} (into_k : L -> K) (into_v : W -> V).

(** The answers of keys that keep the contracts of Base.v ([Key]), and of
    clones that are copies. *)
Definition honest (c : call K V L W) : reply c :=
  match c return reply c with
  | CEq k q => keqb k q
  | CHashQ q => exist _ (hashk q) (hash_lt (cls q))
  | CHash k => exist _ (hashk k) (hash_lt (cls k))
  | CKey k => k
  | CValue v => v
  | CInto q => into_k q
  | CIntoV w => into_v w
  end.

Lemma as_find_run s q : run honest (as_find s q) = Ret (s_find s q).
Proof. unfold as_find, s_find, ask. cbn [pbind run honest]. destruct (keqb (s_key s) q); reflexivity. Qed.

Lemma al_find_run l q : run honest (al_find l q) = Ret (l_find l q).
Proof.
  induction l as [k v n IH z|k v s z]; cbn [al_find l_find l_key l_value ask pbind run honest]; destruct (keqb k q); try reflexivity.
  - exact IH.
  - apply as_find_run.
Qed.

Lemma am_find_run n : forall q flag, run honest (am_find n q flag) = m_find n q flag.
Proof.
  induction n as [bits values extra IH|l|s] using mnode_ind'; intros q flag; cbn [am_find m_find].
  - rewrite run_bind, run_lift. destruct (unwrap flag) as [f| |]; cbn [bind]; try reflexivity.
    rewrite !bat_map. destruct (bat (BIA bits values extra) (fl_flag f)) as [c|e] eqn:Hb; [|reflexivity].
    rewrite Forall_forall in IH. pose proof (bat_in _ _ _ Hb) as Hin.
    destruct c as [b|l|s].
    + rewrite run_bind, run_lift. destruct (flag_next f); cbn [bind]; try reflexivity. apply (IH _ Hin).
    + apply al_find_run.
    + apply as_find_run.
  - apply al_find_run.
  - apply as_find_run.
Qed.

Theorem ask_find_run m q : run honest (ask_find m q) = map_find m q.
Proof.
  unfold ask_find, map_find. cbn [ask pbind run honest proj1_sig]. rewrite run_bind, run_lift.
  destruct (flag_new (hashk q)) as [f| |]; cbn [bind]; try reflexivity. rewrite run_bind, am_find_run.
  destruct (m_find m q (Some f)) as [[e|]| |]; reflexivity.
Qed.

Lemma al_remove_from_run l q : run honest (al_remove_from l q) = Ret (l_remove_from l q).
Proof.
  induction l as [k v n IH z|k v s z]; cbn [al_remove_from l_remove_from l_key ask pbind run honest]; destruct (keqb k q); try reflexivity.
  - rewrite run_bind, IH. cbn [bind]. destruct (l_remove_from n q); reflexivity.
  - unfold as_remove. cbn [ask pbind run honest]. destruct (keqb (s_key s) q); reflexivity.
Qed.

Lemma al_remove_run l q : run honest (al_remove l q) = Ret (l_remove l q).
Proof. unfold al_remove, l_remove. rewrite run_bind, al_remove_from_run. reflexivity. Qed.

Lemma as_remove_run s q : run honest (as_remove s q) = Ret (s_remove s q).
Proof. unfold as_remove, s_remove, ask. cbn [pbind run honest]. destruct (keqb (s_key s) q); reflexivity. Qed.

Ltac step := repeat (rewrite run_bind, run_lift; match goal with |- bind ?o _ = _ => destruct o; cbn [bind]; try reflexivity end).

Lemma am_remove_run n : forall q flag, run honest (am_remove n q flag) = m_remove n q flag.
Proof.
  induction n as [bits values extra IH|l|s] using mnode_ind'; intros q flag; cbn [am_remove m_remove].
  - rewrite run_bind, run_lift. destruct (unwrap flag) as [f| |]; cbn [bind]; try reflexivity.
    rewrite !bat_map. destruct (bat (BIA bits values extra) (fl_flag f)) as [c|e] eqn:Hb; [|reflexivity].
    rewrite Forall_forall in IH. pose proof (bat_in _ _ _ Hb) as Hin.
    rewrite run_bind, run_lift. destruct (flag_next f) as [nx| |]; cbn [bind]; try reflexivity.
    rewrite run_bind, (IH _ Hin). destruct (m_remove c q nx) as [r| |]; cbn [bind]; try reflexivity.
    destruct r as [|c' k v|l' k v|s' k v|k v]; [reflexivity| | | |].
    + destruct (bextra c' =? 0); [reflexivity|]. step.
    + step.
    + step.
    + destruct (extra =? 1); [reflexivity|]. step.
  - apply al_remove_run.
  - apply as_remove_run.
Qed.

Theorem ask_remove_run m q : run honest (ask_remove m q) = map_remove m q.
Proof.
  unfold ask_remove, map_remove. cbn [ask pbind run honest proj1_sig]. rewrite run_bind, run_lift.
  destruct (flag_new (hashk q)) as [f| |]; cbn [bind]; try reflexivity. rewrite run_bind, am_remove_run.
  destruct (m_remove m q (Some f)) as [[]| |]; reflexivity.
Qed.

Lemma into_run q w : run honest (into q w) = Ret (into_k q, into_v w).
Proof. reflexivity. Qed.

Lemma al_lift_run this q w f : run honest (al_lift this q w f) = l_lift this (into_k q) (into_v w) f.
Proof.
  unfold al_lift, l_lift. cbn [ask pbind run honest proj1_sig]. destruct (hashk (next_key this) =? fl_hash f); [reflexivity|].
  rewrite run_bind, run_lift. destruct (flag_new_at_depth _ _) as [tf| |]; cbn [bind]; try reflexivity.
  rewrite run_bind, run_lift. destruct (unwrap tf) as [g| |]; cbn [bind]; try reflexivity.
  rewrite run_bind, into_run. cbn [bind]. rewrite run_bind, run_lift.
  destruct (cnode_lift _ _ _ _); reflexivity.
Qed.

Lemma as_insert_run this q w flag rep : run honest (as_insert this q w flag rep) = s_insert this q (into_k q) (into_v w) flag rep.
Proof.
  unfold as_insert, s_insert. cbn [ask pbind run honest]. destruct (keqb (s_key this) q).
  - destruct rep; reflexivity.
  - rewrite run_bind, run_lift. destruct (unwrap flag); cbn [bind]; try reflexivity. apply al_lift_run.
Qed.

Lemma al_insert_run this q w flag rep : run honest (al_insert this q w flag rep) = l_insert this q (into_k q) (into_v w) flag rep.
Proof.
  unfold al_insert, l_insert. rewrite run_bind, al_find_run. cbn [bind]. destruct (l_find this q) as [[fk fv]|].
  - destruct rep; [|reflexivity]. rewrite run_bind, al_remove_from_run. cbn [bind].
    destruct (l_remove_from this q); reflexivity.
  - rewrite run_bind, run_lift. destruct (unwrap flag); cbn [bind]; try reflexivity. apply al_lift_run.
Qed.

Lemma am_insert_run n : forall q w flag rep, run honest (am_insert n q w flag rep) = m_insert n q (into_k q) (into_v w) flag rep.
Proof.
  induction n as [bits values extra IH|l|s] using mnode_ind'; intros q w flag rep; cbn [am_insert m_insert].
  - rewrite run_bind, run_lift. destruct (unwrap flag) as [f| |]; cbn [bind]; try reflexivity.
    rewrite !bat_map. destruct (bat (BIA bits values extra) (fl_flag f)) as [c|e] eqn:Hb.
    + rewrite Forall_forall in IH. pose proof (bat_in _ _ _ Hb) as Hin. destruct c as [c|l|s].
      * rewrite run_bind, run_lift. destruct (flag_next f) as [nx| |]; cbn [bind]; try reflexivity.
        rewrite run_bind, (IH _ Hin). destruct (m_insert _ _ _ _ _ _) as [r| |]; cbn [bind]; try reflexivity.
        destruct r; try reflexivity. step.
      * rewrite run_bind, run_lift. destruct (flag_next f) as [nx| |]; cbn [bind]; try reflexivity.
        rewrite run_bind, al_insert_run. destruct (l_insert _ _ _ _ _ _) as [r| |]; cbn [bind]; try reflexivity.
        destruct r; try reflexivity; step.
      * rewrite run_bind, run_lift. destruct (flag_next f) as [nx| |]; cbn [bind]; try reflexivity.
        rewrite run_bind, as_insert_run. destruct (s_insert _ _ _ _ _ _) as [r| |]; cbn [bind]; try reflexivity.
        destruct r; try reflexivity; step.
    + rewrite run_bind, into_run. cbn [bind]. step.
  - apply al_insert_run.
  - apply as_insert_run.
Qed.

Theorem ask_insert_run m q w rep : run honest (ask_insert m q w rep) = map_insert into_k m q (into_v w) rep.
Proof.
  unfold ask_insert, map_insert. cbn [ask pbind run honest proj1_sig]. rewrite run_bind, run_lift.
  destruct (flag_new (hashk q)) as [f| |]; cbn [bind]; try reflexivity. rewrite run_bind, am_insert_run.
  destruct (m_insert _ _ _ _ _ _) as [[]| |]; reflexivity.
Qed.

End AskRun.
