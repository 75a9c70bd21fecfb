(** With functions for the client's code, the set and transfute operations of AskSet.v
    are those of Api.v and Sets.v. *)
From Coq Require Import NArith List Bool.
From Verif Require Import Base Words Flag Bia Node Api Trans Transform Joint JointT Sets Eff EffP EffT EffJ EffApi EffSet Ask AskRun AskT AskTRun AskJ AskJRun AskTw AskTwRun AskSet.
Import ListNotations.
Open Scope N_scope.

Lemma run_handle {Q Q' : Type} {A : Q -> Type} {A' : Q' -> Type} (H : forall q, prog A (A' q)) (f : forall q, A q) (g : forall q, A' q) :
  (forall q, run f (H q) = Ret (g q)) -> forall X (p : prog A' X), run f (handle H p) = run g p.
Proof.
  intros Hq X p. induction p as [x| | |q k IH]; cbn [handle run]; try reflexivity.
  rewrite run_bind, Hq. cbn [bind]. apply IH.
Qed.

Section Query.
Context {E : Env} {K L : Type} {KK : Key K} {KL : Key L} (into : L -> K).
Notation silent := (fun u : unit => u).
Lemma sh_query_run c : run (honest into silent) (sh_query c) = Ret (honest into silent c).
Proof. destruct c; reflexivity. Qed.
Lemma aset_find_run s (q : L) : run (honest into silent) (aset_find s q) = set_find s q.
Proof.
  unfold aset_find, set_find. rewrite run_bind, (run_handle _ _ _ sh_query_run), ask_find_run.
  destruct (map_find s q) as [[[k []]|]| |]; reflexivity.
Qed.
Lemma aset_insert_run s (q : L) replace : run (honest into silent) (aset_insert s q replace) = set_insert into s q replace.
Proof.
  unfold aset_insert, set_insert. rewrite run_bind, (run_handle _ _ _ sh_query_run), ask_insert_run.
  destruct (map_insert into s q tt replace) as [[[[s' [k []]] p]|[k []]]| |]; reflexivity.
Qed.
Lemma aset_remove_run s (q : L) : run (honest into silent) (aset_remove s q) = set_remove s q.
Proof.
  unfold aset_remove, set_remove. rewrite run_bind, (run_handle _ _ _ sh_query_run), ask_remove_run.
  destruct (map_remove s q) as [[[s' [k []]]|]| |]; reflexivity.
Qed.
End Query.

(** Functions of the keys, for questions that show a key with [tt]. *)
Definition of_key {K T} (g : K -> T) (e : K * unit) : T := g (fst e).
Definition of_keys {K L T} (g : K * L -> T) (p : (K * unit) * (L * unit)) : T := g (fst (fst p), fst (snd p)).

Section Runs.
Context {E : Env} {K R : Type} (rdef : R) (rd : R -> R -> R).
Lemma aset_transform_run (g : K -> sres R) st w s :
  run (functions rdef rd (of_key g)) (aset_transform st w s) = set_transform rdef rd st (stw_fun w g) s.
Proof.
  unfold aset_transform, set_transform. rewrite (run_handle _ _ (functions rdef rd (fun e => vres_of (g (fst e))))).
  - rewrite ask_transform_run. destruct w; reflexivity.
  - intros q. destruct q; reflexivity.
Qed.
Lemma aset_transmute_run {S} (g : K -> skres S R) w s :
  run (functions rdef rd (of_key g)) (aset_transmute w s) = set_transmute rdef rd (smw_fun w g) s.
Proof.
  unfold aset_transmute, set_transmute. rewrite (run_handle _ _ (functions rdef rd (fun e => kres_of (g (fst e))))).
  - rewrite ask_transmute_run. destruct w; reflexivity.
  - intros q. destruct q; reflexivity.
Qed.
Context {KK : Key K}.
Lemma aset_tt_run (gb : K * K -> sbres R) gl gr st wb wl wr (s right : tset K) :
  run (jfunctions rdef rd (of_keys gb) (of_key gl) (of_key gr)) (aset_tt st wb wl wr s right) =
  set_tt rdef rd st (sjw_fun wb (fun k l => gb (k, l))) (stw_fun wl gl) (stw_fun wr gr) s right.
Proof.
  unfold aset_tt, set_tt.
  rewrite (run_handle _ _ (jfunctions rdef rd (fun p => bres_of (of_keys gb p)) (fun e => vres_of (gl (fst e))) (fun e => vres_of (gr (fst e))))).
  - rewrite ask_tt_run. destruct wb, wl, wr; reflexivity.
  - intros q. destruct q; reflexivity.
Qed.
Context {L : Type} {KL : Key L}.
Lemma aset_tm_run gb gl gr st wb wl wr (s : tset K) (right : tset L) :
  run (jfunctions rdef rd (of_keys gb) (of_key gl) (of_key gr)) (aset_tm st wb wl wr s right) =
  set_tm rdef rd st (stw_fun wb gb) (stw_fun wl gl) (smw_fun wr gr) s right.
Proof.
  unfold aset_tm, set_tm.
  rewrite (run_handle _ _ (jfunctions rdef rd (fun p => vres_of (stcall (stw_fun wb gb) (fst (fst p), fst (snd p)))) (fun e => vres_of (gl (fst e))) (fun e => kres_of (gr (fst e))))).
  - rewrite ask_tm_run. destruct wl, wr; reflexivity.
  - intros q. destruct q, wb; reflexivity.
Qed.
Lemma aset_mt_run gb gl gr st wb wl wr (s : tset K) (right : tset L) :
  run (jfunctions rdef rd (of_keys gb) (of_key gl) (of_key gr)) (aset_mt st wb wl wr s right) =
  set_mt rdef rd st (stw_fun wb gb) (smw_fun wl gl) (stw_fun wr gr) s right.
Proof.
  unfold aset_mt, set_mt.
  rewrite (run_handle _ _ (jfunctions rdef rd (fun p => vres_of (stcall (stw_fun wb gb) (fst (fst p), fst (snd p)))) (fun e => kres_of (gl (fst e))) (fun e => vres_of (gr (fst e))))).
  - rewrite ask_mt_run. destruct wl, wr; reflexivity.
  - intros q. destruct q, wb; reflexivity.
Qed.
Lemma aset_mm_run {S} {KS : Key S} (gb : K * L -> skres S R) gl gr wb wl wr (s : tset K) (right : tset L) :
  run (jfunctions rdef rd (of_keys gb) (of_key gl) (of_key gr)) (aset_mm wb wl wr s right) =
  set_mm rdef rd (smw_fun wb gb) (smw_fun wl gl) (smw_fun wr gr) s right.
Proof.
  unfold aset_mm, set_mm.
  rewrite (run_handle _ _ (jfunctions rdef rd (fun p => kres_of (smcall (smw_fun wb gb) (fst (fst p), fst (snd p)))) (fun e => kres_of (gl (fst e))) (fun e => kres_of (gr (fst e))))).
  - rewrite (@ask_mm_run E K unit L unit R KK KL rdef rd S unit KS). destruct wl, wr; reflexivity.
  - intros q. destruct q as [x y|x|y|x y| |k|k|k k'|k' k|[]|[]]; [destruct wb|..]; reflexivity.
Qed.
Context {V W : Type}.
Lemma ask_tf_run gb gl gr st wb wl wr (m : trie K V) (right : trie K W) :
  run (jfunctions rdef rd gb gl gr) (ask_tf st wb wl wr m right) = map_tf rdef rd st (tw_fun wb gb) (tw_fun wl gl) (smw_fun wr gr) m right.
Proof.
  unfold ask_tf, map_tf.
  rewrite (run_handle _ _ (jfunctions rdef rd gb gl (fun e => match gr e with SKTransmuted v r => KTransmuted (fst e) v r | SKDropped r => KDropped r end))).
  - rewrite ask_tm_run. destruct wr; reflexivity.
  - intros q. destruct q; try reflexivity. cbn. match goal with |- context [gr ?y] => destruct (gr y); reflexivity end.
Qed.
Lemma ask_ft_run gb gl gr st wb wl wr (m : trie K V) (right : trie K W) :
  run (jfunctions rdef rd gb gl gr) (ask_ft st wb wl wr m right) = map_ft rdef rd st (tw_fun wb gb) (smw_fun wl gl) (tw_fun wr gr) m right.
Proof.
  unfold ask_ft, map_ft.
  rewrite (run_handle _ _ (jfunctions rdef rd gb (fun e => match gl e with SKTransmuted v r => KTransmuted (fst e) v r | SKDropped r => KDropped r end) gr)).
  - rewrite ask_mt_run. destruct wl; reflexivity.
  - intros q. destruct q; try reflexivity. cbn. match goal with |- context [gl ?y] => destruct (gl y); reflexivity end.
Qed.
End Runs.
