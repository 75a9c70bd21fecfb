(** C61: transform_with_transformed when no code of the client is a function. *)
From Coq Require Import NArith Arith List Bool Permutation Lia.
From Verif Require Import Base Words Flag Bia Node Api Spec Hist Reach ReachP Trans Transform Joint JointT Ex Eff EffP EffApi EffMapP Ask SpecAsk AskT SpecAskT AskJ SpecAskJ AskJRun AskTw SpecAskTw AskTwRun Misuse AskApiP AskTwPlaceP AskTwSumP PropAsk PropAskT PropJointT PropAskJ.
Import ListNotations.
Open Scope N_scope.
#[local] Existing Instance exE | 100.

(** With functions for all of it, hashes and [==] that keep their contracts and clones
    that are copies, this is the model of the other claims. *)
Theorem C61_faithful : forall (E : Env) K V R (KK : Key K) (rdef : R) rd gb gl gr st wb wl wr (m right : trie K V),
  run (jfunctions rdef rd gb gl gr) (ask_tt st wb wl wr m right) = map_tt rdef rd st (jw_fun wb (fun x y => gb (x, y))) (tw_fun wl gl) (tw_fun wr gr) m right.
Proof. intros E K V R KK. exact ask_tt_run. Qed.
Print Assumptions C61_faithful.

(** Whatever is answered and whatever the two maps hold, with closures or constants: if
    a map is returned it is one with the right size, its keys are keys of the two maps or
    clones (of clones), its values are theirs, clones or answers.  It panics only if a
    call panicked, two hashes differed, or both maps have collision lists, and runs
    forever only in the last case. *)
Theorem C61_sound : forall (E : Env) K V R (m right : trie K V) st wb wl wr tr (o : outcome (trie K V * R * origin)), misused m -> misused right -> exec (ask_tt st wb wl wr m right) tr o ->
  match o with
  | Ret (m', r, og) => misused m' /\ map_size m' = lenN (map_visit m') /\
      Forall (fun e => key_from tr (map fst (map_visit m ++ map_visit right)) (fst e) /\ value_from tr (map snd (map_visit m ++ map_visit right)) (snd e)) (map_visit m') /\
      (og = Self -> m' = m) /\ (og = Right -> m' = right)
  | Panic => jpanicked tr \/ hashes_differ tr \/ (2 <= longest m /\ 2 <= longest right)
  | Diverge => 2 <= longest m /\ 2 <= longest right /\ (3 <= longest m \/ 3 <= longest right)
  end.
Proof. intros E K V R. exact misused_tt_sound. Qed.
Print Assumptions C61_sound.
(** And if the hashes are in order they stay so: find finds what is there. *)
Theorem C61_sound_steady : forall (E : Env) K V (KK : Key K) R L (KL : Key L) (m right : trie K V) st wb wl wr tr (o : outcome (trie K V * R * origin)) (q : L), unequal m -> unequal right -> Forall jsteady tr ->
  exec (ask_tt st wb wl wr m right) tr o ->
  match o with
  | Ret (m', r, og) => unequal m' /\ ((exists e, map_find m' q = Ret (Ok e) /\ In e (map_visit m') /\ cls (fst e) = cls q) \/
      (map_find m' q = Ret (Err NotFound) /\ forall e, In e (map_visit m') -> cls (fst e) <> cls q))
  | Panic => jpanicked tr \/ (2 <= longest m /\ 2 <= longest right)
  | Diverge => 2 <= longest m /\ 2 <= longest right /\ (3 <= longest m \/ 3 <= longest right)
  end.
Proof. intros E K V KK R L KL. exact unequal_tt_sound. Qed.
Print Assumptions C61_sound_steady.

(** With closures, and collision lists on one side at most, which is then calm: every
    entry of both maps is told to a closure exactly once, two of them together only if one
    said to equal the other; the new map has just what the answers say, and the reduction
    is made of theirs.  A panic has a reason. *)
Theorem C61_tt : forall (E : Env) K V R (m right : trie K V) st tr (o : outcome (trie K V * R * origin)), misused m -> misused right ->
  exec (ask_tt st JwClosure TwClosure TwClosure m right) tr o ->
  longest m < 2 \/ longest right < 2 -> (2 <= longest m -> calm_left tr) -> (2 <= longest right -> calm_right tr) ->
  match o with
  | Ret (m', r, og) => misused m' /\ Permutation (jtold_all tr) (map inl (map_visit m) ++ map inr (map_visit right)) /\ (og = Self -> m' = m) /\ (og = Right -> m' = right) /\
      exists is outs, settled jsee tt_red tt_cost tr is r /\ Forall2 (tt_becomes tr) is outs /\ Permutation (map_visit m') (concat outs)
  | Panic => (jpanicked tr \/ hashes_differ tr) /\ exists rest, Permutation (jtold_all tr ++ rest) (map inl (map_visit m) ++ map inr (map_visit right))
  | Diverge => False
  end.
Proof. intros E K V R. exact misused_tt. Qed.
Print Assumptions C61_tt.
Theorem C61_tt_steady : forall (E : Env) K V (KK : Key K) R (m right : trie K V) st tr (o : outcome (trie K V * R * origin)), unequal m -> unequal right -> Forall jsteady tr ->
  exec (ask_tt st JwClosure TwClosure TwClosure m right) tr o ->
  longest m < 2 \/ longest right < 2 -> (2 <= longest m -> calm_left tr) -> (2 <= longest right -> calm_right tr) ->
  match o with
  | Ret (m', r, og) => unequal m'
  | Panic => jpanicked tr
  | Diverge => False
  end.
Proof. intros E K V KK R. exact unequal_tt. Qed.
Print Assumptions C61_tt_steady.
Theorem C61_tt_ends : forall (E : Env) K V R (m right : trie K V) st tr (o : outcome (trie K V * R * origin)), misused m -> misused right ->
  exec (ask_tt st JwClosure TwClosure TwClosure m right) tr o -> longest m < 2 -> longest right < 2 ->
  (unbroken tr /\ exists x, o = Ret x) \/ (unbroken tr /\ hashes_differ tr /\ o = Panic) \/ (exists tr' q, tr = tr' ++ [broke q] /\ unbroken tr' /\ o = Panic).
Proof. intros E K V R. exact misused_tt_ends. Qed.
Print Assumptions C61_tt_ends.

(** * Examples *)

(** Every call is numbered; [reduce_op] and the default answer their number. *)
Definition ex_tcalls (h : nat -> key -> word) (eq : nat -> key -> key -> bool) (gb : nat -> key * N -> key * N -> bres N N) (gl gr : nat -> key * N -> vres N N)
  (ck : nat -> key -> key) (cv : nat -> N -> N) (n : nat) (q : jcalls key N key N key N N) : option (jreply key N key N key N (bres N N) (vres N N) (vres N N) N q) :=
  match q return option (jreply key N key N key N (bres N N) (vres N N) (vres N N) N q) with
  | JBoth x y => Some (gb n x y)
  | JLeft x => Some (gl n x)
  | JRight y => Some (gr n y)
  | JReduce _ _ | JDefault => Some (N.of_nat n)
  | JHash k | JHash' k => Some (h n k)
  | JEq k k' | JEq' k k' => Some (eq n k k')
  | JKey k => Some (ck n k)
  | JValue v => Some (cv n v)
  end.
Definition ex_same (_ : nat) (k k' : key) : bool := fst k =? fst k'.
Definition ex_copy (n : nat) (k : key) : key := (fst k, snd k + 1000 * N.of_nat n).
Notation ttrace := (list (event (A := jreply key N key N key N (bres N N) (vres N N) (vres N N) N))).
Lemma ex_tunbroken (tr : ttrace) : forallb (fun e => match projT2 e with Some _ => true | None => false end) tr = true -> unbroken tr.
Proof. intros H q Hq. rewrite forallb_forall in H. discriminate (H _ Hq). Qed.
Lemma ex_of_ok l : (exists xs, Hist.run (E := exE) map_new (ex_os_of l) = Ret (ex_of l, xs)) -> reachable (ex_of l).
Proof. intros [xs H]. exact (ex_of_reach l xs H). Qed.
Ltac ex_run := apply ex_of_ok; eexists; vm_compute; reflexivity.

(** Three entries of one hash on the left, none of them kept; [==] says yes to every
    fifth call. *)
Definition ex_pick : trie key N := ex_of [(1, 7); (36, 8); (4 * 2 ^ 5, 9); (44, 10)].
Lemma ex_pick_reach : reachable ex_pick.
Proof. unfold ex_pick. ex_run. Qed.
Definition ex_busy (n : nat) (e : key * N) : vres N N := if N.even (snd e) then VTransformed (snd e + 100) (N.of_nat n) else VDropped 3000.
Definition ex_bothf (n : nat) (x y : key * N) : bres N N := if N.even (snd x) then BUnchangedR (N.of_nat n) else BTransformed (snd x + snd y) 7.
Definition ex_tf := ex_tcalls (fun _ => hash_word) (fun n _ _ => Nat.eqb (Nat.modulo n 5) 2) ex_bothf ex_busy (fun n _ => VUnchanged (N.of_nat n)) ex_copy (fun n v => v + N.of_nat n).
Notation ex_tt_prog := (ask_tt (R := N) MiddleIndex JwClosure TwClosure TwClosure ex_m ex_pick).
Definition ex_tt := EffMapP.play ex_tf 0 ex_tt_prog.
Definition not_kept (e : event (A := jreply key N key N key N (bres N N) (vres N N) (vres N N) N)) : Prop :=
  match e with
  | existT _ q a =>
      match q return option (jreply key N key N key N (bres N N) (vres N N) (vres N N) N q) -> Prop with
      | JLeft _ => fun a => match a with Some (VUnchanged _) => False | _ => True end
      | _ => fun _ => True
      end a
  end.
Example C61_tt_ex : unequal ex_m /\ unequal ex_pick /\ longest ex_m = 3 /\ longest ex_pick < 2 /\ calm_left (fst ex_tt) /\ exec ex_tt_prog (fst ex_tt) (snd ex_tt) /\ Forall jsteady (fst ex_tt) /\ unbroken (fst ex_tt) /\
  jtold_all (fst ex_tt) = [inl (0, 0, 10); inl (2, 0, 12); inr (1, 7, 7); inl (1, 1, 17); inl (4611686018427387904, 0, 15);
    inl (4096, 0, 14); inl (128, 0, 13); inr (128, 9, 9); inl (36, 0, 18); inr (36, 8, 8); inr (44, 10, 10)] /\
  reduces jsee (fst ex_tt) = 24 /\ defaults jsee (fst ex_tt) = 15 /\ clones jsee (fst ex_tt) = [inl (0, 0); inl (1, 7); inr 7; inl (4096, 0); inl (36, 0)] /\
  exists m', snd ex_tt = Ret (m', 74, Other) /\ unequal m' /\
    map_visit m' = [(1, 31007, 39); (0, 29000, 110); (4096, 50000, 114); (128, 9, 9); (36, 68000, 118); (36, 8, 8); (44, 10, 10)].
Proof.
  pose proof (une_reach _ _ _ _ ex_reach) as H1. pose proof (une_reach _ _ _ _ ex_pick_reach) as H2.
  pose proof (EffMapP.play_exec ex_tf ex_tt_prog 0 : exec ex_tt_prog (fst ex_tt) (snd ex_tt)) as He.
  assert (HS : Forall jsteady (fst ex_tt)).
  { apply play_forall; [|intros []; exact I]. intros n [x y|x|y|x y| |k|k|k l|l k|k|v] a [= <-]; repeat split. }
  assert (HC : calm_left (fst ex_tt)).
  { left. intros x r Hx. assert (HF : Forall not_kept (fst ex_tt)).
    { apply play_forall; [|intros []; exact I]. intros n [x' y|x'|y|x' y| |k|k|k l|l k|k|v] a [= <-]; try exact I. cbn. unfold ex_busy. destruct (N.even _); exact I. }
    rewrite Forall_forall in HF. exact (HF _ Hx). }
  split; [exact H1|]. split; [exact H2|]. do 2 (split; [vm_compute; reflexivity|]). split; [exact HC|]. split; [exact He|]. split; [exact HS|].
  split; [apply ex_tunbroken; vm_compute; reflexivity|].
  do 4 (split; [vm_compute; reflexivity|]). eexists. assert (Hx : snd ex_tt = Ret (_, 74, Other)) by (vm_compute; reflexivity).
  split; [exact Hx|]. split; [|vm_compute; reflexivity].
  pose proof (C61_tt_steady exE key N key_key N ex_m ex_pick MiddleIndex (fst ex_tt) (snd ex_tt) H1 H2 HS He) as HU. rewrite Hx in HU. apply HU.
  - right. vm_compute. reflexivity.
  - intros _. exact HC.
  - intros H. vm_compute in H. destruct (H eq_refl).
Qed.

(** Keys misplaced on the left, and a clone that panics. *)
Definition ex_tbreak (n : nat) (q : jcalls key N key N key N N) : option (jreply key N key N key N (bres N N) (vres N N) (vres N N) N q) :=
  match q with JKey _ => None | _ => ex_tcalls (fun n k => if Nat.even n then hash_word k else one) (fun n _ _ => Nat.even n) (fun n _ _ => BTransformed 5 (N.of_nat n)) (fun n e => if N.even (snd e) then VDropped (N.of_nat n) else VTransformed 5 (N.of_nat n)) (fun n _ => VUnchanged (N.of_nat n)) ex_copy (fun _ v => v) n q end.
Notation ex_tb_prog := (ask_tt (R := N) Sequential JwClosure TwClosure TwClosure moody_2 ex_few).
Definition ex_tb := EffMapP.play ex_tbreak 0 ex_tb_prog.
Example C61_break_ex : misused moody_2 /\ misused ex_few /\ longest moody_2 < 2 /\ longest ex_few < 2 /\ exec ex_tb_prog (fst ex_tb) (snd ex_tb) /\ snd ex_tb = Panic /\
  jtold_all (fst ex_tb) = [inl (0, 0, 2); inl (0, 0, 1)] /\ map asked (skipn 133 (fst ex_tb)) = [JLeft (0, 0, 1); JKey (0, 0)].
Proof.
  split; [exact moody_misused|]. split; [exact (mis_reach key N _ _ ex_few_reach)|]. do 2 (split; [vm_compute; reflexivity|]).
  split; [exact (EffMapP.play_exec ex_tbreak ex_tb_prog 0 : exec ex_tb_prog (fst ex_tb) (snd ex_tb))|]. vm_compute. auto.
Qed.

(** Constants for the left map and for both, and colliding entries on both sides.  An
    entry was told that is a clone of one, and its key is cloned once more. *)
Definition ex_duo : trie key N := ex_of [(0, 30); (1, 31)].
Lemma ex_duo_reach : reachable ex_duo.
Proof. unfold ex_duo. ex_run. Qed.
Notation ex_tk_prog := (ask_tt Sequential (JwUnchangedL 1) (TwUnchanged 2) TwClosure ex_m ex_duo).
Definition ex_tkf := ex_tcalls (fun _ => hash_word) (fun n _ _ => Nat.even n) (fun n _ _ => BDropped 1) (fun n _ => VDropped 2) (fun n e => VTransformed (N.of_nat n) 3) ex_copy (fun n v => v + N.of_nat n).
Definition ex_tk := EffMapP.play ex_tkf 0 ex_tk_prog.
Example C61_sound_ex : unequal ex_m /\ unequal ex_duo /\ longest ex_m = 3 /\ longest ex_duo = 2 /\ exec ex_tk_prog (fst ex_tk) (snd ex_tk) /\ Forall jsteady (fst ex_tk) /\
  jtold_all (fst ex_tk) = [inr (0, 29030, 60); inr (1, 31, 31)] /\
  clones jsee (fst ex_tk) = [inl (0, 30); inr 30; inl (0, 29030); inl (2, 0); inr 12; inl (1, 1); inr 17; inl (1, 31)] /\
  exists m', snd ex_tk = Ret (m', 62, Other) /\ unequal m' /\
    map_visit m' = [(1, 44031, 43); (1, 40001, 58); (2, 36000, 49); (0, 62030, 32); (0, 0, 10); (4611686018427387904, 0, 15); (4096, 0, 14); (128, 0, 13); (36, 0, 18)].
Proof.
  pose proof (une_reach _ _ _ _ ex_reach) as H1. pose proof (une_reach _ _ _ _ ex_duo_reach) as H2.
  pose proof (EffMapP.play_exec ex_tkf ex_tk_prog 0 : exec ex_tk_prog (fst ex_tk) (snd ex_tk)) as He.
  assert (HS : Forall jsteady (fst ex_tk)).
  { apply play_forall; [|intros []; exact I]. intros n [x y|x|y|x y| |k|k|k l|l k|k|v] a [= <-]; repeat split. }
  split; [exact H1|]. split; [exact H2|]. do 2 (split; [vm_compute; reflexivity|]). split; [exact He|]. split; [exact HS|].
  do 2 (split; [vm_compute; reflexivity|]). eexists. assert (Hx : snd ex_tk = Ret (_, 62, Other)) by (vm_compute; reflexivity).
  split; [exact Hx|]. split; [|vm_compute; reflexivity]. rewrite Hx in He. exact (une_tt _ _ _ _ _ _ _ _ _ _ _ _ _ _ H1 H2 HS He).
Qed.

(** The entry of the right map that is in the result is a clone, with a clone of its key. *)
Definition ex_kl : trie key N := ex_of [(0, 10); (1, 11); (2, 12)].
Definition ex_kr : trie key N := ex_of [(0, 20); (1, 21)].
Lemma ex_kl_reach : reachable ex_kl.
Proof. unfold ex_kl. ex_run. Qed.
Lemma ex_kr_reach : reachable ex_kr.
Proof. unfold ex_kr. ex_run. Qed.
Definition ex_kf := ex_tcalls (fun _ => hash_word) ex_same (fun n _ _ => BUnchangedR (N.of_nat n)) (fun n _ => VUnchanged 2) (fun n _ => VUnchanged 3) ex_copy (fun n v => v + N.of_nat n).
Notation ex_kk_prog := (ask_tt (R := N) Sequential JwClosure TwClosure TwClosure ex_kl ex_kr).
Definition ex_kk := EffMapP.play ex_kf 0 ex_kk_prog.
Example C61_sound_clones_ex : unequal ex_kl /\ unequal ex_kr /\ exec ex_kk_prog (fst ex_kk) (snd ex_kk) /\ Forall jsteady (fst ex_kk) /\
  clones jsee (fst ex_kk) = [inl (0, 20); inr 20; inl (1, 11); inr 11; inl (0, 20); inr 20; inl (2, 12); inr 12] /\
  exists m' r, snd ex_kk = Ret (m', r, Other) /\ map_visit m' = [(2, 17012, 30); (1, 11011, 23); (0, 13020, 34)].
Proof.
  split; [apply une_reach, ex_kl_reach|]. split; [apply une_reach, ex_kr_reach|].
  split; [exact (EffMapP.play_exec ex_kf ex_kk_prog 0 : exec ex_kk_prog (fst ex_kk) (snd ex_kk))|]. split.
  { apply play_forall; [|intros []; exact I]. intros n [x y|x|y|x y| |k|k|k l|l k|k|v] a [= <-]; repeat split. }
  split; [vm_compute; reflexivity|]. do 2 eexists. split; vm_compute; reflexivity.
Qed.

(** * What fails without the conditions *)

(** The claim C61_tt makes, for all pairs of maps and all answers, is false in three ways. *)

(** A collision list on the left and one entry on the right, hashes in order and [==]
    as it should be: an entry given up for that of the right map stays in the new map
    beside it, and so does an entry the closure dropped (lnode.rs:1094-1098). *)
Definition ex_sides : trie key N := ex_of [(0, 10); (1, 11); (2, 12)].
Definition ex_lone : trie key N := ex_of [(1, 20)].
Lemma ex_sides_reach : reachable ex_sides.
Proof. unfold ex_sides. ex_run. Qed.
Lemma ex_lone_reach : reachable ex_lone.
Proof. unfold ex_lone. ex_run. Qed.
Definition ex_rf := ex_tcalls (fun _ => hash_word) ex_same (fun n _ _ => BUnchangedR (N.of_nat n)) (fun n e => if snd e =? 10 then VDropped 1 else VUnchanged 2) (fun n _ => VUnchanged 3) (fun _ k => k) (fun _ v => v).
Notation ex_rf_prog := (ask_tt (R := N) Sequential JwClosure TwClosure TwClosure ex_sides ex_lone).
Definition ex_rft := EffMapP.play ex_rf 0 ex_rf_prog.
Definition given_up (e : event (A := jreply key N key N key N (bres N N) (vres N N) (vres N N) N)) : Prop :=
  match e with
  | existT _ q a =>
      match q return option (jreply key N key N key N (bres N N) (vres N N) (vres N N) N q) -> Prop with
      | JBoth _ _ => fun a => match a with Some o => exists r, o = BUnchangedR r | _ => True end
      | JLeft x => fun a => match a with Some o => snd x = 10 -> exists r, o = VDropped r | _ => True end
      | _ => fun _ => True
      end a
  end.
Lemma asked_in (tr : ttrace) q : unbroken tr -> In q (map asked tr) -> exists a, In (answer q a) tr.
Proof.
  intros HU H. apply in_map_iff in H. destruct H as ([q' [a|]] & <- & H); [exists a; exact H|destruct (HU q' H)].
Qed.
Theorem C61_list_leaf_refuted : exists (m right : trie key N) (tr : ttrace) m' r og (x y z : key * N),
  reachable m /\ reachable right /\ longest right < 2 /\ exec (ask_tt (R := N) Sequential JwClosure TwClosure TwClosure m right) tr (Ret (m', r, og)) /\ Forall jsteady tr /\
  NoDup (jtold_all tr) /\ (exists r', In (answer (JBoth x y) (BUnchangedR r')) tr) /\ (exists r', In (answer (JLeft z) (VDropped r')) tr) /\
  cls (fst x) = cls (fst y) /\ In x (map_visit m') /\ In y (map_visit m') /\ In z (map_visit m').
Proof.
  exists ex_sides, ex_lone, (fst ex_rft). do 3 eexists. exists (1, 11, 11), (1, 20, 20), (0, 10, 10).
  assert (Hx : snd ex_rft = Ret (_, _, _)) by (vm_compute; reflexivity).
  pose proof (EffMapP.play_exec ex_rf ex_rf_prog 0 : exec ex_rf_prog (fst ex_rft) (snd ex_rft)) as He. rewrite Hx in He.
  split; [exact ex_sides_reach|]. split; [exact ex_lone_reach|]. split; [vm_compute; reflexivity|]. split; [exact He|].
  split; [apply play_forall; [|intros []; exact I]; intros n [x y|x|y|x y| |k|k|k l|l k|k|v] a [= <-]; repeat split|].
  split; [assert (Ht : jtold_all (fst ex_rft) = [inl (0, 10, 10); inl (1, 11, 11); inr (1, 20, 20); inl (2, 12, 12)]) by (vm_compute; reflexivity); rewrite Ht;
    repeat constructor; cbn; intuition discriminate|].
  assert (HU : unbroken (fst ex_rft)) by (apply ex_tunbroken; vm_compute; reflexivity).
  assert (HF : Forall given_up (fst ex_rft)).
  { apply play_forall; [|intros []; exact I]. intros n [x y|x|y|x y| |k|k|k l|l k|k|v] a [= <-]; try exact I; cbn; [eauto|]. destruct (snd x =? 10) eqn:Hs; eauto. intros H. rewrite H in Hs. discriminate Hs. }
  rewrite Forall_forall in HF.
  split; [destruct (asked_in _ (JBoth (1, 11, 11) (1, 20, 20)) HU) as [a Ha]; [vm_compute; auto 10|]; destruct (HF _ Ha) as [r' ->]; exists r'; exact Ha|].
  split; [destruct (asked_in _ (JLeft (0, 10, 10)) HU) as [a Ha]; [vm_compute; auto 10|]; destruct (HF _ Ha eq_refl) as [r' ->]; exists r'; exact Ha|].
  split; [reflexivity|]. vm_compute. repeat split; auto 6.
Qed.
Print Assumptions C61_list_leaf_refuted.

(** Collision lists on both sides, hashes in order and [==] as it should be: no call
    panics and no hashes differ, and still there is a panic (lnode.rs:343). *)
Definition ex_pr : trie key N := ex_of [(1, 20); (2, 21)].
Lemma ex_pr_reach : reachable ex_pr.
Proof. unfold ex_pr. ex_run. Qed.
Definition ex_pf := ex_tcalls (fun _ => hash_word) ex_same (fun n _ _ => BUnchangedR (N.of_nat n)) (fun n _ => VDropped 2) (fun n _ => VUnchanged 3) (fun _ k => k) (fun _ v => v).
Notation ex_pf_prog := (ask_tt (R := N) Sequential JwClosure TwClosure TwClosure ex_duo ex_pr).
Definition ex_pft := EffMapP.play ex_pf 0 ex_pf_prog.
Theorem C61_lists_panic_refuted : exists (m right : trie key N) (tr : ttrace), reachable m /\ reachable right /\ longest m = 2 /\ longest right = 2 /\
  exec (ask_tt (R := N) Sequential JwClosure TwClosure TwClosure m right) tr Panic /\ Forall jsteady tr /\ unbroken tr /\ (forall h, hash_said tr h -> proj1_sig h = 0) /\
  Permutation (jtold_all tr) (map inl (map_visit m) ++ map inr (map_visit right)).
Proof.
  exists ex_duo, ex_pr, (fst ex_pft). assert (Hx : snd ex_pft = Panic) by (vm_compute; reflexivity).
  pose proof (EffMapP.play_exec ex_pf ex_pf_prog 0 : exec ex_pf_prog (fst ex_pft) (snd ex_pft)) as He. rewrite Hx in He.
  assert (HS : Forall jsteady (fst ex_pft)) by (apply play_forall; [|intros []; exact I]; intros n [x y|x|y|x y| |k|k|k l|l k|k|v] a [= <-]; repeat split).
  split; [exact ex_duo_reach|]. split; [exact ex_pr_reach|]. do 2 (split; [vm_compute; reflexivity|]). split; [exact He|]. split; [exact HS|].
  split; [apply ex_tunbroken; vm_compute; reflexivity|]. split.
  - intros h Hh. assert (HF : forallb (fun q => match q with JHash k | JHash' k => hashk k =? 0 | _ => true end) (map asked (fst ex_pft)) = true) by (vm_compute; reflexivity).
    rewrite forallb_forall in HF. rewrite Forall_forall in HS. destruct Hh as [[k Hk]|[k Hk]]; pose proof (HS _ Hk) as H1; pose proof (HF _ (in_map asked _ _ Hk)) as H2;
      cbn [asked projT1 answer] in H2; apply N.eqb_eq in H2; exact (eq_trans H1 H2).
  - assert (Ht : jtold_all (fst ex_pft) = [inl (0, 30, 30); inl (1, 31, 31); inr (1, 20, 20); inr (2, 21, 21)]) by (vm_compute; reflexivity). rewrite Ht.
    assert (Hm : map inl (map_visit ex_duo) ++ map inr (map_visit ex_pr) = [inl (1, 31, 31); inl (0, 30, 30); inr (2, 21, 21); inr (1, 20, 20)]) by (vm_compute; reflexivity). rewrite Hm.
    eapply perm_trans; [apply perm_swap|]. do 2 apply perm_skip. apply perm_swap.
Qed.
Print Assumptions C61_lists_panic_refuted.

(** The same, with clones that do not equal what they are clones of: a closure is told
    an entry that is in neither map (lnode.rs:404). *)
Definition ex_nf := ex_tcalls (fun _ => hash_word) ex_same (fun n _ _ => BUnchangedL (N.of_nat n)) (fun n _ => VDropped 2) (fun n _ => VUnchanged 3) (fun _ k => (if fst k =? 0 then 1 else fst k, snd k)) (fun _ v => v).
Definition ex_trip : trie key N := ex_of [(0, 20); (1, 21)].
Lemma ex_trip_reach : reachable ex_trip.
Proof. unfold ex_trip. ex_run. Qed.
Notation ex_nf_prog := (ask_tt (R := N) Sequential JwClosure TwClosure TwClosure ex_duo ex_trip).
Definition ex_nft := EffMapP.play ex_nf 0 ex_nf_prog.
Theorem C61_lists_told_refuted : exists (m right : trie key N) (tr : ttrace) m' r og (y : key * N), reachable m /\ reachable right /\
  exec (ask_tt (R := N) Sequential JwClosure TwClosure TwClosure m right) tr (Ret (m', r, og)) /\ unbroken tr /\ Forall jsteady tr /\
  In (JRight y) (map asked tr) /\ ~ In y (map_visit m) /\ ~ In y (map_visit right).
Proof.
  exists ex_duo, ex_trip, (fst ex_nft). do 3 eexists. exists (1, 20, 20).
  assert (Hx : snd ex_nft = Ret (_, _, _)) by (vm_compute; reflexivity).
  pose proof (EffMapP.play_exec ex_nf ex_nf_prog 0 : exec ex_nf_prog (fst ex_nft) (snd ex_nft)) as He. rewrite Hx in He.
  split; [exact ex_duo_reach|]. split; [exact ex_trip_reach|]. split; [exact He|]. split; [apply ex_tunbroken; vm_compute; reflexivity|].
  split; [apply play_forall; [|intros []; exact I]; intros n [x y|x|y|x y| |k|k|k l|l k|[[|p] w]|v] a [= <-]; repeat split|].
  split; [vm_compute; tauto|]. split; vm_compute; intuition discriminate.
Qed.
Print Assumptions C61_lists_told_refuted.

(** Two entries of one hash on the left and three on the right, everything in order:
    gathering those of the right never ends (lnode.rs:306-319). *)
Definition ex_df := ex_tcalls (fun _ => hash_word) ex_same (fun n _ _ => BUnchangedL (N.of_nat n)) (fun n _ => VDropped 2) (fun n _ => VUnchanged 3) (fun _ k => k) (fun _ v => v).
Notation ex_df_prog := (ask_tt (R := N) Sequential JwClosure TwClosure TwClosure ex_duo ex_sides).
Definition ex_dft := EffMapP.play ex_df 0 ex_df_prog.
Theorem C61_lists_diverge_refuted : exists (m right : trie key N) (tr : ttrace), reachable m /\ reachable right /\ longest m = 2 /\ longest right = 3 /\
  exec (ask_tt (R := N) Sequential JwClosure TwClosure TwClosure m right) tr Diverge /\ Forall jsteady tr /\ unbroken tr /\ map asked tr = [JDefault; JHash (1, 31); JHash' (2, 12)].
Proof.
  exists ex_duo, ex_sides, (fst ex_dft). assert (Hx : snd ex_dft = Diverge) by (vm_compute; reflexivity).
  pose proof (EffMapP.play_exec ex_df ex_df_prog 0 : exec ex_df_prog (fst ex_dft) (snd ex_dft)) as He. rewrite Hx in He.
  split; [exact ex_duo_reach|]. split; [exact ex_sides_reach|]. do 2 (split; [vm_compute; reflexivity|]). split; [exact He|].
  split; [apply play_forall; [|intros []; exact I]; intros n [x y|x|y|x y| |k|k|k l|l k|k|v] a [= <-]; repeat split|].
  split; [apply ex_tunbroken; vm_compute; reflexivity|]. vm_compute. reflexivity.
Qed.
Print Assumptions C61_lists_diverge_refuted.
