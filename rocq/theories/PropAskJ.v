(** C60: the joint operations when no code of the client is a function. *)
From Coq Require Import NArith Arith List Bool Permutation Lia.
From Verif Require Import Base Words Flag Bia Node Api Spec Hist Reach ReachP Trans Transform Joint Ex Eff EffP EffApi EffMapP Ask SpecAsk AskT SpecAskT AskJ SpecAskJ AskJRun Misuse AskApiP AskJSumP PropAsk PropAskT PropJointT.
Import ListNotations.
Open Scope N_scope.
#[local] Existing Instance exE | 100.

(** With functions for all of it, hashes and [==] that keep their contracts and clones
    that are copies, this is the model of the other claims. *)
Theorem C60_faithful_tm : forall (E : Env) K V L W R (KK : Key K) (KL : Key L) (rdef : R) rd gb gl gr st wb wl wr (m : trie K V) (right : trie L W),
  run (jfunctions rdef rd gb gl gr) (ask_tm st wb wl wr m right) = map_tm rdef rd st (tw_fun wb gb) (tw_fun wl gl) (mw_fun wr gr) m right.
Proof. intros E K V L W R KK KL. exact ask_tm_run. Qed.
Print Assumptions C60_faithful_tm.
Theorem C60_faithful_mt : forall (E : Env) K V L W R (KK : Key K) (KL : Key L) (rdef : R) rd gb gl gr st wb wl wr (m : trie K V) (right : trie L W),
  run (jfunctions rdef rd gb gl gr) (ask_mt st wb wl wr m right) = map_mt rdef rd st (tw_fun wb gb) (mw_fun wl gl) (tw_fun wr gr) m right.
Proof. intros E K V L W R KK KL. exact ask_mt_run. Qed.
Print Assumptions C60_faithful_mt.
Theorem C60_faithful_mm : forall (E : Env) K V L W R (KK : Key K) (KL : Key L) (rdef : R) rd S X (KS : Key S) (gb : (K * V) * (L * W) -> kres S X R) gl gr wb wl wr (m : trie K V) (right : trie L W),
  run (jfunctions rdef rd gb gl gr) (ask_mm wb wl wr m right) = map_mm rdef rd (mw_fun wb gb) (mw_fun wl gl) (mw_fun wr gr) m right.
Proof. intros E K V L W R KK KL rdef rd S X KS. exact (ask_mm_run rdef rd). Qed.
Print Assumptions C60_faithful_mm.

(** Whatever is answered: every entry of both maps is told to a closure exactly once,
    two of them together only if one said to equal the other; the new map has just what
    the answers say, and the reduction is made of theirs.  Only what is kept is cloned.
    A panic has a reason: a call panicked or two hashes differed. *)
Theorem C60_tm : forall (E : Env) K V L W  R (m : trie K V) (right : trie L W) st tr (o : outcome (trie K V * R * origin)),
  misused m -> misused right -> exec (ask_tm st TwClosure TwClosure MwClosure m right) tr o ->
  match o with
  | Ret (m', r, og) => Permutation (jtold_all tr) (map inl (map_visit m) ++ map inr (map_visit right)) /\ (og = Self -> m' = m) /\
      exists is outs, settled jsee tm_red tm_cost tr is r /\ Forall2 (tm_becomes tr) is outs /\ Permutation (map_visit m') (concat outs)
  | Panic => (jpanicked tr \/ hashes_differ tr) /\ exists rest, Permutation (jtold_all tr ++ rest) (map inl (map_visit m) ++ map inr (map_visit right))
  | Diverge => (3 <= longest right) /\ exists rest, Permutation (jtold_all tr ++ rest) (map inl (map_visit m) ++ map inr (map_visit right))
  end.
Proof. intros E K V L W R. exact misused_tm. Qed.
Print Assumptions C60_tm.
Theorem C60_mt : forall (E : Env) K V L W  R (m : trie K V) (right : trie L W) st tr (o : outcome (trie L W * R * origin)),
  misused m -> misused right -> exec (ask_mt st TwClosure MwClosure TwClosure m right) tr o ->
  match o with
  | Ret (m', r, og) => Permutation (jtold_all tr) (map inl (map_visit m) ++ map inr (map_visit right)) /\ (og = Right -> m' = right) /\
      exists is outs, settled jsee mt_red mt_cost tr is r /\ Forall2 (mt_becomes tr) is outs /\ Permutation (map_visit m') (concat outs)
  | Panic => (jpanicked tr \/ hashes_differ tr) /\ exists rest, Permutation (jtold_all tr ++ rest) (map inl (map_visit m) ++ map inr (map_visit right))
  | Diverge => (3 <= longest m) /\ exists rest, Permutation (jtold_all tr ++ rest) (map inl (map_visit m) ++ map inr (map_visit right))
  end.
Proof. intros E K V L W R. exact misused_mt. Qed.
Print Assumptions C60_mt.
Theorem C60_mm : forall (E : Env) K V L W S X R (m : trie K V) (right : trie L W) tr (o : outcome (trie S X * R)),
  misused m -> misused right -> exec (ask_mm MwClosure MwClosure MwClosure m right) tr o ->
  match o with
  | Ret (m', r) => Permutation (jtold_all tr) (map inl (map_visit m) ++ map inr (map_visit right)) /\
      exists is outs, settled jsee mm_red mm_cost tr is r /\ Forall2 (mm_becomes tr) is outs /\ Permutation (map_visit m') (concat outs)
  | Panic => (jpanicked tr \/ hashes_differ tr) /\ exists rest, Permutation (jtold_all tr ++ rest) (map inl (map_visit m) ++ map inr (map_visit right))
  | Diverge => (3 <= longest m \/ 3 <= longest right) /\ exists rest, Permutation (jtold_all tr ++ rest) (map inl (map_visit m) ++ map inr (map_visit right))
  end.
Proof. intros E K V L W S X R. exact misused_mm. Qed.
Print Assumptions C60_mm.

(** While the hashes are in order they stay so, and only a call that panicked is a reason
    to panic. *)
Theorem C60_tm_steady : forall (E : Env) K V L W (KK : Key K) (KL : Key L)  R (m : trie K V) (right : trie L W) st tr (o : outcome (trie K V * R * origin)),
  unequal m -> unequal right -> Forall tm_steady tr -> exec (ask_tm st TwClosure TwClosure MwClosure m right) tr o ->
  match o with
  | Ret (m', r, og) => unequal m'
  | Panic => jpanicked tr
  | Diverge => 3 <= longest right
  end.
Proof. intros E K V L W KK KL R. exact unequal_tm. Qed.
Print Assumptions C60_tm_steady.
Theorem C60_mt_steady : forall (E : Env) K V L W (KK : Key K) (KL : Key L)  R (m : trie K V) (right : trie L W) st tr (o : outcome (trie L W * R * origin)),
  unequal m -> unequal right -> Forall mt_steady tr -> exec (ask_mt st TwClosure MwClosure TwClosure m right) tr o ->
  match o with
  | Ret (m', r, og) => unequal m'
  | Panic => jpanicked tr
  | Diverge => 3 <= longest m
  end.
Proof. intros E K V L W KK KL R. exact unequal_mt. Qed.
Print Assumptions C60_mt_steady.
Theorem C60_mm_steady : forall (E : Env) K V L W (KK : Key K) (KL : Key L) S X (KS : Key S) R (m : trie K V) (right : trie L W) tr (o : outcome (trie S X * R)),
  unequal m -> unequal right -> Forall mm_steady tr -> exec (ask_mm MwClosure MwClosure MwClosure m right) tr o ->
  match o with
  | Ret (m', r) => unequal m'
  | Panic => jpanicked tr
  | Diverge => 3 <= longest m \/ 3 <= longest right
  end.
Proof. intros E K V L W KK KL S X KS R. exact unequal_mm. Qed.
Print Assumptions C60_mm_steady.

(** Without long collision lists they return unless a call panics, and then that is
    the last call, or hashes differ. *)
Theorem C60_tm_ends : forall (E : Env) K V L W  R (m : trie K V) (right : trie L W) st tr (o : outcome (trie K V * R * origin)),
  misused m -> misused right -> exec (ask_tm st TwClosure TwClosure MwClosure m right) tr o ->
  longest right < 3 ->
  (unbroken tr /\ exists x, o = Ret x) \/ (unbroken tr /\ hashes_differ tr /\ o = Panic) \/ (exists tr' q, tr = tr' ++ [broke q] /\ unbroken tr' /\ o = Panic).
Proof. intros E K V L W R. exact misused_tm_ends. Qed.
Print Assumptions C60_tm_ends.
Theorem C60_mt_ends : forall (E : Env) K V L W  R (m : trie K V) (right : trie L W) st tr (o : outcome (trie L W * R * origin)),
  misused m -> misused right -> exec (ask_mt st TwClosure MwClosure TwClosure m right) tr o ->
  longest m < 3 ->
  (unbroken tr /\ exists x, o = Ret x) \/ (unbroken tr /\ hashes_differ tr /\ o = Panic) \/ (exists tr' q, tr = tr' ++ [broke q] /\ unbroken tr' /\ o = Panic).
Proof. intros E K V L W R. exact misused_mt_ends. Qed.
Print Assumptions C60_mt_ends.
Theorem C60_mm_ends : forall (E : Env) K V L W S X R (m : trie K V) (right : trie L W) tr (o : outcome (trie S X * R)),
  misused m -> misused right -> exec (ask_mm MwClosure MwClosure MwClosure m right) tr o ->
  longest m < 3 -> longest right < 3 ->
  (unbroken tr /\ exists x, o = Ret x) \/ (unbroken tr /\ hashes_differ tr /\ o = Panic) \/ (exists tr' q, tr = tr' ++ [broke q] /\ unbroken tr' /\ o = Panic).
Proof. intros E K V L W S X R. exact misused_mm_ends. Qed.
Print Assumptions C60_mm_ends.

(** * Examples *)

(** Every call is numbered; [reduce_op] and the default answer their number. *)
Definition ex_jcalls {K V TB TL TR} (hl : nat -> key -> word) (eq : nat -> bool) (gb : nat -> N -> N -> TB) (gl : nat -> key * N -> TL) (gr : nat -> num * N -> TR)
  (ck : K -> K) (cv : nat -> V -> V) (n : nat) (q : jcalls key N num N K V N) : option (jreply key N num N K V TB TL TR N q) :=
  match q return option (jreply key N num N K V TB TL TR N q) with
  | JBoth x y => Some (gb n (snd x) (snd y))
  | JLeft x => Some (gl n x)
  | JRight y => Some (gr n y)
  | JReduce _ _ | JDefault => Some (N.of_nat n)
  | JHash k => Some (hl n k)
  | JHash' k => Some (hash_word k)
  | JEq _ _ | JEq' _ _ => Some (eq n)
  | JKey k => Some (ck k)
  | JValue v => Some (cv n v)
  end.
Definition ex_left (n : nat) (e : key * N) : vres N N :=
  match N.modulo (snd e) 3 with 0 => VUnchanged 1000 | 1 => VTransformed (N.of_nat n + 100) 2000 | _ => VDropped 3000 end.
Definition ex_right (n : nat) (e : num * N) : kres key N N := if N.even (snd e) then KTransmuted (num_n (fst e), N.of_nat n) (snd e) 4000 else KDropped 5000.
Definition ex_jclone (k : key) : key := (fst k, snd k + 1000).
Definition ex_two (n : nat) (v w : N) : vres N N := VTransformed (v + w) (N.of_nat n).
Lemma ex_unbroken {K V TB TL TR} (tr : list (event (A := jreply key N num N K V TB TL TR N))) :
  forallb (fun e => match projT2 e with Some _ => true | None => false end) tr = true -> unbroken tr.
Proof. intros H q Hq. rewrite forallb_forall in H. discriminate (H _ Hq). Qed.
Lemma ex_r_misused : misused ex_r.
Proof. apply (mis_reach num N _), ex_r_reach. Qed.

Lemma play_forall {Q : Type} {A : Q -> Type} {X} (P : event (A := A) -> Prop) f (p : prog A X) :
  (forall n q a, f n q = Some a -> P (answer q a)) -> (forall q, P (broke q)) -> forall n, Forall P (fst (EffMapP.play f n p)).
Proof.
  intros H1 H2. induction p as [x| | |q k IH]; intros n; cbn; auto. destruct (f n q) as [a|] eqn:Ha; cbn; [|repeat constructor; auto].
  specialize (IH a (S n)). destruct (EffMapP.play f (S n) (k a)) as [tr o]. cbn in *. constructor; [exact (H1 _ _ _ Ha)|exact IH].
Qed.

(** [==] says yes to two calls of three; the hashes are in order. *)
Definition ex_jf := ex_jcalls (fun _ => hash_word) (fun n => negb (Nat.eqb (Nat.modulo n 3) 0)) ex_two ex_left ex_right ex_jclone (fun n _ => N.of_nat n).
Notation ex_tm_prog := (ask_tm (R := N) Sequential TwClosure TwClosure MwClosure ex_m ex_r).
Definition ex_tm := EffMapP.play ex_jf 0 ex_tm_prog.
Example C60_tm_ex : unequal ex_m /\ unequal ex_r /\ longest ex_r = 2 /\ exec ex_tm_prog (fst ex_tm) (snd ex_tm) /\ Forall tm_steady (fst ex_tm) /\ unbroken (fst ex_tm) /\
  jtold_all (fst ex_tm) = [inl (0, 0, 10); inr (Num 3, 103); inl (2, 0, 12); inr (Num 1, 100); inl (1, 1, 17); inl (4611686018427387904, 0, 15);
    inl (4096, 0, 14); inr (Num 4097, 201); inl (128, 0, 13); inr (Num 128, 200); inl (36, 0, 18); inr (Num 36, 301); inr (Num 44, 300)] /\
  reduces jsee (fst ex_tm) = 22 /\ defaults jsee (fst ex_tm) = 13 /\ clones jsee (fst ex_tm) = [inl (0, 0); inl (2, 0); inl (4096, 0); inl (128, 0)] /\
  exists m', snd ex_tm = Ret (m', 72, Other) /\ unequal m' /\
    map_visit m' = [(2, 1000, 112); (0, 1000, 113); (4611686018427387904, 0, 15); (4096, 1000, 215); (128, 59, 200); (128, 1000, 158); (36, 0, 18); (44, 71, 300)].
Proof.
  pose proof (une_reach _ _ _ _ ex_reach) as H1. pose proof (une_reach _ _ _ _ ex_r_reach) as H2.
  pose proof (EffMapP.play_exec ex_jf ex_tm_prog 0 : exec ex_tm_prog (fst ex_tm) (snd ex_tm)) as He.
  assert (HS : Forall tm_steady (fst ex_tm)).
  { apply play_forall; [|intros []; repeat split].
    intros n [x y|x|y|x y| |k|k|k l|l k|k|v] a [= <-]; repeat split. unfold ex_right. destruct (N.even _); reflexivity. }
  split; [exact H1|]. split; [exact H2|]. split; [vm_compute; reflexivity|]. split; [exact He|]. split; [exact HS|].
  split; [apply ex_unbroken; vm_compute; reflexivity|].
  do 4 (split; [vm_compute; reflexivity|]). eexists. assert (Hx : snd ex_tm = Ret (_, 72, Other)) by (vm_compute; reflexivity).
  split; [exact Hx|]. split; [|vm_compute; reflexivity].
  pose proof (C60_tm_steady exE key N num N key_key key_num N ex_m ex_r Sequential (fst ex_tm) (snd ex_tm) H1 H2 HS He) as HU. rewrite Hx in HU. exact HU.
Qed.

(** A call of [==] panics. *)
Definition ex_jbreak (n : nat) (q : jcalls key N num N key N N) : option (jreply key N num N key N (vres N N) (vres N N) (kres key N N) N q) := if Nat.eqb n 50 then None else ex_jf n q.
Definition ex_tmb := EffMapP.play ex_jbreak 0 ex_tm_prog.
Example C60_tm_break_ex : misused ex_m /\ misused ex_r /\ exec ex_tm_prog (fst ex_tmb) (snd ex_tmb) /\ snd ex_tmb = Panic /\
  jtold_all (fst ex_tmb) = [inl (0, 0, 10); inr (Num 3, 103); inl (2, 0, 12); inr (Num 1, 100); inl (1, 1, 17); inl (4611686018427387904, 0, 15)] /\
  map asked (skipn 50 (fst ex_tmb)) = [JEq (4096, 0) (Num 4097)].
Proof.
  split; [exact ex_m_misused|]. split; [exact ex_r_misused|].
  split; [exact (EffMapP.play_exec ex_jbreak ex_tm_prog 0 : exec ex_tm_prog (fst ex_tmb) (snd ex_tmb))|]. vm_compute. auto.
Qed.

(** Keys misplaced on the left, hashes that change and [==] in disorder. *)
Definition ex_mood (n : nat) (k : key) : word := if Nat.even n then hash_word k else one.
Definition ex_mf := ex_jcalls ex_mood (fun n => Nat.eqb (Nat.modulo n 4) 1) ex_two (fun n e => KTransmuted (Num (snd e)) (N.of_nat n) 1) (fun n _ => VUnchanged (V := N) (N.of_nat n))
  (fun k => Num (num_n k + 1)) (fun _ v => v + 1).
Notation ex_mt_prog := (ask_mt (R := N) MiddleIndex TwClosure MwClosure TwClosure moody_2 ex_r).
Definition ex_mt := EffMapP.play ex_mf 0 ex_mt_prog.
Example C60_mt_ex : misused moody_2 /\ misused ex_r /\ longest moody_2 = 1 /\ exec ex_mt_prog (fst ex_mt) (snd ex_mt) /\ unbroken (fst ex_mt) /\
  jtold_all (fst ex_mt) = [inr (Num 1, 100); inl (0, 0, 2); inr (Num 3, 103); inl (0, 0, 1); inr (Num 4097, 201); inr (Num 128, 200); inr (Num 36, 301); inr (Num 44, 300)] /\
  reduces jsee (fst ex_mt) = 71 /\ defaults jsee (fst ex_mt) = 65 /\ clones jsee (fst ex_mt) = [inl (Num 3)] /\
  exists m', snd ex_mt = Ret (m', 208, Other) /\ misused m' /\
    map_visit m' = [(Num 4, 105); (Num 1, 100); (Num 1, 135); (Num 4097, 201); (Num 128, 200); (Num 36, 301); (Num 44, 300)].
Proof.
  pose proof (EffMapP.play_exec ex_mf ex_mt_prog 0 : exec ex_mt_prog (fst ex_mt) (snd ex_mt)) as He.
  split; [exact moody_misused|]. split; [exact ex_r_misused|]. split; [vm_compute; reflexivity|]. split; [exact He|].
  split; [apply ex_unbroken; vm_compute; reflexivity|].
  do 4 (split; [vm_compute; reflexivity|]). eexists. assert (Hx : snd ex_mt = Ret (_, 208, Other)) by (vm_compute; reflexivity).
  split; [exact Hx|]. split; [|vm_compute; reflexivity].
  rewrite Hx in He. exact (mis_mt _ _ _ _ _ _ _ _ _ _ _ _ moody_misused ex_r_misused He).
Qed.

(** The right map comes back when all its entries, met or not, are left as they are. *)
Definition ex_few : trie key N := ex_of [(1, 7); (36, 8)].
Lemma ex_few_reach : reachable ex_few.
Proof. unfold ex_few. ex_of_reach. Qed.
Definition ex_sf := ex_jcalls (fun _ => hash_word) (fun _ => true) (fun n _ _ => VUnchanged (V := N) (N.of_nat n)) (fun _ _ => KDropped (S := num) (X := N) 1) (fun n _ => VUnchanged (V := N) (N.of_nat n))
  (fun k : num => k) (fun _ v => v + 1).
Notation ex_ms_prog := (ask_mt (R := N) Sequential TwClosure MwClosure TwClosure ex_few ex_r).
Definition ex_ms := EffMapP.play ex_sf 0 ex_ms_prog.
Example C60_mt_same_ex : unequal ex_few /\ unequal ex_r /\ exec ex_ms_prog (fst ex_ms) (snd ex_ms) /\ Forall mt_steady (fst ex_ms) /\ clones jsee (fst ex_ms) = [] /\ snd ex_ms = Ret (ex_r, 24, Right).
Proof.
  split; [apply une_reach, ex_few_reach|]. split; [apply une_reach, ex_r_reach|].
  split; [exact (EffMapP.play_exec ex_sf ex_ms_prog 0 : exec ex_ms_prog (fst ex_ms) (snd ex_ms))|]. split; [|vm_compute; auto].
  apply play_forall; [|intros []; repeat split]. intros n [x y|x|y|x y| |k|k|k l|l k|k|v] a [= <-]; repeat split.
Qed.

Definition ex_join := ex_jcalls (K := Empty_set) (V := Empty_set) (fun _ => hash_word) (fun _ => true) (fun n v w => KTransmuted (N.of_nat n) (v + w) 7) (fun n e => KTransmuted (N.of_nat n) (snd e) 8)
  (fun n e => if N.even (snd e) then KDropped 9 else KTransmuted (N.of_nat n) (snd e) 10) (fun k => k) (fun _ v => v).
Notation ex_mm_prog := (ask_mm (S := N) (X := N) (R := N) MwClosure MwClosure MwClosure ex_m ex_r).
Definition ex_mm := EffMapP.play ex_join 0 ex_mm_prog.
Example C60_mm_ex : misused ex_m /\ misused ex_r /\ exec ex_mm_prog (fst ex_mm) (snd ex_mm) /\ unbroken (fst ex_mm) /\
  jtold_all (fst ex_mm) = jtold_all (fst ex_tm) /\ reduces jsee (fst ex_mm) = 20 /\ defaults jsee (fst ex_mm) = 13 /\
  exists m', snd ex_mm = Ret (m', 64) /\ misused m' /\ map_visit m' = [(31, 17); (29, 112); (27, 113); (34, 15); (49, 215); (55, 213); (61, 319)].
Proof.
  pose proof (EffMapP.play_exec ex_join ex_mm_prog 0 : exec ex_mm_prog (fst ex_mm) (snd ex_mm)) as He.
  split; [exact ex_m_misused|]. split; [exact ex_r_misused|]. split; [exact He|].
  split; [apply ex_unbroken; vm_compute; reflexivity|].
  do 3 (split; [vm_compute; reflexivity|]). eexists. assert (Hx : snd ex_mm = Ret (_, 64)) by (vm_compute; reflexivity).
  split; [exact Hx|]. split; [|vm_compute; reflexivity].
  rewrite Hx in He. exact (mis_mm _ _ _ _ _ _ _ _ _ _ _ _ ex_m_misused ex_r_misused He).
Qed.

(** Two hashes differ where there is no slice left to tell them apart. *)
Definition ex_deep_os : list (op num N) := [OInsert (Num 0) 100 false; OInsert (Num (4 * 2 ^ 60)) 101 false].
Definition ex_deep : trie num N := res_of map_new (Hist.run (E := exE) map_new ex_deep_os).
Lemma ex_deep_misused : misused ex_deep.
Proof.
  apply (mis_reach num N _). assert (H : exists xs, Hist.run (E := exE) map_new ex_deep_os = Ret (ex_deep, xs)) by (eexists; vm_compute; reflexivity).
  destruct H as [xs H]. exact (run_reachable _ _ _ H).
Qed.
Definition ex_odd := ex_jcalls (K := Empty_set) (V := Empty_set) (fun _ _ => one) Nat.odd (fun n v w => KTransmuted (N.of_nat n) (v + w) 7) (fun n e => KTransmuted (N.of_nat n) (snd e) 8)
  (fun n e => KTransmuted (N.of_nat n) (snd e) 10) (fun k => k) (fun _ v => v).
Notation ex_md_prog := (ask_mm (S := N) (X := N) (R := N) MwClosure MwClosure MwClosure moody_2 ex_deep).
Definition ex_md := EffMapP.play ex_odd 0 ex_md_prog.
Example C60_mm_hashes_ex : misused moody_2 /\ misused ex_deep /\ longest moody_2 < 3 /\ longest ex_deep < 3 /\ exec ex_md_prog (fst ex_md) (snd ex_md) /\
  unbroken (fst ex_md) /\ snd ex_md = Panic /\ jtold_all (fst ex_md) = [inl (0, 0, 2); inr (Num 0, 100)].
Proof.
  split; [exact moody_misused|]. split; [exact ex_deep_misused|]. do 2 (split; [vm_compute; reflexivity|]).
  split; [exact (EffMapP.play_exec ex_odd ex_md_prog 0 : exec ex_md_prog (fst ex_md) (snd ex_md))|].
  split; [apply ex_unbroken; vm_compute; reflexivity|]. vm_compute. auto.
Qed.

(** Three entries of one hash on the right: no return. *)
Notation ex_ml_prog := (ask_mm (S := N) (X := N) (R := N) MwClosure MwClosure MwClosure ex_m ex_r3).
Definition ex_ml := EffMapP.play ex_join 0 ex_ml_prog.
Example C60_mm_long_ex : exec ex_ml_prog (fst ex_ml) (snd ex_ml) /\ snd ex_ml = Diverge /\ longest ex_r3 = 3 /\ jtold_all (fst ex_ml) = [].
Proof. split; [exact (EffMapP.play_exec ex_join ex_ml_prog 0 : exec ex_ml_prog (fst ex_ml) (snd ex_ml))|]. vm_compute. auto. Qed.
