(** C66: constants for the closures of the joint operations when no code of the client is a
    function. *)
From Coq Require Import NArith Arith List Bool Permutation Lia.
From Verif Require Import Base Words Flag Bia Node Api Spec Hist Reach ReachP Trans Transform Joint Ex Eff EffP EffApi EffMapP Ask SpecAsk AskT SpecAskT AskJ SpecAskJ Misuse AskApiP PropAsk PropAskT PropJointT PropAskJ SpecConst SimBP.
Import ListNotations.
Open Scope N_scope.
#[local] Existing Instance exE | 100.

(** A constant is an optimisation only, whatever keys, values and the remaining closures
    do: every run with constants has a run with closures beside it that answer the
    constants and do not panic.  Both hash, compare and clone the same, call the remaining
    closures with the same entries and get the same answers, in the same order, and end
    alike and with the same map; the run with constants makes no call that the other
    does not, reductions aside, and not more calls. *)
Theorem C66_tm_run : forall (E : Env) K V L W R (m : trie K V) (right : trie L W) st (wb wl : tway R) (wr : mway R) tr (o : outcome (trie K V * R * origin)),
  misused m -> misused right -> exec (ask_tm st wb wl wr m right) tr o ->
  exists tr1 o1, exec (ask_tm st TwClosure TwClosure MwClosure m right) tr1 o1 /\
    same (jkeep (tw_closure wb) (tw_closure wl) (mw_closure wr)) jsoft (jfair (tw_fair wb) (tw_fair wl) (mw_fair wr)) tr tr1 /\ orel same_map o o1.
Proof. intros E K V L W R. exact const_tm_run. Qed.
Print Assumptions C66_tm_run.
Theorem C66_mt_run : forall (E : Env) K V L W R (m : trie K V) (right : trie L W) st (wb : tway R) (wl : mway R) (wr : tway R) tr (o : outcome (trie L W * R * origin)),
  misused m -> misused right -> exec (ask_mt st wb wl wr m right) tr o ->
  exists tr1 o1, exec (ask_mt st TwClosure MwClosure TwClosure m right) tr1 o1 /\
    same (jkeep (tw_closure wb) (mw_closure wl) (tw_closure wr)) jsoft (jfair (tw_fair wb) (mw_fair wl) (tw_fair wr)) tr tr1 /\ orel same_map o o1.
Proof. intros E K V L W R. exact const_mt_run. Qed.
Print Assumptions C66_mt_run.
Theorem C66_mm_run : forall (E : Env) K V L W S X R (m : trie K V) (right : trie L W) (wb wl wr : mway R) tr (o : outcome (trie S X * R)),
  misused m -> misused right -> exec (ask_mm wb wl wr m right) tr o ->
  exists tr1 o1, exec (ask_mm MwClosure MwClosure MwClosure m right) tr1 o1 /\
    same (jkeep (mw_closure wb) (mw_closure wl) (mw_closure wr)) jsoft (jfair (mw_fair wb) (mw_fair wl) (mw_fair wr)) tr tr1 /\ orel same_made o o1.
Proof. intros E K V L W S X R. exact const_mm_run. Qed.
Print Assumptions C66_mm_run.

(** So the entries are dealt with as C60 says: every entry of both maps once, by the
    constant of its kind or by a call of the closure, two together only if one said to
    equal the other.  The closures are called with just the entries of theirs.  A map
    made with constants is one C59 and C60 speak about. *)
Theorem C66_tm : forall (E : Env) K V L W R (m : trie K V) (right : trie L W) st (wb wl : tway R) (wr : mway R) tr (o : outcome (trie K V * R * origin)),
  misused m -> misused right -> exec (ask_tm st wb wl wr m right) tr o ->
  match o with
  | Ret (m', r, og) => misused m' /\ (og = Self -> m' = m) /\
      exists is outs, Permutation (flat_map item_told is) (map inl (map_visit m) ++ map inr (map_visit right)) /\
        Permutation (jtold_all tr) (flat_map item_told (filter (item_called (tw_closure wb) (tw_closure wl) (mw_closure wr)) is)) /\
        (exists rest, Permutation (clones jsee tr ++ rest) (flat_map tm_cost is)) /\
        Forall2 (tm_goes wb wl wr tr) is outs /\ Permutation (map_visit m') (concat outs)
  | Panic => (jpanicked tr \/ hashes_differ tr) /\ exists rest, Permutation (jtold_all tr ++ rest) (map inl (map_visit m) ++ map inr (map_visit right))
  | Diverge => (3 <= longest right) /\ exists rest, Permutation (jtold_all tr ++ rest) (map inl (map_visit m) ++ map inr (map_visit right))
  end.
Proof. intros E K V L W R. exact const_tm. Qed.
Print Assumptions C66_tm.
Theorem C66_mt : forall (E : Env) K V L W R (m : trie K V) (right : trie L W) st (wb : tway R) (wl : mway R) (wr : tway R) tr (o : outcome (trie L W * R * origin)),
  misused m -> misused right -> exec (ask_mt st wb wl wr m right) tr o ->
  match o with
  | Ret (m', r, og) => misused m' /\ (og = Right -> m' = right) /\
      exists is outs, Permutation (flat_map item_told is) (map inl (map_visit m) ++ map inr (map_visit right)) /\
        Permutation (jtold_all tr) (flat_map item_told (filter (item_called (tw_closure wb) (mw_closure wl) (tw_closure wr)) is)) /\
        (exists rest, Permutation (clones jsee tr ++ rest) (flat_map mt_cost is)) /\
        Forall2 (mt_goes wb wl wr tr) is outs /\ Permutation (map_visit m') (concat outs)
  | Panic => (jpanicked tr \/ hashes_differ tr) /\ exists rest, Permutation (jtold_all tr ++ rest) (map inl (map_visit m) ++ map inr (map_visit right))
  | Diverge => (3 <= longest m) /\ exists rest, Permutation (jtold_all tr ++ rest) (map inl (map_visit m) ++ map inr (map_visit right))
  end.
Proof. intros E K V L W R. exact const_mt. Qed.
Print Assumptions C66_mt.
Theorem C66_mm : forall (E : Env) K V L W S X R (m : trie K V) (right : trie L W) (wb wl wr : mway R) tr (o : outcome (trie S X * R)),
  misused m -> misused right -> exec (ask_mm wb wl wr m right) tr o ->
  match o with
  | Ret (m', r) => misused m' /\
      exists is outs, Permutation (flat_map item_told is) (map inl (map_visit m) ++ map inr (map_visit right)) /\
        Permutation (jtold_all tr) (flat_map item_told (filter (item_called (mw_closure wb) (mw_closure wl) (mw_closure wr)) is)) /\
        (exists rest, Permutation (clones jsee tr ++ rest) (flat_map mm_cost is)) /\
        Forall2 (mm_goes wb wl wr tr) is outs /\ Permutation (map_visit m') (concat outs)
  | Panic => (jpanicked tr \/ hashes_differ tr) /\ exists rest, Permutation (jtold_all tr ++ rest) (map inl (map_visit m) ++ map inr (map_visit right))
  | Diverge => (3 <= longest m \/ 3 <= longest right) /\ exists rest, Permutation (jtold_all tr ++ rest) (map inl (map_visit m) ++ map inr (map_visit right))
  end.
Proof. intros E K V L W S X R. exact const_mm. Qed.
Print Assumptions C66_mm.

(** It returns, or panics for one of two reasons, or stops at the call that panics. *)
Theorem C66_tm_ends : forall (E : Env) K V L W R (m : trie K V) (right : trie L W) st (wb wl : tway R) (wr : mway R) tr (o : outcome (trie K V * R * origin)),
  misused m -> misused right -> exec (ask_tm st wb wl wr m right) tr o -> longest right < 3 ->
  (unbroken tr /\ exists x, o = Ret x) \/ (unbroken tr /\ hashes_differ tr /\ o = Panic) \/ (exists tr' q, tr = tr' ++ [broke q] /\ unbroken tr' /\ o = Panic).
Proof. intros E K V L W R. exact const_tm_ends. Qed.
Print Assumptions C66_tm_ends.
Theorem C66_mt_ends : forall (E : Env) K V L W R (m : trie K V) (right : trie L W) st (wb : tway R) (wl : mway R) (wr : tway R) tr (o : outcome (trie L W * R * origin)),
  misused m -> misused right -> exec (ask_mt st wb wl wr m right) tr o -> longest m < 3 ->
  (unbroken tr /\ exists x, o = Ret x) \/ (unbroken tr /\ hashes_differ tr /\ o = Panic) \/ (exists tr' q, tr = tr' ++ [broke q] /\ unbroken tr' /\ o = Panic).
Proof. intros E K V L W R. exact const_mt_ends. Qed.
Print Assumptions C66_mt_ends.
Theorem C66_mm_ends : forall (E : Env) K V L W S X R (m : trie K V) (right : trie L W) (wb wl wr : mway R) tr (o : outcome (trie S X * R)),
  misused m -> misused right -> exec (ask_mm wb wl wr m right) tr o -> longest m < 3 -> longest right < 3 ->
  (unbroken tr /\ exists x, o = Ret x) \/ (unbroken tr /\ hashes_differ tr /\ o = Panic) \/ (exists tr' q, tr = tr' ++ [broke q] /\ unbroken tr' /\ o = Panic).
Proof. intros E K V L W S X R. exact const_mm_ends. Qed.
Print Assumptions C66_mm_ends.

(** Hashes in order suffice for a map that is in order but for equal keys. *)
Theorem C66_tm_steady : forall (E : Env) K V L W R (KK : Key K) (KL : Key L) (m : trie K V) (right : trie L W) st (wb wl : tway R) (wr : mway R) tr (o : outcome (trie K V * R * origin)),
  unequal m -> unequal right -> Forall tm_steady tr -> exec (ask_tm st wb wl wr m right) tr o ->
  match o with Ret (m', r, og) => unequal m' | Panic => jpanicked tr | Diverge => 3 <= longest right end.
Proof. intros E K V L W R KK KL. exact const_tm_steady. Qed.
Print Assumptions C66_tm_steady.
Theorem C66_mt_steady : forall (E : Env) K V L W R (KK : Key K) (KL : Key L) (m : trie K V) (right : trie L W) st (wb : tway R) (wl : mway R) (wr : tway R) tr (o : outcome (trie L W * R * origin)),
  unequal m -> unequal right -> Forall mt_steady tr -> exec (ask_mt st wb wl wr m right) tr o ->
  match o with Ret (m', r, og) => unequal m' | Panic => jpanicked tr | Diverge => 3 <= longest m end.
Proof. intros E K V L W R KK KL. exact const_mt_steady. Qed.
Print Assumptions C66_mt_steady.
Theorem C66_mm_steady : forall (E : Env) K V L W S X R (KK : Key K) (KL : Key L) (KS : Key S) (m : trie K V) (right : trie L W) (wb wl wr : mway R) tr (o : outcome (trie S X * R)),
  unequal m -> unequal right -> Forall mm_steady tr -> exec (ask_mm wb wl wr m right) tr o ->
  match o with Ret (m', r) => unequal m' | Panic => jpanicked tr | Diverge => 3 <= longest m \/ 3 <= longest right end.
Proof. intros E K V L W S X R KK KL KS. exact const_mm_steady. Qed.
Print Assumptions C66_mm_steady.

(** * Examples *)

(** [==] says yes to two calls of three; entries of the left map alone stay, those of the
    right map alone do not come along. *)
Notation ex_ctm_prog := (ask_tm (R := N) Sequential TwClosure (TwUnchanged 5) (MwRemoved 3) ex_m ex_r).
Definition ex_ctm := EffMapP.play ex_jf 0 ex_ctm_prog.
Example C66_tm_ex : unequal ex_m /\ unequal ex_r /\ longest ex_r = 2 /\ exec ex_ctm_prog (fst ex_ctm) (snd ex_ctm) /\ Forall tm_steady (fst ex_ctm) /\ unbroken (fst ex_ctm) /\
  jtold_all (fst ex_ctm) = [inl (0, 0, 10); inr (Num 3, 103); inl (2, 0, 12); inr (Num 1, 100); inl (4096, 0, 14); inr (Num 4097, 201)] /\
  clones jsee (fst ex_ctm) = [inl (0, 0); inl (2, 0); inl (1, 1); inr 17; inl (4096, 0)] /\
  exists m', snd ex_ctm = Ret (m', 66, Other) /\ unequal m' /\
    map_visit m' = [(1, 1001, 34); (2, 1000, 112); (0, 1000, 113); (4611686018427387904, 0, 15); (4096, 1000, 215); (128, 0, 13); (36, 0, 18)].
Proof.
  pose proof (une_reach _ _ _ _ ex_reach) as H1. pose proof (une_reach _ _ _ _ ex_r_reach) as H2.
  pose proof (EffMapP.play_exec ex_jf ex_ctm_prog 0 : exec ex_ctm_prog (fst ex_ctm) (snd ex_ctm)) as He.
  assert (HS : Forall tm_steady (fst ex_ctm)).
  { apply play_forall; [|intros []; repeat split].
    intros n [x y|x|y|x y| |k|k|k l|l k|k|v] a [= <-]; repeat split. unfold ex_right. destruct (N.even _); reflexivity. }
  split; [exact H1|]. split; [exact H2|]. split; [vm_compute; reflexivity|]. split; [exact He|]. split; [exact HS|].
  split; [apply ex_unbroken; vm_compute; reflexivity|].
  do 2 (split; [vm_compute; reflexivity|]). eexists. assert (Hx : snd ex_ctm = Ret (_, 66, Other)) by (vm_compute; reflexivity).
  split; [exact Hx|]. split; [|vm_compute; reflexivity].
  pose proof (C66_tm_steady exE key N num N N key_key key_num ex_m ex_r Sequential _ _ _ (fst ex_ctm) (snd ex_ctm) H1 H2 HS He) as HU. rewrite Hx in HU. exact HU.
Qed.

(** Keys misplaced on the left, hashes that change, [==] in disorder: what is taken to be
    in both maps goes, the rest of the right map stays. *)
Notation ex_cmt_prog := (ask_mt (R := N) MiddleIndex (TwRemoved 4) MwClosure (TwUnchanged 6) moody_2 ex_r).
Definition ex_cmt := EffMapP.play ex_mf 0 ex_cmt_prog.
Example C66_mt_ex : misused moody_2 /\ misused ex_r /\ longest moody_2 = 1 /\ exec ex_cmt_prog (fst ex_cmt) (snd ex_cmt) /\ unbroken (fst ex_cmt) /\
  jtold_all (fst ex_cmt) = [inl (0, 0, 1)] /\ clones jsee (fst ex_cmt) = [] /\
  exists m', snd ex_cmt = Ret (m', 201, Other) /\ misused m' /\
    map_visit m' = [(Num 1, 100); (Num 1, 132); (Num 4097, 201); (Num 128, 200); (Num 36, 301); (Num 44, 300)].
Proof.
  pose proof (EffMapP.play_exec ex_mf ex_cmt_prog 0 : exec ex_cmt_prog (fst ex_cmt) (snd ex_cmt)) as He.
  split; [exact moody_misused|]. split; [exact ex_r_misused|]. split; [vm_compute; reflexivity|]. split; [exact He|].
  split; [apply ex_unbroken; vm_compute; reflexivity|].
  do 2 (split; [vm_compute; reflexivity|]). eexists. assert (Hx : snd ex_cmt = Ret (_, 201, Other)) by (vm_compute; reflexivity).
  split; [exact Hx|]. split; [|vm_compute; reflexivity].
  pose proof (C66_mt exE key N num N N moody_2 ex_r MiddleIndex _ _ _ (fst ex_cmt) (snd ex_cmt) moody_misused ex_r_misused He) as HU. rewrite Hx in HU. exact (proj1 HU).
Qed.

(** Constants throughout: no closure is called, nothing is cloned, and the right map comes
    back. *)
Notation ex_cms_prog := (ask_mt (R := N) Sequential (TwUnchanged 2) (MwRemoved 1) (TwUnchanged 6) ex_few ex_r).
Definition ex_cms := EffMapP.play ex_sf 0 ex_cms_prog.
Example C66_mt_same_ex : unequal ex_few /\ unequal ex_r /\ exec ex_cms_prog (fst ex_cms) (snd ex_cms) /\ Forall mt_steady (fst ex_cms) /\
  jtold_all (fst ex_cms) = [] /\ clones jsee (fst ex_cms) = [] /\ snd ex_cms = Ret (ex_r, 18, Right).
Proof.
  split; [apply une_reach, ex_few_reach|]. split; [apply une_reach, ex_r_reach|].
  split; [exact (EffMapP.play_exec ex_sf ex_cms_prog 0 : exec ex_cms_prog (fst ex_cms) (snd ex_cms))|]. split; [|vm_compute; auto].
  apply play_forall; [|intros []; repeat split]. intros n [x y|x|y|x y| |k|k|k l|l k|k|v] a [= <-]; repeat split.
Qed.

Notation ex_cmm_prog := (ask_mm (S := N) (X := N) (R := N) MwClosure (MwRemoved 2) MwClosure ex_m ex_r).
Definition ex_cmm := EffMapP.play ex_join 0 ex_cmm_prog.
Example C66_mm_ex : misused ex_m /\ misused ex_r /\ exec ex_cmm_prog (fst ex_cmm) (snd ex_cmm) /\ unbroken (fst ex_cmm) /\
  jtold_all (fst ex_cmm) = [inl (0, 0, 10); inr (Num 3, 103); inl (2, 0, 12); inr (Num 1, 100); inl (4096, 0, 14); inr (Num 4097, 201);
    inl (128, 0, 13); inr (Num 128, 200); inl (36, 0, 18); inr (Num 36, 301); inr (Num 44, 300)] /\
  exists m', snd ex_cmm = Ret (m', 62) /\ misused m' /\ map_visit m' = [(29, 112); (27, 113); (47, 215); (53, 213); (59, 319)].
Proof.
  pose proof (EffMapP.play_exec ex_join ex_cmm_prog 0 : exec ex_cmm_prog (fst ex_cmm) (snd ex_cmm)) as He.
  split; [exact ex_m_misused|]. split; [exact ex_r_misused|]. split; [exact He|].
  split; [apply ex_unbroken; vm_compute; reflexivity|].
  split; [vm_compute; reflexivity|]. eexists. assert (Hx : snd ex_cmm = Ret (_, 62)) by (vm_compute; reflexivity).
  split; [exact Hx|]. split; [|vm_compute; reflexivity].
  pose proof (C66_mm exE key N num N N N N ex_m ex_r _ _ _ (fst ex_cmm) (snd ex_cmm) ex_m_misused ex_r_misused He) as HU. rewrite Hx in HU. exact (proj1 HU).
Qed.

(** The hash of a key panics, with constants too. *)
Notation ex_cb_prog := (ask_tm (R := N) Sequential (TwRemoved 1) (TwUnchanged 5) (MwRemoved 3) ex_m ex_r).
Definition ex_cb := EffMapP.play ex_jbreak 0 ex_cb_prog.
Example C66_tm_break_ex : misused ex_m /\ misused ex_r /\ exec ex_cb_prog (fst ex_cb) (snd ex_cb) /\ snd ex_cb = Panic /\ jtold_all (fst ex_cb) = [] /\
  map asked (skipn 50 (fst ex_cb)) = [JHash (128, 0)].
Proof.
  split; [exact ex_m_misused|]. split; [exact ex_r_misused|].
  split; [exact (EffMapP.play_exec ex_jbreak ex_cb_prog 0 : exec ex_cb_prog (fst ex_cb) (snd ex_cb))|]. vm_compute. auto.
Qed.

(** Three entries of one hash on the right: no return with constants either. *)
Notation ex_cl_prog := (ask_mm (S := N) (X := N) (R := N) (MwRemoved 1) (MwRemoved 2) (MwRemoved 3) ex_m ex_r3).
Definition ex_cl := EffMapP.play ex_join 0 ex_cl_prog.
Example C66_mm_long_ex : exec ex_cl_prog (fst ex_cl) (snd ex_cl) /\ snd ex_cl = Diverge /\ longest ex_r3 = 3.
Proof. split; [exact (EffMapP.play_exec ex_join ex_cl_prog 0 : exec ex_cl_prog (fst ex_cl) (snd ex_cl))|]. vm_compute. auto. Qed.
