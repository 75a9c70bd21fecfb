(** C66 for sets and the transfute operations of maps. *)
From Coq Require Import NArith Arith List Bool Permutation Lia.
From Verif Require Import Base Words Flag Bia Node Api Spec Hist Reach ReachP Trans Transform Joint JointT Sets SpecS SetHist Ex Eff EffP EffApi EffMapP Ask SpecAsk AskT SpecAskT AskJ SpecAskJ AskSet SpecAskSet Misuse AskApiP PropSet PropAsk PropAskT PropJointT PropAskJ PropAskTw PropAskSet SpecConst SpecConstSet SimSBP.
Import ListNotations.
Open Scope N_scope.
#[local] Existing Instance exE | 100.

(** Constants are an optimisation only, as for maps (PropConst.v). *)
Theorem C66_set_tm_run : forall (E : Env) K L R (m : tset K) (right : tset L) st (wb : tway R) (wl : tway R) (wr : mway R) tr (o : outcome (tset K * R * origin)),
  misused m -> misused right -> exec (aset_tm st wb wl wr m right) tr o ->
  exists tr1 o1, exec (aset_tm st TwClosure TwClosure MwClosure m right) tr1 o1 /\
    same (jkeep (tw_closure wb) (tw_closure wl) (mw_closure wr)) jsoft (jfair (sw_fair wb) (sw_fair wl) (skw_fair wr)) tr tr1 /\ orel same_map o o1.
Proof. intros E K L R. exact const_set_tm_run. Qed.
Print Assumptions C66_set_tm_run.
Theorem C66_set_mt_run : forall (E : Env) K L R (m : tset K) (right : tset L) st (wb : tway R) (wl : mway R) (wr : tway R) tr (o : outcome (tset L * R * origin)),
  misused m -> misused right -> exec (aset_mt st wb wl wr m right) tr o ->
  exists tr1 o1, exec (aset_mt st TwClosure MwClosure TwClosure m right) tr1 o1 /\
    same (jkeep (tw_closure wb) (mw_closure wl) (tw_closure wr)) jsoft (jfair (sw_fair wb) (skw_fair wl) (sw_fair wr)) tr tr1 /\ orel same_map o o1.
Proof. intros E K L R. exact const_set_mt_run. Qed.
Print Assumptions C66_set_mt_run.
Theorem C66_set_mm_run : forall (E : Env) K L S R (m : tset K) (right : tset L) (wb : mway R) (wl : mway R) (wr : mway R) tr (o : outcome (tset S * R)),
  misused m -> misused right -> exec (aset_mm (S := S) wb wl wr m right) tr o ->
  exists tr1 o1, exec (aset_mm (S := S) MwClosure MwClosure MwClosure m right) tr1 o1 /\
    same (jkeep (mw_closure wb) (mw_closure wl) (mw_closure wr)) jsoft (jfair (skw_fair wb) (skw_fair wl) (skw_fair wr)) tr tr1 /\ orel same_made o o1.
Proof. intros E K L S R. exact const_set_mm_run. Qed.
Print Assumptions C66_set_mm_run.
Theorem C66_tf_run : forall (E : Env) K V W R (m : trie K V) (right : trie K W) st (wb : tway R) (wl : tway R) (wr : mway R) tr (o : outcome (trie K V * R * origin)),
  misused m -> misused right -> exec (ask_tf st wb wl wr m right) tr o ->
  exists tr1 o1, exec (ask_tf st TwClosure TwClosure MwClosure m right) tr1 o1 /\
    same (jkeep (tw_closure wb) (tw_closure wl) (mw_closure wr)) jsoft (jfair (tw_fair wb) (tw_fair wl) (skw_fair wr)) tr tr1 /\ orel same_map o o1.
Proof. intros E K V W R. exact const_tf_run. Qed.
Print Assumptions C66_tf_run.
Theorem C66_ft_run : forall (E : Env) K V W R (m : trie K V) (right : trie K W) st (wb : tway R) (wl : mway R) (wr : tway R) tr (o : outcome (trie K W * R * origin)),
  misused m -> misused right -> exec (ask_ft st wb wl wr m right) tr o ->
  exists tr1 o1, exec (ask_ft st TwClosure MwClosure TwClosure m right) tr1 o1 /\
    same (jkeep (tw_closure wb) (mw_closure wl) (tw_closure wr)) jsoft (jfair (tw_fair wb) (skw_fair wl) (tw_fair wr)) tr tr1 /\ orel same_map o o1.
Proof. intros E K V W R. exact const_ft_run. Qed.
Print Assumptions C66_ft_run.

(** So every key (or entry) of both is dealt with once, by the constant of its kind or by a
    call of the closure. *)
Theorem C66_set_tm : forall (E : Env) K L R (m : tset K) (right : tset L) st (wb : tway R) (wl : tway R) (wr : mway R) tr (o : outcome (tset K * R * origin)),
  misused m -> misused right -> exec (aset_tm st wb wl wr m right) tr o ->
  match o with
  | Ret (m', r, og) => misused m' /\ (og = Self -> m' = m) /\
      exists is outs, Permutation (flat_map item_told is) (map inl (map_visit m) ++ map inr (map_visit right)) /\
        Permutation (jtold_all tr) (flat_map item_told (filter (item_called (tw_closure wb) (tw_closure wl) (mw_closure wr)) is)) /\
        (exists rest, Permutation (clones jsee tr ++ rest) (flat_map stm_cost is)) /\
        Forall2 (stm_goes wb wl wr tr) is outs /\ Permutation (map_visit m') (concat outs)
  | Panic => (jpanicked tr \/ hashes_differ tr) /\ exists rest, Permutation (jtold_all tr ++ rest) (map inl (map_visit m) ++ map inr (map_visit right))
  | Diverge => (3 <= longest right) /\ exists rest, Permutation (jtold_all tr ++ rest) (map inl (map_visit m) ++ map inr (map_visit right))
  end.
Proof. intros E K L R. exact const_set_tm. Qed.
Print Assumptions C66_set_tm.
Theorem C66_set_mt : forall (E : Env) K L R (m : tset K) (right : tset L) st (wb : tway R) (wl : mway R) (wr : tway R) tr (o : outcome (tset L * R * origin)),
  misused m -> misused right -> exec (aset_mt st wb wl wr m right) tr o ->
  match o with
  | Ret (m', r, og) => misused m' /\ (og = Right -> m' = right) /\
      exists is outs, Permutation (flat_map item_told is) (map inl (map_visit m) ++ map inr (map_visit right)) /\
        Permutation (jtold_all tr) (flat_map item_told (filter (item_called (tw_closure wb) (mw_closure wl) (tw_closure wr)) is)) /\
        (exists rest, Permutation (clones jsee tr ++ rest) (flat_map smt_cost is)) /\
        Forall2 (smt_goes wb wl wr tr) is outs /\ Permutation (map_visit m') (concat outs)
  | Panic => (jpanicked tr \/ hashes_differ tr) /\ exists rest, Permutation (jtold_all tr ++ rest) (map inl (map_visit m) ++ map inr (map_visit right))
  | Diverge => (3 <= longest m) /\ exists rest, Permutation (jtold_all tr ++ rest) (map inl (map_visit m) ++ map inr (map_visit right))
  end.
Proof. intros E K L R. exact const_set_mt. Qed.
Print Assumptions C66_set_mt.
Theorem C66_set_mm : forall (E : Env) K L S R (m : tset K) (right : tset L) (wb : mway R) (wl : mway R) (wr : mway R) tr (o : outcome (tset S * R)),
  misused m -> misused right -> exec (aset_mm (S := S) wb wl wr m right) tr o ->
  match o with
  | Ret (m', r) => misused m' /\
      exists is outs, Permutation (flat_map item_told is) (map inl (map_visit m) ++ map inr (map_visit right)) /\
        Permutation (jtold_all tr) (flat_map item_told (filter (item_called (mw_closure wb) (mw_closure wl) (mw_closure wr)) is)) /\
        (exists rest, Permutation (clones jsee tr ++ rest) (flat_map smm_cost is)) /\
        Forall2 (smm_goes wb wl wr tr) is outs /\ Permutation (map_visit m') (concat outs)
  | Panic => (jpanicked tr \/ hashes_differ tr) /\ exists rest, Permutation (jtold_all tr ++ rest) (map inl (map_visit m) ++ map inr (map_visit right))
  | Diverge => (3 <= longest m \/ 3 <= longest right) /\ exists rest, Permutation (jtold_all tr ++ rest) (map inl (map_visit m) ++ map inr (map_visit right))
  end.
Proof. intros E K L S R. exact const_set_mm. Qed.
Print Assumptions C66_set_mm.
Theorem C66_tf : forall (E : Env) K V W R (m : trie K V) (right : trie K W) st (wb : tway R) (wl : tway R) (wr : mway R) tr (o : outcome (trie K V * R * origin)),
  misused m -> misused right -> exec (ask_tf st wb wl wr m right) tr o ->
  match o with
  | Ret (m', r, og) => misused m' /\ (og = Self -> m' = m) /\
      exists is outs, Permutation (flat_map item_told is) (map inl (map_visit m) ++ map inr (map_visit right)) /\
        Permutation (jtold_all tr) (flat_map item_told (filter (item_called (tw_closure wb) (tw_closure wl) (mw_closure wr)) is)) /\
        (exists rest, Permutation (clones jsee tr ++ rest) (flat_map tf_cost is)) /\
        Forall2 (tf_goes wb wl wr tr) is outs /\ Permutation (map_visit m') (concat outs)
  | Panic => (jpanicked tr \/ hashes_differ tr) /\ exists rest, Permutation (jtold_all tr ++ rest) (map inl (map_visit m) ++ map inr (map_visit right))
  | Diverge => (3 <= longest right) /\ exists rest, Permutation (jtold_all tr ++ rest) (map inl (map_visit m) ++ map inr (map_visit right))
  end.
Proof. intros E K V W R. exact const_tf. Qed.
Print Assumptions C66_tf.
Theorem C66_ft : forall (E : Env) K V W R (m : trie K V) (right : trie K W) st (wb : tway R) (wl : mway R) (wr : tway R) tr (o : outcome (trie K W * R * origin)),
  misused m -> misused right -> exec (ask_ft st wb wl wr m right) tr o ->
  match o with
  | Ret (m', r, og) => misused m' /\ (og = Right -> m' = right) /\
      exists is outs, Permutation (flat_map item_told is) (map inl (map_visit m) ++ map inr (map_visit right)) /\
        Permutation (jtold_all tr) (flat_map item_told (filter (item_called (tw_closure wb) (mw_closure wl) (tw_closure wr)) is)) /\
        (exists rest, Permutation (clones jsee tr ++ rest) (flat_map ft_cost is)) /\
        Forall2 (ft_goes wb wl wr tr) is outs /\ Permutation (map_visit m') (concat outs)
  | Panic => (jpanicked tr \/ hashes_differ tr) /\ exists rest, Permutation (jtold_all tr ++ rest) (map inl (map_visit m) ++ map inr (map_visit right))
  | Diverge => (3 <= longest m) /\ exists rest, Permutation (jtold_all tr ++ rest) (map inl (map_visit m) ++ map inr (map_visit right))
  end.
Proof. intros E K V W R. exact const_ft. Qed.
Print Assumptions C66_ft.

(** It returns, or panics for one of two reasons, or stops at the call that panics. *)
Theorem C66_set_tm_ends : forall (E : Env) K L R (m : tset K) (right : tset L) st (wb : tway R) (wl : tway R) (wr : mway R) tr (o : outcome (tset K * R * origin)),
  misused m -> misused right -> exec (aset_tm st wb wl wr m right) tr o -> longest right < 3 ->
  (unbroken tr /\ exists x, o = Ret x) \/ (unbroken tr /\ hashes_differ tr /\ o = Panic) \/ (exists tr' q, tr = tr' ++ [broke q] /\ unbroken tr' /\ o = Panic).
Proof. intros E K L R. exact const_set_tm_ends. Qed.
Print Assumptions C66_set_tm_ends.
Theorem C66_set_mt_ends : forall (E : Env) K L R (m : tset K) (right : tset L) st (wb : tway R) (wl : mway R) (wr : tway R) tr (o : outcome (tset L * R * origin)),
  misused m -> misused right -> exec (aset_mt st wb wl wr m right) tr o -> longest m < 3 ->
  (unbroken tr /\ exists x, o = Ret x) \/ (unbroken tr /\ hashes_differ tr /\ o = Panic) \/ (exists tr' q, tr = tr' ++ [broke q] /\ unbroken tr' /\ o = Panic).
Proof. intros E K L R. exact const_set_mt_ends. Qed.
Print Assumptions C66_set_mt_ends.
Theorem C66_set_mm_ends : forall (E : Env) K L S R (m : tset K) (right : tset L) (wb : mway R) (wl : mway R) (wr : mway R) tr (o : outcome (tset S * R)),
  misused m -> misused right -> exec (aset_mm (S := S) wb wl wr m right) tr o -> longest m < 3 -> longest right < 3 ->
  (unbroken tr /\ exists x, o = Ret x) \/ (unbroken tr /\ hashes_differ tr /\ o = Panic) \/ (exists tr' q, tr = tr' ++ [broke q] /\ unbroken tr' /\ o = Panic).
Proof. intros E K L S R. exact const_set_mm_ends. Qed.
Print Assumptions C66_set_mm_ends.
Theorem C66_tf_ends : forall (E : Env) K V W R (m : trie K V) (right : trie K W) st (wb : tway R) (wl : tway R) (wr : mway R) tr (o : outcome (trie K V * R * origin)),
  misused m -> misused right -> exec (ask_tf st wb wl wr m right) tr o -> longest right < 3 ->
  (unbroken tr /\ exists x, o = Ret x) \/ (unbroken tr /\ hashes_differ tr /\ o = Panic) \/ (exists tr' q, tr = tr' ++ [broke q] /\ unbroken tr' /\ o = Panic).
Proof. intros E K V W R. exact const_tf_ends. Qed.
Print Assumptions C66_tf_ends.
Theorem C66_ft_ends : forall (E : Env) K V W R (m : trie K V) (right : trie K W) st (wb : tway R) (wl : mway R) (wr : tway R) tr (o : outcome (trie K W * R * origin)),
  misused m -> misused right -> exec (ask_ft st wb wl wr m right) tr o -> longest m < 3 ->
  (unbroken tr /\ exists x, o = Ret x) \/ (unbroken tr /\ hashes_differ tr /\ o = Panic) \/ (exists tr' q, tr = tr' ++ [broke q] /\ unbroken tr' /\ o = Panic).
Proof. intros E K V W R. exact const_ft_ends. Qed.
Print Assumptions C66_ft_ends.

(** Hashes in order suffice. *)
Theorem C66_set_tm_steady : forall (E : Env) K L R (KK : Key K) (KL : Key L) (m : tset K) (right : tset L) st (wb : tway R) (wl : tway R) (wr : mway R) tr (o : outcome (tset K * R * origin)),
  unequal m -> unequal right -> Forall stm_steady tr -> exec (aset_tm st wb wl wr m right) tr o ->
  match o with Ret (m', r, og) => unequal m' | Panic => jpanicked tr | Diverge => 3 <= longest right end.
Proof. intros E K L R KK KL. exact const_set_tm_steady. Qed.
Print Assumptions C66_set_tm_steady.
Theorem C66_set_mt_steady : forall (E : Env) K L R (KK : Key K) (KL : Key L) (m : tset K) (right : tset L) st (wb : tway R) (wl : mway R) (wr : tway R) tr (o : outcome (tset L * R * origin)),
  unequal m -> unequal right -> Forall smt_steady tr -> exec (aset_mt st wb wl wr m right) tr o ->
  match o with Ret (m', r, og) => unequal m' | Panic => jpanicked tr | Diverge => 3 <= longest m end.
Proof. intros E K L R KK KL. exact const_set_mt_steady. Qed.
Print Assumptions C66_set_mt_steady.
Theorem C66_set_mm_steady : forall (E : Env) K L S R (KK : Key K) (KL : Key L) (KS : Key S) (m : tset K) (right : tset L) (wb : mway R) (wl : mway R) (wr : mway R) tr (o : outcome (tset S * R)),
  unequal m -> unequal right -> Forall smm_steady tr -> exec (aset_mm (S := S) wb wl wr m right) tr o ->
  match o with Ret (m', r) => unequal m' | Panic => jpanicked tr | Diverge => 3 <= longest m \/ 3 <= longest right end.
Proof. intros E K L S R KK KL KS. exact const_set_mm_steady. Qed.
Print Assumptions C66_set_mm_steady.
Theorem C66_tf_steady : forall (E : Env) K V W R (KK : Key K) (m : trie K V) (right : trie K W) st (wb : tway R) (wl : tway R) (wr : mway R) tr (o : outcome (trie K V * R * origin)),
  unequal m -> unequal right -> Forall jsteady tr -> exec (ask_tf st wb wl wr m right) tr o ->
  match o with Ret (m', r, og) => unequal m' | Panic => jpanicked tr | Diverge => 3 <= longest right end.
Proof. intros E K V W R KK. exact const_tf_steady. Qed.
Print Assumptions C66_tf_steady.
Theorem C66_ft_steady : forall (E : Env) K V W R (KK : Key K) (m : trie K V) (right : trie K W) st (wb : tway R) (wl : mway R) (wr : tway R) tr (o : outcome (trie K W * R * origin)),
  unequal m -> unequal right -> Forall jsteady tr -> exec (ask_ft st wb wl wr m right) tr o ->
  match o with Ret (m', r, og) => unequal m' | Panic => jpanicked tr | Diverge => 3 <= longest m end.
Proof. intros E K V W R KK. exact const_ft_steady. Qed.
Print Assumptions C66_ft_steady.

(** * Examples *)

(** [==] says yes to every other call.  Keys in both go, keys of the left set stay. *)
Notation ex_cs1_prog := (aset_tm (R := N) MiddleIndex (TwRemoved 9) (TwUnchanged 7) MwClosure ex_s ex_sn).
Definition ex_cs1 := EffMapP.play ex_sf1 0 ex_cs1_prog.
Example C66_set_tm_ex : unequal ex_s /\ unequal ex_sn /\ longest ex_sn = 1 /\ exec ex_cs1_prog (fst ex_cs1) (snd ex_cs1) /\ Forall stm_steady (fst ex_cs1) /\ unbroken (fst ex_cs1) /\
  jtold_all (fst ex_cs1) = [inr (Num 8, tt); inr (Num 12, tt)] /\ clones jsee (fst ex_cs1) = [inl (1, 1)] /\
  exists s', snd ex_cs1 = Ret (s', 53, Other) /\ unequal s' /\ set_visit s' = [(1, 28001); (0, 0); (4611686018427387904, 0); (128, 0); (12, 51); (36, 0)].
Proof.
  pose proof (EffMapP.play_exec ex_sf1 ex_cs1_prog 0 : exec ex_cs1_prog (fst ex_cs1) (snd ex_cs1)) as He.
  assert (HS : Forall stm_steady (fst ex_cs1)).
  { apply play_forall; [|intros []; repeat split]. intros n [x y|x|y|x y| |k|k|k l|l k|k|v] a [= <-]; repeat split. unfold ex_num. destruct (_ =? 8); exact I || reflexivity. }
  split; [exact ex_s_unequal|]. split; [exact ex_sn_unequal|]. split; [vm_compute; reflexivity|]. split; [exact He|]. split; [exact HS|].
  split; [apply ex_told; vm_compute; reflexivity|]. do 2 (split; [vm_compute; reflexivity|]).
  eexists. assert (Hx : snd ex_cs1 = Ret (_, 53, Other)) by (vm_compute; reflexivity). split; [exact Hx|]. split; [|vm_compute; reflexivity].
  pose proof (C66_set_tm_steady exE key num N key_key key_num ex_s ex_sn MiddleIndex _ _ _ _ _ ex_s_unequal ex_sn_unequal HS He) as HU. rewrite Hx in HU. exact HU.
Qed.

Notation ex_cs2_prog := (aset_mt (R := N) Sequential TwClosure (MwRemoved 3) (TwUnchanged 4) ex_s2 ex_sn).
Definition ex_cs2 := EffMapP.play ex_sf2 0 ex_cs2_prog.
Example C66_set_mt_ex : misused ex_s2 /\ misused ex_sn /\ longest ex_s2 = 2 /\ exec ex_cs2_prog (fst ex_cs2) (snd ex_cs2) /\ unbroken (fst ex_cs2) /\
  jtold_all (fst ex_cs2) = [inl (1, 100, tt); inr (Num 1, tt); inl (4097, 201, tt); inr (Num 4097, tt)] /\
  exists s', snd ex_cs2 = Ret (s', 21, Other) /\ misused s' /\ set_visit s' = [Num 8; Num 12].
Proof.
  pose proof (EffMapP.play_exec ex_sf2 ex_cs2_prog 0 : exec ex_cs2_prog (fst ex_cs2) (snd ex_cs2)) as He.
  split; [exact ex_s2_misused|]. split; [exact ex_sn_misused|]. split; [vm_compute; reflexivity|]. split; [exact He|].
  split; [apply ex_told; vm_compute; reflexivity|]. split; [vm_compute; reflexivity|].
  eexists. assert (Hx : snd ex_cs2 = Ret (_, 21, Other)) by (vm_compute; reflexivity). split; [exact Hx|]. split; [|vm_compute; reflexivity].
  pose proof (C66_set_mt exE key num N ex_s2 ex_sn Sequential _ _ _ _ _ ex_s2_misused ex_sn_misused He) as HU. rewrite Hx in HU. exact (proj1 HU).
Qed.

Notation ex_cs3_prog := (aset_mm (S := key) (R := N) (MwRemoved 1) MwClosure (MwRemoved 2) ex_s2 ex_sn).
Definition ex_cs3 := EffMapP.play ex_sf3 0 ex_cs3_prog.
Example C66_set_mm_ex : misused ex_s2 /\ misused ex_sn /\ longest ex_s2 = 2 /\ longest ex_sn = 1 /\ exec ex_cs3_prog (fst ex_cs3) (snd ex_cs3) /\ unbroken (fst ex_cs3) /\
  jtold_all (fst ex_cs3) = [inl (1, 100, tt); inl (128, 200, tt); inl (36, 301, tt); inl (44, 300, tt)] /\
  exists s', snd ex_cs3 = Ret (s', 22) /\ misused s' /\ set_visit s' = [(1, 100); (128, 200); (36, 301); (44, 300)].
Proof.
  pose proof (EffMapP.play_exec ex_sf3 ex_cs3_prog 0 : exec ex_cs3_prog (fst ex_cs3) (snd ex_cs3)) as He.
  split; [exact ex_s2_misused|]. split; [exact ex_sn_misused|]. do 2 (split; [vm_compute; reflexivity|]). split; [exact He|].
  split; [apply ex_told; vm_compute; reflexivity|]. split; [vm_compute; reflexivity|].
  eexists. assert (Hx : snd ex_cs3 = Ret (_, 22)) by (vm_compute; reflexivity). split; [exact Hx|]. split; [|vm_compute; reflexivity].
  pose proof (C66_set_mm exE key num key N ex_s2 ex_sn _ _ _ _ _ ex_s2_misused ex_sn_misused He) as HU. rewrite Hx in HU. exact (proj1 HU).
Qed.

(** The key of a new value is a clone, also beside constants. *)
Notation ex_cs4_prog := (ask_tf (R := N) Sequential (TwUnchanged 6) (TwRemoved 5) MwClosure ex_m ex_pick).
Definition ex_cs4 := EffMapP.play ex_sf5 0 ex_cs4_prog.
Example C66_tf_ex : unequal ex_m /\ unequal ex_pick /\ longest ex_pick = 1 /\ exec ex_cs4_prog (fst ex_cs4) (snd ex_cs4) /\ Forall jsteady (fst ex_cs4) /\ unbroken (fst ex_cs4) /\
  jtold_all (fst ex_cs4) = [inr (36, 8, 8); inr (44, 10, 10)] /\ clones jsee (fst ex_cs4) = [inl (1, 1); inr 17; inl (36, 8); inl (44, 10)] /\
  exists m', snd ex_cs4 = Ret (m', 58, Other) /\ unequal m' /\ map_visit m' = [(1, 27001, 45); (128, 0, 13); (36, 53008, 60); (44, 57010, 66)].
Proof.
  pose proof (une_reach _ _ _ _ ex_reach) as H1. pose proof (une_reach _ _ _ _ ex_pick_reach) as H2.
  pose proof (EffMapP.play_exec ex_sf5 ex_cs4_prog 0 : exec ex_cs4_prog (fst ex_cs4) (snd ex_cs4)) as He.
  assert (HS : Forall jsteady (fst ex_cs4)).
  { apply play_forall; [|intros []; exact I]. intros n [x y|x|y|x y| |k|k|k l|l k|k|v] a [= <-]; repeat split. }
  split; [exact H1|]. split; [exact H2|]. split; [vm_compute; reflexivity|]. split; [exact He|]. split; [exact HS|].
  split; [apply ex_told; vm_compute; reflexivity|]. do 2 (split; [vm_compute; reflexivity|]).
  eexists. assert (Hx : snd ex_cs4 = Ret (_, 58, Other)) by (vm_compute; reflexivity). split; [exact Hx|]. split; [|vm_compute; reflexivity].
  pose proof (C66_tf_steady exE key N N N key_key ex_m ex_pick Sequential _ _ _ _ _ H1 H2 HS He) as HU. rewrite Hx in HU. exact HU.
Qed.

Notation ex_cs5_prog := (ask_ft (R := N) MiddleIndex (TwRemoved 6) (MwRemoved 2) TwClosure ex_pick ex_m).
Definition ex_cs5 := EffMapP.play ex_sf6 0 ex_cs5_prog.
Example C66_ft_ex : unequal ex_pick /\ unequal ex_m /\ longest ex_pick = 1 /\ exec ex_cs5_prog (fst ex_cs5) (snd ex_cs5) /\ Forall jsteady (fst ex_cs5) /\ unbroken (fst ex_cs5) /\
  jtold_all (fst ex_cs5) = [inr (0, 0, 10); inr (2, 0, 12); inr (4611686018427387904, 0, 15); inr (4096, 0, 14); inr (36, 0, 18)] /\
  clones jsee (fst ex_cs5) = [inl (0, 0); inl (2, 0); inr 12] /\
  exists m', snd ex_cs5 = Ret (m', 61, Other) /\ unequal m' /\ map_visit m' = [(2, 30000, 43); (0, 28000, 127); (4611686018427387904, 0, 15); (36, 0, 18)].
Proof.
  pose proof (une_reach _ _ _ _ ex_reach) as H1. pose proof (une_reach _ _ _ _ ex_pick_reach) as H2.
  pose proof (EffMapP.play_exec ex_sf6 ex_cs5_prog 0 : exec ex_cs5_prog (fst ex_cs5) (snd ex_cs5)) as He.
  assert (HS : Forall jsteady (fst ex_cs5)).
  { apply play_forall; [|intros []; exact I]. intros n [x y|x|y|x y| |k|k|k l|l k|k|v] a [= <-]; repeat split. }
  split; [exact H2|]. split; [exact H1|]. split; [vm_compute; reflexivity|]. split; [exact He|]. split; [exact HS|].
  split; [apply ex_told; vm_compute; reflexivity|]. do 2 (split; [vm_compute; reflexivity|]).
  eexists. assert (Hx : snd ex_cs5 = Ret (_, 61, Other)) by (vm_compute; reflexivity). split; [exact Hx|]. split; [|vm_compute; reflexivity].
  pose proof (C66_ft_steady exE key N N N key_key ex_pick ex_m MiddleIndex _ _ _ _ _ H2 H1 HS He) as HU. rewrite Hx in HU. exact HU.
Qed.
