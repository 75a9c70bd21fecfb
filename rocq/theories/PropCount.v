(** C65: how often the joint operations compare and hash keys. *)
From Coq Require Import NArith Arith List Bool Permutation Lia.
From Verif Require Import Base Words Flag Bia Node Api Spec Hist Reach ReachP Trans Transform Joint JointT Sets CostP Ex Eff EffP EffApi EffMapP Ask SpecAsk AskT AskJ AskTw AskSet
  AskRun AskJRun SpecCount Misuse AskApiP AskCountAP AskCountSP PropSet PropAsk PropAskT PropJointT PropAskJ PropAskTw PropAskSet.
Import ListNotations.
Open Scope N_scope.
#[local] Existing Instance exE | 100.

(** Whatever is answered, and however it ends ([few], SpecCount.v). *)
Theorem C65_tm : forall (E : Env) K V L W R (m : trie K V) (right : trie L W) st wb wl (wr : mway R), misused m -> misused right -> few m right (ask_tm st wb wl wr m right).
Proof. intros E K V L W R. exact ask_tm_few. Qed.
Print Assumptions C65_tm.
Theorem C65_mt : forall (E : Env) K V L W R (m : trie K V) (right : trie L W) st wb wl (wr : tway R), misused m -> misused right -> few m right (ask_mt st wb wl wr m right).
Proof. intros E K V L W R. exact ask_mt_few. Qed.
Print Assumptions C65_mt.
Theorem C65_mm : forall (E : Env) K V L W S X R (m : trie K V) (right : trie L W) wb wl (wr : mway R), misused m -> misused right -> few m right (ask_mm (S := S) (X := X) wb wl wr m right).
Proof. intros E K V L W S X R. exact ask_mm_few. Qed.
Print Assumptions C65_mm.
Theorem C65_tt : forall (E : Env) K V R (m right : trie K V) st wb wl (wr : tway R), misused m -> misused right -> few m right (ask_tt st wb wl wr m right).
Proof. intros E K V R. exact ask_tt_few. Qed.
Print Assumptions C65_tt.
Theorem C65_tf : forall (E : Env) K R V W (m : trie K V) (right : trie K W) st wb wl (wr : mway R), misused m -> misused right -> few m right (ask_tf st wb wl wr m right).
Proof. intros E K R V W. exact ask_tf_few. Qed.
Print Assumptions C65_tf.
Theorem C65_ft : forall (E : Env) K R V W (m : trie K V) (right : trie K W) st wb wl (wr : tway R), misused m -> misused right -> few m right (ask_ft st wb wl wr m right).
Proof. intros E K R V W. exact ask_ft_few. Qed.
Print Assumptions C65_ft.
Theorem C65_set_tm : forall (E : Env) K L R (s : tset K) (right : tset L) st wb wl (wr : mway R), misused s -> misused right -> few s right (aset_tm st wb wl wr s right).
Proof. intros E K L R. exact aset_tm_few. Qed.
Print Assumptions C65_set_tm.
Theorem C65_set_mt : forall (E : Env) K L R (s : tset K) (right : tset L) st wb wl (wr : tway R), misused s -> misused right -> few s right (aset_mt st wb wl wr s right).
Proof. intros E K L R. exact aset_mt_few. Qed.
Print Assumptions C65_set_mt.
Theorem C65_set_mm : forall (E : Env) K L R S (s : tset K) (right : tset L) wb wl (wr : mway R), misused s -> misused right -> few s right (aset_mm (S := S) wb wl wr s right).
Proof. intros E K L R S. exact aset_mm_few. Qed.
Print Assumptions C65_set_mm.
Theorem C65_set_tt : forall (E : Env) K R (s right : tset K) st wb wl (wr : tway R), misused s -> misused right -> few s right (aset_tt st wb wl wr s right).
Proof. intros E K R. exact aset_tt_few. Qed.
Print Assumptions C65_set_tt.

(** With the hashes in order the levels are those of a hash word and a collision list has
    entries of one hash. *)
Theorem C65_levels : forall (E : Env) K V (KK : Key K) (m : trie K V), unequal m -> branches m * log_b fw < max_ones hw + log_b fw.
Proof. intros E K V KK. exact unequal_branches. Qed.
Print Assumptions C65_levels.
Theorem C65_steady : forall (E : Env) KL VL KR VR K V TB TL TR R Y (KKL : Key KL) (KKR : Key KR) (m : trie KL VL) (right : trie KR VR) (p : prog (jreply KL VL KR VR K V TB TL TR R) Y),
  unequal m -> unequal right -> few m right p -> exists h h', forall tr o, exec p tr o ->
  tally is_jeq tr <= map_size m * lenN (with_hash h (map_visit right)) /\ tally is_jeq tr <= map_size right * lenN (with_hash h' (map_visit m)) /\
  tally is_jhash tr * log_b fw <= (max_ones hw + 3 * log_b fw) * N.max 1 (N.min (map_size m) (map_size right)).
Proof. intros E KL VL KR VR K V TB TL TR R Y KKL KKR. exact few_steady. Qed.
Print Assumptions C65_steady.

(** * Examples *)

(** No two keys are said to be equal.  The right map is one entry that is not below a branch,
    as [transmute] leaves it: all three bounds are met. *)
Definition ex_leaf : trie num N := MS (SN (Num 3) 100).
Lemma ex_leaf_reach : reachable ex_leaf.
Proof.
  apply (reach_transmute key N key_key num N key_num N 0 N.add (MGeneric (fun e : key * N => KTransmuted (Num 3) (snd e) 0)) (ex_of [(3, 100)]) ex_leaf 0).
  - ex_of_reach.
  - intros e k v r Hin [= <- <- <-]. vm_compute in Hin. destruct Hin as [<-|[]]. reflexivity.
  - vm_compute. reflexivity.
Qed.
Definition ex_never := ex_jcalls (fun _ => hash_word) (fun _ => false) (fun _ _ _ => VUnchanged (V := N) 0) (fun n _ => VUnchanged (V := N) 0) (fun _ _ => KDropped (S := key) (X := N) 0) (fun k : key => k) (fun _ (v : N) => v).
Notation ex_cl_prog := (ask_tm (R := N) MiddleIndex TwClosure TwClosure MwClosure ex_m ex_leaf).
Definition ex_cl := EffMapP.play ex_never 0 ex_cl_prog.
Example C65_met_ex : unequal ex_m /\ unequal ex_leaf /\ exec ex_cl_prog (fst ex_cl) (snd ex_cl) /\
  map_size ex_leaf = 1 /\ longest ex_m = 3 /\ branches ex_m = 13 /\ tally is_jeq (fst ex_cl) = 1 * 3 /\ tally is_jhash (fst ex_cl) = (2 + 13) * 1.
Proof.
  split; [apply une_reach, ex_reach|]. split; [apply une_reach, ex_leaf_reach|]. split; [exact (EffMapP.play_exec ex_never ex_cl_prog 0 : exec ex_cl_prog (fst ex_cl) (snd ex_cl))|].
  vm_compute. auto 10.
Qed.

(** Collision lists on both sides: all 3 * 2 comparisons. *)
Definition ex_pair_os : list (op num N) := [OInsert (Num 0) 100 false; OInsert (Num 1) 101 false].
Definition ex_pair : trie num N := res_of map_new (Hist.run (E := exE) map_new ex_pair_os).
Lemma ex_pair_reach : reachable ex_pair.
Proof. assert (H : exists xs, Hist.run (E := exE) map_new ex_pair_os = Ret (ex_pair, xs)) by (eexists; vm_compute; reflexivity). destruct H as [xs H]. exact (run_reachable _ _ _ H). Qed.
Notation ex_cp_prog := (ask_tm (R := N) MiddleIndex TwClosure TwClosure MwClosure ex_m ex_pair).
Definition ex_cp := EffMapP.play ex_never 0 ex_cp_prog.
Example C65_tm_ex : misused ex_m /\ misused ex_pair /\ exec ex_cp_prog (fst ex_cp) (snd ex_cp) /\
  map_size ex_pair = 2 /\ longest ex_m = 3 /\ tally is_jeq (fst ex_cp) = 2 * 3 /\ map_size ex_m = 7 /\ longest ex_pair = 2 /\ tally is_jhash (fst ex_cp) = 14 /\ (2 + N.max (branches ex_m) (branches ex_pair)) * 2 = 30.
Proof.
  split; [exact ex_m_misused|]. split; [apply unequal_misused, une_reach, ex_pair_reach|]. split; [exact (EffMapP.play_exec ex_never ex_cp_prog 0 : exec ex_cp_prog (fst ex_cp) (snd ex_cp))|].
  vm_compute. auto 12.
Qed.

(** Misplaced keys and hashes that change: 65 branches. *)
Example C65_mt_ex : misused moody_2 /\ misused ex_r /\ exec ex_mt_prog (fst ex_mt) (snd ex_mt) /\ snd ex_mt <> Panic /\
  (map_size moody_2, longest moody_2, branches moody_2) = (2, 1, 65) /\ (map_size ex_r, longest ex_r, branches ex_r) = (6, 2, 3) /\
  (tally is_jeq (fst ex_mt), tally is_jhash (fst ex_mt)) = (1, 64).
Proof.
  split; [exact moody_misused|]. split; [exact ex_r_misused|]. split; [exact (EffMapP.play_exec ex_mf ex_mt_prog 0 : exec ex_mt_prog (fst ex_mt) (snd ex_mt))|].
  split; [vm_compute; discriminate|]. vm_compute. auto.
Qed.
Example C65_mm_ex : misused ex_m /\ misused ex_r /\ exec ex_mm_prog (fst ex_mm) (snd ex_mm) /\ (tally is_jeq (fst ex_mm), tally is_jhash (fst ex_mm)) = (6, 18).
Proof.
  split; [exact ex_m_misused|]. split; [exact ex_r_misused|]. split; [exact (EffMapP.play_exec ex_join ex_mm_prog 0 : exec ex_mm_prog (fst ex_mm) (snd ex_mm))|]. vm_compute. reflexivity.
Qed.
Example C65_tt_ex : misused ex_m /\ misused ex_pick /\ exec ex_tt_prog (fst ex_tt) (snd ex_tt) /\ (tally is_jeq (fst ex_tt), tally is_jhash (fst ex_tt)) = (4, 17).
Proof.
  split; [exact ex_m_misused|]. split; [apply unequal_misused, une_reach, ex_pick_reach|]. split; [exact (EffMapP.play_exec ex_tf ex_tt_prog 0 : exec ex_tt_prog (fst ex_tt) (snd ex_tt))|]. vm_compute. reflexivity.
Qed.
Example C65_set_tm_ex : misused ex_s /\ misused ex_sn /\ exec ex_stm_prog (fst ex_stm) (snd ex_stm) /\ (tally is_jeq (fst ex_stm), tally is_jhash (fst ex_stm)) = (3, 14).
Proof.
  split; [exact ex_s_misused|]. split; [exact ex_sn_misused|]. split; [exact (EffMapP.play_exec ex_sf1 ex_stm_prog 0 : exec ex_stm_prog (fst ex_stm) (snd ex_stm))|]. vm_compute. reflexivity.
Qed.
Example C65_set_mt_ex : misused ex_s2 /\ misused ex_sn /\ exec ex_smt_prog (fst ex_smt) (snd ex_smt) /\ (tally is_jeq (fst ex_smt), tally is_jhash (fst ex_smt)) = (3, 4).
Proof.
  split; [exact ex_s2_misused|]. split; [exact ex_sn_misused|]. split; [exact (EffMapP.play_exec ex_sf2 ex_smt_prog 0 : exec ex_smt_prog (fst ex_smt) (snd ex_smt))|]. vm_compute. reflexivity.
Qed.
Example C65_set_mm_ex : misused ex_s2 /\ misused ex_sn /\ exec ex_smm_prog (fst ex_smm) (snd ex_smm) /\ (tally is_jeq (fst ex_smm), tally is_jhash (fst ex_smm)) = (2, 4).
Proof.
  split; [exact ex_s2_misused|]. split; [exact ex_sn_misused|]. split; [exact (EffMapP.play_exec ex_sf3 ex_smm_prog 0 : exec ex_smm_prog (fst ex_smm) (snd ex_smm))|]. vm_compute. reflexivity.
Qed.
Example C65_set_tt_ex : misused ex_s /\ misused ex_s2 /\ exec ex_stt_prog (fst ex_stt) (snd ex_stt) /\ (tally is_jeq (fst ex_stt), tally is_jhash (fst ex_stt)) = (6, 18).
Proof.
  split; [exact ex_s_misused|]. split; [exact ex_s2_misused|]. split; [exact (EffMapP.play_exec ex_sf4 ex_stt_prog 0 : exec ex_stt_prog (fst ex_stt) (snd ex_stt))|]. vm_compute. reflexivity.
Qed.
Example C65_tf_ex : misused ex_m /\ misused ex_pick /\ exec ex_tf_prog (fst ex_tfr) (snd ex_tfr) /\ (tally is_jeq (fst ex_tfr), tally is_jhash (fst ex_tfr)) = (3, 17).
Proof.
  split; [exact ex_m_misused|]. split; [apply unequal_misused, une_reach, ex_pick_reach|]. split; [exact (EffMapP.play_exec ex_sf5 ex_tf_prog 0 : exec ex_tf_prog (fst ex_tfr) (snd ex_tfr))|]. vm_compute. reflexivity.
Qed.
Example C65_ft_ex : misused ex_pick /\ misused ex_m /\ exec ex_ft_prog (fst ex_ftr) (snd ex_ftr) /\ (tally is_jeq (fst ex_ftr), tally is_jhash (fst ex_ftr)) = (3, 17).
Proof.
  split; [apply unequal_misused, une_reach, ex_pick_reach|]. split; [exact ex_m_misused|]. split; [exact (EffMapP.play_exec ex_sf6 ex_ft_prog 0 : exec ex_ft_prog (fst ex_ftr) (snd ex_ftr))|]. vm_compute. reflexivity.
Qed.
