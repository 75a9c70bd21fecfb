(** C59: transform and transmute when no code of the client is a function. *)
From Coq Require Import NArith Arith List Bool Permutation Lia.
From Verif Require Import Base Words Flag Bia Node Api Reach Trans Transform Ex Eff EffP EffApi EffMapP Ask SpecAsk AskT SpecAskT AskTRun AskTopP Misuse AskApiP AskTSumP PropAsk.
Import ListNotations.
Open Scope N_scope.
#[local] Existing Instance exE | 100.

(** With functions for the closure, [reduce_op] and the default, and clones that are
    copies, this is the model of the other claims. *)
Theorem C59_faithful_transform : forall (E : Env) K V R (rdef : R) rd (g : K * V -> vres V R) st w m,
  run (functions rdef rd g) (ask_transform st w m) = map_transform rdef rd st (tw_fun w g) m.
Proof. intros E K V R. exact ask_transform_run. Qed.
Print Assumptions C59_faithful_transform.
Theorem C59_faithful_transmute : forall (E : Env) K V S X R (rdef : R) rd (g : K * V -> kres S X R) w m,
  run (functions rdef rd g) (ask_transmute w m) = map_transmute rdef rd (mw_fun w g) m.
Proof. intros E K V S X R. exact ask_transmute_run. Qed.
Print Assumptions C59_faithful_transmute.

(** Whatever is answered: the closure is asked once about each entry, the answers [is]
    read in visit order give the new map in visit order, the reduction is made of
    theirs in that order, and only what is kept is cloned.  The map itself comes back,
    with nothing cloned, just when every entry is left as it is. *)
Theorem C59_transform : forall (E : Env) K V R (m : trie K V) st tr (o : outcome (trie K V * R * origin)),
  misused m -> exec (ask_transform st TwClosure m) tr o ->
  match o with
  | Ret (m', r, og) => exists is outs, map fst is = map_visit m /\ settled see vred vcost tr is r /\
      Forall2 (vbecomes tr) is outs /\ map_visit m' = concat outs /\
      og = (if forallb kept is then Self else Other) /\ (og = Self -> m' = m /\ clones see tr = [])
  | Panic => panicked tr /\ exists rest, Permutation (ops_asked tr ++ rest) (map_visit m)
  | Diverge => False
  end.
Proof. intros E K V R. exact misused_transform. Qed.
Print Assumptions C59_transform.
Theorem C59_transmute : forall (E : Env) K V S X R (m : trie K V) tr (o : outcome (trie S X * R)),
  misused m -> exec (ask_transmute MwClosure m) tr o ->
  match o with
  | Ret (m', r) => exists is, map fst is = map_visit m /\ settled see kred kcost tr is r /\ map_visit m' = flat_map kbecomes is
  | Panic => panicked tr /\ exists rest, Permutation (ops_asked tr ++ rest) (map_visit m)
  | Diverge => False
  end.
Proof. intros E K V S X R. exact misused_transmute. Qed.
Print Assumptions C59_transmute.

(** Given a constant they ask for nothing. *)
Theorem C59_transform_constant : forall (E : Env) K V R st (m : trie K V) (w : tway R) tr o, exec (ask_transform st w m) tr o ->
  match w with
  | TwClosure => True
  | TwUnchanged r => tr = [] /\ o = Ret (m, r, Self)
  | TwRemoved r => tr = [] /\ o = Ret (map_new, r, Other)
  end.
Proof. intros E K V R. exact ask_transform_const. Qed.
Print Assumptions C59_transform_constant.
Theorem C59_transmute_constant : forall (E : Env) K V S X R (m : trie K V) (w : mway R) tr (o : outcome (trie S X * R)), exec (ask_transmute w m) tr o ->
  match w with MwClosure => True | MwRemoved r => tr = [] /\ o = Ret (map_new, r) end.
Proof. intros E K V S X R. exact ask_transmute_const. Qed.
Print Assumptions C59_transmute_constant.

(** They return unless a call panics, and then that is the last call. *)
Theorem C59_transform_ends : forall (E : Env) K V R (m : trie K V) st (w : tway R) tr o, misused m -> exec (ask_transform st w m) tr o ->
  (unbroken tr /\ exists x, o = Ret x) \/ (exists tr' q, tr = tr' ++ [broke q] /\ unbroken tr' /\ o = Panic).
Proof. intros E K V R. exact misused_transform_ends. Qed.
Print Assumptions C59_transform_ends.
Theorem C59_transmute_ends : forall (E : Env) K V S X R (m : trie K V) (w : mway R) tr (o : outcome (trie S X * R)), misused m -> exec (ask_transmute w m) tr o ->
  (unbroken tr /\ exists x, o = Ret x) \/ (exists tr' q, tr = tr' ++ [broke q] /\ unbroken tr' /\ o = Panic).
Proof. intros E K V S X R. exact misused_transmute_ends. Qed.
Print Assumptions C59_transmute_ends.

(** While the hashes are in order, so are the calls of the closure: as visit goes, but
    entries of equal hash in reverse. *)
Theorem C59_transform_order : forall (E : Env) K V (KK : Key K) R (m : trie K V) st (w : tway R) tr o, unequal m -> exec (ask_transform st w m) tr o ->
  exists rest, ops_asked tr ++ rest = match w with TwClosure => backwards (map_visit m) | _ => [] end /\ forall x, o = Ret x -> rest = [].
Proof. intros E K V KK R. exact unequal_transform_order. Qed.
Print Assumptions C59_transform_order.
Theorem C59_transmute_order : forall (E : Env) K V (KK : Key K) S X R (m : trie K V) (w : mway R) tr (o : outcome (trie S X * R)), unequal m -> exec (ask_transmute w m) tr o ->
  exists rest, ops_asked tr ++ rest = match w with MwClosure => backwards (map_visit m) | _ => [] end /\ forall x, o = Ret x -> rest = [].
Proof. intros E K V KK S X R. exact unequal_transmute_order. Qed.
Print Assumptions C59_transmute_order.

(** * Examples *)

(** Every call is numbered, and [reduce_op] answers its number; clones of keys get
    another second part, clones of values the number. *)
Definition ex_calls {T} (g : nat -> key * N -> T) (n : nat) (q : tcalls key N N) : option (treply key N T N q) :=
  match q return option (treply key N T N q) with
  | TOp e => Some (g n e)
  | TReduce _ _ | TDefault => Some (N.of_nat n)
  | TKey k => Some (fst k, snd k + 1000)
  | TValue v => Some (N.of_nat n)
  end.
Definition ex_some (n : nat) (e : key * N) : vres N N :=
  match N.modulo (snd e) 3 with 0 => VUnchanged 1000 | 1 => VTransformed (N.of_nat n + 100) 2000 | _ => VDropped 3000 end.
Definition ex_trun := EffMapP.play (ex_calls ex_some) 0 (ask_transform Sequential TwClosure ex_m).
Lemma ex_m_misused : misused ex_m.
Proof. apply (mis_reach key N key_key), ex_reach. Qed.
Lemma unbroken_all {T} (tr : list (event (A := treply key N T N))) : forallb (fun e => match projT2 e with Some _ => true | None => false end) tr = true -> unbroken tr.
Proof. intros H q Hq. rewrite forallb_forall in H. discriminate (H _ Hq). Qed.
Example C59_transform_ex : misused ex_m /\ unequal ex_m /\
  exec (ask_transform Sequential TwClosure ex_m) (fst ex_trun) (snd ex_trun) /\ unbroken (fst ex_trun) /\
  map_visit ex_m = [(1, 1, 17); (2, 0, 12); (0, 0, 10); (4611686018427387904, 0, 15); (4096, 0, 14); (128, 0, 13); (36, 0, 18)] /\
  ops_asked (fst ex_trun) = [(0, 0, 10); (2, 0, 12); (1, 1, 17); (4611686018427387904, 0, 15); (4096, 0, 14); (128, 0, 13); (36, 0, 18)] /\
  reduces see (fst ex_trun) = 19 /\ defaults see (fst ex_trun) = 13 /\ clones see (fst ex_trun) = [inl (0, 0); inl (2, 0); inr 12; inl (128, 0)] /\
  exists m' r, snd ex_trun = Ret (m', r, Other) /\
    map_visit m' = [(2, 1000, 17); (0, 1000, 113); (4611686018427387904, 0, 15); (128, 1000, 137); (36, 0, 18)].
Proof.
  split; [exact ex_m_misused|]. split; [apply une_reach, ex_reach|].
  split; [exact (EffMapP.play_exec (ex_calls ex_some) (ask_transform Sequential TwClosure ex_m) 0)|]. split.
  { apply unbroken_all. vm_compute. reflexivity. }
  do 5 (split; [vm_compute; reflexivity|]). do 2 eexists. split; vm_compute; reflexivity.
Qed.

(** A clone panics. *)
Definition ex_break (n : nat) (q : tcalls key N N) : option (treply key N (vres N N) N q) := if Nat.eqb n 17 then None else ex_calls ex_some n q.
Definition ex_tbreak := EffMapP.play ex_break 0 (ask_transform Sequential TwClosure ex_m).
Example C59_transform_break_ex : exec (ask_transform Sequential TwClosure ex_m) (fst ex_tbreak) (snd ex_tbreak) /\ snd ex_tbreak = Panic /\ ops_asked (fst ex_tbreak) = [(0, 0, 10); (2, 0, 12)] /\ map asked (skipn 17 (fst ex_tbreak)) = [TValue 12].
Proof.
  split; [exact (EffMapP.play_exec ex_break (ask_transform Sequential TwClosure ex_m) 0)|].
  vm_compute. auto.
Qed.

(** Nothing changes. *)
Definition ex_tsame := EffMapP.play (ex_calls (fun n _ => VUnchanged (N.of_nat n))) 0 (ask_transform MiddleIndex TwClosure ex_m).
Example C59_transform_same_ex : exec (ask_transform MiddleIndex TwClosure ex_m) (fst ex_tsame) (snd ex_tsame) /\
  clones see (fst ex_tsame) = [] /\ defaults see (fst ex_tsame) = 26 /\ reduces see (fst ex_tsame) = 32 /\ snd ex_tsame = Ret (ex_m, 64, Self).
Proof.
  split; [exact (EffMapP.play_exec (ex_calls (fun n _ => VUnchanged (N.of_nat n))) (ask_transform MiddleIndex TwClosure ex_m) 0)|].
  vm_compute. auto.
Qed.

(** Keys of another type and another hash, in a map that was misused before; the result
    is one again. *)
Definition ex_keys (n : nat) (e : key * N) : kres num N N := if N.even (snd e) then KTransmuted (Num (N.of_nat n)) (snd e) 1000 else KDropped 2000.
Definition ex_mrun := EffMapP.play (ex_calls ex_keys) 0 (ask_transmute MwClosure moody_2).
Example C59_transmute_ex : misused moody_2 /\ exec (ask_transmute MwClosure moody_2) (fst ex_mrun) (snd ex_mrun) /\
  ops_asked (fst ex_mrun) = [(0, 0, 2); (0, 0, 1)] /\ reduces see (fst ex_mrun) = 66 /\ defaults see (fst ex_mrun) = 65 /\
  exists m' r, snd ex_mrun = Ret (m', r) /\ misused m' /\ map_visit m' = [(Num 65, 2)] /\ map_size m' = 1.
Proof.
  split; [exact moody_misused|]. pose proof (EffMapP.play_exec (ex_calls ex_keys) (ask_transmute MwClosure moody_2) 0) as He. split; [exact He|].
  do 3 (split; [vm_compute; reflexivity|]). do 2 eexists. split; [vm_compute; reflexivity|]. split; [|split; vm_compute; reflexivity].
  eapply mis_transmute; [exact moody_misused|]. eapply eq_ind; [exact He|]. vm_compute. reflexivity.
Qed.

(** The order of the calls where only [==] is in disorder. *)
Definition ex_nrun := EffMapP.play (ex_calls (fun n e => KTransmuted (fst (fst e), N.of_nat n) (snd e) 0)) 0 (ask_transmute MwClosure nan_2).
Example C59_order_ex : unequal nan_2 /\ exec (ask_transmute MwClosure nan_2) (fst ex_nrun) (snd ex_nrun) /\
  backwards (map_visit nan_2) = [(5, 0, 50); (5, 0, 51)] /\ ops_asked (fst ex_nrun) = [(5, 0, 50); (5, 0, 51)] /\
  exists m' r, snd ex_nrun = Ret (m', r) /\ unequal m' /\ map_visit m' = [(5, 2, 51); (5, 1, 50)].
Proof.
  split; [exact nan_unequal|].
  pose proof (EffMapP.play_exec (ex_calls (fun n e => KTransmuted (fst (fst e), N.of_nat n) (snd e) 0)) (ask_transmute MwClosure nan_2) 0) as He. split; [exact He|].
  do 2 (split; [vm_compute; reflexivity|]). do 2 eexists. split; [vm_compute; reflexivity|]. split; [|vm_compute; reflexivity].
  eapply (une_transmute key N key_key key N key_key N nan_2 MwClosure); [exact nan_unequal| |eapply eq_ind; [exact He|vm_compute; reflexivity]].
  vm_compute. repeat constructor.
Qed.
