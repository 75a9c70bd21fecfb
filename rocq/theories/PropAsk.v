(** C56: keys and values whose own code does not behave. *)
From Coq Require Import NArith Arith List Bool Permutation Lia.
From Verif Require Import Base Words Flag Bia Node Api Spec Reach Ex Cost CostP Eff EffP Ask SpecAsk AskRun Misuse AskApiP.
Import ListNotations.
Open Scope N_scope.
#[local] Existing Instance exE | 100.

(** With keys that keep their contracts this is the model of the other claims. *)
Theorem C56_faithful_find : forall (E : Env) K V L W (KK : Key K) (KL : Key L) (into_k : L -> K) (into_v : W -> V) m (q : L),
  run (honest into_k into_v) (ask_find m q) = map_find m q.
Proof. intros E K V L W KK KL. exact ask_find_run. Qed.
Print Assumptions C56_faithful_find.
Theorem C56_faithful_insert : forall (E : Env) K V L W (KK : Key K) (KL : Key L) (into_k : L -> K) (into_v : W -> V) m (q : L) (w : W) replace,
  run (honest into_k into_v) (ask_insert m q w replace) = map_insert into_k m q (into_v w) replace.
Proof. intros E K V L W KK KL. exact ask_insert_run. Qed.
Print Assumptions C56_faithful_insert.
Theorem C56_faithful_remove : forall (E : Env) K V L W (KK : Key K) (KL : Key L) (into_k : L -> K) (into_v : W -> V) m (q : L),
  run (honest into_k into_v) (ask_remove m q) = map_remove m q.
Proof. intros E K V L W KK KL. exact ask_remove_run. Qed.
Print Assumptions C56_faithful_remove.

(** Whatever is answered: the size is the number of entries. *)
Theorem C56_size : forall (E : Env) K V (m : trie K V), misused m -> map_size m = lenN (map_visit m).
Proof. intros E K V. exact misused_size. Qed.
Print Assumptions C56_size.
(** [find] hands back an entry of the map, and only one for which [==] said yes;
    it panics only if the key's code does. *)
Theorem C56_find : forall (E : Env) K V L W (m : trie K V) (q : L) tr o, misused m -> exec (ask_find (W := W) m q) tr o ->
  match o with
  | Ret (Ok e) => In e (map_visit m) /\ exists tr1, tr = tr1 ++ [answer (CEq (fst e) q) true] /\ no_yes tr1
  | Ret (Err _) => no_yes tr
  | Panic => failed tr
  | Diverge => False
  end.
Proof. intros E K V L W. exact misused_find. Qed.
Print Assumptions C56_find.
(** [remove] takes out one entry for which [==] said yes and keeps all others, some of
    them cloned; in release builds it panics only if the key's code does. *)
Theorem C56_remove : forall (E : Env) K V L W (m : trie K V) (q : L) tr o, misused m -> exec (ask_remove (W := W) m q) tr o ->
  match o with
  | Ret (Ok (m', e)) => no_into tr /\ In (answer (CEq (fst e) q) true) tr /\
      exists l l', Permutation (map_visit m) (e :: l) /\ Forall2 (copied tr) l l' /\ Permutation (map_visit m') l'
  | Ret (Err _) => no_yes tr /\ no_into tr
  | Panic => failed tr \/ checked = true
  | Diverge => False
  end.
Proof. intros E K V L W. exact misused_remove. Qed.
Print Assumptions C56_remove.
(** [insert] puts in what the conversions answer, as the last thing it asks for, and
    takes out at most one entry, for which [==] said yes.  In release builds it
    panics only if the key's code does, if [==] says yes and no to one question, if a
    stored key has another hash than the new one, or if branches are nested eight
    times as deep as the hash is long. *)
Theorem C56_insert : forall (E : Env) K V L W (m : trie K V) (q : L) (w : W) replace tr o,
  misused m -> exec (ask_insert m q w replace) tr o ->
  match o with
  | Ret (Ok (m', e, prev)) => (replace = false -> prev = None) /\
      (exists tr1, tr = tr1 ++ [answer (A := reply) (CInto q) (fst e); answer (A := reply) (CIntoV w) (snd e)] /\ no_into tr1) /\
      match prev with Some p => In (answer (CEq (fst p) q) true) tr | None => no_yes tr end /\
      exists l l', Permutation (map_visit m) (match prev with Some p => [p] | None => [] end ++ l) /\ Forall2 (copied tr) l l' /\ Permutation (map_visit m') (e :: l')
  | Ret (Err e) => replace = false /\ In e (map_visit m) /\
      exists tr1, tr = tr1 ++ [answer (CEq (fst e) q) true] /\ no_yes tr1 /\ no_into tr1
  | Panic => failed tr \/ checked = true \/
      (exists k, In (answer (CEq k q) true) tr /\ In (answer (CEq k q) false) tr) \/
      (exists h k h', In (answer (CHashQ q) h) tr /\ In (answer (CHash k) h') tr /\ proj1_sig h' <> proj1_sig h) \/
      8 * max_ones hw <= branches m * log_b fw
  | Diverge => False
  end.
Proof. intros E K V L W. exact misused_insert. Qed.
Print Assumptions C56_insert.

(** How often the key's code is called, whatever it answers. *)
Theorem C56_calls_find : forall (E : Env) K V L W (m : trie K V) (q : L) tr o, exec (ask_find (W := W) m q) tr o ->
  count is_hash_q tr = 1 /\ count is_eq tr <= longest m /\ count is_hash tr = 0 /\
  count is_key tr = 0 /\ count is_value tr = 0 /\ count is_into tr = 0.
Proof. intros E K V L W. exact ask_find_spends. Qed.
Print Assumptions C56_calls_find.
Theorem C56_calls_remove : forall (E : Env) K V L W (m : trie K V) (q : L) tr o, exec (ask_remove (W := W) m q) tr o ->
  count is_hash_q tr = 1 /\ count is_eq tr <= longest m /\ count is_hash tr = 0 /\
  count is_key tr <= longest m - 1 /\ count is_value tr <= longest m - 1 /\ count is_into tr = 0.
Proof. intros E K V L W. exact ask_remove_spends. Qed.
Print Assumptions C56_calls_remove.
Theorem C56_calls_insert : forall (E : Env) K V L W (m : trie K V) (q : L) (w : W) replace tr o, exec (ask_insert m q w replace) tr o ->
  count is_hash_q tr = 1 /\ count is_eq tr <= 2 * longest m /\ count is_hash tr <= 1 /\
  count is_key tr <= longest m - 1 /\ count is_value tr <= longest m - 1 /\ count is_into tr <= 2.
Proof. intros E K V L W. exact ask_insert_spends. Qed.
Print Assumptions C56_calls_insert.
(** The longest list holds no more entries than have one and the same hash. *)
Theorem C56_longest : forall (E : Env) K V (KK : Key K) (m : trie K V), unequal m -> exists h, longest m <= lenN (with_hash h (map_visit m)).
Proof. intros E K V KK. exact unequal_longest. Qed.
Print Assumptions C56_longest.

(** With only [==] in disorder a key that behaves finds an entry of its own class if
    there is one, and [insert] panics, in release builds, only if the key's code does
    or [==] says yes and no to one question. *)
Theorem C56_steady_find : forall (E : Env) K V (KK : Key K) L (KL : Key L) (m : trie K V) (q : L), unequal m ->
  (exists e, map_find m q = Ret (Ok e) /\ In e (map_visit m) /\ cls (fst e) = cls q) \/
  (map_find m q = Ret (Err NotFound) /\ forall e, In e (map_visit m) -> cls (fst e) <> cls q).
Proof. intros E K V KK L KL. exact unequal_find. Qed.
Print Assumptions C56_steady_find.
Theorem C56_steady_insert : forall (E : Env) K V (KK : Key K) L W (KL : Key L) (m : trie K V) (q : L) (w : W) replace tr, unequal m ->
  exec (ask_insert m q w replace) tr Panic -> Forall steady tr -> checked = false ->
  failed tr \/ exists k, In (answer (CEq k q) true) tr /\ In (answer (CEq k q) false) tr.
Proof. intros E K V KK L W KL. exact unequal_insert_panics. Qed.
Print Assumptions C56_steady_insert.
Theorem C56_steady_misused : forall (E : Env) K V (KK : Key K) (m : trie K V), unequal m -> misused m.
Proof. intros E K V KK. exact unequal_misused. Qed.
Print Assumptions C56_steady_misused.

(** * Examples *)

(** Comparisons are answered from a list, then with "no"; everything else by [f]. *)
Section Play.
Context {E : Env} {K V L W X : Type}.
Fixpoint play (f : forall c, @reply E K V L W c) (bs : list bool) (p : prog (@reply E K V L W) X) : list (event (A := @reply E K V L W)) * outcome X :=
  match p with
  | PRet x => ([], Ret x)
  | PPanic => ([], Panic)
  | PDiverge => ([], Diverge)
  | PAsk c k =>
      match c return (reply c -> prog (@reply E K V L W) X) -> (reply c -> list bool -> list (event (A := @reply E K V L W)) * outcome X) -> _ with
      | CEq a q => fun _ go => let b := match bs with b :: _ => b | [] => false end in
          let (tr, o) := go b (tl bs) in (answer (CEq a q) b :: tr, o)
      | c => fun _ go => let (tr, o) := go (f c) bs in (answer c (f c) :: tr, o)
      end k (fun a bs => play f bs (k a))
  end.

Lemma play_exec f p : forall bs tr o, play f bs p = (tr, o) -> exec p tr o.
Proof.
  induction p as [x| | |c k IH]; intros bs tr o; cbn [play exec]; [intros [= <- <-]; auto..|].
  intros H. left. destruct c; match type of H with (let (_, _) := play f ?bs (k ?a) in _) = _ => destruct (play f bs (k a)) as [tr' o'] eqn:Hp end;
    injection H as <- <-; eexists; eexists; (split; [reflexivity|]); eapply IH; exact Hp.
Qed.
End Play.

(** Keys of [key] as they are in [ex_m]; keys that say 0 when asked to be inserted
    and 1 when hashed again. *)
Definition good : forall c, @reply exE key N key N c := honest (fun k => k) (fun v => v).
Definition zero : @word exE := exist _ 0 eq_refl.
Definition one : @word exE := exist _ 1 eq_refl.
Definition moody (c : call key N key N) : @reply exE key N key N c :=
  match c return reply c with
  | CHashQ _ => zero
  | CHash _ => one
  | c => good c
  end.

Definition map_of {A B} (o : outcome (result (trie key N * A * B) (key * N))) : trie key N :=
  match o with Ret (Ok (m, _, _)) => m | _ => map_new end.
Definition put f bs (m : trie key N) (k : key) (v : N) := play (X := result (trie key N * (key * N) * option (key * N)) (key * N)) f bs (ask_insert m k v true).

(** Like a NaN: a key that is not equal to itself is there twice. *)
Definition nan_1 := map_of (snd (put good [] map_new (5, 0) 50)).
Definition nan_2 := map_of (snd (put good [] nan_1 (5, 0) 51)).
Lemma put_exec f bs m k v : exec (ask_insert m k v true) (fst (put f bs m k v)) (snd (put f bs m k v)).
Proof. apply (play_exec f _ bs). unfold put. destruct (play _ _ _). reflexivity. Qed.
Ltac steadily := repeat (first [apply Forall_nil | apply Forall_cons]); vm_compute; auto.
Lemma nan_unequal : unequal nan_2.
Proof.
  eapply (une_insert key N key_key key N key_key nan_1 (5, 0) 51 true (fst (put good [] nan_1 (5, 0) 51))).
  - eapply (une_insert key N key_key key N key_key map_new (5, 0) 50 true (fst (put good [] map_new (5, 0) 50))).
    + apply une_reach. constructor.
    + steadily.
    + eapply eq_ind; [apply put_exec|]. vm_compute. reflexivity.
  - steadily.
  - eapply eq_ind; [apply put_exec|]. vm_compute. reflexivity.
Qed.
Example C56_ex_nan : map_visit nan_2 = [((5, 0), 51); ((5, 0), 50)] /\ map_size nan_2 = 2 /\ longest nan_2 = 2 /\
  map_find nan_2 (5, 3) = Ret (Ok ((5, 0), 51)) /\ run (fun c => match c return reply c with CEq _ _ => false | c => good c end) (ask_find nan_2 (5, 0)) = Ret (Err NotFound).
Proof. vm_compute. auto. Qed.

(** Removing it again, with a yes for the second comparison. *)
Definition take bs (m : trie key N) (k : key) := play (W := N) (X := result (trie key N * (key * N)) trie_error) good bs (ask_remove m k).
Lemma take_exec bs m k : exec (ask_remove m k) (fst (take bs m k)) (snd (take bs m k)).
Proof. apply (play_exec good _ bs). unfold take. destruct (play _ _ _). reflexivity. Qed.
Example C56_ex_remove : exists m', snd (take [false; true] nan_2 (5, 0)) = Ret (Ok (m', ((5, 0), 50))) /\ map_visit m' = [((5, 0), 51)].
Proof. eexists. vm_compute. auto. Qed.

(** Yes and then no to the same question: the replacement in the list of three keys of
    [ex_m] panics. *)
Example C56_ex_contrary : misused ex_m /\ unequal ex_m /\ exec (ask_insert ex_m (0, 9) 90 true) (fst (put good [true] ex_m (0, 9) 90)) Panic /\
  Forall steady (fst (put good [true] ex_m (0, 9) 90)).
Proof.
  split; [apply (mis_reach key N key_key), ex_reach|]. split; [apply une_reach, ex_reach|]. split.
  - eapply eq_ind; [apply put_exec|]. vm_compute. reflexivity.
  - steadily.
Qed.

(** Hashes that change: the third insertion panics. *)
Definition moody_1 := map_of (snd (put moody [] map_new (0, 0) 1)).
Definition moody_2 := map_of (snd (put moody [] moody_1 (0, 0) 2)).
Lemma moody_misused : misused moody_2.
Proof.
  eapply (mis_insert key N key N moody_1 (0, 0) 2 true (fst (put moody [] moody_1 (0, 0) 2))).
  - eapply (mis_insert key N key N map_new (0, 0) 1 true (fst (put moody [] map_new (0, 0) 1))).
    + eapply mis_reach. constructor.
    + eapply eq_ind; [apply put_exec|]. vm_compute. reflexivity.
  - eapply eq_ind; [apply put_exec|]. vm_compute. reflexivity.
Qed.
Example C56_ex_hash : map_size moody_2 = 2 /\ map_visit moody_2 = [((0, 0), 2); ((0, 0), 1)] /\ branches moody_2 = 65 /\
  exec (ask_insert moody_2 (0, 0) 3 true) (fst (put moody [] moody_2 (0, 0) 3)) Panic.
Proof.
  split; [vm_compute; reflexivity|]. split; [vm_compute; reflexivity|]. split; [vm_compute; reflexivity|].
  eapply eq_ind; [apply put_exec|]. vm_compute. reflexivity.
Qed.
