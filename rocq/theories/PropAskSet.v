(** C62: the set operations, and transfute of maps, when no code of the client is a function. *)
From Coq Require Import NArith Arith List Bool Permutation Lia.
From Verif Require Import Base Words Flag Bia Node Api Spec Hist Reach ReachP Trans Transform Joint JointT Sets SpecS SetHist Ex Eff EffP EffApi EffMapP EffSet Ask SpecAsk AskRun AskT SpecAskT AskTRun AskJ SpecAskJ AskJRun AskTw SpecAskTw AskTwRun AskSet SpecAskSet HandleP AskSetP AskSetJP AskSetCP AskFuteP AskSetRun Misuse AskApiP PropSet PropAsk PropAskT PropJointT PropAskJ PropAskTw.
Import ListNotations.
Open Scope N_scope.

(** With functions for the client's code that keep the contracts, each operation is the set
    operation of Api.v and Sets.v (and the transfute operation of Sets.v). *)
Theorem C62_faithful_find :
  forall (E : Env) (K L : Type) (KK : Key K) (KL : Key L) (into : L -> K) (s : tset K) (q : L),
  run (honest into (fun u : unit => u)) (aset_find s q) = set_find s q.
Proof. exact @aset_find_run. Qed.
Print Assumptions C62_faithful_find.
Theorem C62_faithful_insert :
  forall (E : Env) (K L : Type) (KK : Key K) (KL : Key L) (into : L -> K) (s : tset K) (q : L) (replace : bool),
  run (honest into (fun u : unit => u)) (aset_insert s q replace) = set_insert into s q replace.
Proof. exact @aset_insert_run. Qed.
Print Assumptions C62_faithful_insert.
Theorem C62_faithful_remove :
  forall (E : Env) (K L : Type) (KK : Key K) (KL : Key L) (into : L -> K) (s : tset K) (q : L),
  run (honest into (fun u : unit => u)) (aset_remove s q) = set_remove s q.
Proof. exact @aset_remove_run. Qed.
Print Assumptions C62_faithful_remove.
Theorem C62_faithful_transform :
  forall (E : Env) (K R : Type) (rdef : R) (rd : R -> R -> R) (g : K -> sres R) (st : strategy) (w : tway R) (s : tset K),
  run (functions rdef rd (of_key g)) (aset_transform st w s) = set_transform rdef rd st (stw_fun w g) s.
Proof. exact @aset_transform_run. Qed.
Print Assumptions C62_faithful_transform.
Theorem C62_faithful_transmute :
  forall (E : Env) (K R : Type) (rdef : R) (rd : R -> R -> R) (S : Type) (g : K -> skres S R) (w : mway R) (s : tset K),
  run (functions rdef rd (of_key g)) (aset_transmute w s) = set_transmute rdef rd (smw_fun w g) s.
Proof. exact @aset_transmute_run. Qed.
Print Assumptions C62_faithful_transmute.
Theorem C62_faithful_tt :
  forall (E : Env) (K R : Type) (rdef : R) (rd : R -> R -> R) (KK : Key K) (gb : K * K -> sbres R) (gl gr : K -> sres R)
    (st : strategy) (wb : jway R) (wl wr : tway R) (s right : tset K),
  run (jfunctions rdef rd (of_keys gb) (of_key gl) (of_key gr)) (aset_tt st wb wl wr s right) =
  set_tt rdef rd st (sjw_fun wb (fun k l : K => gb (k, l))) (stw_fun wl gl) (stw_fun wr gr) s right.
Proof. exact @aset_tt_run. Qed.
Print Assumptions C62_faithful_tt.
Theorem C62_faithful_tm :
  forall (E : Env) (K R : Type) (rdef : R) (rd : R -> R -> R) (KK : Key K) (L : Type) (KL : Key L) (gb : K * L -> sres R)
    (gl : K -> sres R) (gr : L -> skres K R) (st : strategy) (wb wl : tway R) (wr : mway R) (s : tset K) (right : tset L),
  run (jfunctions rdef rd (of_keys gb) (of_key gl) (of_key gr)) (aset_tm st wb wl wr s right) =
  set_tm rdef rd st (stw_fun wb gb) (stw_fun wl gl) (smw_fun wr gr) s right.
Proof. exact @aset_tm_run. Qed.
Print Assumptions C62_faithful_tm.
Theorem C62_faithful_mt :
  forall (E : Env) (K R : Type) (rdef : R) (rd : R -> R -> R) (KK : Key K) (L : Type) (KL : Key L) (gb : K * L -> sres R)
    (gl : K -> skres L R) (gr : L -> sres R) (st : strategy) (wb : tway R) (wl : mway R) (wr : tway R) (s : tset K)
    (right : tset L),
  run (jfunctions rdef rd (of_keys gb) (of_key gl) (of_key gr)) (aset_mt st wb wl wr s right) =
  set_mt rdef rd st (stw_fun wb gb) (smw_fun wl gl) (stw_fun wr gr) s right.
Proof. exact @aset_mt_run. Qed.
Print Assumptions C62_faithful_mt.
Theorem C62_faithful_mm :
  forall (E : Env) (K R : Type) (rdef : R) (rd : R -> R -> R) (KK : Key K) (L : Type) (KL : Key L) (S : Type) (KS : Key S)
    (gb : K * L -> skres S R) (gl : K -> skres S R) (gr : L -> skres S R) (wb wl wr : mway R) (s : tset K) (right : tset L),
  run (jfunctions rdef rd (of_keys gb) (of_key gl) (of_key gr)) (aset_mm wb wl wr s right) =
  set_mm rdef rd (smw_fun wb gb) (smw_fun wl gl) (smw_fun wr gr) s right.
Proof. exact @aset_mm_run. Qed.
Print Assumptions C62_faithful_mm.
Theorem C62_faithful_tf :
  forall (E : Env) (K R : Type) (rdef : R) (rd : R -> R -> R) (KK : Key K) (V W : Type) (gb : K * V * (K * W) -> vres V R)
    (gl : K * V -> vres V R) (gr : K * W -> skres V R) (st : strategy) (wb wl : tway R) (wr : mway R) (m : trie K V)
    (right : trie K W),
  run (jfunctions rdef rd gb gl gr) (ask_tf st wb wl wr m right) = map_tf rdef rd st (tw_fun wb gb) (tw_fun wl gl) (smw_fun wr gr) m right.
Proof. exact @ask_tf_run. Qed.
Print Assumptions C62_faithful_tf.
Theorem C62_faithful_ft :
  forall (E : Env) (K R : Type) (rdef : R) (rd : R -> R -> R) (KK : Key K) (V W : Type) (gb : K * V * (K * W) -> vres W R)
    (gl : K * V -> skres W R) (gr : K * W -> vres W R) (st : strategy) (wb : tway R) (wl : mway R) (wr : tway R) (m : trie K V)
    (right : trie K W),
  run (jfunctions rdef rd gb gl gr) (ask_ft st wb wl wr m right) = map_ft rdef rd st (tw_fun wb gb) (smw_fun wl gl) (tw_fun wr gr) m right.
Proof. exact @ask_ft_run. Qed.
Print Assumptions C62_faithful_ft.
(** [find], [insert] and [remove]: whatever is answered, as C56 and C57 say of maps. *)
Theorem C62_find :
  forall (E : Env) (K L : Type) (s : tset K) (q : L) (tr : list event) (o : outcome (result K trie_error)),
  misused s ->
  exec (aset_find s q) tr o ->
  match o with
  | Ret (Ok k) => In k (set_visit s) /\ (exists tr1 : list event, tr = tr1 ++ [answer (CEq k q) true] /\ no_yes tr1)
  | Ret (Err _) => no_yes tr
  | Panic => failed tr
  | Diverge => False
  end.
Proof. exact @misused_set_find. Qed.
Print Assumptions C62_find.
Theorem C62_insert :
  forall (E : Env) (K L : Type) (s : tset K) (q : L) (replace : bool) (tr : list event) (o : outcome (result (tset K * K * option K) K)),
  misused s ->
  exec (aset_insert s q replace) tr o ->
  match o with
  | Ret (Ok (s', k, prev)) =>
      misused s' /\
      (replace = false -> prev = None) /\
      (exists tr1 : list event, tr = tr1 ++ [answer (A := reply) (CInto q) k] /\ no_into tr1) /\
      match prev with
      | Some p0 => In (answer (CEq p0 q) true) tr
      | None => no_yes tr
      end /\
      (exists l l' : list K,
         Permutation (set_visit s) (match prev with
                                    | Some p0 => [p0]
                                    | None => []
                                    end ++ l) /\ Forall2 (key_copied tr) l l' /\ Permutation (set_visit s') (k :: l'))
  | Ret (Err k) =>
      replace = false /\ In k (set_visit s) /\ (exists tr1 : list event, tr = tr1 ++ [answer (CEq k q) true] /\ no_yes tr1 /\ no_into tr1)
  | Panic =>
      failed tr \/
      checked = true \/
      (exists k : K, In (answer (CEq k q) true) tr /\ In (answer (CEq k q) false) tr) \/
      (exists (h : reply (CHashQ q)) (k : K) (h' : reply (CHash k)),
         In (answer (CHashQ q) h) tr /\ In (answer (CHash k) h') tr /\ proj1_sig h' <> proj1_sig h) \/ 8 * max_ones hw <= branches s * log_b fw
  | Diverge => False
  end.
Proof. exact @misused_set_insert. Qed.
Print Assumptions C62_insert.
Theorem C62_remove :
  forall (E : Env) (K L : Type) (s : tset K) (q : L) (tr : list event) (o : outcome (result (tset K * K) trie_error)),
  misused s ->
  exec (aset_remove s q) tr o ->
  match o with
  | Ret (Ok (s', k)) =>
      misused s' /\
      no_into tr /\
      In (answer (CEq k q) true) tr /\
      (exists l l' : list K, Permutation (set_visit s) (k :: l) /\ Forall2 (key_copied tr) l l' /\ Permutation (set_visit s') l')
  | Ret (Err _) => no_yes tr /\ no_into tr
  | Panic => failed tr \/ checked = true
  | Diverge => False
  end.
Proof. exact @misused_set_remove. Qed.
Print Assumptions C62_remove.
(** How often the client's code is called; a set clones no values. *)
Theorem C62_find_calls :
  forall (E : Env) (K L : Type) (s : tset K) (q : L) (tr : list event) (o : outcome (result K trie_error)),
  exec (aset_find s q) tr o ->
  count is_hash_q tr = 1 /\
  count is_eq tr <= longest s /\ count is_hash tr = 0 /\ count is_key tr = 0 /\ count is_value tr = 0 /\ count is_into tr = 0.
Proof. exact @set_find_spends. Qed.
Print Assumptions C62_find_calls.
Theorem C62_insert_calls :
  forall (E : Env) (K L : Type) (s : tset K) (q : L) (rep : bool) (tr : list event) (o : outcome (result (tset K * K * option K) K)),
  exec (aset_insert s q rep) tr o ->
  count is_hash_q tr = 1 /\
  count is_eq tr <= 2 * longest s /\ count is_hash tr <= 1 /\ count is_key tr <= longest s - 1 /\ count is_value tr = 0.
Proof. exact @set_insert_spends. Qed.
Print Assumptions C62_insert_calls.
Theorem C62_remove_calls :
  forall (E : Env) (K L : Type) (s : tset K) (q : L) (tr : list event) (o : outcome (result (tset K * K) trie_error)),
  exec (aset_remove s q) tr o ->
  count is_hash_q tr = 1 /\
  count is_eq tr <= longest s /\ count is_hash tr = 0 /\ count is_key tr <= longest s - 1 /\ count is_value tr = 0 /\ count is_into tr = 0.
Proof. exact @set_remove_spends. Qed.
Print Assumptions C62_remove_calls.
(** Keys that keep their contracts but for reflexivity ([NaN]). *)
Theorem C62_insert_unequal :
  forall (E : Env) (K L : Type) (KK : Key K) (KL : Key L) (s : tset K) (q : L) (rep : bool) (tr : list event) (s' : tset K)
    (k : K) (prev : option K), unequal s -> Forall steady tr -> exec (aset_insert s q rep) tr (Ret (Ok (s', k, prev))) -> unequal s'.
Proof. exact @unequal_set_insert. Qed.
Print Assumptions C62_insert_unequal.
Theorem C62_remove_unequal :
  forall (E : Env) (K L : Type) (KK : Key K) (KL : Key L) (s : tset K) (q : L) (tr : list event) (s' : tset K) (k : K),
  unequal s -> Forall steady tr -> exec (aset_remove s q) tr (Ret (Ok (s', k))) -> unequal s'.
Proof. exact @unequal_set_remove. Qed.
Print Assumptions C62_remove_unequal.
Theorem C62_insert_panics :
  forall (E : Env) (K L : Type) (KK : Key K) (KL : Key L) (s : tset K) (q : L) (rep : bool) (tr : list event),
  unequal s ->
  exec (aset_insert s q rep) tr Panic ->
  Forall steady tr -> checked = false -> failed tr \/ (exists k : K, In (answer (CEq k q) true) tr /\ In (answer (CEq k q) false) tr).
Proof. exact @unequal_set_insert_panics. Qed.
Print Assumptions C62_insert_panics.
(** [transform] and [transmute] of sets. *)
Theorem C62_transform :
  forall (E : Env) (K R : Type) (s : tset K) (st : strategy) (tr : list event) (o : outcome (tset K * R * origin)),
  misused s ->
  exec (aset_transform st TwClosure s) tr o ->
  match o with
  | Ret (s', r, og) =>
      misused s' /\
      (exists (is : list (K * unit * sres R)) (outs : list (list (K * unit))),
         map fst is = map_visit s /\
         settled see s_red s_cost tr is r /\
         Forall2 (s_becomes tr) is outs /\
         map_visit s' = concat outs /\ og = (if forallb s_kept is then Self else Other) /\ (og = Self -> s' = s /\ clones see tr = []))
  | Panic => panicked tr /\ (exists rest : list (K * unit), Permutation (ops_asked tr ++ rest) (map_visit s))
  | Diverge => False
  end.
Proof. exact @misused_set_transform. Qed.
Print Assumptions C62_transform.
Theorem C62_transform_ends :
  forall (E : Env) (K R : Type) (s : tset K) (st : strategy) (w : tway R) (tr : list event) (o : outcome (tset K * R * origin)),
  misused s ->
  exec (aset_transform st w s) tr o ->
  unbroken tr /\ (exists x : tset K * R * origin, o = Ret x) \/
  (exists (tr' : list event) (q : tcalls K unit R), tr = tr' ++ [broke q] /\ unbroken tr' /\ o = Panic).
Proof. exact @misused_set_transform_ends. Qed.
Print Assumptions C62_transform_ends.
Theorem C62_transform_unequal :
  forall (E : Env) (K R : Type) (KK : Key K) (s : tset K) (st : strategy) (w : tway R) (tr : list event) (s' : tset K) (r : R) (og : origin),
  unequal s -> Forall clone_steady tr -> exec (aset_transform st w s) tr (Ret (s', r, og)) -> unequal s'.
Proof. exact @unequal_set_transform. Qed.
Print Assumptions C62_transform_unequal.
Theorem C62_transform_constant :
  forall (E : Env) (K R : Type) (st : strategy) (s : tset K) (w : tway R) (tr : list event) (o : outcome (tset K * R * origin)),
  exec (aset_transform st w s) tr o ->
  match w with
  | TwClosure => True
  | TwUnchanged r => tr = [] /\ o = Ret (s, r, Self)
  | TwRemoved r => tr = [] /\ o = Ret (map_new, r, Other)
  end.
Proof. exact @set_transform_constant. Qed.
Print Assumptions C62_transform_constant.
Theorem C62_transmute :
  forall (E : Env) (K S R : Type) (s : tset K) (tr : list event) (o : outcome (tset S * R)),
  misused s ->
  exec (aset_transmute MwClosure s) tr o ->
  match o with
  | Ret (s', r) =>
      misused s' /\
      (exists is : list (K * unit * skres S R),
         map fst is = map_visit s /\ settled see sk_red sk_cost tr is r /\ map_visit s' = flat_map sk_becomes is)
  | Panic => panicked tr /\ (exists rest : list (K * unit), Permutation (ops_asked tr ++ rest) (map_visit s))
  | Diverge => False
  end.
Proof. exact @misused_set_transmute. Qed.
Print Assumptions C62_transmute.
Theorem C62_transmute_ends :
  forall (E : Env) (K S R : Type) (s : tset K) (w : mway R) (tr : list event) (o : outcome (tset S * R)),
  misused s ->
  exec (aset_transmute w s) tr o ->
  unbroken tr /\ (exists x : tset S * R, o = Ret x) \/
  (exists (tr' : list event) (q : tcalls K unit R), tr = tr' ++ [broke q] /\ unbroken tr' /\ o = Panic).
Proof. exact @misused_set_transmute_ends. Qed.
Print Assumptions C62_transmute_ends.
Theorem C62_transmute_unequal :
  forall (E : Env) (K S R : Type) (KK : Key K) (KS : Key S) (s : tset K) (w : mway R) (tr : list event) (s' : tset S) (r : R),
  unequal s -> Forall sk_steady tr -> exec (aset_transmute w s) tr (Ret (s', r)) -> unequal s'.
Proof. exact @unequal_set_transmute. Qed.
Print Assumptions C62_transmute_unequal.
Theorem C62_transmute_constant :
  forall (E : Env) (K S R : Type) (s : tset K) (w : mway R) (tr : list event) (o : outcome (tset S * R)),
  exec (aset_transmute w s) tr o -> match w with
                                    | MwClosure => True
                                    | MwRemoved r => tr = [] /\ o = Ret (map_new, r)
                                    end.
Proof. exact @set_transmute_constant. Qed.
Print Assumptions C62_transmute_constant.
(** The operations of two sets. *)
Theorem C62_tm :
  forall (E : Env) (K L R : Type) (s : tset K) (right : tset L) (st : strategy) (tr : list event) (o : outcome (tset K * R * origin)),
  misused s ->
  misused right ->
  exec (aset_tm st TwClosure TwClosure MwClosure s right) tr o ->
  match o with
  | Ret (s', r, og) =>
      misused s' /\
      Permutation (jtold_all tr) (map inl (map_visit s) ++ map inr (map_visit right)) /\
      (og = Self -> s' = s) /\
      (exists (is : list (jitem K unit L unit (sres R) (sres R) (skres K R))) (outs : list (list (K * unit))),
         settled jsee stm_red stm_cost tr is r /\ Forall2 (stm_becomes tr) is outs /\ Permutation (map_visit s') (concat outs))
  | Panic =>
      (jpanicked tr \/ hashes_differ tr) /\
      (exists rest : list (K * unit + L * unit), Permutation (jtold_all tr ++ rest) (map inl (map_visit s) ++ map inr (map_visit right)))
  | Diverge =>
      3 <= longest right /\
      (exists rest : list (K * unit + L * unit), Permutation (jtold_all tr ++ rest) (map inl (map_visit s) ++ map inr (map_visit right)))
  end.
Proof. exact @misused_set_tm. Qed.
Print Assumptions C62_tm.
Theorem C62_tm_unequal :
  forall (E : Env) (K L R : Type) (KK : Key K) (KL : Key L) (s : tset K) (right : tset L) (st : strategy) (tr : list event)
    (o : outcome (tset K * R * origin)),
  unequal s ->
  unequal right ->
  Forall stm_steady tr ->
  exec (aset_tm st TwClosure TwClosure MwClosure s right) tr o ->
  match o with
  | Ret (s', _, _) => unequal s'
  | Panic => jpanicked tr
  | Diverge => 3 <= longest right
  end.
Proof. exact @unequal_set_tm. Qed.
Print Assumptions C62_tm_unequal.
Theorem C62_tm_ends :
  forall (E : Env) (K L R : Type) (s : tset K) (right : tset L) (st : strategy) (tr : list event) (o : outcome (tset K * R * origin)),
  misused s ->
  misused right ->
  exec (aset_tm st TwClosure TwClosure MwClosure s right) tr o ->
  longest right < 3 ->
  unbroken tr /\ (exists x : tset K * R * origin, o = Ret x) \/
  unbroken tr /\ hashes_differ tr /\ o = Panic \/
  (exists (tr' : list event) (q : jcalls K unit L unit K unit R), tr = tr' ++ [broke q] /\ unbroken tr' /\ o = Panic).
Proof. exact @misused_set_tm_ends. Qed.
Print Assumptions C62_tm_ends.
(** A constant for two keys is as good as a closure that answers it: the rest of the calls is
    the same, and so is what comes out. *)
Theorem C62_tm_constant :
  forall (E : Env) (K L R : Type) (st : strategy) (wb wl : tway R) (wr : mway R) (c : sres R) (s : tset K) (right : tset L)
    (tr : list event) (o : outcome (tset K * R * origin)),
  tw_says wb = Some c ->
  exec (aset_tm st wb wl wr s right) tr o <->
  (exists tr1 : list event, exec (aset_tm st TwClosure wl wr s right) tr1 o /\ Forall (both_says c) tr1 /\ tr = filter not_both tr1).
Proof. exact @set_tm_constant. Qed.
Print Assumptions C62_tm_constant.
Theorem C62_mt :
  forall (E : Env) (K L R : Type) (s : tset K) (right : tset L) (st : strategy) (tr : list event) (o : outcome (tset L * R * origin)),
  misused s ->
  misused right ->
  exec (aset_mt st TwClosure MwClosure TwClosure s right) tr o ->
  match o with
  | Ret (s', r, og) =>
      misused s' /\
      Permutation (jtold_all tr) (map inl (map_visit s) ++ map inr (map_visit right)) /\
      (og = Right -> s' = right) /\
      (exists (is : list (jitem K unit L unit (sres R) (skres L R) (sres R))) (outs : list (list (L * unit))),
         settled jsee smt_red smt_cost tr is r /\ Forall2 (smt_becomes tr) is outs /\ Permutation (map_visit s') (concat outs))
  | Panic =>
      (jpanicked tr \/ hashes_differ tr) /\
      (exists rest : list (K * unit + L * unit), Permutation (jtold_all tr ++ rest) (map inl (map_visit s) ++ map inr (map_visit right)))
  | Diverge =>
      3 <= longest s /\
      (exists rest : list (K * unit + L * unit), Permutation (jtold_all tr ++ rest) (map inl (map_visit s) ++ map inr (map_visit right)))
  end.
Proof. exact @misused_set_mt. Qed.
Print Assumptions C62_mt.
Theorem C62_mt_unequal :
  forall (E : Env) (K L R : Type) (KK : Key K) (KL : Key L) (s : tset K) (right : tset L) (st : strategy) (tr : list event)
    (o : outcome (tset L * R * origin)),
  unequal s ->
  unequal right ->
  Forall smt_steady tr ->
  exec (aset_mt st TwClosure MwClosure TwClosure s right) tr o ->
  match o with
  | Ret (s', _, _) => unequal s'
  | Panic => jpanicked tr
  | Diverge => 3 <= longest s
  end.
Proof. exact @unequal_set_mt. Qed.
Print Assumptions C62_mt_unequal.
Theorem C62_mt_ends :
  forall (E : Env) (K L R : Type) (s : tset K) (right : tset L) (st : strategy) (tr : list event) (o : outcome (tset L * R * origin)),
  misused s ->
  misused right ->
  exec (aset_mt st TwClosure MwClosure TwClosure s right) tr o ->
  longest s < 3 ->
  unbroken tr /\ (exists x : tset L * R * origin, o = Ret x) \/
  unbroken tr /\ hashes_differ tr /\ o = Panic \/
  (exists (tr' : list event) (q : jcalls K unit L unit L unit R), tr = tr' ++ [broke q] /\ unbroken tr' /\ o = Panic).
Proof. exact @misused_set_mt_ends. Qed.
Print Assumptions C62_mt_ends.
Theorem C62_mt_constant :
  forall (E : Env) (K L R : Type) (st : strategy) (wb : tway R) (wl : mway R) (wr : tway R) (c : sres R) (s : tset K)
    (right : tset L) (tr : list event) (o : outcome (tset L * R * origin)),
  tw_says wb = Some c ->
  exec (aset_mt st wb wl wr s right) tr o <->
  (exists tr1 : list event, exec (aset_mt st TwClosure wl wr s right) tr1 o /\ Forall (both_says c) tr1 /\ tr = filter not_both tr1).
Proof. exact @set_mt_constant. Qed.
Print Assumptions C62_mt_constant.
Theorem C62_mm :
  forall (E : Env) (K L S R : Type) (s : tset K) (right : tset L) (tr : list event) (o : outcome (tset S * R)),
  misused s ->
  misused right ->
  exec (aset_mm MwClosure MwClosure MwClosure s right) tr o ->
  match o with
  | Ret (s', r) =>
      misused s' /\
      Permutation (jtold_all tr) (map inl (map_visit s) ++ map inr (map_visit right)) /\
      (exists (is : list (jitem K unit L unit (skres S R) (skres S R) (skres S R))) (outs : list (list (S * unit))),
         settled jsee smm_red smm_cost tr is r /\ Forall2 (smm_becomes tr) is outs /\ Permutation (map_visit s') (concat outs))
  | Panic =>
      (jpanicked tr \/ hashes_differ tr) /\
      (exists rest : list (K * unit + L * unit), Permutation (jtold_all tr ++ rest) (map inl (map_visit s) ++ map inr (map_visit right)))
  | Diverge =>
      (3 <= longest s \/ 3 <= longest right) /\
      (exists rest : list (K * unit + L * unit), Permutation (jtold_all tr ++ rest) (map inl (map_visit s) ++ map inr (map_visit right)))
  end.
Proof. exact @misused_set_mm. Qed.
Print Assumptions C62_mm.
Theorem C62_mm_unequal :
  forall (E : Env) (K L S R : Type) (KK : Key K) (KL : Key L) (KS : Key S) (s : tset K) (right : tset L) (tr : list event)
    (o : outcome (tset S * R)),
  unequal s ->
  unequal right ->
  Forall smm_steady tr ->
  exec (aset_mm MwClosure MwClosure MwClosure s right) tr o ->
  match o with
  | Ret (s', _) => unequal s'
  | Panic => jpanicked tr
  | Diverge => 3 <= longest s \/ 3 <= longest right
  end.
Proof. exact @unequal_set_mm. Qed.
Print Assumptions C62_mm_unequal.
Theorem C62_mm_ends :
  forall (E : Env) (K L S R : Type) (s : tset K) (right : tset L) (tr : list event) (o : outcome (tset S * R)),
  misused s ->
  misused right ->
  exec (aset_mm MwClosure MwClosure MwClosure s right) tr o ->
  longest s < 3 ->
  longest right < 3 ->
  unbroken tr /\ (exists x : tset S * R, o = Ret x) \/
  unbroken tr /\ hashes_differ tr /\ o = Panic \/
  (exists (tr' : list event) (q : jcalls K unit L unit Empty_set Empty_set R), tr = tr' ++ [broke q] /\ unbroken tr' /\ o = Panic).
Proof. exact @misused_set_mm_ends. Qed.
Print Assumptions C62_mm_ends.
Theorem C62_mm_constant :
  forall (E : Env) (K L R S : Type) (wb wl wr : mway R) (c : skres S R) (s : tset K) (right : tset L) (tr : list event)
    (o : outcome (tset S * R)),
  mw_says wb = Some c ->
  exec (aset_mm wb wl wr s right) tr o <->
  (exists tr1 : list event, exec (aset_mm MwClosure wl wr s right) tr1 o /\ Forall (both_says c) tr1 /\ tr = filter not_both tr1).
Proof. exact @set_mm_constant. Qed.
Print Assumptions C62_mm_constant.
(** [transform_with_transformed]. *)
Theorem C62_tt :
  forall (E : Env) (K R : Type) (s right : tset K) (st : strategy) (tr : list event) (o : outcome (tset K * R * origin)),
  misused s ->
  misused right ->
  exec (aset_tt st JwClosure TwClosure TwClosure s right) tr o ->
  longest s < 2 \/ longest right < 2 ->
  (2 <= longest s -> s_calm_left tr) ->
  (2 <= longest right -> s_calm_right tr) ->
  match o with
  | Ret (s', r, og) =>
      misused s' /\
      Permutation (jtold_all tr) (map inl (map_visit s) ++ map inr (map_visit right)) /\
      (og = Self -> s' = s) /\
      (og = Right -> s' = right) /\
      (exists (is : list (jitem K unit K unit (sbres R) (sres R) (sres R))) (outs : list (list (K * unit))),
         settled jsee stt_red stt_cost tr is r /\ Forall2 (stt_becomes tr) is outs /\ Permutation (map_visit s') (concat outs))
  | Panic =>
      (jpanicked tr \/ hashes_differ tr) /\
      (exists rest : list (K * unit + K * unit), Permutation (jtold_all tr ++ rest) (map inl (map_visit s) ++ map inr (map_visit right)))
  | Diverge => False
  end.
Proof. exact @misused_set_tt. Qed.
Print Assumptions C62_tt.
Theorem C62_tt_unequal :
  forall (E : Env) (K R : Type) (KK : Key K) (s right : tset K) (st : strategy) (tr : list event) (o : outcome (tset K * R * origin)),
  unequal s ->
  unequal right ->
  Forall jsteady tr ->
  exec (aset_tt st JwClosure TwClosure TwClosure s right) tr o ->
  longest s < 2 \/ longest right < 2 ->
  (2 <= longest s -> s_calm_left tr) ->
  (2 <= longest right -> s_calm_right tr) -> match o with
                                             | Ret (s', _, _) => unequal s'
                                             | Panic => jpanicked tr
                                             | Diverge => False
                                             end.
Proof. exact @unequal_set_tt. Qed.
Print Assumptions C62_tt_unequal.
Theorem C62_tt_ends :
  forall (E : Env) (K R : Type) (s right : tset K) (st : strategy) (tr : list event) (o : outcome (tset K * R * origin)),
  misused s ->
  misused right ->
  exec (aset_tt st JwClosure TwClosure TwClosure s right) tr o ->
  longest s < 2 ->
  longest right < 2 ->
  unbroken tr /\ (exists x : tset K * R * origin, o = Ret x) \/
  unbroken tr /\ hashes_differ tr /\ o = Panic \/
  (exists (tr' : list event) (q : jcalls K unit K unit K unit R), tr = tr' ++ [broke q] /\ unbroken tr' /\ o = Panic).
Proof. exact @misused_set_tt_ends. Qed.
Print Assumptions C62_tt_ends.
Theorem C62_tt_sound :
  forall (E : Env) (K R : Type) (s right : tset K) (st : strategy) (wb : jway R) (wl wr : tway R) (tr : list event)
    (o : outcome (tset K * R * origin)),
  misused s ->
  misused right ->
  exec (aset_tt st wb wl wr s right) tr o ->
  match o with
  | Ret (s', _, og) =>
      misused s' /\
      set_size s' = lenN (set_visit s') /\
      Forall (skey_from tr (set_visit s ++ set_visit right)) (set_visit s') /\ (og = Self -> s' = s) /\ (og = Right -> s' = right)
  | Panic => jpanicked tr \/ hashes_differ tr \/ 2 <= longest s /\ 2 <= longest right
  | Diverge => 2 <= longest s /\ 2 <= longest right /\ (3 <= longest s \/ 3 <= longest right)
  end.
Proof. exact @misused_set_tt_sound. Qed.
Print Assumptions C62_tt_sound.
Theorem C62_tt_find :
  forall (E : Env) (K R : Type) (KK : Key K) (L : Type) (KL : Key L) (s right : tset K) (st : strategy) (wb : jway R)
    (wl wr : tway R) (tr : list event) (o : outcome (tset K * R * origin)) (q : L),
  unequal s ->
  unequal right ->
  Forall jsteady tr ->
  exec (aset_tt st wb wl wr s right) tr o ->
  match o with
  | Ret (s', _, _) =>
      unequal s' /\
      ((exists k : K, set_find s' q = Ret (Ok k) /\ In k (set_visit s') /\ cls k = cls q) \/
       set_find s' q = Ret (Err NotFound) /\ (forall k : K, In k (set_visit s') -> cls k <> cls q))
  | Panic => jpanicked tr \/ 2 <= longest s /\ 2 <= longest right
  | Diverge => 2 <= longest s /\ 2 <= longest right /\ (3 <= longest s \/ 3 <= longest right)
  end.
Proof. exact @unequal_set_tt_sound. Qed.
Print Assumptions C62_tt_find.
(** The transfute operations: the key of a new value is a clone of the key it had. *)
Theorem C62_tf :
  forall (E : Env) (K V W R : Type) (m : trie K V) (right : trie K W) (st : strategy) (tr : list event) (o : outcome (trie K V * R * origin)),
  misused m ->
  misused right ->
  exec (ask_tf st TwClosure TwClosure MwClosure m right) tr o ->
  match o with
  | Ret (m', r, og) =>
      misused m' /\
      Permutation (jtold_all tr) (map inl (map_visit m) ++ map inr (map_visit right)) /\
      (og = Self -> m' = m) /\
      (exists (is : list (jitem K V K W (vres V R) (vres V R) (skres V R))) (outs : list (list (K * V))),
         settled jsee tf_red tf_cost tr is r /\ Forall2 (tf_becomes tr) is outs /\ Permutation (map_visit m') (concat outs))
  | Panic =>
      (jpanicked tr \/ hashes_differ tr) /\
      (exists rest : list (K * V + K * W), Permutation (jtold_all tr ++ rest) (map inl (map_visit m) ++ map inr (map_visit right)))
  | Diverge =>
      3 <= longest right /\
      (exists rest : list (K * V + K * W), Permutation (jtold_all tr ++ rest) (map inl (map_visit m) ++ map inr (map_visit right)))
  end.
Proof. exact @misused_tf. Qed.
Print Assumptions C62_tf.
Theorem C62_tf_unequal :
  forall (E : Env) (K V W R : Type) (KK : Key K) (m : trie K V) (right : trie K W) (st : strategy) (tr : list event)
    (o : outcome (trie K V * R * origin)),
  unequal m ->
  unequal right ->
  Forall jsteady tr ->
  exec (ask_tf st TwClosure TwClosure MwClosure m right) tr o ->
  match o with
  | Ret (m', _, _) => unequal m'
  | Panic => jpanicked tr
  | Diverge => 3 <= longest right
  end.
Proof. exact @unequal_tf. Qed.
Print Assumptions C62_tf_unequal.
Theorem C62_tf_ends :
  forall (E : Env) (K V W R : Type) (m : trie K V) (right : trie K W) (st : strategy) (tr : list event) (o : outcome (trie K V * R * origin)),
  misused m ->
  misused right ->
  exec (ask_tf st TwClosure TwClosure MwClosure m right) tr o ->
  longest right < 3 ->
  unbroken tr /\ (exists x : trie K V * R * origin, o = Ret x) \/
  unbroken tr /\ hashes_differ tr /\ o = Panic \/
  (exists (tr' : list event) (q : jcalls K V K W K V R), tr = tr' ++ [broke q] /\ unbroken tr' /\ o = Panic).
Proof. exact @misused_tf_ends. Qed.
Print Assumptions C62_tf_ends.
Theorem C62_ft :
  forall (E : Env) (K V W R : Type) (m : trie K V) (right : trie K W) (st : strategy) (tr : list event) (o : outcome (trie K W * R * origin)),
  misused m ->
  misused right ->
  exec (ask_ft st TwClosure MwClosure TwClosure m right) tr o ->
  match o with
  | Ret (m', r, og) =>
      misused m' /\
      Permutation (jtold_all tr) (map inl (map_visit m) ++ map inr (map_visit right)) /\
      (og = Right -> m' = right) /\
      (exists (is : list (jitem K V K W (vres W R) (skres W R) (vres W R))) (outs : list (list (K * W))),
         settled jsee ft_red ft_cost tr is r /\ Forall2 (ft_becomes tr) is outs /\ Permutation (map_visit m') (concat outs))
  | Panic =>
      (jpanicked tr \/ hashes_differ tr) /\
      (exists rest : list (K * V + K * W), Permutation (jtold_all tr ++ rest) (map inl (map_visit m) ++ map inr (map_visit right)))
  | Diverge =>
      3 <= longest m /\
      (exists rest : list (K * V + K * W), Permutation (jtold_all tr ++ rest) (map inl (map_visit m) ++ map inr (map_visit right)))
  end.
Proof. exact @misused_ft. Qed.
Print Assumptions C62_ft.
Theorem C62_ft_unequal :
  forall (E : Env) (K V W R : Type) (KK : Key K) (m : trie K V) (right : trie K W) (st : strategy) (tr : list event)
    (o : outcome (trie K W * R * origin)),
  unequal m ->
  unequal right ->
  Forall jsteady tr ->
  exec (ask_ft st TwClosure MwClosure TwClosure m right) tr o ->
  match o with
  | Ret (m', _, _) => unequal m'
  | Panic => jpanicked tr
  | Diverge => 3 <= longest m
  end.
Proof. exact @unequal_ft. Qed.
Print Assumptions C62_ft_unequal.
Theorem C62_ft_ends :
  forall (E : Env) (K V W R : Type) (m : trie K V) (right : trie K W) (st : strategy) (tr : list event) (o : outcome (trie K W * R * origin)),
  misused m ->
  misused right ->
  exec (ask_ft st TwClosure MwClosure TwClosure m right) tr o ->
  longest m < 3 ->
  unbroken tr /\ (exists x : trie K W * R * origin, o = Ret x) \/
  unbroken tr /\ hashes_differ tr /\ o = Panic \/
  (exists (tr' : list event) (q : jcalls K V K W K W R), tr = tr' ++ [broke q] /\ unbroken tr' /\ o = Panic).
Proof. exact @misused_ft_ends. Qed.
Print Assumptions C62_ft_ends.

(** * Examples *)
#[local] Existing Instance exE | 100.

(** Every call is numbered; clones and new keys carry the number. *)
Definition ex_qcalls (eq : nat -> bool) (n : nat) (q : call key unit num unit) : option (reply q) :=
  match q return option (reply q) with
  | CEq k q => Some (eq n && (hashk k =? hashk q))
  | CHashQ q => Some (hash_word q)
  | CHash k => Some (hash_word k)
  | CKey k => Some (fst k, snd k + 1000 * N.of_nat n)
  | CValue v => Some v
  | CInto q => Some (num_n q, N.of_nat n)
  | CIntoV w => Some w
  end.
Definition ex_s1 {T} (g : nat -> key -> T) (n : nat) (q : tcalls key unit N) : option (treply key unit T N q) :=
  match q return option (treply key unit T N q) with
  | TOp e => Some (g n (fst e))
  | TReduce _ _ | TDefault => Some (N.of_nat n)
  | TKey k => Some (fst k, snd k + 1000 * N.of_nat n)
  | TValue v => Some v
  end.
Definition ex_sj {KR VL VR K V TB TL TR} (hr : KR -> word) (eq : nat -> bool) (gb : nat -> key * VL -> KR * VR -> TB) (gl : nat -> key * VL -> TL) (gr : nat -> KR * VR -> TR)
  (ck : nat -> K -> K) (cv : nat -> V -> V) (n : nat) (q : jcalls key VL KR VR K V N) : option (jreply key VL KR VR K V TB TL TR N q) :=
  match q return option (jreply key VL KR VR K V TB TL TR N q) with
  | JBoth x y => Some (gb n x y)
  | JLeft x => Some (gl n x)
  | JRight y => Some (gr n y)
  | JReduce _ _ | JDefault => Some (N.of_nat n)
  | JHash k => Some (hash_word k)
  | JHash' k => Some (hr k)
  | JEq _ _ | JEq' _ _ => Some (eq n)
  | JKey k => Some (ck n k)
  | JValue v => Some (cv n v)
  end.
Lemma ex_told {Q : Type} {A : Q -> Type} (tr : list (event (A := A))) : forallb (fun e => match projT2 e with Some _ => true | None => false end) tr = true -> unbroken tr.
Proof. intros H q Hq. rewrite forallb_forall in H. discriminate (H _ Hq). Qed.
Lemma ex_s_unequal : unequal ex_s.
Proof. apply une_reach, ex_s_reach. Qed.
Lemma ex_s2_unequal : unequal ex_s2.
Proof. apply une_reach, ex_s2_reach. Qed.
Lemma ex_sn_unequal : unequal ex_sn.
Proof. apply une_reach, ex_sn_reach. Qed.

Lemma ex_s_misused : misused ex_s.
Proof. apply (mis_reach key unit key_key), ex_s_reach. Qed.
Lemma ex_s2_misused : misused ex_s2.
Proof. apply (mis_reach key unit key_key), ex_s2_reach. Qed.
Lemma ex_sn_misused : misused ex_sn.
Proof. apply (mis_reach num unit _), ex_sn_reach. Qed.

(** [==] says yes to every other call if the hashes are equal: the key for 2 is taken for 0. *)
Definition ex_si := EffMapP.play (ex_qcalls Nat.even) 0 (aset_insert ex_s (Num 0) true).
Definition ex_ff := EffMapP.play (ex_qcalls Nat.even) 0 (aset_find ex_s (Num 0)).
Definition ex_rm := EffMapP.play (ex_qcalls Nat.even) 0 (aset_remove ex_s (Num 0)).
Example C62_query_ex : unequal ex_s /\ longest ex_s = 3 /\
  set_visit ex_s = [(1, 1); (2, 0); (0, 0); (4611686018427387904, 0); (4096, 0); (128, 0); (36, 0)] /\
  exec (aset_find ex_s (Num 0)) (fst ex_ff) (snd ex_ff) /\ snd ex_ff = Ret (Ok (2, 0)) /\
  exec (aset_insert ex_s (Num 0) true) (fst ex_si) (snd ex_si) /\ Forall steady (fst ex_si) /\
  map asked (fst ex_si) = [CHashQ (Num 0); CEq (1, 1) (Num 0); CEq (2, 0) (Num 0); CEq (1, 1) (Num 0); CEq (2, 0) (Num 0); CKey (1, 1); CInto (Num 0)] /\
  (exists s', snd ex_si = Ret (Ok (s', (0, 6), Some (2, 0))) /\ unequal s' /\ set_visit s' = [(0, 6); (1, 5001); (0, 0); (4611686018427387904, 0); (4096, 0); (128, 0); (36, 0)]) /\
  exec (aset_remove ex_s (Num 0)) (fst ex_rm) (snd ex_rm) /\
  exists s', snd ex_rm = Ret (Ok (s', (2, 0))) /\ set_visit s' = [(1, 3001); (0, 0); (4611686018427387904, 0); (4096, 0); (128, 0); (36, 0)].
Proof.
  assert (HS : Forall steady (fst ex_si)). { apply play_forall; [|intros []; exact I]. intros n [k q|q|k|k|v|q|w] a [= <-]; repeat split. cbn. destruct (Nat.even n); [|exact I]. cbn. match goal with |- context [?a =? ?b] => destruct (N.eqb_spec a b); auto end. }
  assert (He : exec (aset_insert ex_s (Num 0) true) (fst ex_si) (snd ex_si)) by exact (EffMapP.play_exec (ex_qcalls Nat.even) (aset_insert ex_s (Num 0) true) 0).
  split; [exact ex_s_unequal|]. do 2 (split; [vm_compute; reflexivity|]).
  split; [exact (EffMapP.play_exec (ex_qcalls Nat.even) (aset_find ex_s (Num 0)) 0)|]. split; [vm_compute; reflexivity|].
  split; [exact He|]. split; [exact HS|]. split; [vm_compute; reflexivity|]. split.
  { eexists. assert (Hx : snd ex_si = Ret (Ok (_, (0, 6), Some (2, 0)))) by (vm_compute; reflexivity). split; [exact Hx|]. split; [|vm_compute; reflexivity].
    rewrite Hx in He. exact (C62_insert_unequal exE key num key_key key_num ex_s (Num 0) true _ _ _ _ ex_s_unequal HS He). }
  split; [exact (EffMapP.play_exec (ex_qcalls Nat.even) (aset_remove ex_s (Num 0)) 0)|]. eexists. split; vm_compute; reflexivity.
Qed.
(** [==] says yes once and no thereafter: [insert] panics. *)
Definition ex_sip := EffMapP.play (ex_qcalls (Nat.eqb 2)) 0 (aset_insert ex_s (Num 0) true).
Example C62_insert_panics_ex : unequal ex_s /\ exec (aset_insert ex_s (Num 0) true) (fst ex_sip) (snd ex_sip) /\ Forall steady (fst ex_sip) /\ snd ex_sip = Panic /\ checked = false /\
  map asked (fst ex_sip) = [CHashQ (Num 0); CEq (1, 1) (Num 0); CEq (2, 0) (Num 0); CEq (1, 1) (Num 0); CEq (2, 0) (Num 0); CEq (0, 0) (Num 0)].
Proof.
  split; [exact ex_s_unequal|]. split; [exact (EffMapP.play_exec (ex_qcalls (Nat.eqb 2)) (aset_insert ex_s (Num 0) true) 0)|].
  split; [|vm_compute; auto]. apply play_forall; [|intros []; exact I]. intros n [k q|q|k|k|v|q|w] a [= <-]; repeat split.
  cbn. match goal with |- context [?x && (?a =? ?b)] => destruct x; cbn; [destruct (N.eqb_spec a b); auto|exact I] end.
Qed.

Definition ex_third (n : nat) (k : key) : sres N := if N.modulo (fst k) 3 =? 2 then SDropped 3000 else SUnchanged (N.of_nat n).
Definition ex_st := EffMapP.play (ex_s1 ex_third) 0 (aset_transform Sequential TwClosure ex_s).
Example C62_transform_ex : unequal ex_s /\ exec (aset_transform Sequential TwClosure ex_s) (fst ex_st) (snd ex_st) /\ unbroken (fst ex_st) /\
  ops_asked (fst ex_st) = [(0, 0, tt); (2, 0, tt); (1, 1, tt); (4611686018427387904, 0, tt); (4096, 0, tt); (128, 0, tt); (36, 0, tt)] /\
  reduces see (fst ex_st) = 19 /\ defaults see (fst ex_st) = 13 /\ clones see (fst ex_st) = [inl (1, 1)] /\
  exists s', snd ex_st = Ret (s', 39, Other) /\ set_visit s' = [(1, 17001); (0, 0); (4611686018427387904, 0); (4096, 0); (36, 0)].
Proof.
  split; [exact ex_s_unequal|]. split; [exact (EffMapP.play_exec (ex_s1 ex_third) (aset_transform Sequential TwClosure ex_s) 0)|].
  split; [apply ex_told; vm_compute; reflexivity|]. do 4 (split; [vm_compute; reflexivity|]). eexists. split; vm_compute; reflexivity.
Qed.
(** The closure panics the fourth time. *)
Definition ex_sbreak (n : nat) (q : tcalls key unit N) : option (treply key unit (sres N) N q) := match q with TOp (4611686018427387904, _, _) => None | _ => ex_s1 ex_third n q end.
Definition ex_sb := EffMapP.play ex_sbreak 0 (aset_transform Sequential TwClosure ex_s).
Example C62_transform_break_ex : exec (aset_transform Sequential TwClosure ex_s) (fst ex_sb) (snd ex_sb) /\ snd ex_sb = Panic /\
  ops_asked (fst ex_sb) = [(0, 0, tt); (2, 0, tt); (1, 1, tt); (4611686018427387904, 0, tt)].
Proof. split; [exact (EffMapP.play_exec ex_sbreak (aset_transform Sequential TwClosure ex_s) 0)|]. vm_compute. auto. Qed.

Definition ex_renum (n : nat) (k : key) : skres num N := if fst k =? 2 then SKDropped 1 else SKTransmuted (Num (fst k)) (N.of_nat n).
Definition ex_sm := EffMapP.play (ex_s1 ex_renum) 0 (aset_transmute MwClosure ex_s).
Example C62_transmute_ex : unequal ex_s /\ exec (aset_transmute MwClosure ex_s) (fst ex_sm) (snd ex_sm) /\ Forall sk_steady (fst ex_sm) /\
  reduces see (fst ex_sm) = 19 /\ defaults see (fst ex_sm) = 13 /\ clones see (fst ex_sm) = [] /\
  exists s', snd ex_sm = Ret (s', 38) /\ unequal s' /\ set_visit s' = map Num [1; 0; 4611686018427387904; 4096; 128; 36].
Proof.
  assert (He : exec (aset_transmute MwClosure ex_s) (fst ex_sm) (snd ex_sm)) by exact (EffMapP.play_exec (ex_s1 ex_renum) (aset_transmute MwClosure ex_s) 0).
  assert (HS : Forall sk_steady (fst ex_sm)).
  { apply play_forall; [|intros []; exact I]. intros n [e|a b| |k|v] x [= <-]; try exact I. cbn. unfold ex_renum. destruct (fst (fst e) =? 2); [exact I|reflexivity]. }
  split; [exact ex_s_unequal|]. split; [exact He|]. split; [exact HS|]. do 3 (split; [vm_compute; reflexivity|]).
  eexists. assert (Hx : snd ex_sm = Ret (_, 38)) by (vm_compute; reflexivity). split; [exact Hx|]. split; [|vm_compute; reflexivity].
  rewrite Hx in He. exact (C62_transmute_unequal exE key num N key_key key_num ex_s MwClosure _ _ _ ex_s_unequal HS He).
Qed.

Definition ex_num (n : nat) (y : num * unit) : skres key N := if num_n (fst y) =? 8 then SKDropped 4000 else SKTransmuted (num_n (fst y), N.of_nat n) 5000.
Definition ex_tag (n : nat) (k : key) : key := (fst k, snd k + 1000 * N.of_nat n).
Definition ex_u (_ : nat) (u : unit) : unit := u.
Definition ex_sf1 := ex_sj hash_word Nat.even (fun n _ _ => SUnchanged (N.of_nat n)) (fun n (x : key * unit) => ex_third n (fst x)) ex_num ex_tag ex_u.
Notation ex_stm_prog := (aset_tm (R := N) MiddleIndex TwClosure TwClosure MwClosure ex_s ex_sn).
Definition ex_stm := EffMapP.play ex_sf1 0 ex_stm_prog.
Example C62_tm_ex : unequal ex_s /\ unequal ex_sn /\ longest ex_s = 3 /\ longest ex_sn = 1 /\ exec ex_stm_prog (fst ex_stm) (snd ex_stm) /\ Forall stm_steady (fst ex_stm) /\ unbroken (fst ex_stm) /\
  jtold_all (fst ex_stm) = [inl (0, 0, tt); inl (2, 0, tt); inr (Num 1, tt); inl (1, 1, tt); inl (4611686018427387904, 0, tt); inl (4096, 0, tt); inr (Num 4097, tt);
    inl (128, 0, tt); inr (Num 8, tt); inr (Num 12, tt); inl (36, 0, tt)] /\
  reduces jsee (fst ex_stm) = 22 /\ defaults jsee (fst ex_stm) = 13 /\ clones jsee (fst ex_stm) = [] /\
  exists s', snd ex_stm = Ret (s', 61, Other) /\ unequal s' /\
    set_visit s' = [(1, 1); (2, 0); (0, 0); (4611686018427387904, 0); (4097, 49); (4096, 0); (12, 58); (36, 0)].
Proof.
  pose proof (EffMapP.play_exec ex_sf1 ex_stm_prog 0 : exec ex_stm_prog (fst ex_stm) (snd ex_stm)) as He.
  assert (HS : Forall stm_steady (fst ex_stm)).
  { apply play_forall; [|intros []; repeat split]. intros n [x y|x|y|x y| |k|k|k l|l k|k|v] a [= <-]; repeat split. unfold ex_num. destruct (_ =? 8); exact I || reflexivity. }
  split; [exact ex_s_unequal|]. split; [exact ex_sn_unequal|]. do 2 (split; [vm_compute; reflexivity|]). split; [exact He|]. split; [exact HS|].
  split; [apply ex_told; vm_compute; reflexivity|]. do 4 (split; [vm_compute; reflexivity|]).
  eexists. assert (Hx : snd ex_stm = Ret (_, 61, Other)) by (vm_compute; reflexivity). split; [exact Hx|]. split; [|vm_compute; reflexivity].
  pose proof (C62_tm_unequal exE key num N key_key key_num ex_s ex_sn MiddleIndex _ _ ex_s_unequal ex_sn_unequal HS He) as HU. rewrite Hx in HU. exact HU.
Qed.
(** With the constant that drops the keys in both sets: the closure is not called for (2, 0). *)
Notation ex_stk_prog := (aset_tm (R := N) MiddleIndex (TwRemoved 9) TwClosure MwClosure ex_s ex_sn).
Definition ex_stk := EffMapP.play ex_sf1 0 ex_stk_prog.
Example C62_tm_constant_ex : tw_says (TwRemoved 9) = Some (SDropped 9) /\ exec ex_stk_prog (fst ex_stk) (snd ex_stk) /\
  jtold_all (fst ex_stk) = [inl (0, 0, tt); inl (1, 1, tt); inl (4611686018427387904, 0, tt); inl (4096, 0, tt); inr (Num 4097, tt);
    inl (128, 0, tt); inr (Num 8, tt); inr (Num 12, tt); inl (36, 0, tt)] /\ clones jsee (fst ex_stk) = [inl (1, 1)] /\
  exists s', snd ex_stk = Ret (s', 61, Other) /\ set_visit s' = [(1, 30001); (0, 0); (4611686018427387904, 0); (4097, 49); (4096, 0); (12, 58); (36, 0)].
Proof.
  split; [reflexivity|]. split; [exact (EffMapP.play_exec ex_sf1 ex_stk_prog 0 : exec ex_stk_prog (fst ex_stk) (snd ex_stk))|].
  do 2 (split; [vm_compute; reflexivity|]). eexists. split; vm_compute; reflexivity.
Qed.

Definition ex_sf2 := ex_sj hash_word Nat.even (fun n _ _ => SDropped (N.of_nat n)) (fun n (x : key * unit) => if fst (fst x) =? 44 then SKDropped 1 else SKTransmuted (Num (fst (fst x))) 2)
  (fun n (y : num * unit) => SUnchanged (N.of_nat n)) (fun _ (k : num) => k) ex_u.
Notation ex_smt_prog := (aset_mt (R := N) Sequential TwClosure MwClosure TwClosure ex_s2 ex_sn).
Definition ex_smt := EffMapP.play ex_sf2 0 ex_smt_prog.
Example C62_mt_ex : unequal ex_s2 /\ unequal ex_sn /\ longest ex_s2 = 2 /\ exec ex_smt_prog (fst ex_smt) (snd ex_smt) /\ Forall smt_steady (fst ex_smt) /\ unbroken (fst ex_smt) /\
  jtold_all (fst ex_smt) = [inl (1, 100, tt); inr (Num 1, tt); inl (3, 103, tt); inl (4097, 201, tt); inr (Num 4097, tt); inl (128, 200, tt);
    inr (Num 8, tt); inr (Num 12, tt); inl (36, 301, tt); inl (44, 300, tt)] /\
  reduces jsee (fst ex_smt) = 11 /\ defaults jsee (fst ex_smt) = 3 /\ clones jsee (fst ex_smt) = [] /\
  exists s', snd ex_smt = Ret (s', 29, Other) /\ unequal s' /\ set_visit s' = map Num [3; 4097; 4097; 128; 8; 12; 36].
Proof.
  pose proof (EffMapP.play_exec ex_sf2 ex_smt_prog 0 : exec ex_smt_prog (fst ex_smt) (snd ex_smt)) as He.
  assert (HS : Forall smt_steady (fst ex_smt)).
  { apply play_forall; [|intros []; repeat split]. intros n [x y|x|y|x y| |k|k|k l|l k|k|v] a [= <-]; repeat split. destruct (_ =? 44); exact I || reflexivity. }
  split; [exact ex_s2_unequal|]. split; [exact ex_sn_unequal|]. split; [vm_compute; reflexivity|]. split; [exact He|]. split; [exact HS|].
  split; [apply ex_told; vm_compute; reflexivity|]. do 4 (split; [vm_compute; reflexivity|]).
  eexists. assert (Hx : snd ex_smt = Ret (_, 29, Other)) by (vm_compute; reflexivity). split; [exact Hx|]. split; [|vm_compute; reflexivity].
  pose proof (C62_mt_unequal exE key num N key_key key_num ex_s2 ex_sn Sequential _ _ ex_s2_unequal ex_sn_unequal HS He) as HU. rewrite Hx in HU. exact HU.
Qed.

Definition ex_sf3 := ex_sj (K := Empty_set) (V := Empty_set) hash_word Nat.odd (fun n (x : key * unit) (y : num * unit) => SKTransmuted (fst x) (N.of_nat n)) (fun n x => SKTransmuted (fst x) 1)
  (fun n y => SKDropped (S := key) 2) (fun _ k => k) (fun _ u => u).
Notation ex_smm_prog := (aset_mm (S := key) (R := N) MwClosure MwClosure MwClosure ex_s2 ex_sn).
Definition ex_smm := EffMapP.play ex_sf3 0 ex_smm_prog.
Example C62_mm_ex : unequal ex_s2 /\ unequal ex_sn /\ longest ex_s2 < 3 /\ longest ex_sn < 3 /\ exec ex_smm_prog (fst ex_smm) (snd ex_smm) /\ Forall smm_steady (fst ex_smm) /\ unbroken (fst ex_smm) /\
  jtold_all (fst ex_smm) = [inl (1, 100, tt); inl (3, 103, tt); inr (Num 1, tt); inl (4097, 201, tt); inr (Num 4097, tt); inl (128, 200, tt);
    inr (Num 8, tt); inr (Num 12, tt); inl (36, 301, tt); inl (44, 300, tt)] /\
  reduces jsee (fst ex_smm) = 11 /\ defaults jsee (fst ex_smm) = 3 /\
  exists s', snd ex_smm = Ret (s', 28) /\ unequal s' /\ set_visit s' = [(3, 103); (1, 100); (4097, 201); (128, 200); (36, 301); (44, 300)].
Proof.
  pose proof (EffMapP.play_exec ex_sf3 ex_smm_prog 0 : exec ex_smm_prog (fst ex_smm) (snd ex_smm)) as He.
  assert (HS : Forall smm_steady (fst ex_smm)).
  { apply play_forall; [|intros [x y|x|y|x y| |k|k|k l|l k|[]|[]]; exact I]. intros n [x y|x|y|x y| |k|k|k l|l k|[]|[]] a [= <-]; try exact I; try reflexivity. left. reflexivity. }
  split; [exact ex_s2_unequal|]. split; [exact ex_sn_unequal|]. do 2 (split; [vm_compute; reflexivity|]). split; [exact He|]. split; [exact HS|].
  split; [apply ex_told; vm_compute; reflexivity|]. do 3 (split; [vm_compute; reflexivity|]).
  eexists. assert (Hx : snd ex_smm = Ret (_, 28)) by (vm_compute; reflexivity). split; [exact Hx|]. split; [|vm_compute; reflexivity].
  pose proof (C62_mm_unequal exE key num key N key_key key_num key_key ex_s2 ex_sn _ _ ex_s2_unequal ex_sn_unequal HS He) as HU. rewrite Hx in HU. exact HU.
Qed.

(** Three keys of one hash on the left, one on the right; [==] says yes to two calls of three. *)
Definition ex_four : tset key := res_of set_new (srun (E := exE) set_new [SInsert (1, 5) false; SInsert (36, 6) false; SInsert (128, 7) false; SInsert (44, 8) false]).
Lemma ex_four_reach : reachable (E := exE) ex_four.
Proof. eapply (srun_reachable [SInsert (1, 5) false; SInsert (36, 6) false; SInsert (128, 7) false; SInsert (44, 8) false]). vm_compute. reflexivity. Qed.
Definition ex_one (n : nat) : bool := negb (Nat.eqb (Nat.modulo n 3) 0).
Definition ex_sf4 := ex_sj hash_word ex_one (fun n (x y : key * unit) => if Nat.even n then SBUnchangedR (N.of_nat n) else SBUnchangedL 4) (fun n (_ : key * unit) => SDropped (N.of_nat n))
  (fun n (_ : key * unit) => SUnchanged (N.of_nat n)) ex_tag ex_u.
Notation ex_stf_prog := (aset_tt (R := N) Sequential JwClosure TwClosure TwClosure ex_s ex_four).
Definition ex_stf := EffMapP.play ex_sf4 0 ex_stf_prog.
Definition s_not_kept (e : event (A := jreply key unit key unit key unit (sbres N) (sres N) (sres N) N)) : Prop :=
  match e with
  | existT _ q a =>
      match q return option (jreply key unit key unit key unit (sbres N) (sres N) (sres N) N q) -> Prop with
      | JLeft _ => fun a => match a with Some (SUnchanged _) => False | _ => True end
      | _ => fun _ => True
      end a
  end.
Example C62_tt_ex : unequal ex_s /\ unequal ex_four /\ longest ex_s = 3 /\ longest ex_four = 1 /\ s_calm_left (fst ex_stf) /\ exec ex_stf_prog (fst ex_stf) (snd ex_stf) /\ Forall jsteady (fst ex_stf) /\ unbroken (fst ex_stf) /\
  jtold_all (fst ex_stf) = [inl (0, 0, tt); inl (2, 0, tt); inl (1, 1, tt); inr (1, 5, tt); inl (4611686018427387904, 0, tt); inl (4096, 0, tt); inl (128, 0, tt); inr (128, 7, tt);
    inl (36, 0, tt); inr (36, 6, tt); inr (44, 8, tt)] /\
  reduces jsee (fst ex_stf) = 20 /\ defaults jsee (fst ex_stf) = 13 /\ clones jsee (fst ex_stf) = [] /\
  exists s', snd ex_stf = Ret (s', 60, Other) /\ unequal s' /\ set_visit s' = [(1, 5); (128, 0); (36, 0); (44, 8)].
Proof.
  pose proof (une_reach _ _ _ _ ex_four_reach) as H2.
  pose proof (EffMapP.play_exec ex_sf4 ex_stf_prog 0 : exec ex_stf_prog (fst ex_stf) (snd ex_stf)) as He.
  assert (HS : Forall jsteady (fst ex_stf)).
  { apply play_forall; [|intros []; exact I]. intros n [x y|x|y|x y| |k|k|k l|l k|k|v] a [= <-]; repeat split. }
  assert (HC : s_calm_left (fst ex_stf)).
  { left. intros x r Hx. assert (HF : Forall s_not_kept (fst ex_stf)).
    { apply play_forall; [|intros []; exact I]. intros n [x' y|x'|y|x' y| |k|k|k l|l k|k|v] a [= <-]; exact I. }
    rewrite Forall_forall in HF. exact (HF _ Hx). }
  split; [exact ex_s_unequal|]. split; [exact H2|]. do 2 (split; [vm_compute; reflexivity|]). split; [exact HC|]. split; [exact He|]. split; [exact HS|].
  split; [apply ex_told; vm_compute; reflexivity|]. do 4 (split; [vm_compute; reflexivity|]).
  eexists. assert (Hx : snd ex_stf = Ret (_, 60, Other)) by (vm_compute; reflexivity). split; [exact Hx|]. split; [|vm_compute; reflexivity].
  pose proof (C62_tt_unequal exE key N key_key ex_s ex_four Sequential _ _ ex_s_unequal H2 HS He) as HU. rewrite Hx in HU. apply HU.
  - right. vm_compute. reflexivity.
  - intros _. exact HC.
  - intros H. vm_compute in H. destruct (H eq_refl).
Qed.
(** Lists of one hash on both sides: a closure is shown the clone of a key. *)
Notation ex_stt_prog := (aset_tt (R := N) Sequential JwClosure TwClosure TwClosure ex_s ex_s2).
Definition ex_stt := EffMapP.play ex_sf4 0 ex_stt_prog.
Example C62_tt_sound_ex : unequal ex_s /\ unequal ex_s2 /\ longest ex_s = 3 /\ longest ex_s2 = 2 /\ exec ex_stt_prog (fst ex_stt) (snd ex_stt) /\ Forall jsteady (fst ex_stt) /\
  set_visit ex_s2 = [(3, 103); (1, 100); (4097, 201); (128, 200); (36, 301); (44, 300)] /\
  jtold_all (fst ex_stt) = [inl (0, 0, tt); inr (3, 26103, tt); inl (2, 0, tt); inr (1, 100, tt); inl (1, 1, tt); inl (4611686018427387904, 0, tt); inl (4096, 0, tt); inr (4097, 201, tt);
    inl (128, 0, tt); inr (128, 200, tt); inl (36, 0, tt); inr (36, 301, tt); inr (44, 300, tt)] /\ clones jsee (fst ex_stt) = [inl (3, 103); inl (2, 0); inl (3, 103)] /\
  exists s', snd ex_stt = Ret (s', 69, Other) /\ set_visit s' = [(2, 33000); (3, 34103); (4097, 201); (128, 200); (36, 301); (44, 300)] /\ set_find s' (Num 3) = Ret (Ok (3, 34103)).
Proof.
  split; [exact ex_s_unequal|]. split; [exact ex_s2_unequal|]. do 2 (split; [vm_compute; reflexivity|]).
  split; [exact (EffMapP.play_exec ex_sf4 ex_stt_prog 0 : exec ex_stt_prog (fst ex_stt) (snd ex_stt))|]. split.
  { apply play_forall; [|intros []; exact I]. intros n [x y|x|y|x y| |k|k|k l|l k|k|v] a [= <-]; repeat split. }
  do 3 (split; [vm_compute; reflexivity|]). eexists. split; [vm_compute; reflexivity|]. split; vm_compute; reflexivity.
Qed.

(** transfute: the key (44, 10) with an even value gets a new value, and its clone keeps it. *)
Definition ex_fw (n : nat) (y : key * N) : skres N N := if N.even (snd y) then SKTransmuted (snd y + N.of_nat n) 4 else SKDropped 5.
Definition ex_sf5 := ex_sj hash_word ex_one (fun n (x y : key * N) => VUnchanged (V := N) 6) (fun n x => ex_some n x) ex_fw ex_tag (fun n v => v + N.of_nat n).
Notation ex_tf_prog := (ask_tf (R := N) Sequential TwClosure TwClosure MwClosure ex_m ex_pick).
Definition ex_tfr := EffMapP.play ex_sf5 0 ex_tf_prog.
Example C62_tf_ex : unequal ex_m /\ unequal ex_pick /\ longest ex_pick < 3 /\ exec ex_tf_prog (fst ex_tfr) (snd ex_tfr) /\ Forall jsteady (fst ex_tfr) /\ unbroken (fst ex_tfr) /\
  jtold_all (fst ex_tfr) = [inl (0, 0, 10); inl (2, 0, 12); inl (1, 1, 17); inr (1, 7, 7); inl (4611686018427387904, 0, 15); inl (4096, 0, 14); inl (128, 0, 13); inr (128, 9, 9);
    inl (36, 0, 18); inr (36, 8, 8); inr (44, 10, 10)] /\
  reduces jsee (fst ex_tfr) = 20 /\ defaults jsee (fst ex_tfr) = 13 /\ clones jsee (fst ex_tfr) = [inl (0, 0); inl (2, 0); inr 12; inl (1, 1); inr 17; inl (44, 10)] /\
  exists m', snd ex_tfr = Ret (m', 66, Other) /\ unequal m' /\
    map_visit m' = [(1, 34001, 52); (2, 30000, 43); (0, 28000, 127); (4611686018427387904, 0, 15); (128, 0, 13); (36, 0, 18); (44, 65010, 74)].
Proof.
  pose proof (une_reach _ _ _ _ ex_reach) as H1. pose proof (une_reach _ _ _ _ ex_pick_reach) as H2.
  pose proof (EffMapP.play_exec ex_sf5 ex_tf_prog 0 : exec ex_tf_prog (fst ex_tfr) (snd ex_tfr)) as He.
  assert (HS : Forall jsteady (fst ex_tfr)).
  { apply play_forall; [|intros []; exact I]. intros n [x y|x|y|x y| |k|k|k l|l k|k|v] a [= <-]; repeat split. }
  split; [exact H1|]. split; [exact H2|]. split; [vm_compute; reflexivity|]. split; [exact He|]. split; [exact HS|].
  split; [apply ex_told; vm_compute; reflexivity|]. do 4 (split; [vm_compute; reflexivity|]).
  eexists. assert (Hx : snd ex_tfr = Ret (_, 66, Other)) by (vm_compute; reflexivity). split; [exact Hx|]. split; [|vm_compute; reflexivity].
  pose proof (C62_tf_unequal exE key N N N key_key ex_m ex_pick Sequential _ _ H1 H2 HS He) as HU. rewrite Hx in HU. exact HU.
Qed.
Definition ex_sf6 := ex_sj hash_word ex_one (fun n (x y : key * N) => VDropped (V := N) 6) ex_fw (fun n y => ex_some n y) ex_tag (fun n v => v + N.of_nat n).
Notation ex_ft_prog := (ask_ft (R := N) MiddleIndex TwClosure MwClosure TwClosure ex_pick ex_m).
Definition ex_ftr := EffMapP.play ex_sf6 0 ex_ft_prog.
Example C62_ft_ex : unequal ex_pick /\ unequal ex_m /\ longest ex_pick < 3 /\ exec ex_ft_prog (fst ex_ftr) (snd ex_ftr) /\ Forall jsteady (fst ex_ftr) /\ unbroken (fst ex_ftr) /\
  jtold_all (fst ex_ftr) = [inr (0, 0, 10); inr (2, 0, 12); inl (1, 7, 7); inr (1, 1, 17); inr (4611686018427387904, 0, 15); inr (4096, 0, 14); inl (128, 9, 9); inr (128, 0, 13);
    inl (36, 8, 8); inr (36, 0, 18); inl (44, 10, 10)] /\
  reduces jsee (fst ex_ftr) = 20 /\ defaults jsee (fst ex_ftr) = 13 /\ clones jsee (fst ex_ftr) = [inl (0, 0); inl (2, 0); inr 12; inl (44, 10)] /\
  exists m', snd ex_ftr = Ret (m', 64, Other) /\ unequal m' /\ map_visit m' = [(2, 30000, 43); (0, 28000, 127); (4611686018427387904, 0, 15); (44, 63010, 72)].
Proof.
  pose proof (une_reach _ _ _ _ ex_reach) as H1. pose proof (une_reach _ _ _ _ ex_pick_reach) as H2.
  pose proof (EffMapP.play_exec ex_sf6 ex_ft_prog 0 : exec ex_ft_prog (fst ex_ftr) (snd ex_ftr)) as He.
  assert (HS : Forall jsteady (fst ex_ftr)).
  { apply play_forall; [|intros []; exact I]. intros n [x y|x|y|x y| |k|k|k l|l k|k|v] a [= <-]; repeat split. }
  split; [exact H2|]. split; [exact H1|]. split; [vm_compute; reflexivity|]. split; [exact He|]. split; [exact HS|].
  split; [apply ex_told; vm_compute; reflexivity|]. do 4 (split; [vm_compute; reflexivity|]).
  eexists. assert (Hx : snd ex_ftr = Ret (_, 64, Other)) by (vm_compute; reflexivity). split; [exact Hx|]. split; [|vm_compute; reflexivity].
  pose proof (C62_ft_unequal exE key N N N key_key ex_pick ex_m MiddleIndex _ _ H2 H1 HS He) as HU. rewrite Hx in HU. exact HU.
Qed.
