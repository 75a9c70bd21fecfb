(** transform and transmute of a set, and find, insert and remove, when no code of the
    client is a function. *)
From Coq Require Import NArith List Bool Permutation Lia.
From Verif Require Import Base Words Flag Bia Node Api Trans Transform Joint JointT Sets Eff EffP EffApi EffMapP EffSet Ask SpecAsk AskT SpecAskT AskTP AskTRun AskJ SpecAskJ Misuse AskTopP AskApiP AskTSumP AskSet SpecAskSet HandleP.
Import ListNotations.
Open Scope N_scope.

Ltac unask H := cbn in H; repeat match type of H with
  | _ \/ _ => destruct H as [H|H]
  | exists a, _ => let a := fresh "a" in destruct H as [a H]
  | _ = _ /\ _ => let E := fresh "E" in destruct H as [E H]; subst; try (cbn in H)
  end.

Definition is_key_clone {K V : Type} (c : K + V) : bool := match c with inl _ => true | inr _ => false end.

Lemma forall2_rel {X Y Z} (rel : X -> Y -> Prop) (P : Y -> Z -> Prop) (G : X -> Z -> Prop) is is' outs :
  (forall i i' out, rel i i' -> P i' out -> G i out) -> Forall2 rel is is' -> Forall2 P is' outs -> Forall2 G is outs.
Proof.
  intros HG HR. revert outs. induction HR as [|i i' is is' Hr _ IH]; intros outs HP; inversion HP as [|? out ? outs' Ho HP' E1 E2]; subst; constructor; eauto.
Qed.

Definition t_told {K V R} (q : tcalls K V R) : list (K * V) := match q with TOp x => [x] | _ => [] end.

(** * transform *)
Section T.
Context {E : Env} {K R : Type}.
Notation sh := (sh_transform (K := K) (R := R)).
Lemma sh_transform_only q : only_asks (sh q).
Proof. destruct q; cbn; auto. Qed.
Lemma sh_transform_told q t o : exec (sh q) t o -> flat_map (fun e => t_told (asked e)) t = t_told q.
Proof. destruct q as [[k []]|a b| |k|v]; intros He; unask He; subst; reflexivity. Qed.

Definition s_rel (i : (K * unit) * sres R) (i' : (K * unit) * vres unit R) : Prop := fst i' = fst i /\ snd i' = vres_of (snd i).
Lemma sh_transform_block q a t : exec (sh q) t (Ret a) -> block s_rel is_key_clone (fun _ => []) (see (answer (A := treply K unit (vres unit R) R) q a)) (map see t).
Proof.
  destruct q as [[k []]|x y| |k|v]; intros He; unask He; subst; try discriminate He; try (injection He as He); subst.
  - exact (bl_op s_rel is_key_clone (fun _ => []) (k, tt, a0) (k, tt, vres_of a0) (conj eq_refl eq_refl)).
  - apply bl_reduce.
  - apply bl_default.
  - apply bl_clone. reflexivity.
  - apply bl_silent. reflexivity.
Qed.

Lemma aset_transform_map st w (s : tset K) tr o : exec (aset_transform (R := R) st w s) tr o -> exists tr', exec (ask_transform st w s) tr' o /\ spread sh tr' tr.
Proof. apply exec_handle, sh_transform_only. Qed.

Lemma s_becomes_rel tr' tr i i' out : spread sh tr' tr -> s_rel i i' -> vbecomes tr' i' out -> s_becomes tr i out.
Proof.
  intros HS [H1 H2]. unfold vbecomes, s_becomes. rewrite H1, H2. destruct (snd i) as [r|r]; cbn [vres_of]; [|auto]. intros [->|(k & v & Hk & _ & ->)]; [auto|].
  right. exists k. destruct v. split; [|reflexivity]. destruct (spread_answer _ _ _ _ _ HS Hk) as (t & Ht & Hi). unask Ht; subst; [|discriminate Ht].
  injection Ht as Ht. subst. apply Hi. left. reflexivity.
Qed.

Lemma misused_set_transform (s : tset K) st tr (o : outcome (tset K * R * origin)) : misused s -> exec (aset_transform st TwClosure s) tr o ->
  match o with
  | Ret (s', r, og) => misused s' /\ exists is outs, map fst is = map_visit s /\ settled see s_red s_cost tr is r /\
      Forall2 (s_becomes tr) is outs /\ map_visit s' = concat outs /\
      og = (if forallb s_kept is then Self else Other) /\ (og = Self -> s' = s /\ clones see tr = [])
  | Panic => panicked tr /\ exists rest, Permutation (ops_asked tr ++ rest) (map_visit s)
  | Diverge => False
  end.
Proof.
  intros Hm He. apply aset_transform_map in He as (tr' & He & HS). pose proof (misused_transform _ _ _ _ Hm He) as Ho.
  assert (HT : ops_asked tr = ops_asked tr') by exact (spread_told _ t_told t_told sh_transform_told _ _ HS).
  destruct o as [[[s' r] og]| |]; [| |exact Ho].
  - split; [exact (mis_transform _ _ _ _ _ _ _ _ _ _ Hm He)|]. destruct Ho as (is' & outs & H1 & H2 & H3 & H4 & H5 & H6).
    assert (HU : unbroken tr') by (intros q Hq; discriminate (exec_broke _ _ _ _ He Hq)).
    destruct (spread_settled sh see see s_rel is_key_clone (fun _ => []) sh_transform_block s_red vred s_cost vcost tr' tr is' r) as (is & HR & H2'); try assumption.
    { intros [x o] [x' o'] [R1 R2]. cbn in R1, R2. subst. destruct o; cbn; split; auto. }
    exists is, outs. split; [rewrite <- H1; clear - HR; induction HR as [|i i' is is' [Hr _] _ IH]; cbn; congruence|]. split; [exact H2'|].
    split; [exact (forall2_rel _ _ _ _ _ _ (fun i i' out => s_becomes_rel tr' tr i i' out HS) HR H3)|]. split; [exact H4|]. split.
    + rewrite H5. replace (forallb s_kept is) with (forallb kept is'); [reflexivity|]. clear - HR.
      induction HR as [|i i' is is' [_ Hr] _ IH]; cbn; [reflexivity|]. rewrite IH. unfold kept, s_kept. rewrite Hr. destruct (snd i); reflexivity.
    + intros Hg. destruct (H6 Hg) as [Hs Hc]. split; [exact Hs|].
      destruct (spread_books sh see see s_rel is_key_clone (fun _ => []) sh_transform_block _ _ HS HU) as (_ & _ & _ & B). rewrite Hc in B. cbn in B.
      assert (Hn : forall l : list (K * unit * sres R), flat_map (fun _ => [] : list (K + unit)) l = []) by (intros l; induction l; auto). rewrite Hn in B.
      apply Permutation_sym, Permutation_nil in B. exact B.
  - destruct Ho as [(q & Hq) (rest & HP)]. split; [exact (spread_broke _ sh_transform_only _ _ _ HS Hq)|]. exists rest. rewrite HT. exact HP.
Qed.

Lemma misused_set_transform_ends (s : tset K) st (w : tway R) tr o : misused s -> exec (aset_transform st w s) tr o ->
  (unbroken tr /\ exists x, o = Ret x) \/ (exists tr' q, tr = tr' ++ [broke q] /\ unbroken tr' /\ o = Panic).
Proof.
  intros Hm He. apply aset_transform_map in He as (tr' & He & HS). destruct (misused_transform_ends _ _ _ _ _ Hm He) as [[HU Hx]|(tr1 & q & -> & HU & ->)].
  - left. split; [exact (spread_unbroken _ sh_transform_only _ _ HS HU)|exact Hx].
  - right. destruct (spread_last _ sh_transform_only _ _ _ HS HU) as (tr2 & q' & -> & HU'). eauto.
Qed.

Lemma unequal_set_transform {KK : Key K} (s : tset K) st (w : tway R) tr s' r og : unequal s -> Forall clone_steady tr -> exec (aset_transform st w s) tr (Ret (s', r, og)) -> unequal s'.
Proof.
  intros Hm HF He. apply aset_transform_map in He as (tr' & He & HS). refine (une_transform _ _ _ _ _ _ _ _ _ _ _ Hm _ He).
  apply Forall_forall. intros [q [a|]] Hi; [|destruct q; exact I]. destruct (spread_answer _ _ _ _ _ HS Hi) as (t & Ht & Hi').
  rewrite Forall_forall in HF. destruct q as [x|x y| |k|v]; try exact I. unask Ht; subst; [|discriminate Ht]. injection Ht as Ht. subst.
  exact (HF _ (Hi' _ (or_introl eq_refl))).
Qed.

Lemma set_transform_constant st (s : tset K) (w : tway R) tr o : exec (aset_transform st w s) tr o ->
  match w with
  | TwClosure => True
  | TwUnchanged r => tr = [] /\ o = Ret (s, r, Self)
  | TwRemoved r => tr = [] /\ o = Ret (map_new, r, Other)
  end.
Proof.
  intros He. apply aset_transform_map in He as (tr' & He & HS). pose proof (ask_transform_const _ _ _ _ _ He) as Ho.
  destruct w; [exact I| |]; destruct Ho as [-> ->]; cbn in HS; auto.
Qed.
End T.

(** * transmute *)
Section M.
Context {E : Env} {K S R : Type}.
Notation sh := (sh_transmute (K := K) (S := S) (R := R)).
Lemma sh_transmute_only q : only_asks (sh q).
Proof. destruct q; cbn; auto. Qed.
Lemma sh_transmute_told q t o : exec (sh q) t o -> flat_map (fun e => t_told (asked e)) t = t_told q.
Proof. destruct q as [[k []]|a b| |k|v]; intros He; unask He; subst; reflexivity. Qed.

Definition sk_rel (i : (K * unit) * skres S R) (i' : (K * unit) * kres S unit R) : Prop := fst i' = fst i /\ snd i' = kres_of (snd i).
Lemma sh_transmute_block q a t : exec (sh q) t (Ret a) -> block sk_rel is_key_clone (fun _ => []) (see (answer (A := treply K unit (kres S unit R) R) q a)) (map see t).
Proof.
  destruct q as [[k []]|x y| |k|v]; intros He; unask He; subst; try discriminate He; try (injection He as He); subst.
  - exact (bl_op sk_rel is_key_clone (fun _ => []) (k, tt, a0) (k, tt, kres_of a0) (conj eq_refl eq_refl)).
  - apply bl_reduce.
  - apply bl_default.
  - apply bl_clone. reflexivity.
  - apply bl_silent. reflexivity.
Qed.

Lemma aset_transmute_map w (s : tset K) tr o : exec (aset_transmute (S := S) (R := R) w s) tr o -> exists tr', exec (ask_transmute w s) tr' o /\ spread sh tr' tr.
Proof. apply exec_handle, sh_transmute_only. Qed.

Lemma misused_set_transmute (s : tset K) tr (o : outcome (tset S * R)) : misused s -> exec (aset_transmute MwClosure s) tr o ->
  match o with
  | Ret (s', r) => misused s' /\ exists is, map fst is = map_visit s /\ settled see sk_red sk_cost tr is r /\ map_visit s' = flat_map sk_becomes is
  | Panic => panicked tr /\ exists rest, Permutation (ops_asked tr ++ rest) (map_visit s)
  | Diverge => False
  end.
Proof.
  intros Hm He. apply aset_transmute_map in He as (tr' & He & HS). pose proof (misused_transmute _ _ _ Hm He) as Ho.
  assert (HT : ops_asked tr = ops_asked tr') by exact (spread_told _ t_told t_told sh_transmute_told _ _ HS).
  destruct o as [[s' r]| |]; [| |exact Ho].
  - split; [exact (mis_transmute _ _ _ _ _ _ _ _ _ _ Hm He)|]. destruct Ho as (is' & H1 & H2 & H3).
    assert (HU : unbroken tr') by (intros q Hq; discriminate (exec_broke _ _ _ _ He Hq)).
    destruct (spread_settled sh see see sk_rel is_key_clone (fun _ => []) sh_transmute_block sk_red kred sk_cost kcost tr' tr is' r) as (is & HR & H2'); try assumption.
    { intros [x o] [x' o'] [R1 R2]. cbn in R1, R2. subst. destruct o; cbn; split; auto. }
    exists is. split; [rewrite <- H1; clear - HR; induction HR as [|i i' is is' [Hr _] _ IH]; cbn; congruence|]. split; [exact H2'|].
    rewrite H3. clear - HR. induction HR as [|i i' is is' [_ Hr] _ IH]; cbn; [reflexivity|]. rewrite IH. f_equal. unfold kbecomes, sk_becomes. rewrite Hr. destruct (snd i); reflexivity.
  - destruct Ho as [(q & Hq) (rest & HP)]. split; [exact (spread_broke _ sh_transmute_only _ _ _ HS Hq)|]. exists rest. rewrite HT. exact HP.
Qed.

Lemma misused_set_transmute_ends (s : tset K) (w : mway R) tr (o : outcome (tset S * R)) : misused s -> exec (aset_transmute w s) tr o ->
  (unbroken tr /\ exists x, o = Ret x) \/ (exists tr' q, tr = tr' ++ [broke q] /\ unbroken tr' /\ o = Panic).
Proof.
  intros Hm He. apply aset_transmute_map in He as (tr' & He & HS). destruct (misused_transmute_ends _ _ _ _ Hm He) as [[HU Hx]|(tr1 & q & -> & HU & ->)].
  - left. split; [exact (spread_unbroken _ sh_transmute_only _ _ HS HU)|exact Hx].
  - right. destruct (spread_last _ sh_transmute_only _ _ _ HS HU) as (tr2 & q' & -> & HU'). eauto.
Qed.

Lemma unequal_set_transmute {KK : Key K} {KS : Key S} (s : tset K) (w : mway R) tr (s' : tset S) r : unequal s -> Forall sk_steady tr -> exec (aset_transmute w s) tr (Ret (s', r)) -> unequal s'.
Proof.
  intros Hm HF He. apply aset_transmute_map in He as (tr' & He & HS). refine (une_transmute _ _ _ _ _ _ _ _ _ _ _ _ Hm _ He).
  apply Forall_forall. intros [q [a|]] Hi; [|destruct q; exact Logic.I]. destruct (spread_answer _ _ _ _ _ HS Hi) as (t & Ht & Hi').
  rewrite Forall_forall in HF. destruct q as [[k []]|x y| |k|v]; try exact Logic.I. unask Ht; subst; [|discriminate Ht]. injection Ht as Ht. subst.
  pose proof (HF _ (Hi' _ (or_introl eq_refl))) as H1. cbn in H1 |- *. destruct a0; exact H1.
Qed.

Lemma set_transmute_constant (s : tset K) (w : mway R) tr (o : outcome (tset S * R)) : exec (aset_transmute w s) tr o ->
  match w with MwClosure => True | MwRemoved r => tr = [] /\ o = Ret (map_new, r) end.
Proof.
  intros He. apply aset_transmute_map in He as (tr' & He & HS). pose proof (ask_transmute_const _ _ _ _ He) as Ho.
  destruct w; [exact Logic.I|]; destruct Ho as [-> ->]; cbn in HS; auto.
Qed.
End M.

(** * find, insert and remove *)
Section Query.
Context {E : Env} {K L : Type}.
Notation sh := (sh_query (K := K) (L := L)).
Notation event := (event (A := @reply E K unit L unit)).
Lemma sh_query_only q : only_asks (sh q).
Proof. destruct q; cbn; auto. Qed.
(** The client's calls. *)
Definition theirs (e : event) : bool := match asked e with CValue _ | CIntoV _ => false | _ => true end.
Lemma spread_query tr' : forall tr, spread sh tr' tr -> tr = filter theirs tr'.
Proof.
  induction tr' as [|[q [a|]] tr' IH]; intros tr HS; cbn [spread] in HS; [exact HS| |].
  - destruct HS as (t & tr2 & -> & Ht & HS). rewrite (IH _ HS). destruct q; unask Ht; subst; try discriminate Ht; try (injection Ht as Ht); subst; reflexivity.
  - destruct HS as [-> Ht]. destruct q; unask Ht; subst; try discriminate Ht; reflexivity.
Qed.
Lemma query_map {X} (p : prog (@reply E K unit L unit) X) tr o : exec (handle sh p) tr o -> exists tr', exec p tr' o /\ spread sh tr' tr /\ tr = filter theirs tr'.
Proof. intros He. apply exec_handle in He as (tr' & He & HS); [|exact sh_query_only]. eauto using spread_query. Qed.
Lemma theirs_in e (tr' : list event) : theirs e = true -> In e tr' -> In e (filter theirs tr').
Proof. intros H1 H2. apply filter_In. auto. Qed.
Lemma theirs_forall (P : event -> Prop) tr' : Forall P tr' -> Forall P (filter theirs tr').
Proof. rewrite !Forall_forall. intros H x Hx. apply H. apply filter_In in Hx. apply Hx. Qed.
Lemma theirs_failed tr' tr : spread sh tr' tr -> failed tr' -> failed tr.
Proof. intros HS [q Hq]. exact (spread_broke _ sh_query_only _ _ _ HS Hq). Qed.
Lemma copied_keys tr' l l' : Forall2 (copied tr') l l' -> Forall2 (key_copied (filter theirs tr')) (map fst l) (map fst l').
Proof.
  induction 1 as [|e e' l l' H _ IH]; cbn; constructor; [|exact IH]. destruct H as [->|[H _]]; [left; reflexivity|]. right. apply theirs_in; [reflexivity|exact H].
Qed.

Lemma bind_map {X Y} (p : prog (@reply E K unit L unit) X) (f : X -> Y) tr o : exec (let+ x := p in PRet (f x)) tr o ->
  exists o', exec p tr o' /\ o = match o' with Ret x => Ret (f x) | Panic => Panic | Diverge => Diverge end.
Proof.
  intros He. apply exec_bind in He as [(t & t2 & x & -> & He & He2)|[[He ->]|[He ->]]]; [|exists Panic; auto|exists Diverge; auto].
  cbn in He2. destruct He2 as [-> ->]. rewrite app_nil_r. exists (Ret x). auto.
Qed.

Lemma misused_set_find (s : tset K) (q : L) tr o : misused s -> exec (aset_find s q) tr o ->
  match o with
  | Ret (Ok k) => In k (set_visit s) /\ exists tr1, tr = tr1 ++ [answer (CEq k q) true] /\ no_yes tr1
  | Ret (Err _) => no_yes tr
  | Panic => failed tr
  | Diverge => False
  end.
Proof.
  intros Hm He. apply bind_map in He as (o' & He & ->). apply query_map in He as (tr' & He & HS & ->). pose proof (misused_find _ _ _ _ Hm He) as Ho.
  destruct o' as [[[k u]|e]| |]; [| | |exact Ho].
  - destruct Ho as [H1 (tr1 & -> & H2)]. split; [exact (in_map fst _ _ H1)|]. exists (filter theirs tr1). rewrite filter_app. split; [reflexivity|]. apply theirs_forall, H2.
  - apply theirs_forall, Ho.
  - exact (theirs_failed _ _ HS Ho).
Qed.

Lemma misused_set_remove (s : tset K) (q : L) tr o : misused s -> exec (aset_remove s q) tr o ->
  match o with
  | Ret (Ok (s', k)) => misused s' /\ no_into tr /\ In (answer (CEq k q) true) tr /\
      exists l l', Permutation (set_visit s) (k :: l) /\ Forall2 (key_copied tr) l l' /\ Permutation (set_visit s') l'
  | Ret (Err _) => no_yes tr /\ no_into tr
  | Panic => failed tr \/ checked = true
  | Diverge => False
  end.
Proof.
  intros Hm He. apply bind_map in He as (o' & He & ->). apply query_map in He as (tr' & He & HS & ->). pose proof (misused_remove _ _ _ _ Hm He) as Ho.
  destruct o' as [[[s' [k u]]|e]| |]; [| | |exact Ho].
  - split; [exact (mis_remove _ _ _ _ _ _ _ _ _ Hm He)|]. destruct Ho as (H1 & H2 & l & l' & P1 & P2 & P3). split; [apply theirs_forall, H1|]. split; [apply theirs_in; [reflexivity|exact H2]|].
    exists (map fst l), (map fst l'). split; [exact (Permutation_map fst P1)|]. split; [apply copied_keys, P2|exact (Permutation_map fst P3)].
  - destruct Ho. split; apply theirs_forall; assumption.
  - destruct Ho as [Ho|Ho]; [left; exact (theirs_failed _ _ HS Ho)|auto].
Qed.

Lemma misused_set_insert (s : tset K) (q : L) replace tr o : misused s -> exec (aset_insert s q replace) tr o ->
  match o with
  | Ret (Ok (s', k, prev)) => misused s' /\ (replace = false -> prev = None) /\
      (exists tr1, tr = tr1 ++ [answer (A := reply) (CInto q) k] /\ no_into tr1) /\
      match prev with Some p => In (answer (CEq p q) true) tr | None => no_yes tr end /\
      exists l l', Permutation (set_visit s) (match prev with Some p => [p] | None => [] end ++ l) /\ Forall2 (key_copied tr) l l' /\ Permutation (set_visit s') (k :: l')
  | Ret (Err k) => replace = false /\ In k (set_visit s) /\
      exists tr1, tr = tr1 ++ [answer (CEq k q) true] /\ no_yes tr1 /\ no_into tr1
  | Panic => failed tr \/ checked = true \/
      (exists k, In (answer (CEq k q) true) tr /\ In (answer (CEq k q) false) tr) \/
      (exists h k h', In (answer (CHashQ q) h) tr /\ In (answer (CHash k) h') tr /\ proj1_sig h' <> proj1_sig h) \/
      8 * max_ones hw <= branches s * log_b fw
  | Diverge => False
  end.
Proof.
  intros Hm He. apply bind_map in He as (o' & He & ->). apply query_map in He as (tr' & He & HS & ->). pose proof (misused_insert _ _ _ _ _ _ Hm He) as Ho.
  destruct o' as [[[[s' [k u]] prev]|[k u]]| |]; [| | |exact Ho].
  - split; [exact (mis_insert _ _ _ _ _ _ _ _ _ _ _ _ Hm He)|]. destruct Ho as (H1 & (tr1 & -> & H2) & H3 & l & l' & P1 & P2 & P3).
    split; [intros Hr; rewrite (H1 Hr); reflexivity|]. split; [exists (filter theirs tr1); rewrite filter_app; split; [reflexivity|apply theirs_forall, H2]|].
    split; [destruct prev as [[k' u']|]; cbn [option_map]; [apply theirs_in; [reflexivity|exact H3]|apply theirs_forall, H3]|].
    exists (map fst l), (map fst l'). split; [|split; [apply copied_keys, P2|exact (Permutation_map fst P3)]].
    pose proof (Permutation_map fst P1) as P. destruct prev as [[k' u']|]; exact P.
  - destruct Ho as (H1 & H2 & tr1 & -> & H3 & H4). split; [exact H1|]. split; [exact (in_map fst _ _ H2)|]. exists (filter theirs tr1). rewrite filter_app.
    split; [reflexivity|]. split; apply theirs_forall; assumption.
  - destruct Ho as [Ho|[Ho|[(k & H1 & H2)|[(h & k & h' & H1 & H2 & H3)|Ho]]]]; auto.
    + left. exact (theirs_failed _ _ HS Ho).
    + right. right. left. exists k. split; (apply theirs_in; [reflexivity|assumption]).
    + right. right. right. left. exists h, k, h'. split; [|split]; try (apply theirs_in; [reflexivity|assumption]); exact H3.
Qed.

Lemma count_filter (p : call K unit L unit -> bool) tr' : (forall c, match c with CValue _ | CIntoV _ => p c = false | _ => True end) -> count p (filter theirs tr') = count p tr'.
Proof.
  intros Hp. unfold count. f_equal. f_equal. induction tr' as [|e tr' IH]; [reflexivity|]. cbn [filter]. destruct (theirs e) eqn:Ht; cbn [filter]; rewrite IH; [reflexivity|].
  pose proof (Hp (asked e)) as H. unfold theirs in Ht. destruct (asked e); try discriminate Ht; rewrite H; reflexivity.
Qed.
End Query.

Section Calls.
Context {E : Env} {K L : Type}.
Notation event := (event (A := @reply E K unit L unit)).
Lemma no_values (tr' : list event) : count is_value (filter theirs tr') = 0.
Proof.
  unfold count. induction tr' as [|e tr' IH]; [reflexivity|]. cbn [filter]. destruct (theirs e) eqn:Ht; [|exact IH]. cbn [filter].
  unfold theirs in Ht. destruct (asked e); try discriminate Ht; exact IH.
Qed.
Lemma no_intos (tr' : list event) : count is_into tr' = 0 -> count is_into (filter theirs tr') = 0.
Proof.
  unfold count. induction tr' as [|e tr' IH]; [reflexivity|]. cbn [filter]. destruct (theirs e) eqn:Ht; cbn [filter]; destruct (is_into (asked e)); auto; discriminate.
Qed.
Lemma set_find_spends (s : tset K) (q : L) tr o : exec (aset_find s q) tr o ->
  count is_hash_q tr = 1 /\ count is_eq tr <= longest s /\ count is_hash tr = 0 /\ count is_key tr = 0 /\ count is_value tr = 0 /\ count is_into tr = 0.
Proof.
  intros He. apply bind_map in He as (o' & He & ->). apply query_map in He as (tr' & He & _ & ->). destruct (ask_find_spends _ _ _ _ He) as (H1 & H2 & H3 & H4 & H5 & H6).
  rewrite no_values, (no_intos _ H6), !count_filter by (intros []; cbn; auto). repeat split; assumption.
Qed.
Lemma set_remove_spends (s : tset K) (q : L) tr o : exec (aset_remove s q) tr o ->
  count is_hash_q tr = 1 /\ count is_eq tr <= longest s /\ count is_hash tr = 0 /\ count is_key tr <= longest s - 1 /\ count is_value tr = 0 /\ count is_into tr = 0.
Proof.
  intros He. apply bind_map in He as (o' & He & ->). apply query_map in He as (tr' & He & _ & ->). destruct (ask_remove_spends _ _ _ _ He) as (H1 & H2 & H3 & H4 & H5 & H6).
  rewrite no_values, (no_intos _ H6), !count_filter by (intros []; cbn; auto). repeat split; assumption.
Qed.
Lemma set_insert_spends (s : tset K) (q : L) rep tr o : exec (aset_insert s q rep) tr o ->
  count is_hash_q tr = 1 /\ count is_eq tr <= 2 * longest s /\ count is_hash tr <= 1 /\ count is_key tr <= longest s - 1 /\ count is_value tr = 0.
Proof.
  intros He. apply bind_map in He as (o' & He & ->). apply query_map in He as (tr' & He & _ & ->). destruct (ask_insert_spends _ _ _ _ _ _ He) as (H1 & H2 & H3 & H4 & H5 & H6).
  rewrite no_values, !count_filter by (intros []; cbn; auto). repeat split; assumption.
Qed.

(** While the hashes are in order they stay so. *)
Lemma unequal_query {KK : Key K} {KL : Key L} tr' : Forall steady (filter theirs tr') -> Forall (steady (E := E) (K := K) (V := unit) (L := L) (W := unit)) tr'.
Proof.
  intros HF. rewrite Forall_forall in *. intros [c a] Hi. destruct c; try (destruct a; exact I); apply HF, theirs_in; auto.
Qed.
Lemma unequal_set_insert {KK : Key K} {KL : Key L} (s : tset K) (q : L) rep tr s' k prev : unequal s -> Forall steady tr ->
  exec (aset_insert s q rep) tr (Ret (Ok (s', k, prev))) -> unequal s'.
Proof.
  intros Hm HF He. apply bind_map in He as (o' & He & Ho). apply query_map in He as (tr' & He & _ & ->). destruct o' as [[[[s1 [k1 u]] prev1]|[k1 u]]| |]; try discriminate Ho.
  injection Ho as -> _ _. exact (une_insert _ _ _ _ _ _ _ _ _ _ _ _ _ _ Hm (unequal_query _ HF) He).
Qed.
Lemma unequal_set_remove {KK : Key K} {KL : Key L} (s : tset K) (q : L) tr s' k : unequal s -> Forall steady tr ->
  exec (aset_remove s q) tr (Ret (Ok (s', k))) -> unequal s'.
Proof.
  intros Hm HF He. apply bind_map in He as (o' & He & Ho). apply query_map in He as (tr' & He & _ & ->). destruct o' as [[[s1 [k1 u]]|e]| |]; try discriminate Ho.
  injection Ho as -> _. exact (une_remove _ _ _ _ _ _ _ _ _ _ _ Hm (unequal_query _ HF) He).
Qed.
Lemma unequal_set_insert_panics {KK : Key K} {KL : Key L} (s : tset K) (q : L) rep tr : unequal s ->
  exec (aset_insert s q rep) tr Panic -> Forall steady tr -> checked = false ->
  failed tr \/ exists k, In (answer (CEq k q) true) tr /\ In (answer (CEq k q) false) tr.
Proof.
  intros Hm He HF Hc. apply bind_map in He as (o' & He & Ho). apply query_map in He as (tr' & He & HS & ->). destruct o' as [r| |]; try discriminate Ho.
  destruct (unequal_insert_panics _ _ _ _ _ Hm He (unequal_query _ HF) Hc) as [H|(k & H1 & H2)]; [left; exact (theirs_failed _ _ HS H)|].
  right. exists k. split; (apply theirs_in; [reflexivity|assumption]).
Qed.
End Calls.
