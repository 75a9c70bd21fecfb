(** Sets and transfute: calls and results with any closures. *)
From Coq Require Import NArith Arith List Bool Lia Permutation.
From Verif Require Import Base Words Flag Bia Node Spec SpecP Inv Api ApiP Trans Transform Joint JointT SpecT SpecJ JoinP Reach ReachP
  MapP TransMapP JointMapP Sets SetP Eff EffT EffJ EffP EffTP EffJRun EffJP EffApi EffMapP EffOrdP EffSumP EffSet.
Import ListNotations.
Open Scope N_scope.

(** * Wrapped closures *)
Section Wrap.
Context {Q : Type} {A : Q -> Type}.

Lemma spends_then {X Y} l (p : prog A X) (c : X -> Y) : spends l p -> spends l (pbind p (fun o => PRet (c o))).
Proof. intros H. rewrite <- (app_nil_r l). apply spends_bind; [exact H|]. intros x. apply spends_ret. Qed.
Lemma run_then {X Y} f (p : prog A X) (c : X -> Y) x : run f p = Ret x -> run f (pbind p (fun o => PRet (c o))) = Ret (c x).
Proof. intros H. rewrite run_bind, H. reflexivity. Qed.

Lemma es_call_spends {I R} (w : tway R) (g : I -> prog A (sres R)) (c : I -> Q) i : (forall i, spends [c i] (g i)) -> spends (tw_calls w (c i)) (es_call w g i).
Proof. intros H. destruct w; cbn; [apply H|apply spends_ret..]. Qed.
Lemma es_mcall_spends {I S R} (w : mway R) (g : I -> prog A (skres S R)) (c : I -> Q) i : (forall i, spends [c i] (g i)) -> spends (mw_calls w (c i)) (es_mcall w g i).
Proof. intros H. destruct w; cbn; [apply H|apply spends_ret]. Qed.
Lemma es_call_run {I R} f (w : tway R) (g : I -> prog A (sres R)) h i : (forall i, run f (g i) = Ret (h i)) -> run f (es_call w g i) = Ret (stcall (stw_fun w h) i).
Proof. intros H. destruct w; cbn; [apply H|reflexivity..]. Qed.
Lemma es_mcall_run {I S R} f (w : mway R) (g : I -> prog A (skres S R)) h i : (forall i, run f (g i) = Ret (h i)) -> run f (es_mcall w g i) = Ret (smcall (smw_fun w h) i).
Proof. intros H. destruct w; cbn; [apply H|reflexivity]. Qed.

(** What the wrapped operations cost. *)
Lemma es_t_cost {K R} (w : tway R) (g : K -> prog A (sres R)) (c : K -> Q) : (forall k, spends [c k] (g k)) ->
  tcost (fun e : K * unit => tw_calls w (c (fst e))) (tw_op w (es_transform g)).
Proof. intros H. refine (tw_cost w _ (fun e : K * unit => c (fst e)) _). intros e. apply spends_then, H. Qed.
Lemma es_m_cost {K S R} (w : mway R) (g : K -> prog A (skres S R)) (c : K -> Q) : (forall k, spends [c k] (g k)) ->
  mcost (fun e : K * unit => mw_calls w (c (fst e))) (mw_op w (es_transmute g)).
Proof. intros H. refine (mw_cost w _ (fun e : K * unit => c (fst e)) _). intros e. apply spends_then, H. Qed.
Lemma es_j_cost {K R} (w : jway R) (g : K -> K -> prog A (sbres R)) (c : K -> K -> Q) : (forall k k', spends [c k k'] (g k k')) ->
  jcost (fun e e' : K * unit => jw_calls w (c (fst e) (fst e'))) (jw_op w (es_joint g)).
Proof. intros H. refine (jw_cost w _ (fun e e' : K * unit => c (fst e) (fst e')) _). intros e e'. apply spends_then, H. Qed.
Lemma ef_m_cost {K V W R} (w : mway R) (g : K * W -> prog A (skres V R)) (c : K * W -> Q) : (forall e, spends [c e] (g e)) ->
  mcost (fun e => mw_calls w (c e)) (mw_op w (ef_transmute g)).
Proof. intros H. refine (mw_cost w _ c _). intros e. apply spends_then, H. Qed.

(** What they are when the closures are functions. *)
Lemma es_t_same {K R} f (w : tway R) (g : K -> prog A (sres R)) h : (forall k, run f (g k) = Ret (h k)) ->
  tsame f (tw_op w (es_transform g)) (transform_of (stw_fun w h)).
Proof. intros H. destruct w; cbn; try reflexivity. intros e. apply run_then, H. Qed.
Lemma es_m_same {K S R} f (w : mway R) (g : K -> prog A (skres S R)) h : (forall k, run f (g k) = Ret (h k)) ->
  msame f (mw_op w (es_transmute g)) (transmute_of (smw_fun w h)).
Proof. intros H. destruct w; cbn; try reflexivity. intros e. apply run_then, H. Qed.
Lemma es_j_same {K R} f (w : jway R) (g : K -> K -> prog A (sbres R)) h : (forall k k', run f (g k k') = Ret (h k k')) ->
  jsame f (jw_op w (es_joint g)) (joint_of (sjw_fun w h)).
Proof. intros H. destruct w; cbn; try reflexivity. split; [reflexivity|]. intros e e'. apply (run_then f _ bres_of). apply H. Qed.
Lemma es_b_same {K L R} f (w : tway R) (g : K * L -> prog A (sres R)) h : (forall p, run f (g p) = Ret (h p)) ->
  tsame f (es_both w g) (both_transform_of (stw_fun w h)).
Proof. intros H p. apply (run_then f _ vres_of). apply es_call_run. exact H. Qed.
Lemma es_mb_same {K L S R} f (w : mway R) (g : K * L -> prog A (skres S R)) h : (forall p, run f (g p) = Ret (h p)) ->
  msame f (es_mboth w g) (both_transmute_of (smw_fun w h)).
Proof. intros H p. apply (run_then f _ kres_of). apply es_mcall_run. exact H. Qed.
Lemma ef_m_same {K V W R} f (w : mway R) (g : K * W -> prog A (skres V R)) h : (forall e, run f (g e) = Ret (h e)) ->
  msame f (mw_op w (ef_transmute g)) (transfute_of (smw_fun w h)).
Proof. intros H. destruct w; cbn; try reflexivity. intros e. unfold ef_transmute. rewrite run_bind, H. reflexivity. Qed.
End Wrap.

(** * Recorded answers *)
Section Record.
Context {E : Env} {K L T TB TL TR : Type} {KK : Key K} {KL : Key L}.

Definition look_s (q : K) (e : event (A := fun _ : K => T)) : option T :=
  if ceqb (cls (asked e)) (cls q) then projT2 e else None.

Lemma recorded_s (d : T) (tr : list (event (A := fun _ : K => T))) : unbroken tr -> NoDup (map cls (calls tr)) ->
  exists f : K -> T, Forall (agrees f) tr /\ forall q, f q = d \/ exists q', cls q' = cls q /\ In (answer q' (f q)) tr.
Proof.
  intros HB HN. exists (recorded look_s (fun _ => d) tr). split.
  - apply (recorded_agrees cls); try assumption.
    + intros q a. unfold look_s. cbn. rewrite ceqb_refl. reflexivity.
    + intros q e He. unfold look_s. destruct (ceqb_spec (cls (asked e)) (cls q)); [contradiction|reflexivity].
  - intros q. destruct (recorded_from look_s (fun _ => d) tr q) as [H|(e & He & H)]; [left; assumption|]. right.
    exists (asked e). unfold look_s at 1 in H. destruct (ceqb_spec (cls (asked e)) (cls q)) as [Hc|Hc]; [|discriminate].
    split; [assumption|]. unfold answer. rewrite <- H. destruct e as [q' o]. exact He.
Qed.

(** The class a call of a joint operation on sets is about. *)
Definition sabout (q : jcalls K L) : C :=
  match q with AskBoth k _ => cls k | AskLeft k => cls k | AskRight l => cls l end.

Definition look_3 (q : jcalls K L) (e : event (A := jans TB TL TR)) : option (jans TB TL TR q) :=
  if ceqb (sabout (asked e)) (sabout q) then
    match q return option (jans TB TL TR q) with
    | AskBoth _ _ => match e with existT _ (AskBoth _ _) o => o | _ => None end
    | AskLeft _ => match e with existT _ (AskLeft _) o => o | _ => None end
    | AskRight _ => match e with existT _ (AskRight _) o => o | _ => None end
    end
  else None.

Lemma recorded_s3 (db : TB) (dl : TL) (dr : TR) (tr : list (event (A := jans TB TL TR))) : unbroken tr -> NoDup (map sabout (calls tr)) ->
  exists f : forall q : jcalls K L, jans TB TL TR q, Forall (agrees f) tr /\
    (forall k, f (AskLeft k) = dl \/ exists k', cls k' = cls k /\ In (answer (A := jans TB TL TR) (AskLeft k') (f (AskLeft k))) tr) /\
    (forall l, f (AskRight l) = dr \/ exists l', cls l' = cls l /\ In (answer (A := jans TB TL TR) (AskRight l') (f (AskRight l))) tr).
Proof.
  intros HB HN. set (d := fun q : jcalls K L => match q return jans TB TL TR q with AskBoth _ _ => db | AskLeft _ => dl | AskRight _ => dr end).
  exists (recorded look_3 d tr). split; [|split].
  - apply (recorded_agrees sabout); try assumption.
    + intros q a. unfold look_3. cbn [asked answer projT1]. rewrite ceqb_refl. destruct q; reflexivity.
    + intros q e He. unfold look_3. destruct (ceqb_spec (sabout (asked e)) (sabout q)); [contradiction|reflexivity].
  - intros k. destruct (recorded_from look_3 d tr (AskLeft k)) as [H|([q o] & He & H)]; [left; exact H|]. right.
    unfold look_3 at 1 in H. destruct (ceqb_spec (sabout (asked (existT _ q o))) (sabout (AskLeft k))) as [Hc|Hc]; [|discriminate].
    destruct q as [| |]; try discriminate H. exists e. split; [exact Hc|].
    exact (eq_ind o (fun z : option TL => In (existT (fun q => option (jans TB TL TR q)) (AskLeft e) z) tr) He _ H).
  - intros k. destruct (recorded_from look_3 d tr (AskRight k)) as [H|([q o] & He & H)]; [left; exact H|]. right.
    unfold look_3 at 1 in H. destruct (ceqb_spec (sabout (asked (existT _ q o))) (sabout (AskRight k))) as [Hc|Hc]; [|discriminate].
    destruct q as [| |]; try discriminate H. exists e'. split; [exact Hc|].
    exact (eq_ind o (fun z : option TR => In (existT (fun q => option (jans TB TL TR q)) (AskRight e') z) tr) He _ H).
Qed.

Lemma recorded_3 {V W} (db : TB) (dl : TL) (dr : TR) (tr : list (event (A := jans TB TL TR))) : unbroken tr -> NoDup (map about (calls tr)) ->
  exists f : forall q : jcalls (K * V) (L * W), jans TB TL TR q, Forall (agrees f) tr /\
    (forall k, f (AskLeft k) = dl \/ exists k', ecls k' = ecls k /\ In (answer (A := jans TB TL TR) (AskLeft k') (f (AskLeft k))) tr) /\
    (forall l, f (AskRight l) = dr \/ exists l', ecls l' = ecls l /\ In (answer (A := jans TB TL TR) (AskRight l') (f (AskRight l))) tr).
Proof.
  intros HB HN. set (d := fun q : jcalls (K * V) (L * W) => match q return jans TB TL TR q with AskBoth _ _ => db | AskLeft _ => dl | AskRight _ => dr end).
  exists (recorded look_three d tr). split; [|split].
  - apply (recorded_agrees about); try assumption.
    + intros q a. unfold look_three. cbn [asked answer projT1]. rewrite ceqb_refl. destruct q; reflexivity.
    + intros q e He. unfold look_three. destruct (ceqb_spec (about (asked e)) (about q)); [contradiction|reflexivity].
  - intros k. destruct (recorded_from look_three d tr (AskLeft k)) as [H|([q o] & He & H)]; [left; exact H|]. right.
    unfold look_three at 1 in H. destruct (ceqb_spec (about (asked (existT _ q o))) (about (AskLeft (J := L * W) k))) as [Hc|Hc]; [|discriminate].
    destruct q as [| |]; try discriminate H. exists e. split; [exact Hc|].
    exact (eq_ind o (fun z : option TL => In (existT (fun q => option (jans TB TL TR q)) (AskLeft e) z) tr) He _ H).
  - intros k. destruct (recorded_from look_three d tr (AskRight k)) as [H|([q o] & He & H)]; [left; exact H|]. right.
    unfold look_three at 1 in H. destruct (ceqb_spec (about (asked (existT _ q o))) (about (AskRight (I := K * V) k))) as [Hc|Hc]; [|discriminate].
    destruct q as [| |]; try discriminate H. exists e'. split; [exact Hc|].
    exact (eq_ind o (fun z : option TR => In (existT (fun q => option (jans TB TL TR q)) (AskRight e') z) tr) He _ H).
Qed.

(** A call on sets from a call on maps. *)
Definition drop_units (q : jcalls (K * unit) (L * unit)) : jcalls K L :=
  match q with AskBoth e e' => AskBoth (fst e) (fst e') | AskLeft e => AskLeft (fst e) | AskRight e' => AskRight (fst e') end.

Lemma merge_map {Q Q'} (p : Q -> Q') (fB : K * unit -> L * unit -> list Q) fL fR ln lr :
  map p (merge fB fL fR ln lr) = merge (fun e e' => map p (fB e e')) (fun e => map p (fL e)) (fun e' => map p (fR e')) ln lr.
Proof.
  unfold merge. rewrite map_app, !map_flat. f_equal. apply flat_map_ext. intros e. destruct (lookup _ _); reflexivity.
Qed.

Lemma merge_ext {Q} (fB gB : K * unit -> L * unit -> list Q) fL gL fR gR ln lr :
  (forall e e', fB e e' = gB e e') -> (forall e, fL e = gL e) -> (forall e, fR e = gR e) -> merge fB fL fR ln lr = merge gB gL gR ln lr.
Proof.
  intros HB HL HR. unfold merge. f_equal; apply flat_map_ext; [|exact HR]. intros e. destruct (lookup _ _); auto.
Qed.

Lemma merge_sabout (B Lk Rk : jcalls K L -> list (jcalls K L)) (ln : list (K * unit)) (lr : list (L * unit)) :
  (forall q, B q = [] \/ B q = [q]) -> (forall q, Lk q = [] \/ Lk q = [q]) -> (forall q, Rk q = [] \/ Rk q = [q]) ->
  uniq ln -> uniq lr ->
  NoDup (map sabout (merge (fun e e' => B (AskBoth (fst e) (fst e'))) (fun e => Lk (AskLeft (fst e))) (fun e' => Rk (AskRight (fst e'))) ln lr)).
Proof.
  intros HB HL HR Hl Hr.
  set (up := fun (F : jcalls K L -> list (jcalls K L)) q => match F (drop_units q) with [] => [] | _ => [q] end).
  assert (Hup : forall F, (forall q, F q = [] \/ F q = [q]) -> forall q, (up F q = [] \/ up F q = [q]) /\ map drop_units (up F q) = F (drop_units q)).
  { intros F HF q. unfold up. destruct (HF (drop_units q)) as [->| ->]; cbn; auto. }
  pose proof (merge_about (up B) (up Lk) (up Rk) ln lr (fun q => proj1 (Hup B HB q)) (fun q => proj1 (Hup Lk HL q)) (fun q => proj1 (Hup Rk HR q)) Hl Hr) as H.
  assert (Hm : map about (merge (fun e e' => up B (AskBoth e e')) (fun e => up Lk (AskLeft e)) (fun e' => up Rk (AskRight e')) ln lr) =
    map sabout (map drop_units (merge (fun e e' => up B (AskBoth e e')) (fun e => up Lk (AskLeft e)) (fun e' => up Rk (AskRight e')) ln lr))).
  { rewrite map_map. apply map_ext. intros []; reflexivity. }
  rewrite Hm, merge_map in H.
  rewrite (merge_ext _ (fun e e' => B (AskBoth (fst e) (fst e'))) _ (fun e => Lk (AskLeft (fst e))) _ (fun e' => Rk (AskRight (fst e')))) in H; [exact H|..].
  - intros e e'. apply (proj2 (Hup B HB (AskBoth e e'))).
  - intros e. apply (proj2 (Hup Lk HL (AskLeft e))).
  - intros e. apply (proj2 (Hup Rk HR (AskRight e))).
Qed.
End Record.
(** * One set *)
Section OneSet.
Context {E : Env} {K R : Type} {KK : Key K} (rdef : R) (rd : R -> R -> R).

Lemma flat_tw_fst (w : tway R) (l : list (K * unit)) : flat_map (fun e => tw_calls w (fst e)) l = match w with TwClosure => map fst l | _ => [] end.
Proof. destruct w; induction l as [|q l IH]; cbn in *; try rewrite IH; reflexivity. Qed.
Lemma flat_mw_fst (w : mway R) (l : list (K * unit)) : flat_map (fun e => mw_calls w (fst e)) l = match w with MwClosure => map fst l | _ => [] end.
Proof. destruct w; induction l as [|q l IH]; cbn in *; try rewrite IH; reflexivity. Qed.

Lemma set_uniq (s : tset K) : reachable s -> NoDup (map cls (set_visit s)).
Proof. intros HR. unfold set_visit. rewrite map_map. apply mwf_uniq, reachable_mwf, HR. Qed.

Lemma strans_makes st (w : tway R) (s : tset K) tr o : reachable s ->
  exec (eset_transform rdef rd st w ask s) tr o -> makes (match w with TwClosure => set_visit s | _ => [] end) tr o.
Proof.
  intros HR. unfold set_visit. rewrite <- flat_tw_fst. apply spends_makes. eapply emap_transform_spends; [|exact (reachable_mwf _ HR)].
  exact (es_t_cost w ask (fun q => q) ask_spends).
Qed.
Lemma strans_in_order st (w : tway R) (s : tset K) tr o : reachable s ->
  exec (eset_transform rdef rd st w ask s) tr o ->
  exists rest, calls tr ++ rest = match w with TwClosure => map fst (backwards (map_visit s)) | _ => [] end /\ forall x, o = Ret x -> rest = [].
Proof.
  intros HR He. destruct w; [|destruct (strans_makes _ _ _ _ _ HR He) as (rest & HP & H); exists rest; split;
    [apply Permutation_nil; symmetry; exact HP|exact H]..].
  exact (emap_transform_follows (A := fun _ : K => sres R) rdef rd fst (es_transform ask)
    (fun e => follows_then _ _ _ (follows_ask (A := fun _ : K => sres R) (fst e)) (fun x => follows_ret _)) st s (reachable_mwf _ HR) tr o He).
Qed.
Lemma strans_once st (w : tway R) (s : tset K) tr o : reachable s ->
  exec (eset_transform rdef rd st w ask s) tr o -> NoDup (map cls (calls tr)).
Proof.
  intros HR He. eapply makes_nodup; [|eapply strans_makes; eassumption].
  destruct w; [apply set_uniq; assumption|constructor..].
Qed.
Lemma strans_as st (w : tway R) (s : tset K) tr o f :
  exec (eset_transform rdef rd st w ask s) tr o -> Forall (agrees f) tr -> o = set_transform rdef rd st (stw_fun w f) s.
Proof. intros He Hf. rewrite (exec_run f _ _ _ He Hf). apply emap_transform_run. apply es_t_same. reflexivity. Qed.
Lemma strans_answers st (w : tway R) (s : tset K) tr o : reachable s ->
  exec (eset_transform rdef rd st w ask s) tr o -> unbroken tr ->
  exists f, Forall (agrees f) tr /\ o = set_transform rdef rd st (stw_fun w f) s.
Proof.
  intros HR He HB. destruct (recorded_s (SDropped rdef) tr HB (strans_once _ _ _ _ _ HR He)) as [f [Hf _]].
  exists f. split; [assumption|]. eapply strans_as; eassumption.
Qed.
Lemma strans_execs st (w : tway R) (s : tset K) f :
  exists tr, exec (eset_transform rdef rd st w ask s) tr (set_transform rdef rd st (stw_fun w f) s) /\ Forall (agrees f) tr.
Proof.
  destruct (run_exec f (eset_transform rdef rd st w ask s)) as (tr & H1 & H2). exists tr. split; [|assumption].
  unfold eset_transform in H1 at 2. rewrite (emap_transform_run rdef rd f _ (transform_of (stw_fun w f))) in H1; [exact H1|]. apply es_t_same. reflexivity.
Qed.
Lemma strans_ends st (w : tway R) (s : tset K) tr o : reachable s ->
  exec (eset_transform rdef rd st w ask s) tr o ->
  (unbroken tr /\ exists x, o = Ret x) \/ (exists tr' q, tr = tr' ++ [broke q] /\ unbroken tr' /\ o = Panic).
Proof.
  intros HR He. destruct (unbroken_or tr) as [HB|HB].
  - left. split; [assumption|]. destruct (strans_answers _ _ _ _ _ HR He HB) as (f & _ & ->).
    destruct (set_transform_exact rdef rd st (stw_fun w f) s HR) as (m' & r & o & -> & _). eauto.
  - right. exact (exec_stops _ _ _ He HB).
Qed.

Lemma smute_makes {S} (w : mway R) (s : tset K) tr o : reachable s ->
  exec (eset_transmute (S := S) rdef rd w ask s) tr o -> makes (match w with MwClosure => set_visit s | _ => [] end) tr o.
Proof.
  intros HR. unfold set_visit. rewrite <- flat_mw_fst. apply spends_makes. eapply emap_transmute_spends; [|exact (reachable_mwf _ HR)].
  exact (es_m_cost w ask (fun q => q) ask_spends).
Qed.
Lemma smute_in_order {S} (w : mway R) (s : tset K) tr o : reachable s ->
  exec (eset_transmute (S := S) rdef rd w ask s) tr o ->
  exists rest, calls tr ++ rest = match w with MwClosure => map fst (backwards (map_visit s)) | _ => [] end /\ forall x, o = Ret x -> rest = [].
Proof.
  intros HR He. destruct w; [|destruct (smute_makes _ _ _ _ HR He) as (rest & HP & H); exists rest; split;
    [apply Permutation_nil; symmetry; exact HP|exact H]..].
  exact (emap_transmute_follows (A := fun _ : K => skres S R) rdef rd fst (es_transmute ask)
    (fun e => follows_then _ _ _ (follows_ask (A := fun _ : K => skres S R) (fst e)) (fun x => follows_ret _)) s (reachable_mwf _ HR) tr o He).
Qed.
Lemma smute_once {S} (w : mway R) (s : tset K) tr o : reachable s ->
  exec (eset_transmute (S := S) rdef rd w ask s) tr o -> NoDup (map cls (calls tr)).
Proof.
  intros HR He. eapply makes_nodup; [|eapply smute_makes; eassumption].
  destruct w; [apply set_uniq; assumption|constructor..].
Qed.
Lemma smute_as {S} (w : mway R) (s : tset K) tr o f :
  exec (eset_transmute (S := S) rdef rd w ask s) tr o -> Forall (agrees f) tr -> o = set_transmute rdef rd (smw_fun w f) s.
Proof. intros He Hf. rewrite (exec_run f _ _ _ He Hf). apply emap_transmute_run. apply es_m_same. reflexivity. Qed.
Lemma smute_answers {S} (w : mway R) (s : tset K) tr o : reachable s ->
  exec (eset_transmute (S := S) rdef rd w ask s) tr o -> unbroken tr ->
  exists f, Forall (agrees f) tr /\ o = set_transmute rdef rd (smw_fun w f) s.
Proof.
  intros HR He HB. destruct (recorded_s (SKDropped rdef) tr HB (smute_once _ _ _ _ HR He)) as [f [Hf _]].
  exists f. split; [assumption|]. eapply smute_as; eassumption.
Qed.
Lemma smute_execs {S} (w : mway R) (s : tset K) f :
  exists tr, exec (eset_transmute (S := S) rdef rd w ask s) tr (set_transmute rdef rd (smw_fun w f) s) /\ Forall (agrees f) tr.
Proof.
  destruct (run_exec f (eset_transmute (S := S) rdef rd w ask s)) as (tr & H1 & H2). exists tr. split; [|assumption].
  unfold eset_transmute in H1 at 2. rewrite (emap_transmute_run rdef rd f _ (transmute_of (smw_fun w f))) in H1; [exact H1|]. apply es_m_same. reflexivity.
Qed.
Lemma smute_ends {S} {KS : Key S} (w : mway R) (s : tset K) tr o : reachable s ->
  (forall q k r, In (answer q (SKTransmuted k r)) tr -> cls k = cls q) ->
  exec (eset_transmute (S := S) rdef rd w ask s) tr o ->
  (unbroken tr /\ exists x, o = Ret x) \/ (exists tr' q, tr = tr' ++ [broke q] /\ unbroken tr' /\ o = Panic).
Proof.
  intros HR HK He. destruct (unbroken_or tr) as [HB|HB].
  - left. split; [assumption|]. destruct (recorded_s (SKDropped rdef) tr HB (smute_once _ _ _ _ HR He)) as (f & Hf & Hd).
    rewrite (smute_as _ _ _ _ _ He Hf).
    destruct (set_transmute_exact rdef rd (smw_fun w f) s HR) as (m' & r & -> & _); [|eauto].
    intros e k r _ Hm. destruct w; [|discriminate]. cbn in Hm. destruct (Hd e) as [H|(q & Hq & H)]; [congruence|].
    rewrite Hm in H. rewrite (HK _ _ _ H). exact Hq.
  - right. exact (exec_stops _ _ _ He HB).
Qed.

Lemma svisit_run f (s : tset K) : run f (eset_visit (A := fun _ : K => unit) ask s) = Ret tt.
Proof.
  unfold eset_visit, emap_visit.
  assert (Hl : forall l : lnode K unit, run f (el_visit (A := fun _ : K => unit) (fun e => ask (fst e)) l) = Ret tt).
  { induction l as [k v n IH z|k v x z]; cbn [el_visit]; rewrite run_bind; cbn [run ask bind]; [exact IH|]. unfold es_visit. cbn [ask run]. destruct (f _). reflexivity. }
  induction s as [bits values x IH|l|x] using Profile.mnode_ind'; cbn [em_visit]; [|apply Hl|unfold es_visit; cbn [ask run]; destruct (f _); reflexivity].
  induction IH as [|c values Hc IHv IHr]; cbn [map each]; [reflexivity|]. rewrite run_bind, Hc. exact IHr.
Qed.
Lemma recorded_sany (tr : list (event (A := fun _ : K => unit))) : unbroken tr -> exists f, Forall (agrees f) tr.
Proof.
  intros HB. exists (fun _ => tt). apply Forall_forall. intros [q [[]|]] Hi; [reflexivity|]. destruct (HB q Hi).
Qed.
Lemma svisit_ends (s : tset K) tr o : exec (eset_visit (A := fun _ : K => unit) ask s) tr o ->
  (calls tr = set_visit s /\ unbroken tr /\ o = Ret tt) \/
  (exists tr' q rest, tr = tr' ++ [broke q] /\ unbroken tr' /\ calls tr ++ rest = set_visit s /\ o = Panic).
Proof.
  intros He. assert (H : exists rest, calls tr ++ rest = set_visit s /\ forall x, o = Ret x -> rest = []).
  { replace (set_visit s) with (flat_map (fun e : K * unit => [fst e]) (m_visit s)).
    - exact (em_visit_follows (A := fun _ : K => unit) (fun e => [fst e]) (fun e => ask (fst e)) (fun e => follows_ask (A := fun _ : K => unit) (fst e)) s tr o He).
    - unfold set_visit, map_visit. induction (m_visit s); cbn; congruence. }
  destruct H as (rest & Hr & Hret). destruct (unbroken_or tr) as [HB|HB].
  - left. assert (Ho : o = Ret tt).
    { destruct (recorded_sany tr HB) as [f Hf]. rewrite (exec_run f _ _ _ He Hf). apply svisit_run. }
    rewrite (Hret tt Ho), app_nil_r in Hr. auto.
  - right. destruct (exec_stops _ _ _ He HB) as (tr' & q & -> & HU & ->). exists tr', q, rest. auto.
Qed.
End OneSet.

(** * Two sets *)
Section Two.
Context {E : Env} {K L R : Type} {KK : Key K} {KL : Key L} (rdef : R) (rd : R -> R -> R).

Lemma stm_makes st (wb : tway R) (wl : tway R) (wr : mway R) (m : tset K) (r : tset L) tr o : reachable m -> reachable r ->
  exec (eset_tm (A := jans (sres R) (sres R) (skres K R)) rdef rd st wb ask_both wl ask_left wr ask_right m r) tr o ->
  makes (merge (fun e e' => tw_calls wb (AskBoth (fst e) (fst e'))) (fun e => tw_calls wl (AskLeft (fst e))) (fun e' => mw_calls wr (AskRight (fst e'))) (map_visit m) (map_visit r)) tr o.
Proof.
  intros HM HN He. refine (emap_tm_spends rdef rd st (fun e e' => tw_calls wb (AskBoth (fst e) (fst e'))) (fun e => tw_calls wl (AskLeft (fst e))) (fun e' => mw_calls wr (AskRight (fst e'))) _ _ _ _ _ _ m r (reachable_mwf _ HM) (reachable_mwf _ HN) tr o He).
  - intros p. apply (spends_then _ _ vres_of). apply (es_call_spends wb ask_both (fun p => AskBoth (fst p) (snd p)) (fst (fst p), fst (snd p)) ask_both_spends).
  - exact (es_t_cost wl ask_left (fun k => AskLeft k) ask_left_spends).
  - exact (es_m_cost wr ask_right (fun k => AskRight k) ask_right_spends).
Qed.
Lemma stm_once st (wb : tway R) (wl : tway R) (wr : mway R) (m : tset K) (r : tset L) tr o : reachable m -> reachable r ->
  exec (eset_tm (A := jans (sres R) (sres R) (skres K R)) rdef rd st wb ask_both wl ask_left wr ask_right m r) tr o -> NoDup (map sabout (calls tr)).
Proof.
  intros HM HN He. eapply makes_nodup; [|exact (stm_makes _ _ _ _ _ _ _ _ HM HN He)].
  apply (merge_sabout (tw_calls wb) (tw_calls wl) (mw_calls wr)); auto using tw_calls_small, mw_calls_small, jw_calls_small; apply mwf_uniq; apply reachable_mwf; assumption.
Qed.
Lemma stm_as st (wb : tway R) (wl : tway R) (wr : mway R) (m : tset K) (r : tset L) tr o f :
  exec (eset_tm (A := jans (sres R) (sres R) (skres K R)) rdef rd st wb ask_both wl ask_left wr ask_right m r) tr o -> Forall (agrees f) tr ->
  o = set_tm rdef rd st (stw_fun wb (fun_both f)) (stw_fun wl (fun_left f)) (smw_fun wr (fun_right f)) m r.
Proof.
  intros He Hf. rewrite (exec_run f _ _ _ He Hf). apply emap_tm_run; [apply es_b_same|apply es_t_same|apply es_m_same]; reflexivity.
Qed.
Lemma stm_answers st (wb : tway R) (wl : tway R) (wr : mway R) (m : tset K) (r : tset L) tr o : reachable m -> reachable r ->
  exec (eset_tm (A := jans (sres R) (sres R) (skres K R)) rdef rd st wb ask_both wl ask_left wr ask_right m r) tr o -> unbroken tr ->
  exists f, Forall (agrees f) tr /\ o = set_tm rdef rd st (stw_fun wb (fun_both f)) (stw_fun wl (fun_left f)) (smw_fun wr (fun_right f)) m r.
Proof.
  intros HM HN He HB. destruct (recorded_s3 (SDropped rdef) (SDropped rdef) (SKDropped rdef) tr HB (stm_once _ _ _ _ _ _ _ _ HM HN He)) as [f [Hf _]].
  exists f. split; [assumption|]. eapply stm_as; eassumption.
Qed.
Lemma stm_execs st (wb : tway R) (wl : tway R) (wr : mway R) (m : tset K) (r : tset L) f :
  exists tr, exec (eset_tm (A := jans (sres R) (sres R) (skres K R)) rdef rd st wb ask_both wl ask_left wr ask_right m r) tr (set_tm rdef rd st (stw_fun wb (fun_both f)) (stw_fun wl (fun_left f)) (smw_fun wr (fun_right f)) m r) /\ Forall (agrees f) tr.
Proof.
  destruct (run_exec f (eset_tm (A := jans (sres R) (sres R) (skres K R)) rdef rd st wb ask_both wl ask_left wr ask_right m r)) as (tr & H1 & H2). exists tr. split; [|assumption].
  replace (set_tm rdef rd st (stw_fun wb (fun_both f)) (stw_fun wl (fun_left f)) (smw_fun wr (fun_right f)) m r) with (run f (eset_tm (A := jans (sres R) (sres R) (skres K R)) rdef rd st wb ask_both wl ask_left wr ask_right m r)); [exact H1|]. apply emap_tm_run; [apply es_b_same|apply es_t_same|apply es_m_same]; reflexivity.
Qed.

Lemma smt_makes st (wb : tway R) (wl : mway R) (wr : tway R) (m : tset K) (r : tset L) tr o : reachable m -> reachable r ->
  exec (eset_mt (A := jans (sres R) (skres L R) (sres R)) rdef rd st wb ask_both wl ask_left wr ask_right m r) tr o ->
  makes (merge (fun e e' => tw_calls wb (AskBoth (fst e) (fst e'))) (fun e => mw_calls wl (AskLeft (fst e))) (fun e' => tw_calls wr (AskRight (fst e'))) (map_visit m) (map_visit r)) tr o.
Proof.
  intros HM HN He. refine (emap_mt_spends rdef rd st (fun e e' => tw_calls wb (AskBoth (fst e) (fst e'))) (fun e => mw_calls wl (AskLeft (fst e))) (fun e' => tw_calls wr (AskRight (fst e'))) _ _ _ _ _ _ m r (reachable_mwf _ HM) (reachable_mwf _ HN) tr o He).
  - intros p. apply (spends_then _ _ vres_of). apply (es_call_spends wb ask_both (fun p => AskBoth (fst p) (snd p)) (fst (fst p), fst (snd p)) ask_both_spends).
  - exact (es_m_cost wl ask_left (fun k => AskLeft k) ask_left_spends).
  - exact (es_t_cost wr ask_right (fun k => AskRight k) ask_right_spends).
Qed.
Lemma smt_once st (wb : tway R) (wl : mway R) (wr : tway R) (m : tset K) (r : tset L) tr o : reachable m -> reachable r ->
  exec (eset_mt (A := jans (sres R) (skres L R) (sres R)) rdef rd st wb ask_both wl ask_left wr ask_right m r) tr o -> NoDup (map sabout (calls tr)).
Proof.
  intros HM HN He. eapply makes_nodup; [|exact (smt_makes _ _ _ _ _ _ _ _ HM HN He)].
  apply (merge_sabout (tw_calls wb) (mw_calls wl) (tw_calls wr)); auto using tw_calls_small, mw_calls_small, jw_calls_small; apply mwf_uniq; apply reachable_mwf; assumption.
Qed.
Lemma smt_as st (wb : tway R) (wl : mway R) (wr : tway R) (m : tset K) (r : tset L) tr o f :
  exec (eset_mt (A := jans (sres R) (skres L R) (sres R)) rdef rd st wb ask_both wl ask_left wr ask_right m r) tr o -> Forall (agrees f) tr ->
  o = set_mt rdef rd st (stw_fun wb (fun_both f)) (smw_fun wl (fun_left f)) (stw_fun wr (fun_right f)) m r.
Proof.
  intros He Hf. rewrite (exec_run f _ _ _ He Hf). apply emap_mt_run; [apply es_b_same|apply es_m_same|apply es_t_same]; reflexivity.
Qed.
Lemma smt_answers st (wb : tway R) (wl : mway R) (wr : tway R) (m : tset K) (r : tset L) tr o : reachable m -> reachable r ->
  exec (eset_mt (A := jans (sres R) (skres L R) (sres R)) rdef rd st wb ask_both wl ask_left wr ask_right m r) tr o -> unbroken tr ->
  exists f, Forall (agrees f) tr /\ o = set_mt rdef rd st (stw_fun wb (fun_both f)) (smw_fun wl (fun_left f)) (stw_fun wr (fun_right f)) m r.
Proof.
  intros HM HN He HB. destruct (recorded_s3 (SDropped rdef) (SKDropped rdef) (SDropped rdef) tr HB (smt_once _ _ _ _ _ _ _ _ HM HN He)) as [f [Hf _]].
  exists f. split; [assumption|]. eapply smt_as; eassumption.
Qed.
Lemma smt_execs st (wb : tway R) (wl : mway R) (wr : tway R) (m : tset K) (r : tset L) f :
  exists tr, exec (eset_mt (A := jans (sres R) (skres L R) (sres R)) rdef rd st wb ask_both wl ask_left wr ask_right m r) tr (set_mt rdef rd st (stw_fun wb (fun_both f)) (smw_fun wl (fun_left f)) (stw_fun wr (fun_right f)) m r) /\ Forall (agrees f) tr.
Proof.
  destruct (run_exec f (eset_mt (A := jans (sres R) (skres L R) (sres R)) rdef rd st wb ask_both wl ask_left wr ask_right m r)) as (tr & H1 & H2). exists tr. split; [|assumption].
  replace (set_mt rdef rd st (stw_fun wb (fun_both f)) (smw_fun wl (fun_left f)) (stw_fun wr (fun_right f)) m r) with (run f (eset_mt (A := jans (sres R) (skres L R) (sres R)) rdef rd st wb ask_both wl ask_left wr ask_right m r)); [exact H1|]. apply emap_mt_run; [apply es_b_same|apply es_m_same|apply es_t_same]; reflexivity.
Qed.

Lemma smm_makes {S} {KS : Key S} (wb : mway R) (wl : mway R) (wr : mway R) (m : tset K) (r : tset L) tr o : reachable m -> reachable r ->
  exec (eset_mm (A := jans (skres S R) (skres S R) (skres S R)) rdef rd wb ask_both wl ask_left wr ask_right m r) tr o ->
  makes (merge (fun e e' => mw_calls wb (AskBoth (fst e) (fst e'))) (fun e => mw_calls wl (AskLeft (fst e))) (fun e' => mw_calls wr (AskRight (fst e'))) (map_visit m) (map_visit r)) tr o.
Proof.
  intros HM HN He. refine (emap_mm_spends rdef rd (fun e e' => mw_calls wb (AskBoth (fst e) (fst e'))) (fun e => mw_calls wl (AskLeft (fst e))) (fun e' => mw_calls wr (AskRight (fst e'))) _ _ _ _ _ _ m r (reachable_mwf _ HM) (reachable_mwf _ HN) tr o He).
  - intros p. apply (spends_then _ _ kres_of). apply (es_mcall_spends wb ask_both (fun p => AskBoth (fst p) (snd p)) (fst (fst p), fst (snd p)) ask_both_spends).
  - exact (es_m_cost wl ask_left (fun k => AskLeft k) ask_left_spends).
  - exact (es_m_cost wr ask_right (fun k => AskRight k) ask_right_spends).
Qed.
Lemma smm_once {S} {KS : Key S} (wb : mway R) (wl : mway R) (wr : mway R) (m : tset K) (r : tset L) tr o : reachable m -> reachable r ->
  exec (eset_mm (A := jans (skres S R) (skres S R) (skres S R)) rdef rd wb ask_both wl ask_left wr ask_right m r) tr o -> NoDup (map sabout (calls tr)).
Proof.
  intros HM HN He. eapply makes_nodup; [|exact (smm_makes _ _ _ _ _ _ _ HM HN He)].
  apply (merge_sabout (mw_calls wb) (mw_calls wl) (mw_calls wr)); auto using tw_calls_small, mw_calls_small, jw_calls_small; apply mwf_uniq; apply reachable_mwf; assumption.
Qed.
Lemma smm_as {S} {KS : Key S} (wb : mway R) (wl : mway R) (wr : mway R) (m : tset K) (r : tset L) tr o f :
  exec (eset_mm (A := jans (skres S R) (skres S R) (skres S R)) rdef rd wb ask_both wl ask_left wr ask_right m r) tr o -> Forall (agrees f) tr ->
  o = set_mm rdef rd (smw_fun wb (fun_both f)) (smw_fun wl (fun_left f)) (smw_fun wr (fun_right f)) m r.
Proof.
  intros He Hf. rewrite (exec_run f _ _ _ He Hf). apply emap_mm_run; [apply es_mb_same|apply es_m_same|apply es_m_same]; reflexivity.
Qed.
Lemma smm_answers {S} {KS : Key S} (wb : mway R) (wl : mway R) (wr : mway R) (m : tset K) (r : tset L) tr o : reachable m -> reachable r ->
  exec (eset_mm (A := jans (skres S R) (skres S R) (skres S R)) rdef rd wb ask_both wl ask_left wr ask_right m r) tr o -> unbroken tr ->
  exists f, Forall (agrees f) tr /\ o = set_mm rdef rd (smw_fun wb (fun_both f)) (smw_fun wl (fun_left f)) (smw_fun wr (fun_right f)) m r.
Proof.
  intros HM HN He HB. destruct (recorded_s3 (SKDropped rdef) (SKDropped rdef) (SKDropped rdef) tr HB (smm_once _ _ _ _ _ _ _ HM HN He)) as [f [Hf _]].
  exists f. split; [assumption|]. eapply smm_as; eassumption.
Qed.
Lemma smm_execs {S} {KS : Key S} (wb : mway R) (wl : mway R) (wr : mway R) (m : tset K) (r : tset L) f :
  exists tr, exec (eset_mm (A := jans (skres S R) (skres S R) (skres S R)) rdef rd wb ask_both wl ask_left wr ask_right m r) tr (set_mm rdef rd (smw_fun wb (fun_both f)) (smw_fun wl (fun_left f)) (smw_fun wr (fun_right f)) m r) /\ Forall (agrees f) tr.
Proof.
  destruct (run_exec f (eset_mm (A := jans (skres S R) (skres S R) (skres S R)) rdef rd wb ask_both wl ask_left wr ask_right m r)) as (tr & H1 & H2). exists tr. split; [|assumption].
  replace (set_mm rdef rd (smw_fun wb (fun_both f)) (smw_fun wl (fun_left f)) (smw_fun wr (fun_right f)) m r) with (run f (eset_mm (A := jans (skres S R) (skres S R) (skres S R)) rdef rd wb ask_both wl ask_left wr ask_right m r)); [exact H1|]. apply emap_mm_run; [apply es_mb_same|apply es_m_same|apply es_m_same]; reflexivity.
Qed.

End Two.

Section TwoT.
Context {E : Env} {K R : Type} {KK : Key K} (rdef : R) (rd : R -> R -> R).

Lemma stt_makes st (wb : jway R) (wl : tway R) (wr : tway R) (m : tset K) (r : tset K) tr o : reachable m -> reachable r ->
  exec (eset_tt (A := jans (sbres R) (sres R) (sres R)) rdef rd st wb (fun k k' => ask_both (k, k')) wl ask_left wr ask_right m r) tr o ->
  makes (merge (fun e e' => jw_calls wb (AskBoth (fst e) (fst e'))) (fun e => tw_calls wl (AskLeft (fst e))) (fun e' => tw_calls wr (AskRight (fst e'))) (map_visit m) (map_visit r)) tr o.
Proof.
  intros HM HN He. refine (emap_tt_spends rdef rd st (fun e e' => jw_calls wb (AskBoth (fst e) (fst e'))) (fun e => tw_calls wl (AskLeft (fst e))) (fun e' => tw_calls wr (AskRight (fst e'))) _ _ _ _ _ _ m r (reachable_mwf _ HM) (reachable_mwf _ HN) tr o He).
  - exact (es_j_cost wb (fun k k' => ask_both (k, k')) (fun k k' => AskBoth k k') (fun k k' => ask_both_spends (k, k'))).
  - exact (es_t_cost wl ask_left (fun k => AskLeft k) ask_left_spends).
  - exact (es_t_cost wr ask_right (fun k => AskRight k) ask_right_spends).
Qed.
Lemma stt_once st (wb : jway R) (wl : tway R) (wr : tway R) (m : tset K) (r : tset K) tr o : reachable m -> reachable r ->
  exec (eset_tt (A := jans (sbres R) (sres R) (sres R)) rdef rd st wb (fun k k' => ask_both (k, k')) wl ask_left wr ask_right m r) tr o -> NoDup (map sabout (calls tr)).
Proof.
  intros HM HN He. eapply makes_nodup; [|exact (stt_makes _ _ _ _ _ _ _ _ HM HN He)].
  apply (merge_sabout (jw_calls wb) (tw_calls wl) (tw_calls wr)); auto using tw_calls_small, mw_calls_small, jw_calls_small; apply mwf_uniq; apply reachable_mwf; assumption.
Qed.
Lemma stt_as st (wb : jway R) (wl : tway R) (wr : tway R) (m : tset K) (r : tset K) tr o f :
  exec (eset_tt (A := jans (sbres R) (sres R) (sres R)) rdef rd st wb (fun k k' => ask_both (k, k')) wl ask_left wr ask_right m r) tr o -> Forall (agrees f) tr ->
  o = set_tt rdef rd st (sjw_fun wb (fun k k' => fun_both f (k, k'))) (stw_fun wl (fun_left f)) (stw_fun wr (fun_right f)) m r.
Proof.
  intros He Hf. rewrite (exec_run f _ _ _ He Hf). apply emap_tt_run; [apply es_j_same|apply es_t_same|apply es_t_same]; reflexivity.
Qed.
Lemma stt_answers st (wb : jway R) (wl : tway R) (wr : tway R) (m : tset K) (r : tset K) tr o : reachable m -> reachable r ->
  exec (eset_tt (A := jans (sbres R) (sres R) (sres R)) rdef rd st wb (fun k k' => ask_both (k, k')) wl ask_left wr ask_right m r) tr o -> unbroken tr ->
  exists f, Forall (agrees f) tr /\ o = set_tt rdef rd st (sjw_fun wb (fun k k' => fun_both f (k, k'))) (stw_fun wl (fun_left f)) (stw_fun wr (fun_right f)) m r.
Proof.
  intros HM HN He HB. destruct (recorded_s3 (SBDropped rdef) (SDropped rdef) (SDropped rdef) tr HB (stt_once _ _ _ _ _ _ _ _ HM HN He)) as [f [Hf _]].
  exists f. split; [assumption|]. eapply stt_as; eassumption.
Qed.
Lemma stt_execs st (wb : jway R) (wl : tway R) (wr : tway R) (m : tset K) (r : tset K) f :
  exists tr, exec (eset_tt (A := jans (sbres R) (sres R) (sres R)) rdef rd st wb (fun k k' => ask_both (k, k')) wl ask_left wr ask_right m r) tr (set_tt rdef rd st (sjw_fun wb (fun k k' => fun_both f (k, k'))) (stw_fun wl (fun_left f)) (stw_fun wr (fun_right f)) m r) /\ Forall (agrees f) tr.
Proof.
  destruct (run_exec f (eset_tt (A := jans (sbres R) (sres R) (sres R)) rdef rd st wb (fun k k' => ask_both (k, k')) wl ask_left wr ask_right m r)) as (tr & H1 & H2). exists tr. split; [|assumption].
  replace (set_tt rdef rd st (sjw_fun wb (fun k k' => fun_both f (k, k'))) (stw_fun wl (fun_left f)) (stw_fun wr (fun_right f)) m r) with (run f (eset_tt (A := jans (sbres R) (sres R) (sres R)) rdef rd st wb (fun k k' => ask_both (k, k')) wl ask_left wr ask_right m r)); [exact H1|]. apply emap_tt_run; [apply es_j_same|apply es_t_same|apply es_t_same]; reflexivity.
Qed.

End TwoT.

(** * Transfute *)
Section Transfute.
Context {E : Env} {K V W R : Type} {KK : Key K} (rdef : R) (rd : R -> R -> R).

Lemma tf_makes st (wb : tway R) (wl : tway R) (wr : mway R) (m : trie K V) (r : trie K W) tr o : reachable m -> reachable r ->
  exec (emap_tf (A := jans (vres V R) (vres V R) (skres V R)) rdef rd st wb ask_both wl ask_left wr ask_right m r) tr o ->
  makes (merge (fun e e' => tw_calls wb (AskBoth e e')) (fun e => tw_calls wl (AskLeft e)) (fun e' => mw_calls wr (AskRight e')) (map_visit m) (map_visit r)) tr o.
Proof.
  intros HM HN He. refine (emap_tm_spends rdef rd st (fun e e' => tw_calls wb (AskBoth e e')) (fun e => tw_calls wl (AskLeft e)) (fun e' => mw_calls wr (AskRight e')) _ _ _ _ _ _ m r (reachable_mwf _ HM) (reachable_mwf _ HN) tr o He).
  - refine (tw_cost wb ask_both (fun p => AskBoth (fst p) (snd p)) ask_both_spends).
  - refine (tw_cost wl ask_left (fun e => AskLeft e) ask_left_spends).
  - exact (ef_m_cost wr ask_right (fun e => AskRight e) ask_right_spends).
Qed.
Lemma tf_once st (wb : tway R) (wl : tway R) (wr : mway R) (m : trie K V) (r : trie K W) tr o : reachable m -> reachable r ->
  exec (emap_tf (A := jans (vres V R) (vres V R) (skres V R)) rdef rd st wb ask_both wl ask_left wr ask_right m r) tr o -> NoDup (map about (calls tr)).
Proof.
  intros HM HN He. eapply makes_nodup; [|exact (tf_makes _ _ _ _ _ _ _ _ HM HN He)].
  apply (merge_about (tw_calls wb) (tw_calls wl) (mw_calls wr)); auto using tw_calls_small, mw_calls_small, jw_calls_small; apply mwf_uniq; apply reachable_mwf; assumption.
Qed.
Lemma tf_as st (wb : tway R) (wl : tway R) (wr : mway R) (m : trie K V) (r : trie K W) tr o f :
  exec (emap_tf (A := jans (vres V R) (vres V R) (skres V R)) rdef rd st wb ask_both wl ask_left wr ask_right m r) tr o -> Forall (agrees f) tr ->
  o = map_tf rdef rd st (tw_fun wb (fun_both f)) (tw_fun wl (fun_left f)) (smw_fun wr (fun_right f)) m r.
Proof.
  intros He Hf. rewrite (exec_run f _ _ _ He Hf). apply emap_tm_run; [apply tw_same|apply tw_same|apply ef_m_same]; reflexivity.
Qed.
Lemma tf_answers st (wb : tway R) (wl : tway R) (wr : mway R) (m : trie K V) (r : trie K W) tr o : reachable m -> reachable r ->
  exec (emap_tf (A := jans (vres V R) (vres V R) (skres V R)) rdef rd st wb ask_both wl ask_left wr ask_right m r) tr o -> unbroken tr ->
  exists f, Forall (agrees f) tr /\ o = map_tf rdef rd st (tw_fun wb (fun_both f)) (tw_fun wl (fun_left f)) (smw_fun wr (fun_right f)) m r.
Proof.
  intros HM HN He HB. destruct (recorded_three (VDropped rdef) (VDropped rdef) (SKDropped rdef) tr HB (tf_once _ _ _ _ _ _ _ _ HM HN He)) as [f Hf].
  exists f. split; [assumption|]. eapply tf_as; eassumption.
Qed.
Lemma tf_execs st (wb : tway R) (wl : tway R) (wr : mway R) (m : trie K V) (r : trie K W) f :
  exists tr, exec (emap_tf (A := jans (vres V R) (vres V R) (skres V R)) rdef rd st wb ask_both wl ask_left wr ask_right m r) tr (map_tf rdef rd st (tw_fun wb (fun_both f)) (tw_fun wl (fun_left f)) (smw_fun wr (fun_right f)) m r) /\ Forall (agrees f) tr.
Proof.
  destruct (run_exec f (emap_tf (A := jans (vres V R) (vres V R) (skres V R)) rdef rd st wb ask_both wl ask_left wr ask_right m r)) as (tr & H1 & H2). exists tr. split; [|assumption].
  replace (map_tf rdef rd st (tw_fun wb (fun_both f)) (tw_fun wl (fun_left f)) (smw_fun wr (fun_right f)) m r) with (run f (emap_tf (A := jans (vres V R) (vres V R) (skres V R)) rdef rd st wb ask_both wl ask_left wr ask_right m r)); [exact H1|]. apply emap_tm_run; [apply tw_same|apply tw_same|apply ef_m_same]; reflexivity.
Qed.

Lemma ft_makes st (wb : tway R) (wl : mway R) (wr : tway R) (m : trie K V) (r : trie K W) tr o : reachable m -> reachable r ->
  exec (emap_ft (A := jans (vres W R) (skres W R) (vres W R)) rdef rd st wb ask_both wl ask_left wr ask_right m r) tr o ->
  makes (merge (fun e e' => tw_calls wb (AskBoth e e')) (fun e => mw_calls wl (AskLeft e)) (fun e' => tw_calls wr (AskRight e')) (map_visit m) (map_visit r)) tr o.
Proof.
  intros HM HN He. refine (emap_mt_spends rdef rd st (fun e e' => tw_calls wb (AskBoth e e')) (fun e => mw_calls wl (AskLeft e)) (fun e' => tw_calls wr (AskRight e')) _ _ _ _ _ _ m r (reachable_mwf _ HM) (reachable_mwf _ HN) tr o He).
  - refine (tw_cost wb ask_both (fun p => AskBoth (fst p) (snd p)) ask_both_spends).
  - exact (ef_m_cost wl ask_left (fun e => AskLeft e) ask_left_spends).
  - refine (tw_cost wr ask_right (fun e => AskRight e) ask_right_spends).
Qed.
Lemma ft_once st (wb : tway R) (wl : mway R) (wr : tway R) (m : trie K V) (r : trie K W) tr o : reachable m -> reachable r ->
  exec (emap_ft (A := jans (vres W R) (skres W R) (vres W R)) rdef rd st wb ask_both wl ask_left wr ask_right m r) tr o -> NoDup (map about (calls tr)).
Proof.
  intros HM HN He. eapply makes_nodup; [|exact (ft_makes _ _ _ _ _ _ _ _ HM HN He)].
  apply (merge_about (tw_calls wb) (mw_calls wl) (tw_calls wr)); auto using tw_calls_small, mw_calls_small, jw_calls_small; apply mwf_uniq; apply reachable_mwf; assumption.
Qed.
Lemma ft_as st (wb : tway R) (wl : mway R) (wr : tway R) (m : trie K V) (r : trie K W) tr o f :
  exec (emap_ft (A := jans (vres W R) (skres W R) (vres W R)) rdef rd st wb ask_both wl ask_left wr ask_right m r) tr o -> Forall (agrees f) tr ->
  o = map_ft rdef rd st (tw_fun wb (fun_both f)) (smw_fun wl (fun_left f)) (tw_fun wr (fun_right f)) m r.
Proof.
  intros He Hf. rewrite (exec_run f _ _ _ He Hf). apply emap_mt_run; [apply tw_same|apply ef_m_same|apply tw_same]; reflexivity.
Qed.
Lemma ft_answers st (wb : tway R) (wl : mway R) (wr : tway R) (m : trie K V) (r : trie K W) tr o : reachable m -> reachable r ->
  exec (emap_ft (A := jans (vres W R) (skres W R) (vres W R)) rdef rd st wb ask_both wl ask_left wr ask_right m r) tr o -> unbroken tr ->
  exists f, Forall (agrees f) tr /\ o = map_ft rdef rd st (tw_fun wb (fun_both f)) (smw_fun wl (fun_left f)) (tw_fun wr (fun_right f)) m r.
Proof.
  intros HM HN He HB. destruct (recorded_three (VDropped rdef) (SKDropped rdef) (VDropped rdef) tr HB (ft_once _ _ _ _ _ _ _ _ HM HN He)) as [f Hf].
  exists f. split; [assumption|]. eapply ft_as; eassumption.
Qed.
Lemma ft_execs st (wb : tway R) (wl : mway R) (wr : tway R) (m : trie K V) (r : trie K W) f :
  exists tr, exec (emap_ft (A := jans (vres W R) (skres W R) (vres W R)) rdef rd st wb ask_both wl ask_left wr ask_right m r) tr (map_ft rdef rd st (tw_fun wb (fun_both f)) (smw_fun wl (fun_left f)) (tw_fun wr (fun_right f)) m r) /\ Forall (agrees f) tr.
Proof.
  destruct (run_exec f (emap_ft (A := jans (vres W R) (skres W R) (vres W R)) rdef rd st wb ask_both wl ask_left wr ask_right m r)) as (tr & H1 & H2). exists tr. split; [|assumption].
  replace (map_ft rdef rd st (tw_fun wb (fun_both f)) (smw_fun wl (fun_left f)) (tw_fun wr (fun_right f)) m r) with (run f (emap_ft (A := jans (vres W R) (skres W R) (vres W R)) rdef rd st wb ask_both wl ask_left wr ask_right m r)); [exact H1|]. apply emap_mt_run; [apply tw_same|apply ef_m_same|apply tw_same]; reflexivity.
Qed.

End Transfute.

(** * How joint operations end *)
Section Ends.
Context {E : Env} {K V L W R : Type} {KK : Key K} {KL : Key L} (rdef : R) (rd : R -> R -> R).

Lemma tm_ends st (wb : tway R) (wl : tway R) (wr : mway R) (m : trie K V) (r : trie L W) tr o : reachable m -> reachable r ->
  (forall h, (cnt h (map_visit m) < 2)%nat \/ (cnt h (map_visit r) < 3)%nat) ->
  (forall e k v x, In (answer (A := jans (vres V R) (vres V R) (kres K V R)) (AskRight e) (KTransmuted k v x)) tr -> cls k = cls (fst e)) ->
  exec (emap_tm (A := jans (vres V R) (vres V R) (kres K V R)) rdef rd st (tw_op wb ask_both) (tw_op wl ask_left) (mw_op wr ask_right) m r) tr o ->
  (unbroken tr /\ exists x, o = Ret x) \/ (exists tr' q, tr = tr' ++ [broke q] /\ unbroken tr' /\ o = Panic).
Proof.
  intros HM HN Hc HK He. destruct (unbroken_or tr) as [HB|HB]; [left; split; [assumption|]|right; exact (exec_stops _ _ _ He HB)].
  destruct (recorded_3 (VDropped rdef) (VDropped rdef) (KDropped rdef) tr HB (tm_once _ _ _ _ _ _ _ _ _ _ HM HN He)) as (f & Hf & _ & Hr).
  rewrite (tm_as _ _ _ _ _ _ _ _ _ _ f He Hf).
  destruct (tm_returns rdef rd st (tw_fun wb (fun_both f)) (tw_fun wl (fun_left f)) (mw_fun wr (fun_right f)) m r HM HN) as [[_ H] _].
  - intros e k v x _ Hm. destruct wr; [|discriminate]. cbn in Hm. unfold fun_right in Hm. destruct (Hr e) as [H|(q & Hq & H)]; [congruence|].
    rewrite Hm in H. rewrite (HK _ _ _ _ H). exact Hq.
  - destruct H as (m' & x & o' & ->); [|eauto]. intros (h & H1 & H2). destruct (Hc h); lia.
Qed.
Lemma mt_ends st (wb : tway R) (wl : mway R) (wr : tway R) (m : trie K V) (r : trie L W) tr o : reachable m -> reachable r ->
  (forall h, (cnt h (map_visit m) < 3)%nat \/ (cnt h (map_visit r) < 2)%nat) ->
  (forall e k v x, In (answer (A := jans (vres W R) (kres L W R) (vres W R)) (AskLeft e) (KTransmuted k v x)) tr -> cls k = cls (fst e)) ->
  exec (emap_mt (A := jans (vres W R) (kres L W R) (vres W R)) rdef rd st (tw_op wb ask_both) (mw_op wl ask_left) (tw_op wr ask_right) m r) tr o ->
  (unbroken tr /\ exists x, o = Ret x) \/ (exists tr' q, tr = tr' ++ [broke q] /\ unbroken tr' /\ o = Panic).
Proof.
  intros HM HN Hc HK He. destruct (unbroken_or tr) as [HB|HB]; [left; split; [assumption|]|right; exact (exec_stops _ _ _ He HB)].
  destruct (recorded_3 (VDropped rdef) (KDropped rdef) (VDropped rdef) tr HB (mt_once _ _ _ _ _ _ _ _ _ _ HM HN He)) as (f & Hf & Hr & _).
  rewrite (mt_as _ _ _ _ _ _ _ _ _ _ f He Hf).
  destruct (mt_returns rdef rd st (tw_fun wb (fun_both f)) (mw_fun wl (fun_left f)) (tw_fun wr (fun_right f)) m r HM HN) as [[_ H] _].
  - intros e k v x _ Hm. destruct wl; [|discriminate]. cbn in Hm. unfold fun_left in Hm. destruct (Hr e) as [H|(q & Hq & H)]; [congruence|].
    rewrite Hm in H. rewrite (HK _ _ _ _ H). exact Hq.
  - destruct H as (m' & x & o' & ->); [|eauto]. intros (h & H1 & H2). destruct (Hc h); lia.
Qed.

Lemma stm_ends st (wb : tway R) (wl : tway R) (wr : mway R) (m : tset K) (r : tset L) tr o : reachable m -> reachable r ->
  (forall h, (cnt h (map_visit m) < 2)%nat \/ (cnt h (map_visit r) < 3)%nat) ->
  (forall l k x, In (answer (A := jans (sres R) (sres R) (skres K R)) (AskRight l) (SKTransmuted k x)) tr -> cls k = cls l) ->
  exec (eset_tm (A := jans (sres R) (sres R) (skres K R)) rdef rd st wb ask_both wl ask_left wr ask_right m r) tr o ->
  (unbroken tr /\ exists x, o = Ret x) \/ (exists tr' q, tr = tr' ++ [broke q] /\ unbroken tr' /\ o = Panic).
Proof.
  intros HM HN Hc HK He. destruct (unbroken_or tr) as [HB|HB]; [left; split; [assumption|]|right; exact (exec_stops _ _ _ He HB)].
  destruct (recorded_s3 (SDropped rdef) (SDropped rdef) (SKDropped rdef) tr HB (stm_once _ _ _ _ _ _ _ _ _ _ HM HN He)) as (f & Hf & _ & Hr).
  rewrite (stm_as _ _ _ _ _ _ _ _ _ _ f He Hf). unfold set_tm.
  destruct (tm_returns rdef rd st (both_transform_of (stw_fun wb (fun_both f))) (transform_of (stw_fun wl (fun_left f))) (transmute_of (smw_fun wr (fun_right f))) m r HM HN) as [[_ H] _].
  - intros e k v x _ Hm. destruct wr; [|discriminate]. cbn in Hm. unfold fun_right in Hm. destruct (Hr (fst e)) as [H|(q & Hq & H)]; [rewrite H in Hm; discriminate|].
    destruct (f (AskRight (fst e))) as [k' x'|]; cbn in Hm; [|discriminate]. injection Hm as -> _ _. rewrite (HK _ _ _ H). exact Hq.
  - destruct H as (m' & x & o' & ->); [|eauto]. intros (h & H1 & H2). destruct (Hc h); lia.
Qed.
Lemma smt_ends st (wb : tway R) (wl : mway R) (wr : tway R) (m : tset K) (r : tset L) tr o : reachable m -> reachable r ->
  (forall h, (cnt h (map_visit m) < 3)%nat \/ (cnt h (map_visit r) < 2)%nat) ->
  (forall l k x, In (answer (A := jans (sres R) (skres L R) (sres R)) (AskLeft l) (SKTransmuted k x)) tr -> cls k = cls l) ->
  exec (eset_mt (A := jans (sres R) (skres L R) (sres R)) rdef rd st wb ask_both wl ask_left wr ask_right m r) tr o ->
  (unbroken tr /\ exists x, o = Ret x) \/ (exists tr' q, tr = tr' ++ [broke q] /\ unbroken tr' /\ o = Panic).
Proof.
  intros HM HN Hc HK He. destruct (unbroken_or tr) as [HB|HB]; [left; split; [assumption|]|right; exact (exec_stops _ _ _ He HB)].
  destruct (recorded_s3 (SDropped rdef) (SKDropped rdef) (SDropped rdef) tr HB (smt_once _ _ _ _ _ _ _ _ _ _ HM HN He)) as (f & Hf & Hr & _).
  rewrite (smt_as _ _ _ _ _ _ _ _ _ _ f He Hf). unfold set_mt.
  destruct (mt_returns rdef rd st (both_transform_of (stw_fun wb (fun_both f))) (transmute_of (smw_fun wl (fun_left f))) (transform_of (stw_fun wr (fun_right f))) m r HM HN) as [[_ H] _].
  - intros e k v x _ Hm. destruct wl; [|discriminate]. cbn in Hm. unfold fun_left in Hm. destruct (Hr (fst e)) as [H|(q & Hq & H)]; [rewrite H in Hm; discriminate|].
    destruct (f (AskLeft (fst e))) as [k' x'|]; cbn in Hm; [|discriminate]. injection Hm as -> _ _. rewrite (HK _ _ _ H). exact Hq.
  - destruct H as (m' & x & o' & ->); [|eauto]. intros (h & H1 & H2). destruct (Hc h); lia.
Qed.
End Ends.

Section EndsF.
Context {E : Env} {K V W R : Type} {KK : Key K} (rdef : R) (rd : R -> R -> R).
Lemma tf_ends st (wb : tway R) (wl : tway R) (wr : mway R) (m : trie K V) (r : trie K W) tr o : reachable m -> reachable r ->
  (forall h, (cnt h (map_visit m) < 2)%nat \/ (cnt h (map_visit r) < 3)%nat) ->
  exec (emap_tf (A := jans (vres V R) (vres V R) (skres V R)) rdef rd st wb ask_both wl ask_left wr ask_right m r) tr o ->
  (unbroken tr /\ exists x, o = Ret x) \/ (exists tr' q, tr = tr' ++ [broke q] /\ unbroken tr' /\ o = Panic).
Proof.
  intros HM HN Hc He. destruct (unbroken_or tr) as [HB|HB]; [left; split; [assumption|]|right; exact (exec_stops _ _ _ He HB)].
  destruct (tf_answers _ _ _ _ _ _ _ _ _ _ HM HN He HB) as (f & _ & ->).
  destruct (tf_returns rdef rd st (tw_fun wb (fun_both f)) (tw_fun wl (fun_left f)) (smw_fun wr (fun_right f)) m r HM HN) as [[_ H] _].
  destruct H as (m' & x & o' & ->); [|eauto]. intros (h & H1 & H2). destruct (Hc h); lia.
Qed.
Lemma ft_ends st (wb : tway R) (wl : mway R) (wr : tway R) (m : trie K V) (r : trie K W) tr o : reachable m -> reachable r ->
  (forall h, (cnt h (map_visit m) < 3)%nat \/ (cnt h (map_visit r) < 2)%nat) ->
  exec (emap_ft (A := jans (vres W R) (skres W R) (vres W R)) rdef rd st wb ask_both wl ask_left wr ask_right m r) tr o ->
  (unbroken tr /\ exists x, o = Ret x) \/ (exists tr' q, tr = tr' ++ [broke q] /\ unbroken tr' /\ o = Panic).
Proof.
  intros HM HN Hc He. destruct (unbroken_or tr) as [HB|HB]; [left; split; [assumption|]|right; exact (exec_stops _ _ _ He HB)].
  destruct (ft_answers _ _ _ _ _ _ _ _ _ _ HM HN He HB) as (f & _ & ->).
  destruct (ft_returns rdef rd st (tw_fun wb (fun_both f)) (smw_fun wl (fun_left f)) (tw_fun wr (fun_right f)) m r HM HN) as [[_ H] _].
  destruct H as (m' & x & o' & ->); [|eauto]. intros (h & H1 & H2). destruct (Hc h); lia.
Qed.
End EndsF.
