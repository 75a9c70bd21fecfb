(** The loops of CNode traversals build well-formed branches. *)
From Coq Require Import NArith Arith List Bool Lia ZifyBool ZifyN ZifyNat Permutation.
From Verif Require Import Base Words WordsP Flag FlagP Bia BiaP Node Spec SpecP Inv NodeP InsertP TrieP Api Trans Transform.
Import ListNotations.
Open Scope N_scope.

Definition half {E : Env} : N := max_ones fw / 2.

Lemma half_le {E : Env} : half <= max_ones fw.
Proof. unfold half. destruct fw; cbn; lia. Qed.

Lemma range_half {E : Env} : range 0 (max_ones fw) = range 0 half ++ range half (max_ones fw).
Proof. apply range_app; [lia|apply half_le]. Qed.

Section Loop.
Context {E : Env} {K V R : Type}.
Context (rdef : R) (rd : R -> R -> R).

(** What one index contributes: nothing, or a node to keep (or none), a
    reduction, and whether the left and right sides stay unchanged. *)
Definition cont : Type := option (option (mnode K V) * R * bool * bool).
Definition cn (c : cont) : option (mnode K V) := match c with Some (on, _, _, _) => on | None => None end.
Definition cr (c : cont) : list R := match c with Some (_, r, _, _) => [r] | None => [] end.
Definition cl (c : cont) : bool := match c with Some (_, _, u, _) => u | None => true end.
Definition cu (c : cont) : bool := match c with Some (_, _, _, u) => u | None => true end.

Definition gbits (g : N -> cont) (l : list N) : N :=
  fold_right (fun i b => match cn (g i) with Some _ => N.lor (2 ^ i) b | None => b end) 0 l.
Definition gvals (g : N -> cont) (l : list N) : list (mnode K V) := flat_map (fun i => olist (cn (g i))) l.
Definition gsize (g : N -> cont) (l : list N) : N :=
  fold_right (fun i s => match cn (g i) with Some n => m_size n + s | None => s end) 0 l.
Definition gl (g : N -> cont) (l : list N) : bool := forallb (fun i => cl (g i)) l.
Definition gu (g : N -> cont) (l : list N) : bool := forallb (fun i => cu (g i)) l.
Definition greds (g : N -> cont) (l : list N) : list R := flat_map (fun i => cr (g i)) l.

(** The accumulator after the indices [l]. *)
Definition after (g : N -> cont) (l : list N) (a : acc K V R) : acc K V R :=
  Acc (a_size a + gsize g l) (N.lor (a_bits a) (gbits g l)) (a_values a ++ gvals g l)
      (a_ul a && gl g l) (a_ur a && gu g l) (fold_left rd (greds g l) (a_red a)).

Lemma after_nil g a : after g [] a = a.
Proof.
  unfold after. cbn. rewrite N.add_0_r, N.lor_0_r, app_nil_r, !andb_true_r. destruct a; reflexivity.
Qed.

Lemma after_cons g i l a : after g (i :: l) a = after g l (after g [i] a).
Proof.
  unfold after, gsize, gbits, gvals, gl, gu, greds.
  cbn [a_size a_bits a_values a_ul a_ur a_red fold_right flat_map forallb]. rewrite !app_nil_r, !andb_true_r.
  f_equal.
  - destruct (cn (g i)); lia.
  - destruct (cn (g i)).
    + rewrite N.lor_0_r, N.lor_assoc. reflexivity.
    + rewrite N.lor_0_r. reflexivity.
  - rewrite app_assoc. reflexivity.
  - apply andb_assoc.
  - apply andb_assoc.
  - rewrite fold_left_app. reflexivity.
Qed.

Lemma after_nil_cont i a : after (fun _ => None) [i] a = a.
Proof.
  unfold after. cbn. rewrite N.add_0_r, N.lor_0_r, app_nil_r, !andb_true_r. destruct a; reflexivity.
Qed.

Lemma gbits_app g l l' : gbits g (l ++ l') = N.lor (gbits g l) (gbits g l').
Proof.
  induction l; cbn; [reflexivity|]. fold (gbits g (l ++ l')). fold (gbits g l). rewrite IHl.
  destruct (cn (g a)); [apply N.lor_assoc|reflexivity].
Qed.

Lemma gbits_in g l j : N.testbit (gbits g l) j = true -> In j l.
Proof.
  induction l; unfold gbits; cbn [fold_right In]; [rewrite N.bits_0; discriminate|]. fold (gbits g l).
  destruct (cn (g a)).
  - rewrite N.lor_spec, N.pow2_bits_eqb. intros H. apply orb_prop in H. destruct H as [H|H]; [|auto].
    left. apply N.eqb_eq. assumption.
  - auto.
Qed.

Lemma gsize_app g l l' : gsize g (l ++ l') = gsize g l + gsize g l'.
Proof.
  induction l; cbn; [reflexivity|]. fold (gsize g (l ++ l')). fold (gsize g l). rewrite IHl.
  destruct (cn (g a)); lia.
Qed.

Lemma g_ok g n : okv n (gbits g (range 0 n)) (gvals g (range 0 n)) /\
  forall j, getv (gbits g (range 0 n)) (gvals g (range 0 n)) j = if j <? n then cn (g j) else None.
Proof.
  clear rdef rd.
  induction n as [|n [IH1 IH2]] using N.peano_ind.
  - split; [apply okv_nil|]. intros j. rewrite range_nil. destruct (N.ltb_spec j 0); [lia|]. apply getv_nil.
  - rewrite range_snoc by lia. rewrite gbits_app. unfold gvals. rewrite flat_map_app. fold (gvals g (range 0 n)).
    cbn [flat_map]. rewrite app_nil_r. unfold gbits at 2 4. cbn [fold_right].
    destruct (cn (g n)) eqn:Hn; cbn [olist].
    + rewrite N.lor_0_r. split; [apply okv_push; assumption|]. intros j. rewrite getv_push by assumption.
      destruct (N.eqb_spec n j) as [->|Hj].
      * destruct (N.ltb_spec j (N.succ j)); [congruence|lia].
      * rewrite IH2. destruct (N.ltb_spec j n), (N.ltb_spec j (N.succ n)); try reflexivity; lia.
    + rewrite N.lor_0_r, app_nil_r. split; [eapply okv_mono; [|exact IH1]; lia|]. intros j. rewrite IH2.
      destruct (N.ltb_spec j n), (N.ltb_spec j (N.succ n)); try reflexivity; try lia.
      assert (j = n) by lia. congruence.
Qed.

Lemma g_ext g g' : (forall i, i < max_ones fw -> cn (g i) = cn (g' i) /\ cl (g i) = cl (g' i) /\ cu (g i) = cu (g' i)) ->
  let l := range 0 (max_ones fw) in
  gsize g l = gsize g' l /\ gbits g l = gbits g' l /\ gvals g l = gvals g' l /\ gl g l = gl g' l /\ gu g l = gu g' l.
Proof.
  clear rdef rd.
  intros H l. assert (Hl : forall i, In i l -> i < max_ones fw) by (intros i Hi; apply range_in in Hi; lia).
  clearbody l. induction l as [|i l IH]; [repeat split|].
  destruct IH as (H1 & H2 & H3 & H4 & H5); [intros; apply Hl; right; assumption|].
  destruct (H i (Hl i (or_introl eq_refl))) as (G1 & G2 & G3).
  unfold gsize, gbits, gvals, gl, gu in *. cbn [fold_right flat_map forallb]. rewrite H1, H2, H3, H4, H5, G1, G2, G3.
  repeat split.
Qed.

Lemma after_ok g i (a : acc K V R) : okv i (a_bits a) (a_values a) ->
  okv (N.succ i) (a_bits (after g [i] a)) (a_values (after g [i] a)).
Proof.
  intros H. unfold after, gbits, gvals. cbn [a_bits a_values fold_right flat_map]. rewrite app_nil_r.
  destruct (cn (g i)); cbn [olist].
  - rewrite N.lor_0_r. apply okv_push. assumption.
  - rewrite N.lor_0_r, app_nil_r. eapply okv_mono; [|exact H]. lia.
Qed.

Definition got (o : outcome cont) : cont := match o with Ret c => c | _ => None end.

(** [step] contributes [f i] at index [i]. *)
Definition steps (step : acc K V R -> N -> outcome (acc K V R)) (f : N -> outcome cont) : Prop :=
  forall a i, i < max_ones fw -> okv i (a_bits a) (a_values a) ->
    step a i = let* c := f i in Ret (after (fun _ => c) [i] a).

(** A loop that reaches its end, or stops at an index that fails. *)
Definition all_ret {A} (f : N -> outcome A) (l : list N) : Prop := forall i, In i l -> exists c, f i = Ret c.
Definition fails {A B} (f : N -> outcome A) (l : list N) (o : outcome B) : Prop :=
  (exists i, In i l /\ f i = Panic /\ o = Panic) \/ (exists i, In i l /\ f i = Diverge /\ o = Diverge).

Lemma loop_ok step f (lo hi : N) a : steps step f -> lo <= hi -> hi <= max_ones fw ->
  okv lo (a_bits a) (a_values a) ->
  (all_ret f (range lo hi) /\ loop step (range lo hi) a = Ret (after (fun i => got (f i)) (range lo hi) a)) \/
  fails f (range lo hi) (loop step (range lo hi) a).
Proof.
  intros Hs Hle Hhi. remember (N.to_nat (hi - lo)) as n eqn:Hn. revert lo a Hle Hn.
  induction n as [|n IH]; intros lo a Hle Hn Hok.
  - replace hi with lo by lia. rewrite range_nil. left. split; [intros i []|]. rewrite after_nil. reflexivity.
  - rewrite range_cons by lia. cbn [loop]. rewrite Hs by (try assumption; lia).
    destruct (f lo) as [c| |] eqn:Hf; cbn [bind].
    + assert (Ha : after (fun _ => c) [lo] a = after (fun i => got (f i)) [lo] a).
      { unfold after. cbn. rewrite Hf. reflexivity. }
      rewrite Ha.
      destruct (IH (N.succ lo) (after (fun i => got (f i)) [lo] a)) as [[H1 H2]|H].
      * lia.
      * lia.
      * apply after_ok. assumption.
      * left. split.
        { intros i [<-|Hi]; [eauto|]. apply H1. assumption. }
        rewrite H2. symmetry. f_equal. apply after_cons.
      * right. destruct H as [(i & Hi & H)|(i & Hi & H)]; [left|right]; exists i; (split; [right|]; assumption).
    + right. left. exists lo. split; [left; reflexivity|]. auto.
    + right. right. exists lo. split; [left; reflexivity|]. auto.
Qed.

(** The reduction as the two strategies bracket it. *)
Definition sred (st : strategy) (g : N -> cont) : R :=
  match st with
  | Sequential => fold_left rd (greds g (range 0 (max_ones fw))) rdef
  | MiddleIndex => rd (fold_left rd (greds g (range 0 half)) rdef) (fold_left rd (greds g (range half (max_ones fw))) rdef)
  end.

(** The accumulator at the end. *)
Definition total (g : N -> cont) (r : R) : acc K V R :=
  let l := range 0 (max_ones fw) in Acc (gsize g l) (gbits g l) (gvals g l) (gl g l) (gu g l) r.

Lemma run_loop_ok st step f : steps step f ->
  (all_ret f (range 0 (max_ones fw)) /\
   run_loop rdef rd st step = Ret (total (fun i => got (f i)) (sred st (fun i => got (f i))))) \/
  fails f (range 0 (max_ones fw)) (run_loop rdef rd st step).
Proof.
  intros Hs. destruct st; unfold run_loop.
  - destruct (loop_ok step f 0 (max_ones fw) (acc0 rdef) Hs) as [[H1 H2]|H]; try lia; [apply okv_nil| |right; assumption].
    left. split; [assumption|]. rewrite H2. reflexivity.
  - unfold halves. fold half. pose proof half_le as Hh. rewrite range_half.
    assert (Hin : forall i, In i (range 0 half) \/ In i (range half (max_ones fw)) -> In i (range 0 half ++ range half (max_ones fw))).
    { intros i. apply in_or_app. }
    destruct (loop_ok step f 0 half (acc0 rdef) Hs) as [[H1 H2]|H]; try lia; [apply okv_nil| |].
    + rewrite H2. cbn [bind].
      destruct (loop_ok step f half (max_ones fw) (acc0 rdef) Hs) as [[H3 H4]|H]; try lia; [apply okv_nil| |].
      * left. split.
        { intros i Hi. apply in_app_or in Hi. destruct Hi; auto. }
        rewrite H4. cbn [bind after acc0 a_bits a_size a_values a_ul a_ur a_red]. rewrite !N.lor_0_l.
        unfold bit_merge.
        rewrite (disjoint_land half _ (gvals (fun i => got (f i)) (range 0 half)) _ (@nil N) (proj1 (g_ok _ half))).
        2:{ intros i Hi. destruct (N.testbit _ i) eqn:Ht; [|reflexivity]. apply gbits_in in Ht. apply range_in in Ht. lia. }
        cbn [N.eqb negb unwrap_ok bind]. f_equal. unfold total. rewrite range_half. f_equal.
        { rewrite gsize_app. reflexivity. }
        { rewrite gbits_app. reflexivity. }
        { unfold gvals. rewrite flat_map_app. reflexivity. }
        { unfold gl. rewrite forallb_app. reflexivity. }
        { unfold gu. rewrite forallb_app. reflexivity. }
      * right. destruct H as [(i & Hi & H & H')|(i & Hi & H & H')]; [left|right]; exists i; rewrite H'; auto.
    + right. destruct H as [(i & Hi & H & H')|(i & Hi & H & H')]; [left|right]; exists i; rewrite H'; auto.
Qed.

Lemma run_ret st (step : acc K V R -> N -> outcome (acc K V R)) f g : steps step f -> (forall i, i < max_ones fw -> f i = Ret (g i)) ->
  run_loop rdef rd st step = Ret (total g (sred st g)).
Proof.
  intros Hs Hf. destruct (run_loop_ok st step f Hs) as [[_ H]|H].
  - rewrite H. f_equal.
    assert (HE : forall i, i < max_ones fw -> got (f i) = g i) by (intros i Hi; rewrite Hf by assumption; reflexivity).
    assert (Hr : forall lo hi, hi <= max_ones fw -> greds (fun i => got (f i)) (range lo hi) = greds g (range lo hi)).
    { intros lo hi Hh. apply flat_map_ext_in. intros i Hi. apply range_in in Hi. rewrite HE by lia. reflexivity. }
    destruct (g_ext (fun i => got (f i)) g) as (H1 & H2 & H3 & H4 & H5).
    { intros i Hi. rewrite HE by assumption. auto. }
    unfold total. rewrite H1, H2, H3, H4, H5. f_equal. unfold sred. destruct st; rewrite !Hr; try reflexivity; try apply half_le; lia.
  - exfalso. destruct H as [(i & Hi & H & _)|(i & Hi & H & _)]; apply range_in in Hi; rewrite Hf in H by lia; discriminate.
Qed.

(** [Sequential] without strategies. *)
Lemma loop_all_ok step f : steps step f ->
  (all_ret f (range 0 (max_ones fw)) /\
   loop step (range 0 (max_ones fw)) (acc0 rdef) = Ret (total (fun i => got (f i)) (sred Sequential (fun i => got (f i))))) \/
  fails f (range 0 (max_ones fw)) (loop step (range 0 (max_ones fw)) (acc0 rdef)).
Proof. apply (run_loop_ok Sequential). Qed.

(** ** The blocks *)

Lemma push_ok (a : acc K V R) i n r : i < max_ones fw -> okv i (a_bits a) (a_values a) ->
  push rd a i n (m_size n) r = Ret (after (fun _ => Some (Some n, r, true, true)) [i] a).
Proof.
  intros Hi Hok. unfold push. rewrite nth_bit_ok by assumption. cbn [unwrap_ok bind].
  rewrite bit_insert_pow2. rewrite (okv_testbit_ge _ _ _ i Hok) by lia. cbn [unwrap_ok bind].
  unfold after. cbn. rewrite N.lor_0_r, N.add_0_r, !andb_true_r. reflexivity.
Qed.

Lemma push_new_ok (a : acc K V R) i n : i < max_ones fw -> okv i (a_bits a) (a_values a) ->
  push_new rd a i n = Ret (after (fun _ => Some (nnode n, nred n, true, true)) [i] a).
Proof.
  intros Hi Hok. unfold push_new. destruct n; cbn [nnode nred].
  - apply (push_ok a i (MC c) r); assumption.
  - apply (push_ok a i (ML l) r); assumption.
  - apply (push_ok a i (MS s) r); assumption.
  - unfold after. cbn. rewrite N.lor_0_r, N.add_0_r, !andb_true_r, app_nil_r. reflexivity.
Qed.

Lemma set_ul_after (a : acc K V R) i on r u u' :
  set_ul (after (fun _ => Some (on, r, u, u')) [i] a) = after (fun _ => Some (on, r, false, u')) [i] a.
Proof. unfold set_ul, after. cbn. f_equal. rewrite andb_false_r. reflexivity. Qed.

Lemma set_ur_after (a : acc K V R) i on r u u' :
  set_ur (after (fun _ => Some (on, r, u, u')) [i] a) = after (fun _ => Some (on, r, u, false)) [i] a.
Proof. unfold set_ur, after. cbn. f_equal. rewrite andb_false_r. reflexivity. Qed.

(** ** The end of the loop *)
Context {KK : Key K}.

Lemma gvals_visit g n : concat (map m_visit (gvals g (range 0 n))) = flat_map (fun i => ovisit (cn (g i))) (range 0 n).
Proof.
  rewrite <- flat_map_concat_map. unfold gvals. induction (range 0 n) as [|i l IH]; cbn; [reflexivity|].
  rewrite flat_map_app, IH. f_equal. destruct (cn (g i)); cbn; [apply app_nil_r|reflexivity].
Qed.

Lemma gsize_len g l : (forall i n, In i l -> cn (g i) = Some n -> m_size n = lenN (m_visit n)) ->
  gsize g l = lenN (flat_map (fun i => ovisit (cn (g i))) l).
Proof.
  induction l as [|i l IH]; intros H; cbn; [reflexivity|]. fold (gsize g l). rewrite lenN_app, IH.
  - destruct (cn (g i)) eqn:Hc; cbn [ovisit]; [rewrite (H i m) by auto with datatypes; reflexivity|reflexivity].
  - intros j n Hj. apply H. right. assumption.
Qed.

Lemma finish_ok d p g r : off d < hbits -> p < 2 ^ off d ->
  (forall i n, i < max_ones fw -> cn (g i) = Some n -> wf (d + 1) (p + i * 2 ^ off d) n) ->
  exists n, finish (total g r) = Ret n /\ nred n = r /\
    ovisit (nnode n) = flat_map (fun i => ovisit (cn (g i))) (range 0 (max_ones fw)) /\
    (forall n', nnode n = Some n' -> wf d p n').
Proof.
  clear rdef rd.
  intros Hd Hp Hw. destruct (g_ok g (max_ones fw)) as [Hok Hget].
  set (l := range 0 (max_ones fw)) in *.
  assert (Hsz : gsize g l = lenN (flat_map (fun i => ovisit (cn (g i))) l)).
  { apply gsize_len. intros i n Hi Hc. apply range_in in Hi. eapply wf_size. apply (Hw i n); [lia|assumption]. }
  assert (HC : gvals g l <> [] -> wf d p (MC (BIA (gbits g l) (gvals g l) (gsize g l)))).
  { intros Hne. constructor; try assumption.
    - left. assumption.
    - rewrite Hsz. unfold l. rewrite gvals_visit. reflexivity.
    - intros i c Hc. rewrite Hget in Hc. destruct (N.ltb_spec i (max_ones fw)); [|discriminate].
      apply Hw; assumption. }
  assert (HV : concat (map m_visit (gvals g l)) = flat_map (fun i => ovisit (cn (g i))) l) by apply gvals_visit.
  unfold finish, total. fold l. cbn [a_values a_bits a_size a_red].
  assert (Hbig : gvals g l <> [] -> exists n, (let* b := unwrap_ok (new_bia (gbits g l) (gvals g l) (gsize g l)) in Ret (NRC b r)) = Ret n /\ nred n = r /\
    ovisit (nnode n) = flat_map (fun i => ovisit (cn (g i))) l /\
    (forall n', nnode n = Some n' -> wf d p n')).
  { intros Hne. rewrite (new_bia_ok fw) by assumption. cbn [unwrap_ok bind]. eexists. split; [reflexivity|].
    split; [reflexivity|]. cbn [nnode ovisit m_visit]. split; [assumption|]. intros n' [= <-]. auto. }
  assert (Hleaf : forall n, gvals g l = [n] -> (match n with MC _ => False | _ => True end) -> wf d p n).
  { intros n Hn Hl.
    assert (Hin : In n (gvals g l)) by (rewrite Hn; left; reflexivity).
    apply in_flat_map in Hin. destruct Hin as (i & Hi & Hin). apply range_in in Hi.
    destruct (cn (g i)) eqn:Hc; [|destruct Hin]. destruct Hin as [<-|[]].
    pose proof (Hw i m ltac:(lia) Hc) as HW. inversion HW; subst; [| |contradiction].
    - constructor. eapply pre_idx; [exact Hp|]. eassumption.
    - eapply wf_L; [eassumption|]. eapply pre_idx; [exact Hp|]. eassumption. }
  destruct (gvals g l) as [|n0 vs] eqn:Hv.
  - eexists. split; [reflexivity|]. split; [reflexivity|]. cbn [nnode ovisit]. split; [assumption|]. discriminate.
  - destruct n0 as [c|l0|s0]; destruct vs as [|n1 vs]; try (apply Hbig; discriminate).
    + eexists. split; [reflexivity|]. split; [reflexivity|]. cbn [nnode ovisit]. split.
      * rewrite <- HV. cbn [map concat]. symmetry. apply app_nil_r.
      * intros n' [= <-]. apply Hleaf; [reflexivity|exact I].
    + eexists. split; [reflexivity|]. split; [reflexivity|]. cbn [nnode ovisit]. split.
      * rewrite <- HV. cbn [map concat]. symmetry. apply app_nil_r.
      * intros n' [= <-]. apply Hleaf; [reflexivity|exact I].
Qed.

(** The reductions do not decide which node is built. *)
Lemma finish_red g r r' : exists n n', finish (total g r) = Ret n /\ finish (total g r') = Ret n' /\ nnode n = nnode n' \/
  finish (total g r) = Panic /\ finish (total g r') = Panic.
Proof.
  unfold finish, total. cbn [a_values a_bits a_size a_red].
  destruct (gvals g _) as [|[c|l0|s0] [|n1 vs]]; try (do 2 eexists; left; split; [reflexivity|split; reflexivity]);
    destruct (new_bia _ _ _); cbn; try (do 2 eexists; left; split; [reflexivity|split; reflexivity]);
    exists (NRZ r), (NRZ r); right; split; reflexivity.
Qed.

End Loop.
Arguments cont : clear implicits.

(** * Reductions *)

(** [rd] with [rdef] is a monoid; its product. *)
Definition monoid {R} (rdef : R) (rd : R -> R -> R) : Prop :=
  (forall a b c, rd a (rd b c) = rd (rd a b) c) /\ (forall a, rd rdef a = a) /\ (forall a, rd a rdef = a).
Definition msum {R} (rdef : R) (rd : R -> R -> R) (l : list R) : R := fold_right rd rdef l.

Section Monoid.
Context {R : Type} (rdef : R) (rd : R -> R -> R) (HM : monoid rdef rd).

Lemma fold_left_msum l a : fold_left rd l a = rd a (msum rdef rd l).
Proof.
  destruct HM as (Ha & Hl & Hr). revert a. induction l as [|x l IH]; intros a; cbn; [rewrite Hr; reflexivity|].
  rewrite IH. rewrite Ha. reflexivity.
Qed.

Lemma msum_app l l' : msum rdef rd (l ++ l') = rd (msum rdef rd l) (msum rdef rd l').
Proof.
  destruct HM as (Ha & Hl & Hr). induction l as [|x l IH]; cbn; [rewrite Hl; reflexivity|].
  unfold msum in IH. rewrite IH. apply Ha.
Qed.

Lemma msum_one a : msum rdef rd [a] = a.
Proof. cbn. apply HM. Qed.

Lemma sred_msum {E : Env} {K V} st (g : N -> cont K V R) :
  sred rdef rd st g = msum rdef rd (greds g (range 0 (max_ones fw))).
Proof.
  destruct HM as (Ha & Hl & Hr). destruct st; unfold sred.
  - rewrite fold_left_msum. apply Hl.
  - rewrite !fold_left_msum, !Hl. rewrite range_half. unfold greds. rewrite flat_map_app. rewrite msum_app. reflexivity.
Qed.

Lemma msum_flat_map {A} (f : A -> list R) l : msum rdef rd (flat_map f l) = msum rdef rd (map (fun a => msum rdef rd (f a)) l).
Proof. induction l; cbn [flat_map map]; [reflexivity|]. rewrite msum_app, IHl. reflexivity. Qed.

Lemma msum_perm l l' : (forall a b, rd a b = rd b a) -> Permutation l l' -> msum rdef rd l = msum rdef rd l'.
Proof.
  destruct HM as (Ha & Hl & Hr). intros HC H. unfold msum. induction H; cbn [fold_right]; try congruence.
Qed.

End Monoid.
