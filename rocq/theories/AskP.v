(** What find, insert and remove do whatever the keys and values answer. *)
From Coq Require Import NArith Arith List Bool Lia ZifyBool ZifyN ZifyNat Permutation.
From Verif Require Import Base Words WordsP Flag FlagP Bia BiaP Node Inv InsertP Api Profile Eff EffP Ask SpecAsk.
Import ListNotations.
Open Scope N_scope.

(** * Slots as parts of the list of children *)

Lemma bat_split {A} n bits (values : list A) x i c : okv n bits values -> bat (BIA bits values x) (2 ^ i) = Ok c ->
  exists l1 l2, values = l1 ++ c :: l2 /\ N.testbit bits i = true /\ rank bits i = lenN l1.
Proof.
  intros Hok Hb. unfold bat in Hb. cbn [bbits bvalues] in Hb. rewrite bit_index_pow2 in Hb.
  destruct (N.testbit bits i) eqn:Ht; [|discriminate]. destruct (nthN values (rank bits i)) as [a|] eqn:Hn; [|discriminate].
  injection Hb as ->. destruct (split_at_elt _ _ _ Hn) as (l1 & l2 & Hv & Hl & _). exists l1, l2. auto.
Qed.

Lemma bat_err {A} w bits (values : list A) x i e : okv (max_ones w) bits values -> bat (BIA bits values x) (2 ^ i) = Err e -> N.testbit bits i = false.
Proof.
  intros Hok Hb. unfold bat in Hb. cbn [bbits bvalues] in Hb. rewrite bit_index_pow2 in Hb.
  destruct (N.testbit bits i) eqn:Ht; [|reflexivity]. exfalso. destruct (okv_some _ _ _ i Hok Ht) as [a Ha].
  unfold getv in Ha. rewrite Ht in Ha. rewrite Ha in Hb. discriminate.
Qed.

Lemma bupdated_split {A} w bits (l1 l2 : list A) c v i x y : okv (max_ones w) bits (l1 ++ c :: l2) ->
  N.testbit bits i = true -> rank bits i = lenN l1 ->
  okv (max_ones w) bits (l1 ++ v :: l2) /\
  bupdated (BIA bits (l1 ++ c :: l2) x) (2 ^ i) v y = Ok (BIA bits (l1 ++ v :: l2) y).
Proof.
  intros [H1 H2] Ht Hr.
  assert (Hok : okv (max_ones w) bits (l1 ++ v :: l2)).
  { split; [assumption|]. rewrite H2, !lenN_app, !lenN_cons. reflexivity. }
  split; [assumption|]. unfold bupdated. cbn [bbits bvalues]. rewrite bit_index_pow2, Ht, Hr. unfold values_update.
  assert (Hn : nthN (l1 ++ c :: l2) (lenN l1) = Some c) by (rewrite nthN_app2 by lia; rewrite N.sub_diag; reflexivity).
  assert (Hl : N.to_nat (lenN l1) = length l1) by (unfold lenN; lia). rewrite Hl.
  rewrite firstn_app, Nat.sub_diag, firstn_all, skipn_app. cbn [firstn]. rewrite app_nil_r.
  rewrite skipn_all2 by lia. replace (S (length l1) - length l1)%nat with 1%nat by lia. cbn [skipn app].
  apply (new_bia_ok w). assumption.
Qed.

Lemma bremoved_split {A} w bits (l1 l2 : list A) c i x y : okv (max_ones w) bits (l1 ++ c :: l2) ->
  i < max_ones w -> N.testbit bits i = true -> rank bits i = lenN l1 ->
  exists bits', okv (max_ones w) bits' (l1 ++ l2) /\
  bremoved (BIA bits (l1 ++ c :: l2) x) (2 ^ i) y = Ok (BIA bits' (l1 ++ l2) y).
Proof.
  intros [H1 H2] Hi Ht Hr. exists (N.lxor bits (2 ^ i)). pose proof (count_ones_lxor_pow2 _ _ Ht) as Hc.
  assert (Hok : okv (max_ones w) (N.lxor bits (2 ^ i)) (l1 ++ l2)).
  { split; [apply lxor_pow2_lt; assumption|]. rewrite lenN_app, lenN_cons in H2. rewrite lenN_app. lia. }
  split; [assumption|]. unfold bremoved. cbn [bbits bvalues]. rewrite bit_remove_pow2, bit_index_pow2, Ht, Hr.
  unfold values_remove.
  assert (Hl : N.to_nat (lenN l1) = length l1) by (unfold lenN; lia). rewrite Hl.
  rewrite firstn_app, Nat.sub_diag, firstn_all, skipn_app. cbn [firstn]. rewrite app_nil_r.
  rewrite skipn_all2 by lia. replace (S (length l1) - length l1)%nat with 1%nat by lia. cbn [skipn app].
  apply (new_bia_ok w). assumption.
Qed.

Lemma binserted_split {A} w bits (values : list A) v i x y : okv (max_ones w) bits values ->
  i < max_ones w -> N.testbit bits i = false ->
  exists l1 l2 bits', values = l1 ++ l2 /\ okv (max_ones w) bits' (l1 ++ v :: l2) /\
  binserted (BIA bits values x) (2 ^ i) v y = Ok (BIA bits' (l1 ++ v :: l2) y).
Proof.
  intros [H1 H2] Hi Ht.
  assert (Hr : rank bits i <= lenN values) by (rewrite <- H2; apply rank_le_count).
  destruct (split_at _ _ Hr) as (l1 & l2 & Hv & Hl & Ef & Es). exists l1, l2, (N.lor bits (2 ^ i)).
  split; [assumption|].
  assert (Hok : okv (max_ones w) (N.lor bits (2 ^ i)) (l1 ++ v :: l2)).
  { split; [apply lor_pow2_lt; assumption|]. rewrite count_ones_lor_pow2 by assumption.
    rewrite H2, Hv, !lenN_app, lenN_cons. lia. }
  split; [assumption|]. unfold binserted. cbn [bbits bvalues].
  rewrite bit_insert_pow2, Ht, bit_index_pow2, testbit_lor_pow2, N.eqb_refl, orb_true_r.
  rewrite rank_lor_pow2 by assumption. rewrite N.ltb_irrefl, N.add_0_r.
  unfold values_insert. rewrite Ef, Es. apply (new_bia_ok w). assumption.
Qed.

Section Gives.
Context {Q : Type} {A : Q -> Type}.

(** Every run of [p] meets [G]. *)
Definition gives {X} (p : prog A X) (G : list (event (A := A)) -> outcome X -> Prop) : Prop :=
  forall tr o, exec p tr o -> G tr o.

Lemma gives_ret {X} (x : X) (G : _ -> _ -> Prop) : G [] (Ret x) -> gives (PRet x) G.
Proof. intros H tr o [-> ->]. assumption. Qed.
Lemma gives_panic {X} (G : _ -> outcome X -> Prop) : G [] Panic -> gives PPanic G.
Proof. intros H tr o [-> ->]. assumption. Qed.
Lemma gives_ask {X} q (k : A q -> prog A X) (G : _ -> _ -> Prop) :
  G [broke q] Panic -> (forall a, gives (k a) (fun tr o => G (answer q a :: tr) o)) -> gives (PAsk q k) G.
Proof. intros H1 H2 tr o [(a & tr' & -> & He)|[-> ->]]; [apply H2; assumption|assumption]. Qed.
Lemma gives_bind {X Y} (p : prog A X) (k : X -> prog A Y) (P G : _ -> _ -> Prop) :
  gives p P -> (forall tr x, P tr (Ret x) -> gives (k x) (fun tr' o => G (tr ++ tr') o)) ->
  (forall tr, P tr Panic -> G tr Panic) -> (forall tr, P tr Diverge -> G tr Diverge) -> gives (pbind p k) G.
Proof.
  intros Hp Hk H1 H2 tr o He. apply exec_bind in He. destruct He as [(t1 & t2 & x & -> & He1 & He2)|[[He ->]|[He ->]]].
  - eapply Hk; [apply Hp; exact He1|exact He2].
  - apply H1, Hp, He.
  - apply H2, Hp, He.
Qed.
Lemma gives_lift {X Y} (o : outcome X) (k : X -> prog A Y) (G : _ -> _ -> Prop) :
  (forall x, o = Ret x -> gives (k x) G) -> (o = Panic -> G [] Panic) -> (o = Diverge -> G [] Diverge) -> gives (pbind (lift o) k) G.
Proof. intros H1 H2 H3. destruct o; cbn [lift pbind]; [apply H1; reflexivity|intros tr o [-> ->]; auto..]. Qed.
Lemma gives_weak {X} (p : prog A X) (P G : _ -> _ -> Prop) : gives p P -> (forall tr o, P tr o -> G tr o) -> gives p G.
Proof. intros H1 H2 tr o He. auto. Qed.

End Gives.

(** * Flags *)
Section AskP.
Context {E : Env} {K V L W : Type}.
Notation event := (event (A := @reply E K V L W)).

(** A flag can be made at depth [d]. *)
Definition usable (d : N) : Prop := off d < 8 * hbits /\ (checked = true -> off d < hbits).

Definition flag_at (d : N) (f : Flag) : Prop := fl_depth f = d /\ exists i, i < max_ones fw /\ fl_flag f = 2 ^ i.

Lemma mod_lt_ones h : h mod 2 ^ log_b fw < max_ones fw.
Proof. rewrite max_ones_log. apply N.mod_lt, pow2_ne0. Qed.

Lemma flag_new_at h : exists f, flag_new h = Ret f /\ flag_at 0 f /\ fl_hash f = h.
Proof.
  rewrite flag_new_ok. eexists. split; [reflexivity|]. split; [|reflexivity]. split; [reflexivity|].
  exists (idx 0 h). split; [apply idx_lt|reflexivity].
Qed.

Lemma flag_usable h d : usable d -> exists f, flag_new_at_depth h d = Ret (Some f) /\ flag_at d f /\ fl_hash f = h.
Proof.
  intros [H1 H2]. unfold flag_new_at_depth. rewrite guard_ok by assumption. unfold shr.
  assert (exists s, (if d * log_b fw <? max_ones hw then Ret (N.shiftr h (d * log_b fw))
    else if checked then Panic else Ret (N.shiftr h (d * log_b fw mod max_ones hw))) = Ret s) as [s ->].
  { destruct (N.ltb_spec (d * log_b fw) (max_ones hw)) as [|Hge]; [eauto|].
    destruct checked; [|eauto]. unfold off, hbits in *. specialize (H2 eq_refl). lia. }
  cbn [bind]. rewrite slice_bit_ok. cbn [bind]. eexists. split; [reflexivity|]. split; [|reflexivity].
  split; [reflexivity|]. exists (s mod 2 ^ log_b fw). split; [apply mod_lt_ones|reflexivity].
Qed.

(** Whatever the depth: a flag, none, or the panic of a debug build. *)
Lemma flag_any h d :
  (exists f, flag_new_at_depth h d = Ret (Some f) /\ flag_at d f /\ fl_hash f = h /\ usable d) \/
  (flag_new_at_depth h d = Ret None /\ 8 * hbits <= off d) \/
  (flag_new_at_depth h d = Panic /\ checked = true).
Proof.
  destruct (N.lt_ge_cases (off d) (8 * hbits)) as [Hlt|Hge].
  - assert (checked = true -> off d < hbits \/ flag_new_at_depth h d = Panic) as Hc.
    { intros Hc. destruct (N.lt_ge_cases (off d) hbits) as [|Hge]; [auto|]. right.
      unfold flag_new_at_depth. rewrite guard_ok by assumption. unfold shr. unfold off, hbits in *.
      destruct (N.ltb_spec (d * log_b fw) (max_ones hw)); [lia|]. rewrite Hc. reflexivity. }
    destruct checked eqn:Hck.
    + destruct (Hc eq_refl) as [Hlt'|HP]; [|auto]. left.
      assert (HU : usable d) by (split; [assumption|auto]). destruct (flag_usable h d HU) as (f & H1 & H2 & H3). eauto 10.
    + left. assert (HU : usable d) by (split; [assumption|congruence]).
      destruct (flag_usable h d HU) as (f & H1 & H2 & H3). eauto 10.
  - right. left. split; [|assumption]. unfold flag_new_at_depth. unfold off, hbits in *.
    destruct (N.leb_spec (8 * max_ones hw) (d * log_b fw)); [reflexivity|lia].
Qed.

Lemma usable_le d d' : d' <= d -> usable d -> usable d'.
Proof. unfold usable, off. intros H [H1 H2]. assert (d' * log_b fw <= d * log_b fw) by (apply N.mul_le_mono_r; assumption).
  split; [lia|]. intros Hc. specialize (H2 Hc). lia. Qed.

(** * Maps of which only the shape is known *)

Inductive loose : N -> mnode K V -> Prop :=
| loose_S d s : loose d (MS s)
| loose_L d l : lok l -> loose d (ML l)
| loose_C d bits values x : usable d -> okv (max_ones fw) bits values -> (values <> [] \/ d = 0) ->
    x = lenN (concat (map m_visit values)) -> (forall c, In c values -> loose (d + 1) c) ->
    loose d (MC (BIA bits values x)).

Lemma loose_size d n : loose d n -> m_size n = lenN (m_visit n).
Proof. intros [? s|? l Hl|? bits values x HU Hok Hne Hx Hch]; [reflexivity|apply l_size_len; assumption|]. exact Hx. Qed.

Lemma loose_some d n : loose d n -> d <> 0 -> m_visit n <> [].
Proof.
  intros HL. induction HL as [d s|d l Hl|d bits values x HU Hok Hne Hx Hch IH]; intros Hd.
  - discriminate.
  - destruct l; discriminate.
  - destruct Hne as [Hne|]; [|contradiction]. destruct values as [|c vs]; [contradiction|]. cbn [m_visit bvalues map concat].
    specialize (IH c (or_introl eq_refl) ltac:(lia)). destruct (m_visit c); [contradiction|discriminate].
Qed.

Lemma concat_split (l1 l2 : list (mnode K V)) c :
  concat (map m_visit (l1 ++ c :: l2)) = concat (map m_visit l1) ++ m_visit c ++ concat (map m_visit l2).
Proof. rewrite map_app, concat_app. reflexivity. Qed.

End AskP.
