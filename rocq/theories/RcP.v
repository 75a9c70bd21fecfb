(** Reference counts are right: what is alive is what the client can reach. *)
From Coq Require Import NArith Arith List Bool Lia.
From Verif Require Import Base Bia Node Api Versions Heap SpecH HeapP HeapHist HeapBulk HeapRun HeapOpP HeapPropP HeapRunP HeapPlaceP Rc.
Import ListNotations.
Open Scope nat_scope.

(** * Sums *)
Notation occ := (count_occ Nat.eq_dec).

Lemma sum_change (f g : nat -> nat) x l : NoDup l -> In x l -> (forall y, y <> x -> f y = g y) ->
  list_sum (map g l) + f x = list_sum (map f l) + g x.
Proof.
  intros Hn Hi He. induction Hn as [|y l Hy Hn IH]; [destruct Hi|]. cbn [map list_sum fold_right].
  change (fold_right Init.Nat.add 0 (map g l)) with (list_sum (map g l)).
  change (fold_right Init.Nat.add 0 (map f l)) with (list_sum (map f l)).
  destruct (Nat.eq_dec y x) as [->|Hne].
  - assert (Hm : map g l = map f l) by (apply map_ext_in; intros z Hz; symmetry; apply He; congruence).
    rewrite Hm. lia.
  - rewrite (He y Hne). destruct Hi as [Hi|Hi]; [congruence|]. specialize (IH Hi). lia.
Qed.

Lemma sum_same (f g : nat -> nat) l : (forall y, In y l -> f y = g y) -> list_sum (map g l) = list_sum (map f l).
Proof. intros H. f_equal. apply map_ext_in. intros y Hy. symmetry. apply H, Hy. Qed.

Lemma sum_pos (f : nat -> nat) l : list_sum (map f l) <> 0 -> exists y, In y l /\ f y <> 0.
Proof.
  induction l as [|y l IH]; cbn [map list_sum fold_right]; intros H; [congruence|].
  change (fold_right Init.Nat.add 0 (map f l)) with (list_sum (map f l)) in H.
  destruct (Nat.eq_dec (f y) 0) as [Hy|Hy].
  - destruct IH as (z & Hz & Hf); [lia|]. exists z. split; [right; exact Hz|exact Hf].
  - exists y. split; [left; reflexivity|exact Hy].
Qed.

Lemma sum_ge (f : nat -> nat) l y : In y l -> f y <= list_sum (map f l).
Proof.
  induction l as [|z l IH]; intros H; [destruct H|]. cbn [map list_sum fold_right].
  change (fold_right Init.Nat.add 0 (map f l)) with (list_sum (map f l)).
  destruct H as [->|H]; [lia|]. specialize (IH H). lia.
Qed.

Lemma sum_le (f g : nat -> nat) l : (forall y, f y <= g y) -> list_sum (map f l) <= list_sum (map g l).
Proof.
  intros H. induction l as [|y l IH]; [apply Nat.le_refl|]. cbn [map list_sum fold_right].
  change (fold_right Init.Nat.add 0 (map g l)) with (list_sum (map g l)).
  change (fold_right Init.Nat.add 0 (map f l)) with (list_sum (map f l)). specialize (H y). lia.
Qed.

Lemma occ_in l a : In a l <-> occ l a <> 0.
Proof. rewrite (count_occ_In Nat.eq_dec). lia. Qed.

Section RcP.
Context {E : Env} {K V : Type} {KK : Key K}.
Notation heap := (heap K V).
Implicit Types (h : heap) (cnt : counts).

Definition refs_at h (b : addr) : list addr := match nth_error h b with Some c => refs c | None => [] end.

(** The references to [a] in living cells. *)
Definition owed h cnt (a : addr) : nat :=
  list_sum (map (fun b : nat => match cnt b with S _ => occ (refs_at h b) a | O => 0 end) (seq 0 (length h))).

Lemma arcs_owed h cnt vs a : arcs h cnt vs a = occ (map addr_of vs) a + owed h cnt a.
Proof.
  unfold arcs, owed. f_equal. f_equal. apply map_ext. intros b. unfold refs_at.
  destruct (cnt b), (nth_error h b); reflexivity.
Qed.

Definition held_count (n : nat) : nat := match n with O => 0 | S _ => 1 end.

Lemma owed_set h cnt b n a : b < length h ->
  owed h (set_count cnt b n) a + match cnt b with S _ => occ (refs_at h b) a | O => 0 end =
  owed h cnt a + match n with S _ => occ (refs_at h b) a | O => 0 end.
Proof.
  intros Hb. unfold owed.
  pose proof (sum_change (fun b0 => match cnt b0 with S _ => occ (refs_at h b0) a | O => 0 end)
    (fun b0 => match set_count cnt b n b0 with S _ => occ (refs_at h b0) a | O => 0 end) b (seq 0 (length h))) as H.
  cbv beta in H. assert (Hs : set_count cnt b n b = n) by (unfold set_count; rewrite Nat.eqb_refl; reflexivity).
  rewrite Hs in H. apply H.
  - apply seq_NoDup.
  - apply in_seq. lia.
  - intros y Hy. unfold set_count. destruct (Nat.eqb_spec y b); [congruence|reflexivity].
Qed.

(** Counts and references agree, up to what is still to do. *)
Definition gains h cnt (out todo : list addr) : Prop :=
  (forall a, cnt a + occ todo a = occ out a + owed h cnt a) /\ forall a, cnt a <> 0 -> a < length h.
Definition loses h cnt (out todo : list addr) : Prop :=
  (forall a, cnt a = occ out a + owed h cnt a + occ todo a) /\ forall a, cnt a <> 0 -> a < length h.

(** The references that can still be followed. *)
Definition asleep h cnt : nat := list_sum (map (fun b : nat => match cnt b with S _ => 0 | O => length (refs_at h b) end) (seq 0 (length h))).
Definition awake h cnt : nat := list_sum (map (fun b : nat => match cnt b with O => 0 | S _ => length (refs_at h b) end) (seq 0 (length h))).

Lemma asleep_set h cnt b n : b < length h ->
  asleep h (set_count cnt b n) + match cnt b with O => length (refs_at h b) | S _ => 0 end =
  asleep h cnt + match n with O => length (refs_at h b) | S _ => 0 end.
Proof.
  intros Hb. unfold asleep.
  pose proof (sum_change (fun b0 => match cnt b0 with S _ => 0 | O => length (refs_at h b0) end)
    (fun b0 => match set_count cnt b n b0 with S _ => 0 | O => length (refs_at h b0) end) b (seq 0 (length h))) as H.
  cbv beta in H. assert (Hs : set_count cnt b n b = n) by (unfold set_count; rewrite Nat.eqb_refl; reflexivity).
  rewrite Hs in H. apply H.
  - apply seq_NoDup.
  - apply in_seq. lia.
  - intros y Hy. unfold set_count. destruct (Nat.eqb_spec y b); [congruence|reflexivity].
Qed.
Lemma awake_set h cnt b n : b < length h ->
  awake h (set_count cnt b n) + match cnt b with S _ => length (refs_at h b) | O => 0 end =
  awake h cnt + match n with S _ => length (refs_at h b) | O => 0 end.
Proof.
  intros Hb. unfold awake.
  pose proof (sum_change (fun b0 => match cnt b0 with O => 0 | S _ => length (refs_at h b0) end)
    (fun b0 => match set_count cnt b n b0 with O => 0 | S _ => length (refs_at h b0) end) b (seq 0 (length h))) as H.
  cbv beta in H. assert (Hs : set_count cnt b n b = n) by (unfold set_count; rewrite Nat.eqb_refl; reflexivity).
  rewrite Hs in H. apply H.
  - apply seq_NoDup.
  - apply in_seq. lia.
  - intros y Hy. unfold set_count. destruct (Nat.eqb_spec y b); [congruence|reflexivity].
Qed.

Lemma seq_refs h : map (fun b => length (refs_at h b)) (seq 0 (length h)) = map (fun c => length (refs c)) h.
Proof.
  induction h as [|c h IH]; [reflexivity|]. cbn [length seq map]. f_equal.
  rewrite <- seq_shift, map_map, <- IH. apply map_ext. intros b. reflexivity.
Qed.
Lemma asleep_fuel h cnt : S (asleep h cnt) <= rc_fuel h.
Proof.
  unfold rc_fuel, asleep. rewrite <- seq_refs. apply le_n_S, sum_le. intros b. destruct (cnt b); lia.
Qed.
Lemma awake_fuel h cnt : S (awake h cnt) <= rc_fuel h.
Proof.
  unfold rc_fuel, awake. rewrite <- seq_refs. apply le_n_S, sum_le. intros b. destruct (cnt b); lia.
Qed.

Lemma occ_app l l' a : occ (l ++ l') a = occ l a + occ l' a.
Proof. apply count_occ_app. Qed.
Lemma occ_cons b l a : occ (b :: l) a = (if Nat.eq_dec b a then 1 else 0) + occ l a.
Proof. cbn [count_occ]. destruct (Nat.eq_dec b a); reflexivity. Qed.

(** [P] is closed under references. *)
Definition closed h (P : addr -> Prop) : Prop := forall b, P b -> exists c, nth_error h b = Some c /\ Forall P (refs c).

Lemma acquire_ok h (P : addr -> Prop) out (HP : closed h P) : forall fuel todo cnt,
  length todo + asleep h cnt <= fuel -> gains h cnt out todo -> Forall P todo ->
  exists cnt', acquire fuel h todo cnt = Ret cnt' /\ gains h cnt' out [] /\
    (forall a, cnt a <= cnt' a) /\ forall a, cnt' a <> 0 -> cnt a <> 0 \/ P a.
Proof.
  induction fuel as [|fuel IH]; intros todo cnt Hf Hg Ht.
  - destruct todo as [|a todo]; [|cbn [length] in Hf; lia]. exists cnt. split; [reflexivity|]. split; [exact Hg|].
    split; [intros; lia|]. intros a Ha. left. exact Ha.
  - destruct todo as [|b todo]; cbn [acquire].
    { exists cnt. split; [reflexivity|]. split; [exact Hg|]. split; [intros; lia|]. intros a Ha. left. exact Ha. }
    pose proof (Forall_inv Ht) as Hb. pose proof (Forall_inv_tail Ht) as Ht'. destruct (HP b Hb) as (c & Hc & Hrefs).
    rewrite Hc. destruct Hg as [Hg1 Hg2].
    assert (Hlt : b < length h) by (eapply nth_len; exact Hc).
    assert (Hr : refs_at h b = refs c) by (unfold refs_at; rewrite Hc; reflexivity).
    set (todo' := match cnt b with O => refs c ++ todo | S _ => todo end).
    destruct (IH todo' (set_count cnt b (S (cnt b)))) as (cnt' & H1 & H2 & H3 & H4).
    + pose proof (asleep_set h cnt b (S (cnt b)) Hlt) as Ha. rewrite Hr in Ha. cbn [length] in Hf.
      unfold todo'. destruct (cnt b); [rewrite app_length|]; lia.
    + split.
      * intros a. specialize (Hg1 a). pose proof (owed_set h cnt b (S (cnt b)) a Hlt) as Ho. rewrite Hr in Ho.
        rewrite occ_cons in Hg1. unfold set_count at 1. unfold todo'.
        destruct (Nat.eqb_spec a b) as [->|Hne].
        -- destruct (Nat.eq_dec b b) as [_|]; [|congruence]. destruct (cnt b); [rewrite occ_app|]; lia.
        -- destruct (Nat.eq_dec b a) as [->|_]; [congruence|]. destruct (cnt b); [rewrite occ_app|]; lia.
      * intros a. unfold set_count. destruct (Nat.eqb_spec a b) as [->|]; [intros _; exact Hlt|apply Hg2].
    + unfold todo'. destruct (cnt b); [apply Forall_app; split|]; assumption.
    + exists cnt'. split; [exact H1|]. split; [exact H2|]. split.
      * intros a. specialize (H3 a). unfold set_count in H3. destruct (Nat.eqb_spec a b) as [Hab|]; [rewrite Hab in H3 |- *|]; lia.
      * intros a Ha. destruct (H4 a Ha) as [H|H]; [|right; exact H]. unfold set_count in H.
        destruct (Nat.eqb_spec a b) as [->|]; [right; exact Hb|left; exact H].
Qed.

Lemma release_ok h out : forall fuel todo cnt,
  (forall b c, cnt b <> 0 -> nth_error h b = Some c -> Forall (fun r => r < length h) (refs c)) ->
  length todo + awake h cnt <= fuel -> loses h cnt out todo ->
  exists cnt', release fuel h todo cnt = Ret cnt' /\ loses h cnt' out [] /\ forall a, cnt' a <= cnt a.
Proof.
  induction fuel as [|fuel IH]; intros todo cnt HC Hf Hg.
  - destruct todo as [|a todo]; [|cbn [length] in Hf; lia]. exists cnt. split; [reflexivity|]. split; [exact Hg|]. intros; lia.
  - destruct todo as [|b todo]; cbn [release].
    { exists cnt. split; [reflexivity|]. split; [exact Hg|]. intros; lia. }
    destruct Hg as [Hg1 Hg2].
    pose proof (Hg1 b) as Hb. rewrite occ_cons in Hb. destruct (Nat.eq_dec b b) as [_|]; [|congruence].
    assert (Hlt : b < length h) by (apply Hg2; lia).
    destruct (nth_error h b) as [c|] eqn:Hc; [|apply nth_error_None in Hc; lia].
    destruct (cnt b) as [|n] eqn:Hn; [lia|].
    assert (Hr : refs_at h b = refs c) by (unfold refs_at; rewrite Hc; reflexivity).
    set (todo' := match n with O => refs c ++ todo | S _ => todo end).
    destruct (IH todo' (set_count cnt b n)) as (cnt' & H1 & H2 & H3).
    + intros b0 c0 Hb0 Hc0. unfold set_count in Hb0. apply (HC b0 c0); [|exact Hc0].
      destruct (Nat.eqb_spec b0 b) as [->|]; [lia|exact Hb0].
    + pose proof (awake_set h cnt b n Hlt) as Ha. rewrite Hr, Hn in Ha. cbn [length] in Hf.
      unfold todo'. destruct n; [rewrite app_length|]; lia.
    + split.
      * intros a. specialize (Hg1 a). pose proof (owed_set h cnt b n a Hlt) as Ho. rewrite Hr, Hn in Ho.
        rewrite occ_cons in Hg1. unfold set_count at 1. unfold todo'.
        destruct (Nat.eqb_spec a b) as [->|Hne].
        -- destruct (Nat.eq_dec b b) as [_|]; [|congruence]. destruct n; [rewrite occ_app|]; lia.
        -- destruct (Nat.eq_dec b a) as [->|_]; [congruence|]. destruct n; [rewrite occ_app|]; lia.
      * intros a. unfold set_count. destruct (Nat.eqb_spec a b) as [->|]; [intros _; exact Hlt|apply Hg2].
    + exists cnt'. split; [exact H1|]. split; [exact H2|].
      intros a. specialize (H3 a). unfold set_count in H3. destruct (Nat.eqb_spec a b) as [Hab|]; [rewrite Hab in H3 |- *|]; lia.
Qed.

(** * What a held map keeps alive *)

Lemma inside_child h n t : rep h n t -> forall b, inside h n b -> exists c, nth_error h b = Some c /\
  Forall (fun r => r < b /\ inside h n r) (refs c).
Proof.
  intros Hr b Hi. revert t Hr. induction Hi as [n|a c child x Hn Hc Hi IH|a k v next z x Hn Hi IH]; intros t Hr.
  - destruct Hr as [a bits hs ts x Ha HF Hlt|a l Hl|a s Hs].
    + exists (CellC (BIA bits hs x)). split; [exact Ha|]. apply Forall_forall. intros r Hin. cbn [refs bvalues] in Hin.
      apply in_map_iff in Hin. destruct Hin as (ch & <- & Hch). split.
      * exact (proj1 (Forall_forall _ _) Hlt ch Hch).
      * eapply in_C; [exact Ha|exact Hch|constructor].
    + destruct Hl as [a k v b0 l z Ha Hlt Hl|a k v b0 s z Ha Hlt Hs]; (eexists; split; [exact Ha|]); cbn [refs hnext_node addr_of];
        (constructor; [|constructor]); (split; [exact Hlt|]); eapply in_L; try exact Ha; cbn [hnext_node]; apply in_self.
    + destruct Hs as [a k v Ha]. exists (CellS k v). split; [exact Ha|constructor].
  - destruct (rep_C_inv _ _ _ Hr) as (bits & hs & ts & y & -> & Ha & HF & Hlt). rewrite Hn in Ha. injection Ha as ->. cbn [bvalues] in Hc.
    destruct (in_forall2 _ _ _ _ HF Hc) as (t' & _ & Ht'). destruct (IH t' Ht') as (c & Hc' & HFc). exists c. split; [exact Hc'|].
    eapply Forall_impl; [|exact HFc]. intros r (H1 & H2). split; [exact H1|]. eapply in_C; eassumption.
  - destruct (rep_L_inv _ _ _ Hr) as (l & -> & Hl).
    assert (Hn' : exists t', rep h (hnext_node next) t').
    { destruct Hl as [a k0 v0 b0 l z0 Ha Hlt Hl|a k0 v0 b0 s z0 Ha Hlt Hs]; rewrite Hn in Ha; injection Ha as -> -> -> ->; cbn [hnext_node];
        eexists; [apply rep_ML|apply rep_MS]; eassumption. }
    destruct Hn' as (t' & Ht'). destruct (IH t' Ht') as (c & Hc' & HFc). exists c. split; [exact Hc'|].
    eapply Forall_impl; [|exact HFc]. intros r (H1 & H2). split; [exact H1|]. eapply in_L; eassumption.
Qed.

Definition balanced h cnt (vs : list hnode) : Prop :=
  (forall a, cnt a = occ (map addr_of vs) a + owed h cnt a) /\ forall a, cnt a <> 0 -> a < length h.

Lemma owed_pos h cnt b c a : nth_error h b = Some c -> cnt b <> 0 -> In a (refs c) -> owed h cnt a <> 0.
Proof.
  intros Hc Hb Ha. unfold owed.
  pose proof (sum_ge (fun b0 => match cnt b0 with S _ => occ (refs_at h b0) a | O => 0 end) (seq 0 (length h)) b) as H.
  cbv beta in H. unfold refs_at at 1 in H. rewrite Hc in H. destruct (cnt b); [congruence|].
  apply occ_in in Ha. specialize (H ltac:(apply in_seq; apply nth_len in Hc; lia)). lia.
Qed.

Lemma inside_alive h cnt vs n x : balanced h cnt vs -> inside h n x -> cnt (addr_of n) <> 0 -> cnt x <> 0.
Proof.
  intros [Hb _] Hi. induction Hi as [n|a c child x Hn Hc Hi IH|a k v next z x Hn Hi IH]; intros Ha; [exact Ha| |].
  - apply IH. pose proof (Hb (addr_of child)) as H.
    assert (owed h cnt (addr_of child) <> 0) by (eapply owed_pos; [exact Hn|exact Ha|]; cbn [refs]; apply in_map, Hc). lia.
  - apply IH. pose proof (Hb (addr_of (hnext_node next))) as H.
    assert (owed h cnt (addr_of (hnext_node next)) <> 0) by (eapply owed_pos; [exact Hn|exact Ha|]; left; reflexivity). lia.
Qed.

Lemma held_alive h cnt vs n x : balanced h cnt vs -> In n vs -> inside h n x -> cnt x <> 0.
Proof.
  intros Hb Hn Hi. eapply inside_alive; [exact Hb|exact Hi|]. rewrite (proj1 Hb).
  assert (occ (map addr_of vs) (addr_of n) <> 0) by (apply occ_in, in_map, Hn). lia.
Qed.

Definition reaches h (vs : list hnode) (a : addr) : Prop := exists n, In n vs /\ inside h n a.

(** Nothing else is alive, if references go to older cells. *)
Lemma alive_held h cnt vs (Hok : forall n, In n vs -> exists t, rep h n t) : balanced h cnt vs ->
  (forall b c r, cnt b <> 0 -> nth_error h b = Some c -> In r (refs c) -> r < b) ->
  forall a, cnt a <> 0 -> reaches h vs a.
Proof.
  intros [Hb Hl] Hac. assert (H : forall m a, length h - a < m -> cnt a <> 0 -> reaches h vs a).
  { induction m as [|m IH]; intros a Hm Ha; [lia|].
    destruct (in_dec Nat.eq_dec a (map addr_of vs)) as [Hi|Hi].
    - apply in_map_iff in Hi. destruct Hi as (n & <- & Hn). exists n. split; [exact Hn|constructor].
    - assert (Ho : owed h cnt a <> 0).
      { rewrite (Hb a) in Ha. rewrite occ_in in Hi. destruct (occ (map addr_of vs) a); [exact Ha|]. exfalso. apply Hi. congruence. }
      unfold owed in Ho. apply sum_pos in Ho. destruct Ho as (b & Hbs & Hbo). apply in_seq in Hbs.
      destruct (cnt b) as [|k] eqn:Hcb; [congruence|]. unfold refs_at in Hbo. destruct (nth_error h b) as [c|] eqn:Hc; [|cbn in Hbo; congruence].
      apply occ_in in Hbo. pose proof (Hac b c a ltac:(congruence) Hc Hbo) as Hlt.
      destruct (IH b ltac:(lia) ltac:(congruence)) as (n & Hn & Hin). exists n. split; [exact Hn|].
      destruct (Hok n Hn) as (t & Ht). destruct (inside_child h n t Ht b Hin) as (c' & Hc' & HF). rewrite Hc in Hc'. injection Hc' as <-.
      exact (proj2 (proj1 (Forall_forall _ _) HF a Hbo)). }
  intros a. apply (H (S (length h))). lia.
Qed.

(** * Changes of the heap that do not matter *)

Lemma owed_agree h h' cnt a : length h' = length h -> (forall b, cnt b <> 0 -> nth_error h' b = nth_error h b) ->
  owed h' cnt a = owed h cnt a.
Proof.
  intros Hl Hn. unfold owed. rewrite Hl. apply sum_same. intros b _. destruct (cnt b) eqn:Hb; [reflexivity|].
  unfold refs_at. rewrite Hn by congruence. reflexivity.
Qed.

Lemma owed_ext h h' cnt a : ext h h' -> (forall b, cnt b <> 0 -> b < length h) -> owed h' cnt a = owed h cnt a.
Proof.
  intros [new ->] Hl. unfold owed. rewrite app_length, seq_app, map_app, list_sum_app.
  assert (H0 : list_sum (map (fun b : nat => match cnt b with S _ => occ (refs_at (h ++ new) b) a | O => 0 end) (seq (0 + length h) (length new))) = 0).
  { destruct (Nat.eq_dec (list_sum (map (fun b : nat => match cnt b with S _ => occ (refs_at (h ++ new) b) a | O => 0 end) (seq (0 + length h) (length new)))) 0) as [H|H]; [exact H|].
    apply sum_pos in H. destruct H as (y & Hy & Hc). apply in_seq in Hy. destruct (cnt y) eqn:Hcy; [congruence|].
    specialize (Hl y ltac:(congruence)). lia. }
  rewrite H0, Nat.add_0_r. apply sum_same. intros b Hb. apply in_seq in Hb. destruct (cnt b); [reflexivity|].
  unfold refs_at. rewrite nth_error_app1 by lia. reflexivity.
Qed.

Lemma inside_agree h h' n x t : rep h n t -> (forall b, inside h n b -> nth_error h' b = nth_error h b) -> inside h n x -> inside h' n x.
Proof.
  intros Hr Hag Hi. revert t Hr Hag. induction Hi as [n|a c child x Hn Hc Hi IH|a k v next z x Hn Hi IH]; intros t Hr Hag; [constructor| |].
  - destruct (rep_C_inv _ _ _ Hr) as (bits & hs & ts & y & -> & Ha & HF & Hlt). rewrite Hn in Ha. injection Ha as ->. cbn [bvalues] in Hc.
    destruct (in_forall2 _ _ _ _ HF Hc) as (t' & _ & Ht').
    eapply in_C; [rewrite (Hag a); [exact Hn|constructor]|exact Hc|]. apply (IH t' Ht'). intros b Hb. apply Hag. eapply in_C; eassumption.
  - destruct (rep_L_inv _ _ _ Hr) as (l & -> & Hl).
    assert (Hn' : exists t', rep h (hnext_node next) t').
    { destruct Hl as [a k0 v0 b0 l z0 Ha Hlt Hl|a k0 v0 b0 s z0 Ha Hlt Hs]; rewrite Hn in Ha; injection Ha as -> -> -> ->; cbn [hnext_node];
        eexists; [apply rep_ML|apply rep_MS]; eassumption. }
    destruct Hn' as (t' & Ht').
    eapply in_L; [rewrite (Hag a); [exact Hn|]|].
    + change a with (addr_of (HL a)). constructor.
    + apply (IH t' Ht'). intros b Hb. apply Hag. eapply in_L; eassumption.
Qed.

Lemma rep_l_agree h h' a l : rep_l h a l -> (forall b, inside h (HL a) b -> nth_error h' b = nth_error h b) -> rep_l h' a l.
Proof.
  induction 1 as [a k v b l z Ha Hlt Hl IH|a k v b s z Ha Hlt Hs]; intros Hag.
  - econstructor; [rewrite Hag; [exact Ha|]|exact Hlt|].
    + change a with (addr_of (HL a)). constructor.
    + apply IH. intros b0 Hb0. apply Hag. eapply in_L; [exact Ha|exact Hb0].
  - destruct Hs as [b k0 v0 Hb]. eapply rep_LS; [rewrite Hag; [exact Ha|]|exact Hlt|].
    + change a with (addr_of (HL a)). constructor.
    + constructor. rewrite Hag; [exact Hb|]. eapply in_L; [exact Ha|]. change b with (addr_of (HS b)) at 2. constructor.
Qed.

Lemma rep_agree_aux h h' m : forall n t, addr_of n < m -> rep h n t -> (forall b, inside h n b -> nth_error h' b = nth_error h b) -> rep h' n t.
Proof.
  induction m as [|m IH]; intros n t Hm Hr Hag; [lia|]. destruct Hr as [a bits hs ts x Ha HF Hlt|a l Hl|a s Hs].
  - eapply rep_MC; [rewrite Hag; [exact Ha|change a with (addr_of (HC a)); constructor]| |exact Hlt].
    cbn [addr_of] in Hm.
    assert (Hin : forall c b, In c hs -> inside h c b -> nth_error h' b = nth_error h b).
    { intros c b Hc Hb. apply Hag. eapply in_C; [exact Ha|exact Hc|exact Hb]. }
    clear Hag Ha. induction HF as [|c t hs ts Hc HF IHF]; constructor.
    + apply IH; [|exact Hc|].
      * pose proof (Forall_inv Hlt). cbv beta in H. lia.
      * intros b. apply (Hin c b). left. reflexivity.
    + apply IHF; [exact (Forall_inv_tail Hlt)|]. intros c0 b Hc0. apply Hin. right. exact Hc0.
  - constructor. eapply rep_l_agree; eassumption.
  - constructor. destruct Hs as [a k v Ha]. constructor. rewrite Hag; [exact Ha|]. change a with (addr_of (HS a)) at 2. constructor.
Qed.
Lemma rep_agree h h' n t : rep h n t -> (forall b, inside h n b -> nth_error h' b = nth_error h b) -> rep h' n t.
Proof. apply (rep_agree_aux h h' (S (addr_of n))). lia. Qed.

End RcP.
