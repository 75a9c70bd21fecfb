(** The transfute operations when no code of the client is a function. *)
From Coq Require Import NArith List Bool Permutation Lia.
From Verif Require Import Base Words Flag Bia Node Api Trans Transform Joint JointT Sets Eff EffP EffApi EffMapP Ask SpecAsk AskT SpecAskT AskTP AskJ SpecAskJ Misuse AskApiP AskJSumP AskSet SpecAskSet HandleP AskSetP AskSetJP.
Import ListNotations.
Open Scope N_scope.

Definition ec {T : Type} (b a : T) : Prop := a = b.
Lemma ec_inj {T} (b b' a : T) : ec b a -> ec b' a -> b = b'.
Proof. unfold ec. intros -> ->. reflexivity. Qed.
Definition fc {K V R} (o : skres V R) (o' : kres K V R) : Prop :=
  match o with SKTransmuted v r => exists k, o' = KTransmuted k v r | SKDropped r => o' = KDropped r end.
Lemma fc_inj {K V R} (b b' : skres V R) (a : kres K V R) : fc b a -> fc b' a -> b = b'.
Proof. destruct b as [v r|r], b' as [v' r'|r']; cbn; [intros [k0 ->] [k1 [=]]|intros [k0 ->] [=]|intros -> [k1 [=]]|intros -> [=]]; subst; reflexivity. Qed.

(** * transform_with_transfuted *)
Section TF.
Context {E : Env} {K V W R : Type}.
Notation mh := (mh_tf (K := K) (V := V) (W := W) (R := R)).
Notation A := (jreply K V K W K V (vres V R) (vres V R) (skres V R) R).
Notation A' := (jreply K V K W K V (vres V R) (vres V R) (kres K V R) R).
Notation rel := (j_rel (KL := K) (VL := V) (KR := K) (VR := W) ec ec fc).
Lemma mh_tf_right y t o : exec (mh (JRight y)) t o ->
  (exists v r k, t = [answer (A := A) (JRight y) (SKTransmuted v r); answer (A := A) (JKey (fst y)) k] /\ o = Ret (KTransmuted k v r)) \/
  (exists r, t = [answer (A := A) (JRight y) (SKDropped r)] /\ o = Ret (KDropped r)) \/
  (exists v r, t = [answer (A := A) (JRight y) (SKTransmuted v r); broke (JKey (fst y))] /\ o = Panic) \/
  (t = [broke (JRight y)] /\ o = Panic).
Proof.
  cbn. intros [(a & t' & -> & He)|[-> ->]]; [|auto 6]. destruct a as [v r|r]; cbn in He.
  - destruct He as [(k & t2 & -> & -> & ->)|[-> ->]]; [left|right; right; left]; eauto 6.
  - destruct He as [-> ->]. right. left. eauto.
Qed.
Lemma mh_tf_wrapper : wrapper mh ec ec fc.
Proof.
  constructor;
  [ intros q; destruct q as [x y|x|y|x y| |k|k|k k'|k' k|k|v]; cbn; auto; intros [v r|r]; cbn; auto
  | intros q t o; destruct q as [x y|x|y|x y| |k|k|k k'|k' k|k|v]
  | intros x y t a; wrapped; eexists; split; [reflexivity|left; reflexivity]
  | intros x t a; wrapped; eexists; split; [reflexivity|left; reflexivity]
  | 
  | intros k t a; wrapped; left; reflexivity
  | intros k t a; wrapped; left; reflexivity
  | intros k k' t a; wrapped; left; reflexivity
  | intros k k' t a; wrapped; left; reflexivity
  | intros k t a; wrapped; left; reflexivity
  | apply ec_inj | apply ec_inj | apply fc_inj ].
  3: { intros He. apply mh_tf_right in He as [(v & r & k & -> & _)|[(r & -> & _)|[(v & r & -> & _)|[-> _]]]]; reflexivity. }
  1-10: wrapped; reflexivity.
  intros y t a He. apply mh_tf_right in He as [(v & r & k & -> & [= ->])|[(r & -> & [= ->])|[(v & r & _ & [=])|[_ [=]]]]];
    eexists; (split; [|left; reflexivity]); [exists k|]; reflexivity.
Qed.
Definition tf_extra (i : jitem K V K W (vres V R) (vres V R) (skres V R)) : list (K + V) := match i with IRight y o => f_cost (fst y) o | _ => [] end.
Lemma mh_tf_block q a t : exec (mh q) t (Ret a) -> block rel (fun _ => true) tf_extra (jsee (answer (A := A') q a)) (map jsee t).
Proof.
  destruct q as [x y|x|y|x y| |k|k|k k'|k' k|k|v].
  3: { intros He. apply mh_tf_right in He as [(v & r & k & -> & [= ->])|[(r & -> & [= ->])|[(v & r & _ & [=])|[_ [=]]]]]; cbn [jsee answer map].
    - apply (bl_op rel (fun _ => true) tf_extra (IRight y (SKTransmuted v r)) (IRight y (KTransmuted k v r))). split; [reflexivity|]. exists k. reflexivity.
    - apply (bl_op rel (fun _ => true) tf_extra (IRight y (SKDropped r)) (IRight y (KDropped r))). split; reflexivity. }
  all: wrapped; try block_rest; cbn [jsee answer map].
  - apply (bl_op rel (fun _ => true) tf_extra (IBoth _ _ a0) (IBoth _ _ a0)). repeat split.
  - apply (bl_op rel (fun _ => true) tf_extra (ILeft _ a0) (ILeft _ a0)). repeat split.
Qed.
Lemma ask_tf_map st wb wl wr (m : trie K V) (right : trie K W) tr o : exec (ask_tf (R := R) st wb wl wr m right) tr o ->
  exists tr', exec (ask_tm st wb wl wr m right) tr' o /\ spread mh tr' tr.
Proof. apply exec_handle, (w_only _ _ _ _ mh_tf_wrapper). Qed.
Lemma tf_value_clone tr' tr v v' : spread mh tr' tr -> jvalue_clone tr' v v' -> jvalue_clone tr v v'.
Proof. intros HS Hi. destruct (spread_answer _ _ _ _ _ HS Hi) as (t & Ht & Hi'). apply Hi'. unask Ht; subst; [|discriminate Ht]. injection Ht as ->. left. reflexivity. Qed.
Lemma tf_jbecomes_rel tr' tr x o out : spread mh tr' tr -> jbecomes tr' x o out -> jbecomes tr x o out.
Proof.
  intros HS. destruct o as [r|v r|r]; cbn; [intros [->|(k & v & Hk & Hv & ->)]; [auto|]| |auto].
  - right. exists k, v. split; [exact (w_key_clone _ _ _ _ mh_tf_wrapper _ _ HS _ _ Hk)|]. split; [exact (tf_value_clone _ _ _ _ HS Hv)|reflexivity].
  - intros (k & Hk & ->). exists k. split; [exact (w_key_clone _ _ _ _ mh_tf_wrapper _ _ HS _ _ Hk)|reflexivity].
Qed.
Lemma tf_becomes_rel tr' tr i i' out : spread mh tr' tr -> rel i i' -> tm_becomes tr' i' out -> tf_becomes tr i out.
Proof.
  intros HS Hr [Hc Hb]. split; [exact (w_called _ _ _ _ mh_tf_wrapper _ _ HS _ _ Hr Hc)|].
  destruct i as [x y t|x t|y t], i' as [x' y' t'|x' t'|y' t']; try contradiction.
  - destruct Hr as (-> & -> & ->). exact (tf_jbecomes_rel _ _ _ _ _ HS Hb).
  - destruct Hr as (-> & ->). exact (tf_jbecomes_rel _ _ _ _ _ HS Hb).
  - destruct Hr as (-> & Ht). subst out. destruct t as [v r|r]; cbn in Ht; [destruct Ht as [k ->]|subst t'; reflexivity].
    cbn in Hc. destruct (spread_answer _ _ _ _ _ HS Hc) as (t & He & Hi). apply mh_tf_right in He as [(v1 & r1 & k1 & -> & [= -> -> ->])|[(r1 & _ & [=])|[(v1 & r1 & _ & [=])|[_ [=]]]]].
    exists k1. split; [apply Hi; right; left; reflexivity|reflexivity].
Qed.

Theorem misused_tf (m : trie K V) (right : trie K W) st tr (o : outcome (trie K V * R * origin)) : misused m -> misused right -> exec (ask_tf st TwClosure TwClosure MwClosure m right) tr o ->
  match o with
  | Ret (m', r, og) => misused m' /\ Permutation (jtold_all tr) (map inl (map_visit m) ++ map inr (map_visit right)) /\ (og = Self -> m' = m) /\
      exists is outs, settled jsee tf_red tf_cost tr is r /\ Forall2 (tf_becomes tr) is outs /\ Permutation (map_visit m') (concat outs)
  | Panic => (jpanicked tr \/ hashes_differ tr) /\ exists rest, Permutation (jtold_all tr ++ rest) (map inl (map_visit m) ++ map inr (map_visit right))
  | Diverge => (3 <= longest right) /\ exists rest, Permutation (jtold_all tr ++ rest) (map inl (map_visit m) ++ map inr (map_visit right))
  end.
Proof.
  intros Hm Hr He. apply ask_tf_map in He as (tr' & He & HS). pose proof (misused_tm _ _ _ _ _ Hm Hr He) as Ho.
  rewrite (w_jtold _ _ _ _ mh_tf_wrapper _ _ HS). destruct o as [[[s' r] og]| |]; [| |exact Ho].
  - split; [exact (mis_tm _ _ _ _ _ _ _ _ _ _ _ _ Hm Hr He)|]. destruct Ho as (H1 & H2 & is' & outs & H3 & H4 & H5). split; [exact H1|]. split; [exact H2|].
    destruct (spread_settled mh jsee jsee rel (fun _ => true) tf_extra mh_tf_block tf_red tm_red tf_cost tm_cost tr' tr is' r) as (is & HR & H3'); try assumption.
    { assert (Hf : forall l : list (K + V), filter (fun _ => true) l = l) by (intros l; induction l as [|c l IH]; cbn; congruence).
      intros [x y t|x t|y t] [x' y' t'|x' t'|y' t']; try contradiction; cbn [j_rel tf_red tm_red tf_cost tm_cost tf_extra]; rewrite Hf; intros Hi.
      - destruct Hi as (-> & -> & ->). rewrite app_nil_r. auto.
      - destruct Hi as (-> & ->). rewrite app_nil_r. auto.
      - destruct Hi as (-> & Hi). split; [|reflexivity]. destruct t as [v r'|r']; cbn in Hi; [destruct Hi as [k ->]|subst t']; reflexivity. }
    { intros q Hq; discriminate (exec_broke _ _ _ _ He Hq). }
    exists is, outs. split; [exact H3'|]. split; [|exact H5]. exact (forall2_rel _ _ _ _ _ _ (fun i i' out => tf_becomes_rel tr' tr i i' out HS) HR H4).
  - destruct Ho as [Ho Hrest]. split; [|exact Hrest]. destruct Ho as [Ho|Ho]; [left; exact (w_panicked _ _ _ _ mh_tf_wrapper _ _ HS Ho)|right; exact (w_differ _ _ _ _ mh_tf_wrapper _ _ HS Ho)].
Qed.

(** Clones that keep the hash are all it needs: the wrapper's new keys are clones. *)
Theorem unequal_tf {KK : Key K} (m : trie K V) (right : trie K W) st tr (o : outcome (trie K V * R * origin)) : unequal m -> unequal right -> Forall jsteady tr ->
  exec (ask_tf st TwClosure TwClosure MwClosure m right) tr o ->
  match o with
  | Ret (m', r, og) => unequal m'
  | Panic => jpanicked tr
  | Diverge => 3 <= longest right
  end.
Proof.
  intros Hm Hr HF He. apply ask_tf_map in He as (tr' & He & HS).
  assert (HF' : Forall tm_steady tr').
  { assert (HJ : Forall jsteady tr') by exact (w_steady _ _ _ _ mh_tf_wrapper _ _ HS HF).
    rewrite Forall_forall in *. intros e Hi. split; [exact (HJ _ Hi)|]. destruct e as [q [a|]]; [|destruct q; exact I]. destruct q as [x y|x|y|x y| |k|k|k k'|k' k|k|v]; try exact I.
    destruct (spread_answer _ _ _ _ _ HS Hi) as (t & Ht & Hi'). apply mh_tf_right in Ht as [(v1 & r1 & k1 & -> & [= ->])|[(r1 & _ & [= ->])|[(v1 & r1 & _ & [=])|[_ [=]]]]]; [|exact I].
    exact (HF _ (Hi' _ (or_intror (or_introl eq_refl)))). }
  pose proof (unequal_tm _ _ _ _ _ Hm Hr HF' He) as Ho. destruct o as [[[s' r] og]| |]; [exact Ho| |exact Ho]. exact (w_panicked _ _ _ _ mh_tf_wrapper _ _ HS Ho).
Qed.

Theorem misused_tf_ends (m : trie K V) (right : trie K W) st tr (o : outcome (trie K V * R * origin)) : misused m -> misused right -> exec (ask_tf st TwClosure TwClosure MwClosure m right) tr o ->
  longest right < 3 ->
  (unbroken tr /\ exists x, o = Ret x) \/ (unbroken tr /\ hashes_differ tr /\ o = Panic) \/ (exists tr' q, tr = tr' ++ [broke q] /\ unbroken tr' /\ o = Panic).
Proof.
  intros Hm Hr He HL. apply ask_tf_map in He as (tr' & He & HS). exact (w_ends _ _ _ _ mh_tf_wrapper _ _ HS _ (misused_tm_ends _ _ _ _ _ Hm Hr He HL)).
Qed.
End TF.

(** * transfute_with_transformed *)
Section FT.
Context {E : Env} {K V W R : Type}.
Notation mh := (mh_ft (K := K) (V := V) (W := W) (R := R)).
Notation A := (jreply K V K W K W (vres W R) (skres W R) (vres W R) R).
Notation A' := (jreply K V K W K W (vres W R) (kres K W R) (vres W R) R).
Notation rel := (j_rel (KL := K) (VL := V) (KR := K) (VR := W) ec fc ec).
Lemma mh_ft_left x t o : exec (mh (JLeft x)) t o ->
  (exists v r k, t = [answer (A := A) (JLeft x) (SKTransmuted v r); answer (A := A) (JKey (fst x)) k] /\ o = Ret (KTransmuted k v r)) \/
  (exists r, t = [answer (A := A) (JLeft x) (SKDropped r)] /\ o = Ret (KDropped r)) \/
  (exists v r, t = [answer (A := A) (JLeft x) (SKTransmuted v r); broke (JKey (fst x))] /\ o = Panic) \/
  (t = [broke (JLeft x)] /\ o = Panic).
Proof.
  cbn. intros [(a & t' & -> & He)|[-> ->]]; [|auto 6]. destruct a as [v r|r]; cbn in He.
  - destruct He as [(k & t2 & -> & -> & ->)|[-> ->]]; [left|right; right; left]; eauto 6.
  - destruct He as [-> ->]. right. left. eauto.
Qed.
Lemma mh_ft_wrapper : wrapper mh ec fc ec.
Proof.
  constructor;
  [ intros q; destruct q as [x y|x|y|x y| |k|k|k k'|k' k|k|v]; cbn; auto; intros [v r|r]; cbn; auto
  | intros q t o; destruct q as [x y|x|y|x y| |k|k|k k'|k' k|k|v]
  | intros x y t a; wrapped; eexists; split; [reflexivity|left; reflexivity]
  | 
  | intros y t a; wrapped; eexists; split; [reflexivity|left; reflexivity]
  | intros k t a; wrapped; left; reflexivity
  | intros k t a; wrapped; left; reflexivity
  | intros k k' t a; wrapped; left; reflexivity
  | intros k k' t a; wrapped; left; reflexivity
  | intros k t a; wrapped; left; reflexivity
  | apply ec_inj | apply fc_inj | apply ec_inj ].
  2: { intros He. apply mh_ft_left in He as [(v & r & k & -> & _)|[(r & -> & _)|[(v & r & -> & _)|[-> _]]]]; reflexivity. }
  1-10: wrapped; reflexivity.
  intros x t a He. apply mh_ft_left in He as [(v & r & k & -> & [= ->])|[(r & -> & [= ->])|[(v & r & _ & [=])|[_ [=]]]]];
    eexists; (split; [|left; reflexivity]); [exists k|]; reflexivity.
Qed.
Definition ft_extra (i : jitem K V K W (vres W R) (skres W R) (vres W R)) : list (K + W) := match i with ILeft x o => f_cost (fst x) o | _ => [] end.
Lemma mh_ft_block q a t : exec (mh q) t (Ret a) -> block rel (fun _ => true) ft_extra (jsee (answer (A := A') q a)) (map jsee t).
Proof.
  destruct q as [x y|x|y|x y| |k|k|k k'|k' k|k|v].
  2: { intros He. apply mh_ft_left in He as [(v & r & k & -> & [= ->])|[(r & -> & [= ->])|[(v & r & _ & [=])|[_ [=]]]]]; cbn [jsee answer map].
    - apply (bl_op rel (fun _ => true) ft_extra (ILeft x (SKTransmuted v r)) (ILeft x (KTransmuted k v r))). split; [reflexivity|]. exists k. reflexivity.
    - apply (bl_op rel (fun _ => true) ft_extra (ILeft x (SKDropped r)) (ILeft x (KDropped r))). split; reflexivity. }
  all: wrapped; try block_rest; cbn [jsee answer map].
  - apply (bl_op rel (fun _ => true) ft_extra (IBoth _ _ a0) (IBoth _ _ a0)). repeat split.
  - apply (bl_op rel (fun _ => true) ft_extra (IRight _ a0) (IRight _ a0)). repeat split.
Qed.
Lemma ask_ft_map st wb wl wr (m : trie K V) (right : trie K W) tr o : exec (ask_ft (R := R) st wb wl wr m right) tr o ->
  exists tr', exec (ask_mt st wb wl wr m right) tr' o /\ spread mh tr' tr.
Proof. apply exec_handle, (w_only _ _ _ _ mh_ft_wrapper). Qed.
Lemma ft_value_clone tr' tr v v' : spread mh tr' tr -> jvalue_clone tr' v v' -> jvalue_clone tr v v'.
Proof. intros HS Hi. destruct (spread_answer _ _ _ _ _ HS Hi) as (t & Ht & Hi'). apply Hi'. unask Ht; subst; [|discriminate Ht]. injection Ht as ->. left. reflexivity. Qed.
Lemma ft_jbecomes_rel tr' tr x o out : spread mh tr' tr -> jbecomes tr' x o out -> jbecomes tr x o out.
Proof.
  intros HS. destruct o as [r|v r|r]; cbn; [intros [->|(k & v & Hk & Hv & ->)]; [auto|]| |auto].
  - right. exists k, v. split; [exact (w_key_clone _ _ _ _ mh_ft_wrapper _ _ HS _ _ Hk)|]. split; [exact (ft_value_clone _ _ _ _ HS Hv)|reflexivity].
  - intros (k & Hk & ->). exists k. split; [exact (w_key_clone _ _ _ _ mh_ft_wrapper _ _ HS _ _ Hk)|reflexivity].
Qed.
Lemma ft_becomes_rel tr' tr i i' out : spread mh tr' tr -> rel i i' -> mt_becomes tr' i' out -> ft_becomes tr i out.
Proof.
  intros HS Hr [Hc Hb]. split; [exact (w_called _ _ _ _ mh_ft_wrapper _ _ HS _ _ Hr Hc)|].
  destruct i as [x y t|x t|y t], i' as [x' y' t'|x' t'|y' t']; try contradiction.
  - destruct Hr as (-> & -> & ->). exact (ft_jbecomes_rel _ _ _ _ _ HS Hb).
  - destruct Hr as (-> & Ht). subst out. destruct t as [v r|r]; cbn in Ht; [destruct Ht as [k ->]|subst t'; reflexivity].
    cbn in Hc. destruct (spread_answer _ _ _ _ _ HS Hc) as (t & He & Hi). apply mh_ft_left in He as [(v1 & r1 & k1 & -> & [= -> -> ->])|[(r1 & _ & [=])|[(v1 & r1 & _ & [=])|[_ [=]]]]].
    exists k1. split; [apply Hi; right; left; reflexivity|reflexivity].
  - destruct Hr as (-> & ->). exact (ft_jbecomes_rel _ _ _ _ _ HS Hb).
Qed.

Theorem misused_ft (m : trie K V) (right : trie K W) st tr (o : outcome (trie K W * R * origin)) : misused m -> misused right -> exec (ask_ft st TwClosure MwClosure TwClosure m right) tr o ->
  match o with
  | Ret (m', r, og) => misused m' /\ Permutation (jtold_all tr) (map inl (map_visit m) ++ map inr (map_visit right)) /\ (og = Right -> m' = right) /\
      exists is outs, settled jsee ft_red ft_cost tr is r /\ Forall2 (ft_becomes tr) is outs /\ Permutation (map_visit m') (concat outs)
  | Panic => (jpanicked tr \/ hashes_differ tr) /\ exists rest, Permutation (jtold_all tr ++ rest) (map inl (map_visit m) ++ map inr (map_visit right))
  | Diverge => (3 <= longest m) /\ exists rest, Permutation (jtold_all tr ++ rest) (map inl (map_visit m) ++ map inr (map_visit right))
  end.
Proof.
  intros Hm Hr He. apply ask_ft_map in He as (tr' & He & HS). pose proof (misused_mt _ _ _ _ _ Hm Hr He) as Ho.
  rewrite (w_jtold _ _ _ _ mh_ft_wrapper _ _ HS). destruct o as [[[s' r] og]| |]; [| |exact Ho].
  - split; [exact (mis_mt _ _ _ _ _ _ _ _ _ _ _ _ Hm Hr He)|]. destruct Ho as (H1 & H2 & is' & outs & H3 & H4 & H5). split; [exact H1|]. split; [exact H2|].
    destruct (spread_settled mh jsee jsee rel (fun _ => true) ft_extra mh_ft_block ft_red mt_red ft_cost mt_cost tr' tr is' r) as (is & HR & H3'); try assumption.
    { assert (Hf : forall l : list (K + W), filter (fun _ => true) l = l) by (intros l; induction l as [|c l IH]; cbn; congruence).
      intros [x y t|x t|y t] [x' y' t'|x' t'|y' t']; try contradiction; cbn [j_rel ft_red mt_red ft_cost mt_cost ft_extra]; rewrite Hf; intros Hi.
      - destruct Hi as (-> & -> & ->). rewrite app_nil_r. auto.
      - destruct Hi as (-> & Hi). split; [|reflexivity]. destruct t as [v r'|r']; cbn in Hi; [destruct Hi as [k ->]|subst t']; reflexivity.
      - destruct Hi as (-> & ->). rewrite app_nil_r. auto. }
    { intros q Hq; discriminate (exec_broke _ _ _ _ He Hq). }
    exists is, outs. split; [exact H3'|]. split; [|exact H5]. exact (forall2_rel _ _ _ _ _ _ (fun i i' out => ft_becomes_rel tr' tr i i' out HS) HR H4).
  - destruct Ho as [Ho Hrest]. split; [|exact Hrest]. destruct Ho as [Ho|Ho]; [left; exact (w_panicked _ _ _ _ mh_ft_wrapper _ _ HS Ho)|right; exact (w_differ _ _ _ _ mh_ft_wrapper _ _ HS Ho)].
Qed.

(** Clones that keep the hash are all it needs: the wrapper's new keys are clones. *)
Theorem unequal_ft {KK : Key K} (m : trie K V) (right : trie K W) st tr (o : outcome (trie K W * R * origin)) : unequal m -> unequal right -> Forall jsteady tr ->
  exec (ask_ft st TwClosure MwClosure TwClosure m right) tr o ->
  match o with
  | Ret (m', r, og) => unequal m'
  | Panic => jpanicked tr
  | Diverge => 3 <= longest m
  end.
Proof.
  intros Hm Hr HF He. apply ask_ft_map in He as (tr' & He & HS).
  assert (HF' : Forall mt_steady tr').
  { assert (HJ : Forall jsteady tr') by exact (w_steady _ _ _ _ mh_ft_wrapper _ _ HS HF).
    rewrite Forall_forall in *. intros e Hi. split; [exact (HJ _ Hi)|]. destruct e as [q [a|]]; [|destruct q; exact I]. destruct q as [x y|x|y|x y| |k|k|k k'|k' k|k|v]; try exact I.
    destruct (spread_answer _ _ _ _ _ HS Hi) as (t & Ht & Hi'). apply mh_ft_left in Ht as [(v1 & r1 & k1 & -> & [= ->])|[(r1 & _ & [= ->])|[(v1 & r1 & _ & [=])|[_ [=]]]]]; [|exact I].
    exact (HF _ (Hi' _ (or_intror (or_introl eq_refl)))). }
  pose proof (unequal_mt _ _ _ _ _ Hm Hr HF' He) as Ho. destruct o as [[[s' r] og]| |]; [exact Ho| |exact Ho]. exact (w_panicked _ _ _ _ mh_ft_wrapper _ _ HS Ho).
Qed.

Theorem misused_ft_ends (m : trie K V) (right : trie K W) st tr (o : outcome (trie K W * R * origin)) : misused m -> misused right -> exec (ask_ft st TwClosure MwClosure TwClosure m right) tr o ->
  longest m < 3 ->
  (unbroken tr /\ exists x, o = Ret x) \/ (unbroken tr /\ hashes_differ tr /\ o = Panic) \/ (exists tr' q, tr = tr' ++ [broke q] /\ unbroken tr' /\ o = Panic).
Proof.
  intros Hm Hr He HL. apply ask_ft_map in He as (tr' & He & HS). exact (w_ends _ _ _ _ mh_ft_wrapper _ _ HS _ (misused_mt_ends _ _ _ _ _ Hm Hr He HL)).
Qed.
End FT.
