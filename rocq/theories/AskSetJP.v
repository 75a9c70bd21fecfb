(** The joint operations of sets and the transfute operations when no code of the client
    is a function: their calls against those of the map underneath. *)
From Coq Require Import NArith List Bool Permutation Lia.
From Verif Require Import Base Words Flag Bia Node Api Trans Transform Joint JointT Sets Eff EffP EffApi EffMapP EffSet Ask SpecAsk AskT SpecAskT AskTP AskJ SpecAskJ AskTw SpecAskTw Misuse AskApiP AskJSumP AskTwSumP AskSet SpecAskSet HandleP AskSetP.
Import ListNotations.
Open Scope N_scope.

Definition j_told {KL VL KR VR K V R} (q : jcalls KL VL KR VR K V R) : list ((KL * VL) + (KR * VR)) :=
  match q with JBoth x y => [inl x; inr y] | JLeft x => [inl x] | JRight y => [inr y] | _ => [] end.

Section Wrap.
Context {E : Env} {KL VL KR VR K V TB TL TR TB' TL' TR' R : Type}.
Notation A := (jreply KL VL KR VR K V TB TL TR R).
Notation A' := (jreply KL VL KR VR K V TB' TL' TR' R).
Notation call := (jcalls KL VL KR VR K V R).
Context (H : forall q : call, prog A (A' q)) (fb : TB -> TB' -> Prop) (fl : TL -> TL' -> Prop) (fr : TR -> TR' -> Prop).

Record wrapper : Prop := Wrapper {
  w_only : forall q, only_asks (H q);
  w_told : forall q t o, exec (H q) t o -> flat_map (fun e => j_told (asked e)) t = j_told q;
  w_both : forall x y t a, exec (H (JBoth x y)) t (Ret a) -> exists b, fb b a /\ In (answer (A := A) (JBoth x y) b) t;
  w_left : forall x t a, exec (H (JLeft x)) t (Ret a) -> exists b, fl b a /\ In (answer (A := A) (JLeft x) b) t;
  w_right : forall y t a, exec (H (JRight y)) t (Ret a) -> exists b, fr b a /\ In (answer (A := A) (JRight y) b) t;
  w_hash : forall k t a, exec (H (JHash k)) t (Ret a) -> In (answer (A := A) (JHash k) a) t;
  w_hash' : forall k t a, exec (H (JHash' k)) t (Ret a) -> In (answer (A := A) (JHash' k) a) t;
  w_eq : forall k k' t a, exec (H (JEq k k')) t (Ret a) -> In (answer (A := A) (JEq k k') a) t;
  w_eq' : forall k k' t a, exec (H (JEq' k' k)) t (Ret a) -> In (answer (A := A) (JEq' k' k) a) t;
  w_key : forall k t a, exec (H (JKey k)) t (Ret a) -> In (answer (A := A) (JKey k) a) t;
  w_fb : forall b b' a, fb b a -> fb b' a -> b = b';
  w_fl : forall b b' a, fl b a -> fl b' a -> b = b';
  w_fr : forall b b' a, fr b a -> fr b' a -> b = b'
}.
Context (HW : wrapper).

Definition j_rel (i : jitem KL VL KR VR TB TL TR) (i' : jitem KL VL KR VR TB' TL' TR') : Prop :=
  match i, i' with
  | IBoth x y t, IBoth x' y' t' => x' = x /\ y' = y /\ fb t t'
  | ILeft x t, ILeft x' t' => x' = x /\ fl t t'
  | IRight y t, IRight y' t' => y' = y /\ fr t t'
  | _, _ => False
  end.

Context (tr' : list (event (A := A'))) (tr : list (event (A := A))) (HS : spread H tr' tr).

Lemma w_jtold : jtold_all tr = jtold_all tr'.
Proof. exact (spread_told _ j_told j_told (w_told HW) _ _ HS). Qed.
Lemma w_panicked : jpanicked tr' -> jpanicked tr.
Proof. intros [q Hq]. exact (spread_broke _ (w_only HW) _ _ _ HS Hq). Qed.
Lemma w_in_hash k h : In (answer (A := A') (JHash k) h) tr' -> In (answer (A := A) (JHash k) h) tr.
Proof. intros Hi. destruct (spread_answer _ _ _ _ _ HS Hi) as (t & Ht & Hi'). apply Hi', (w_hash HW), Ht. Qed.
Lemma w_in_hash' k h : In (answer (A := A') (JHash' k) h) tr' -> In (answer (A := A) (JHash' k) h) tr.
Proof. intros Hi. destruct (spread_answer _ _ _ _ _ HS Hi) as (t & Ht & Hi'). apply Hi', (w_hash' HW), Ht. Qed.
Lemma w_hash_said h : hash_said tr' h -> hash_said tr h.
Proof. intros [[k Hk]|[k Hk]]; [left|right]; exists k; [apply w_in_hash|apply w_in_hash']; exact Hk. Qed.
Lemma w_differ : hashes_differ tr' -> hashes_differ tr.
Proof. intros (h & h' & H1 & H2 & H3). exists h, h'. auto using w_hash_said. Qed.
Lemma w_key_clone k k' : jkey_clone tr' k k' -> jkey_clone tr k k'.
Proof. intros Hi. destruct (spread_answer _ _ _ _ _ HS Hi) as (t & Ht & Hi'). apply Hi', (w_key HW), Ht. Qed.
Lemma w_equal k k' : said_equal tr' k k' -> said_equal tr k k'.
Proof.
  intros [Hi|Hi]; destruct (spread_answer _ _ _ _ _ HS Hi) as (t & Ht & Hi'); [left|right]; apply Hi'; [apply (w_eq HW), Ht|apply (w_eq' HW), Ht].
Qed.
Lemma w_called i i' : j_rel i i' -> called tr' i' -> called tr i.
Proof.
  destruct i as [x y t|x t|y t], i' as [x' y' t'|x' t'|y' t']; try contradiction.
  - intros (-> & -> & Ht) [Hi He]. split; [|apply w_equal, He]. destruct (spread_answer _ _ _ _ _ HS Hi) as (u & Hu & Hi').
    destruct (w_both HW _ _ _ _ Hu) as (b & Hb & Hb'). rewrite (w_fb HW _ _ _ Ht Hb). apply Hi', Hb'.
  - intros (-> & Ht) Hi. destruct (spread_answer _ _ _ _ _ HS Hi) as (u & Hu & Hi').
    destruct (w_left HW _ _ _ Hu) as (b & Hb & Hb'). cbn. rewrite (w_fl HW _ _ _ Ht Hb). apply Hi', Hb'.
  - intros (-> & Ht) Hi. destruct (spread_answer _ _ _ _ _ HS Hi) as (u & Hu & Hi').
    destruct (w_right HW _ _ _ Hu) as (b & Hb & Hb'). cbn. rewrite (w_fr HW _ _ _ Ht Hb). apply Hi', Hb'.
Qed.
Lemma w_steady {KKL : Key KL} {KKR : Key KR} {KK : Key K} : Forall jsteady tr -> Forall jsteady tr'.
Proof.
  intros HF. rewrite Forall_forall in *. intros [q [a|]] Hi; [|destruct q; exact I]. destruct q as [x y|x|y|x y| |k|k|k k'|k' k|k|v]; try exact I.
  - exact (HF _ (w_in_hash _ _ Hi)).
  - exact (HF _ (w_in_hash' _ _ Hi)).
  - exact (HF _ (w_key_clone _ _ Hi)).
Qed.
Lemma w_ends {X} (o : outcome X) :
  (unbroken tr' /\ exists x, o = Ret x) \/ (unbroken tr' /\ hashes_differ tr' /\ o = Panic) \/ (exists tr1 q, tr' = tr1 ++ [broke q] /\ unbroken tr1 /\ o = Panic) ->
  (unbroken tr /\ exists x, o = Ret x) \/ (unbroken tr /\ hashes_differ tr /\ o = Panic) \/ (exists tr1 q, tr = tr1 ++ [broke q] /\ unbroken tr1 /\ o = Panic).
Proof.
  intros [[HU Hx]|[(HU & Hh & ->)|(tr1 & q & -> & HU & ->)]].
  - left. split; [exact (spread_unbroken _ (w_only HW) _ _ HS HU)|exact Hx].
  - right. left. split; [exact (spread_unbroken _ (w_only HW) _ _ HS HU)|]. auto using w_differ.
  - right. right. destruct (spread_last _ (w_only HW) _ _ _ HS HU) as (tr2 & q' & -> & HU'). eauto.
Qed.
End Wrap.
Arguments j_rel {KL VL KR VR TB TL TR TB' TL' TR'} fb fl fr i i'.

(** The conversions of answers. *)
Definition vc {R} (o : sres R) (o' : vres unit R) : Prop := o' = vres_of o.
Definition kc {S R} (o : skres S R) (o' : kres S unit R) : Prop := o' = kres_of o.
Definition bc {R} (o : sbres R) (o' : bres unit R) : Prop := o' = bres_of o.
Lemma vc_inj {R} (b b' : sres R) a : vc b a -> vc b' a -> b = b'.
Proof. unfold vc. intros -> Hb. destruct b, b'; try discriminate Hb; injection Hb as ->; reflexivity. Qed.
Lemma kc_inj {S R} (b b' : skres S R) a : kc b a -> kc b' a -> b = b'.
Proof. unfold kc. intros -> Hb. destruct b, b'; try discriminate Hb; injection Hb; intros; subst; reflexivity. Qed.
Lemma bc_inj {R} (b b' : sbres R) a : bc b a -> bc b' a -> b = b'.
Proof. unfold bc. intros -> Hb. destruct b, b'; try discriminate Hb; injection Hb as ->; reflexivity. Qed.

Ltac wrapped := repeat match goal with u : (_ * unit)%type |- _ => destruct u as [? []] end;
  let He := fresh "He" in intros He; unask He; subst; try discriminate He; try (injection He as He); subst.
Ltac wrapper_tac :=
  constructor;
  [ intros q; destruct q; cbn; auto
  | intros q t o; destruct q; wrapped; reflexivity
  | intros x y t a; wrapped; eexists; split; [reflexivity|left; reflexivity]
  | intros x t a; wrapped; eexists; split; [reflexivity|left; reflexivity]
  | intros y t a; wrapped; eexists; split; [reflexivity|left; reflexivity]
  | intros k t a; wrapped; left; reflexivity
  | intros k t a; wrapped; left; reflexivity
  | intros k k' t a; wrapped; left; reflexivity
  | intros k k' t a; wrapped; left; reflexivity
  | intros k t a; wrapped; left; reflexivity
  | .. ].

Ltac block_rest := first [apply bl_reduce|apply bl_default|apply bl_none|apply bl_clone; reflexivity|apply bl_silent; reflexivity].

(** * transform_with_transmuted *)
Section TM.
Context {E : Env} {K L R : Type}.
Notation sh := (sh_tm (K := K) (L := L) (R := R) TwClosure).
Notation rel := (j_rel (KL := K) (VL := unit) (KR := L) (VR := unit) vc vc kc).
Lemma sh_tm_wrapper : wrapper sh vc vc kc.
Proof. wrapper_tac; [apply vc_inj|apply vc_inj|apply kc_inj]. Qed.
Lemma sh_tm_block q a t : exec (sh q) t (Ret a) -> block rel is_key_clone (fun _ => []) (jsee (answer (A := jreply K unit L unit K unit (vres unit R) (vres unit R) (kres K unit R) R) q a)) (map jsee t).
Proof.
  destruct q as [x y|x|y|x y| |k|k|k k'|k' k|k|v]; wrapped; try block_rest; cbn [jsee answer map].
  - apply (bl_op rel is_key_clone (fun _ => []) (IBoth _ _ a0) (IBoth _ _ (vres_of a0))). repeat split.
  - apply (bl_op rel is_key_clone (fun _ => []) (ILeft _ a0) (ILeft _ (vres_of a0))). repeat split.
  - apply (bl_op rel is_key_clone (fun _ => []) (IRight _ a0) (IRight _ (kres_of a0))). repeat split.
Qed.
Lemma aset_tm_map st wb wl wr (s : tset K) (right : tset L) tr o : exec (aset_tm (R := R) st wb wl wr s right) tr o ->
  exists tr', exec (ask_tm st TwClosure wl wr s right) tr' o /\ spread (sh_tm wb) tr' tr.
Proof. apply exec_handle. intros q. destruct q, wb; cbn; auto. Qed.
Lemma sj_becomes_rel tr' tr x o out : spread sh tr' tr -> jbecomes tr' x (vres_of o) out -> sj_becomes tr x o out.
Proof.
  intros HS. unfold jbecomes, sj_becomes, s_keeps. destruct o as [r|r]; cbn [vres_of]; [|auto]. intros [->|(k & v & Hk & _ & ->)]; [auto|].
  right. exists k. destruct v. split; [exact (w_key_clone _ _ _ _ sh_tm_wrapper _ _ HS _ _ Hk)|reflexivity].
Qed.
Lemma stm_becomes_rel tr' tr i i' out : spread sh tr' tr -> rel i i' -> tm_becomes tr' i' out -> stm_becomes tr i out.
Proof.
  intros HS Hr [Hc Hb]. split; [exact (w_called _ _ _ _ sh_tm_wrapper _ _ HS _ _ Hr Hc)|].
  destruct i as [x y t|x t|y t], i' as [x' y' t'|x' t'|y' t']; try contradiction.
  - destruct Hr as (-> & -> & ->). exact (sj_becomes_rel _ _ _ _ _ HS Hb).
  - destruct Hr as (-> & ->). exact (sj_becomes_rel _ _ _ _ _ HS Hb).
  - destruct Hr as (-> & ->). rewrite Hb. destruct t; reflexivity.
Qed.

Theorem misused_set_tm (s : tset K) (right : tset L) st tr (o : outcome (tset K * R * origin)) : misused s -> misused right -> exec (aset_tm st TwClosure TwClosure MwClosure s right) tr o ->
  match o with
  | Ret (s', r, og) => misused s' /\ Permutation (jtold_all tr) (map inl (map_visit s) ++ map inr (map_visit right)) /\ (og = Self -> s' = s) /\
      exists is outs, settled jsee stm_red stm_cost tr is r /\ Forall2 (stm_becomes tr) is outs /\ Permutation (map_visit s') (concat outs)
  | Panic => (jpanicked tr \/ hashes_differ tr) /\ exists rest, Permutation (jtold_all tr ++ rest) (map inl (map_visit s) ++ map inr (map_visit right))
  | Diverge => (3 <= longest right) /\ exists rest, Permutation (jtold_all tr ++ rest) (map inl (map_visit s) ++ map inr (map_visit right))
  end.
Proof.
  intros Hm Hr He. apply aset_tm_map in He as (tr' & He & HS). pose proof (misused_tm _ _ _ _ _ Hm Hr He) as Ho.
  rewrite (w_jtold _ _ _ _ sh_tm_wrapper _ _ HS). destruct o as [[[s' r] og]| |]; [| |exact Ho].
  - split; [exact (mis_tm _ _ _ _ _ _ _ _ _ _ _ _ Hm Hr He)|]. destruct Ho as (H1 & H2 & is' & outs & H3 & H4 & H5). split; [exact H1|]. split; [exact H2|].
    destruct (spread_settled sh jsee jsee rel is_key_clone (fun _ => []) sh_tm_block stm_red tm_red stm_cost tm_cost tr' tr is' r) as (is & HR & H3'); try assumption.
    { intros [x y t|x t|y t] [x' y' t'|x' t'|y' t']; try contradiction; cbn [j_rel]; intros Hi; decompose [and] Hi; subst; unfold vc, kc in *; subst; destruct t; cbn; auto. }
    { intros q Hq; discriminate (exec_broke _ _ _ _ He Hq). }
    exists is, outs. split; [exact H3'|]. split; [|exact H5]. exact (forall2_rel _ _ _ _ _ _ (fun i i' out => stm_becomes_rel tr' tr i i' out HS) HR H4).
  - destruct Ho as [Ho Hrest]. split; [|exact Hrest]. destruct Ho as [Ho|Ho]; [left; exact (w_panicked _ _ _ _ sh_tm_wrapper _ _ HS Ho)|right; exact (w_differ _ _ _ _ sh_tm_wrapper _ _ HS Ho)].
Qed.

Theorem unequal_set_tm {KK : Key K} {KL : Key L} (s : tset K) (right : tset L) st tr (o : outcome (tset K * R * origin)) : unequal s -> unequal right -> Forall stm_steady tr ->
  exec (aset_tm st TwClosure TwClosure MwClosure s right) tr o ->
  match o with
  | Ret (s', r, og) => unequal s'
  | Panic => jpanicked tr
  | Diverge => 3 <= longest right
  end.
Proof.
  intros Hm Hr HF He. apply aset_tm_map in He as (tr' & He & HS).
  assert (HF' : Forall tm_steady tr').
  { assert (HJ : Forall jsteady tr') by (apply (w_steady _ _ _ _ sh_tm_wrapper _ _ HS); eapply Forall_impl; [|exact HF]; intros e He'; apply He').
    rewrite Forall_forall in *. intros e Hi. split; [exact (HJ _ Hi)|]. destruct e as [q [a|]]; [|destruct q; exact I]. destruct q; try exact I.
    destruct (spread_answer _ _ _ _ _ HS Hi) as (t & Ht & Hi'). destruct (w_right _ _ _ _ sh_tm_wrapper _ _ _ Ht) as (b & Hb & Hb'). hnf in Hb. subst a.
    pose proof (proj2 (HF _ (Hi' _ Hb'))) as Hk. cbn in Hk |- *. destruct b; exact Hk. }
  pose proof (unequal_tm _ _ _ _ _ Hm Hr HF' He) as Ho. destruct o as [[[s' r] og]| |]; [exact Ho| |exact Ho]. exact (w_panicked _ _ _ _ sh_tm_wrapper _ _ HS Ho).
Qed.

Theorem misused_set_tm_ends (s : tset K) (right : tset L) st tr (o : outcome (tset K * R * origin)) : misused s -> misused right -> exec (aset_tm st TwClosure TwClosure MwClosure s right) tr o ->
  longest right < 3 ->
  (unbroken tr /\ exists x, o = Ret x) \/ (unbroken tr /\ hashes_differ tr /\ o = Panic) \/ (exists tr' q, tr = tr' ++ [broke q] /\ unbroken tr' /\ o = Panic).
Proof.
  intros Hm Hr He HL. apply aset_tm_map in He as (tr' & He & HS). exact (w_ends _ _ _ _ sh_tm_wrapper _ _ HS _ (misused_tm_ends _ _ _ _ _ Hm Hr He HL)).
Qed.
End TM.

(** * transmute_with_transformed *)
Section MT.
Context {E : Env} {K L R : Type}.
Notation sh := (sh_mt (K := K) (L := L) (R := R) TwClosure).
Notation rel := (j_rel (KL := K) (VL := unit) (KR := L) (VR := unit) vc kc vc).
Lemma sh_mt_wrapper : wrapper sh vc kc vc.
Proof. wrapper_tac; [apply vc_inj|apply kc_inj|apply vc_inj]. Qed.
Lemma sh_mt_block q a t : exec (sh q) t (Ret a) -> block rel is_key_clone (fun _ => []) (jsee (answer (A := jreply K unit L unit L unit (vres unit R) (kres L unit R) (vres unit R) R) q a)) (map jsee t).
Proof.
  destruct q as [x y|x|y|x y| |k|k|k k'|k' k|k|v]; wrapped; try block_rest; cbn [jsee answer map].
  - apply (bl_op rel is_key_clone (fun _ => []) (IBoth _ _ a0) (IBoth _ _ (vres_of a0))). repeat split.
  - apply (bl_op rel is_key_clone (fun _ => []) (ILeft _ a0) (ILeft _ (kres_of a0))). repeat split.
  - apply (bl_op rel is_key_clone (fun _ => []) (IRight _ a0) (IRight _ (vres_of a0))). repeat split.
Qed.
Lemma aset_mt_map st wb wl wr (s : tset K) (right : tset L) tr o : exec (aset_mt (R := R) st wb wl wr s right) tr o ->
  exists tr', exec (ask_mt st TwClosure wl wr s right) tr' o /\ spread (sh_mt wb) tr' tr.
Proof. apply exec_handle. intros q. destruct q, wb; cbn; auto. Qed.
Lemma sj_becomes_rel' tr' tr x o out : spread sh tr' tr -> jbecomes tr' x (vres_of o) out -> sj_becomes tr x o out.
Proof.
  intros HS. unfold jbecomes, sj_becomes, s_keeps. destruct o as [r|r]; cbn [vres_of]; [|auto]. intros [->|(k & v & Hk & _ & ->)]; [auto|].
  right. exists k. destruct v. split; [exact (w_key_clone _ _ _ _ sh_mt_wrapper _ _ HS _ _ Hk)|reflexivity].
Qed.
Lemma smt_becomes_rel tr' tr i i' out : spread sh tr' tr -> rel i i' -> mt_becomes tr' i' out -> smt_becomes tr i out.
Proof.
  intros HS Hr [Hc Hb]. split; [exact (w_called _ _ _ _ sh_mt_wrapper _ _ HS _ _ Hr Hc)|].
  destruct i as [x y t|x t|y t], i' as [x' y' t'|x' t'|y' t']; try contradiction.
  - destruct Hr as (-> & -> & ->). exact (sj_becomes_rel' _ _ _ _ _ HS Hb).
  - destruct Hr as (-> & ->). rewrite Hb. destruct t; reflexivity.
  - destruct Hr as (-> & ->). exact (sj_becomes_rel' _ _ _ _ _ HS Hb).
Qed.

Theorem misused_set_mt (s : tset K) (right : tset L) st tr (o : outcome (tset L * R * origin)) : misused s -> misused right -> exec (aset_mt st TwClosure MwClosure TwClosure s right) tr o ->
  match o with
  | Ret (s', r, og) => misused s' /\ Permutation (jtold_all tr) (map inl (map_visit s) ++ map inr (map_visit right)) /\ (og = Right -> s' = right) /\
      exists is outs, settled jsee smt_red smt_cost tr is r /\ Forall2 (smt_becomes tr) is outs /\ Permutation (map_visit s') (concat outs)
  | Panic => (jpanicked tr \/ hashes_differ tr) /\ exists rest, Permutation (jtold_all tr ++ rest) (map inl (map_visit s) ++ map inr (map_visit right))
  | Diverge => (3 <= longest s) /\ exists rest, Permutation (jtold_all tr ++ rest) (map inl (map_visit s) ++ map inr (map_visit right))
  end.
Proof.
  intros Hm Hr He. apply aset_mt_map in He as (tr' & He & HS). pose proof (misused_mt _ _ _ _ _ Hm Hr He) as Ho.
  rewrite (w_jtold _ _ _ _ sh_mt_wrapper _ _ HS). destruct o as [[[s' r] og]| |]; [| |exact Ho].
  - split; [exact (mis_mt _ _ _ _ _ _ _ _ _ _ _ _ Hm Hr He)|]. destruct Ho as (H1 & H2 & is' & outs & H3 & H4 & H5). split; [exact H1|]. split; [exact H2|].
    destruct (spread_settled sh jsee jsee rel is_key_clone (fun _ => []) sh_mt_block smt_red mt_red smt_cost mt_cost tr' tr is' r) as (is & HR & H3'); try assumption.
    { intros [x y t|x t|y t] [x' y' t'|x' t'|y' t']; try contradiction; cbn [j_rel]; intros Hi; decompose [and] Hi; subst; unfold vc, kc in *; subst; destruct t; cbn; auto. }
    { intros q Hq; discriminate (exec_broke _ _ _ _ He Hq). }
    exists is, outs. split; [exact H3'|]. split; [|exact H5]. exact (forall2_rel _ _ _ _ _ _ (fun i i' out => smt_becomes_rel tr' tr i i' out HS) HR H4).
  - destruct Ho as [Ho Hrest]. split; [|exact Hrest]. destruct Ho as [Ho|Ho]; [left; exact (w_panicked _ _ _ _ sh_mt_wrapper _ _ HS Ho)|right; exact (w_differ _ _ _ _ sh_mt_wrapper _ _ HS Ho)].
Qed.

Theorem unequal_set_mt {KK : Key K} {KL : Key L} (s : tset K) (right : tset L) st tr (o : outcome (tset L * R * origin)) : unequal s -> unequal right -> Forall smt_steady tr ->
  exec (aset_mt st TwClosure MwClosure TwClosure s right) tr o ->
  match o with
  | Ret (s', r, og) => unequal s'
  | Panic => jpanicked tr
  | Diverge => 3 <= longest s
  end.
Proof.
  intros Hm Hr HF He. apply aset_mt_map in He as (tr' & He & HS).
  assert (HF' : Forall mt_steady tr').
  { assert (HJ : Forall jsteady tr') by (apply (w_steady _ _ _ _ sh_mt_wrapper _ _ HS); eapply Forall_impl; [|exact HF]; intros e He'; apply He').
    rewrite Forall_forall in *. intros e Hi. split; [exact (HJ _ Hi)|]. destruct e as [q [a|]]; [|destruct q; exact I]. destruct q; try exact I.
    destruct (spread_answer _ _ _ _ _ HS Hi) as (t & Ht & Hi'). destruct (w_left _ _ _ _ sh_mt_wrapper _ _ _ Ht) as (b & Hb & Hb'). hnf in Hb. subst a.
    pose proof (proj2 (HF _ (Hi' _ Hb'))) as Hk. cbn in Hk |- *. destruct b; exact Hk. }
  pose proof (unequal_mt _ _ _ _ _ Hm Hr HF' He) as Ho. destruct o as [[[s' r] og]| |]; [exact Ho| |exact Ho]. exact (w_panicked _ _ _ _ sh_mt_wrapper _ _ HS Ho).
Qed.

Theorem misused_set_mt_ends (s : tset K) (right : tset L) st tr (o : outcome (tset L * R * origin)) : misused s -> misused right -> exec (aset_mt st TwClosure MwClosure TwClosure s right) tr o ->
  longest s < 3 ->
  (unbroken tr /\ exists x, o = Ret x) \/ (unbroken tr /\ hashes_differ tr /\ o = Panic) \/ (exists tr' q, tr = tr' ++ [broke q] /\ unbroken tr' /\ o = Panic).
Proof.
  intros Hm Hr He HL. apply aset_mt_map in He as (tr' & He & HS). exact (w_ends _ _ _ _ sh_mt_wrapper _ _ HS _ (misused_mt_ends _ _ _ _ _ Hm Hr He HL)).
Qed.
End MT.

(** * transmute_with_transmuted *)
Section MM.
Context {E : Env} {K L S R : Type}.
Notation sh := (sh_mm (K := K) (L := L) (S := S) (R := R) MwClosure).
Notation rel := (j_rel (KL := K) (VL := unit) (KR := L) (VR := unit) kc kc kc).
Lemma sh_mm_wrapper : wrapper sh kc kc kc.
Proof.
  constructor;
  [ intros q; destruct q as [x y|x|y|x y| |k|k|k k'|k' k|[]|[]]; cbn; auto
  | intros q t o; destruct q as [x y|x|y|x y| |k|k|k k'|k' k|[]|[]]; wrapped; reflexivity
  | intros x y t a; wrapped; eexists; split; [reflexivity|left; reflexivity]
  | intros x t a; wrapped; eexists; split; [reflexivity|left; reflexivity]
  | intros y t a; wrapped; eexists; split; [reflexivity|left; reflexivity]
  | intros k t a; wrapped; left; reflexivity
  | intros k t a; wrapped; left; reflexivity
  | intros k k' t a; wrapped; left; reflexivity
  | intros k k' t a; wrapped; left; reflexivity
  | intros []
  | apply kc_inj | apply kc_inj | apply kc_inj ].
Qed.
Lemma sh_mm_block q a t : exec (sh q) t (Ret a) ->
  block rel (fun _ => true) (fun _ => []) (jsee (answer (A := jreply K unit L unit Empty_set Empty_set (kres S unit R) (kres S unit R) (kres S unit R) R) q a)) (map jsee t).
Proof.
  destruct q as [x y|x|y|x y| |k|k|k k'|k' k|[]|[]]; wrapped; try block_rest; cbn [jsee answer map].
  - apply (bl_op rel (fun _ => true) (fun _ => []) (IBoth _ _ a0) (IBoth _ _ (kres_of a0))). repeat split.
  - apply (bl_op rel (fun _ => true) (fun _ => []) (ILeft _ a0) (ILeft _ (kres_of a0))). repeat split.
  - apply (bl_op rel (fun _ => true) (fun _ => []) (IRight _ a0) (IRight _ (kres_of a0))). repeat split.
Qed.
Lemma aset_mm_map wb wl wr (s : tset K) (right : tset L) tr o : exec (aset_mm (S := S) (R := R) wb wl wr s right) tr o ->
  exists tr', exec (ask_mm MwClosure wl wr s right) tr' o /\ spread (sh_mm wb) tr' tr.
Proof. apply exec_handle. intros q. destruct q as [x y|x|y|x y| |k|k|k k'|k' k|[]|[]], wb; cbn; auto. Qed.
Lemma smm_becomes_rel tr' tr i i' out : spread sh tr' tr -> rel i i' -> mm_becomes tr' i' out -> smm_becomes tr i out.
Proof.
  intros HS Hr [Hc Hb]. split; [exact (w_called _ _ _ _ sh_mm_wrapper _ _ HS _ _ Hr Hc)|].
  destruct i as [x y t|x t|y t], i' as [x' y' t'|x' t'|y' t']; try contradiction; cbn [j_rel] in Hr; decompose [and] Hr; subst; unfold kc in *; subst; destruct t; reflexivity.
Qed.

Theorem misused_set_mm (s : tset K) (right : tset L) tr (o : outcome (tset S * R)) : misused s -> misused right -> exec (aset_mm MwClosure MwClosure MwClosure s right) tr o ->
  match o with
  | Ret (s', r) => misused s' /\ Permutation (jtold_all tr) (map inl (map_visit s) ++ map inr (map_visit right)) /\
      exists is outs, settled jsee smm_red smm_cost tr is r /\ Forall2 (smm_becomes tr) is outs /\ Permutation (map_visit s') (concat outs)
  | Panic => (jpanicked tr \/ hashes_differ tr) /\ exists rest, Permutation (jtold_all tr ++ rest) (map inl (map_visit s) ++ map inr (map_visit right))
  | Diverge => (3 <= longest s \/ 3 <= longest right) /\ exists rest, Permutation (jtold_all tr ++ rest) (map inl (map_visit s) ++ map inr (map_visit right))
  end.
Proof.
  intros Hm Hr He. apply aset_mm_map in He as (tr' & He & HS). pose proof (misused_mm _ _ _ _ Hm Hr He) as Ho.
  rewrite (w_jtold _ _ _ _ sh_mm_wrapper _ _ HS). destruct o as [[s' r]| |]; [| |exact Ho].
  - split; [exact (mis_mm _ _ _ _ _ _ _ _ _ _ _ _ Hm Hr He)|]. destruct Ho as (H1 & is' & outs & H3 & H4 & H5). split; [exact H1|].
    destruct (spread_settled sh jsee jsee rel (fun _ => true) (fun _ => []) sh_mm_block smm_red mm_red smm_cost mm_cost tr' tr is' r) as (is & HR & H3'); try assumption.
    { intros [x y t|x t|y t] [x' y' t'|x' t'|y' t']; try contradiction; cbn [j_rel]; intros Hi; decompose [and] Hi; subst; unfold vc, kc in *; subst; destruct t; cbn; auto. }
    { intros q Hq; discriminate (exec_broke _ _ _ _ He Hq). }
    exists is, outs. split; [exact H3'|]. split; [|exact H5]. exact (forall2_rel _ _ _ _ _ _ (fun i i' out => smm_becomes_rel tr' tr i i' out HS) HR H4).
  - destruct Ho as [Ho Hrest]. split; [|exact Hrest]. destruct Ho as [Ho|Ho]; [left; exact (w_panicked _ _ _ _ sh_mm_wrapper _ _ HS Ho)|right; exact (w_differ _ _ _ _ sh_mm_wrapper _ _ HS Ho)].
Qed.

Theorem unequal_set_mm {KK : Key K} {KL : Key L} {KS : Key S} (s : tset K) (right : tset L) tr (o : outcome (tset S * R)) : unequal s -> unequal right -> Forall smm_steady tr ->
  exec (aset_mm MwClosure MwClosure MwClosure s right) tr o ->
  match o with
  | Ret (s', r) => unequal s'
  | Panic => jpanicked tr
  | Diverge => 3 <= longest s \/ 3 <= longest right
  end.
Proof.
  intros Hm Hr HF He. apply aset_mm_map in He as (tr' & He & HS).
  assert (HF' : Forall mm_steady tr').
  { rewrite Forall_forall in *. intros e Hi. destruct e as [q [a|]]; [|destruct q; exact Logic.I]. destruct q as [x y|x|y|x y| |k|k|k k'|k' k|[]|[]]; try exact Logic.I.
    1-3: destruct (spread_answer _ _ _ _ _ HS Hi) as (t & Ht & Hi').
    - destruct (w_both _ _ _ _ sh_mm_wrapper _ _ _ _ Ht) as (b & Hb & Hb'). hnf in Hb. subst a. pose proof (HF _ (Hi' _ Hb')) as Hk. cbn in Hk |- *. destruct b; exact Hk.
    - destruct (w_left _ _ _ _ sh_mm_wrapper _ _ _ Ht) as (b & Hb & Hb'). hnf in Hb. subst a. pose proof (HF _ (Hi' _ Hb')) as Hk. cbn in Hk |- *. destruct b; exact Hk.
    - destruct (w_right _ _ _ _ sh_mm_wrapper _ _ _ Ht) as (b & Hb & Hb'). hnf in Hb. subst a. pose proof (HF _ (Hi' _ Hb')) as Hk. cbn in Hk |- *. destruct b; exact Hk.
    - exact (HF _ (w_in_hash _ _ _ _ sh_mm_wrapper _ _ HS _ _ Hi)).
    - exact (HF _ (w_in_hash' _ _ _ _ sh_mm_wrapper _ _ HS _ _ Hi)). }
  pose proof (unequal_mm _ _ _ _ Hm Hr HF' He) as Ho. destruct o as [[s' r]| |]; [exact Ho| |exact Ho]. exact (w_panicked _ _ _ _ sh_mm_wrapper _ _ HS Ho).
Qed.

Theorem misused_set_mm_ends (s : tset K) (right : tset L) tr (o : outcome (tset S * R)) : misused s -> misused right -> exec (aset_mm MwClosure MwClosure MwClosure s right) tr o ->
  longest s < 3 -> longest right < 3 ->
  (unbroken tr /\ exists x, o = Ret x) \/ (unbroken tr /\ hashes_differ tr /\ o = Panic) \/ (exists tr' q, tr = tr' ++ [broke q] /\ unbroken tr' /\ o = Panic).
Proof.
  intros Hm Hr He HL HL'. apply aset_mm_map in He as (tr' & He & HS). exact (w_ends _ _ _ _ sh_mm_wrapper _ _ HS _ (misused_mm_ends _ _ _ _ Hm Hr He HL HL')).
Qed.
End MM.

(** * transform_with_transformed *)
Section TT.
Context {E : Env} {K R : Type}.
Notation sh := (sh_tt (K := K) (R := R)).
Notation rel := (j_rel (KL := K) (VL := unit) (KR := K) (VR := unit) bc vc vc).
Lemma sh_tt_wrapper : wrapper sh bc vc vc.
Proof. wrapper_tac; [apply bc_inj|apply vc_inj|apply vc_inj]. Qed.
Lemma sh_tt_block q a t : exec (sh q) t (Ret a) -> block rel is_key_clone (fun _ => []) (jsee (answer (A := jreply K unit K unit K unit (bres unit R) (vres unit R) (vres unit R) R) q a)) (map jsee t).
Proof.
  destruct q as [x y|x|y|x y| |k|k|k k'|k' k|k|v]; wrapped; try block_rest; cbn [jsee answer map].
  - apply (bl_op rel is_key_clone (fun _ => []) (IBoth _ _ a0) (IBoth _ _ (bres_of a0))). repeat split.
  - apply (bl_op rel is_key_clone (fun _ => []) (ILeft _ a0) (ILeft _ (vres_of a0))). repeat split.
  - apply (bl_op rel is_key_clone (fun _ => []) (IRight _ a0) (IRight _ (vres_of a0))). repeat split.
Qed.
Lemma aset_tt_map st wb wl wr (s right : tset K) tr o : exec (aset_tt (R := R) st wb wl wr s right) tr o ->
  exists tr', exec (ask_tt st wb wl wr s right) tr' o /\ spread sh tr' tr.
Proof. apply exec_handle, (w_only _ _ _ _ sh_tt_wrapper). Qed.
Lemma s_keeps_rel tr' tr x out : spread sh tr' tr -> tt_kept tr' x out -> s_keeps tr x out.
Proof.
  intros HS [->|(k & v & Hk & _ & ->)]; [left; reflexivity|]. right. exists k. destruct v. split; [exact (w_key_clone _ _ _ _ sh_tt_wrapper _ _ HS _ _ Hk)|reflexivity].
Qed.
Lemma stt_becomes_rel tr' tr i i' out : spread sh tr' tr -> rel i i' -> tt_becomes tr' i' out -> stt_becomes tr i out.
Proof.
  intros HS Hr [Hc Hb]. split; [exact (w_called _ _ _ _ sh_tt_wrapper _ _ HS _ _ Hr Hc)|].
  destruct i as [x y t|x t|y t], i' as [x' y' t'|x' t'|y' t']; try contradiction.
  - destruct Hr as (-> & -> & ->). destruct t; cbn in Hb |- *; [destruct Hb; [left|right]| | |exact Hb]; eapply s_keeps_rel; eassumption.
  - destruct Hr as (-> & ->). destruct t; cbn in Hb |- *; [|exact Hb]. eapply s_keeps_rel; eassumption.
  - destruct Hr as (-> & ->). destruct t; cbn in Hb |- *; [|exact Hb]. eapply s_keeps_rel; eassumption.
Qed.
Lemma tt_said_left tr' tr x o : spread sh tr' tr -> In (answer (A := jreply K unit K unit K unit (bres unit R) (vres unit R) (vres unit R) R) (JLeft x) (vres_of o)) tr' ->
  In (answer (A := jreply K unit K unit K unit (sbres R) (sres R) (sres R) R) (JLeft x) o) tr.
Proof.
  intros HS Hi. destruct (spread_answer _ _ _ _ _ HS Hi) as (t & Ht & Hi'). destruct (w_left _ _ _ _ sh_tt_wrapper _ _ _ Ht) as (b & Hb & Hb').
  rewrite (vc_inj o b (vres_of o) eq_refl Hb). apply Hi', Hb'.
Qed.
Lemma tt_said_right tr' tr x o : spread sh tr' tr -> In (answer (A := jreply K unit K unit K unit (bres unit R) (vres unit R) (vres unit R) R) (JRight x) (vres_of o)) tr' ->
  In (answer (A := jreply K unit K unit K unit (sbres R) (sres R) (sres R) R) (JRight x) o) tr.
Proof.
  intros HS Hi. destruct (spread_answer _ _ _ _ _ HS Hi) as (t & Ht & Hi'). destruct (w_right _ _ _ _ sh_tt_wrapper _ _ _ Ht) as (b & Hb & Hb').
  rewrite (vc_inj o b (vres_of o) eq_refl Hb). apply Hi', Hb'.
Qed.
Lemma tt_said_both tr' tr x y o : spread sh tr' tr -> In (answer (A := jreply K unit K unit K unit (bres unit R) (vres unit R) (vres unit R) R) (JBoth x y) (bres_of o)) tr' ->
  In (answer (A := jreply K unit K unit K unit (sbres R) (sres R) (sres R) R) (JBoth x y) o) tr.
Proof.
  intros HS Hi. destruct (spread_answer _ _ _ _ _ HS Hi) as (t & Ht & Hi'). destruct (w_both _ _ _ _ sh_tt_wrapper _ _ _ _ Ht) as (b & Hb & Hb').
  rewrite (bc_inj o b (bres_of o) eq_refl Hb). apply Hi', Hb'.
Qed.
Lemma s_calm_left_rel tr' tr : spread sh tr' tr -> s_calm_left tr -> calm_left tr'.
Proof.
  intros HS [H|[H1 H2]].
  - left. intros x r Hi. exact (H x r (tt_said_left _ _ _ (SUnchanged r) HS Hi)).
  - right. split; [intros x y r Hi; exact (H1 x y r (tt_said_both _ _ _ _ (SBUnchangedR r) HS Hi))|].
    destruct H2 as [H2|H2]; [left; intros x r Hi; exact (H2 x r (tt_said_left _ _ _ (SDropped r) HS Hi))|right; intros x r Hi; exact (H2 x r (tt_said_right _ _ _ (SUnchanged r) HS Hi))].
Qed.
Lemma s_calm_right_rel tr' tr : spread sh tr' tr -> s_calm_right tr -> calm_right tr'.
Proof.
  intros HS [H|[H1 H2]].
  - left. intros x r Hi. exact (H x r (tt_said_right _ _ _ (SUnchanged r) HS Hi)).
  - right. split; [intros x y r Hi; exact (H1 x y r (tt_said_both _ _ _ _ (SBUnchangedL r) HS Hi))|].
    destruct H2 as [H2|H2]; [left; intros x r Hi; exact (H2 x r (tt_said_right _ _ _ (SDropped r) HS Hi))|right; intros x r Hi; exact (H2 x r (tt_said_left _ _ _ (SUnchanged r) HS Hi))].
Qed.

Theorem misused_set_tt (s right : tset K) st tr (o : outcome (tset K * R * origin)) : misused s -> misused right -> exec (aset_tt st JwClosure TwClosure TwClosure s right) tr o ->
  longest s < 2 \/ longest right < 2 -> (2 <= longest s -> s_calm_left tr) -> (2 <= longest right -> s_calm_right tr) ->
  match o with
  | Ret (s', r, og) => misused s' /\ Permutation (jtold_all tr) (map inl (map_visit s) ++ map inr (map_visit right)) /\ (og = Self -> s' = s) /\ (og = Right -> s' = right) /\
      exists is outs, settled jsee stt_red stt_cost tr is r /\ Forall2 (stt_becomes tr) is outs /\ Permutation (map_visit s') (concat outs)
  | Panic => (jpanicked tr \/ hashes_differ tr) /\ exists rest, Permutation (jtold_all tr ++ rest) (map inl (map_visit s) ++ map inr (map_visit right))
  | Diverge => False
  end.
Proof.
  intros Hm Hr He HL HC HC'. apply aset_tt_map in He as (tr' & He & HS).
  pose proof (misused_tt _ _ _ _ _ Hm Hr He HL (fun h => s_calm_left_rel _ _ HS (HC h)) (fun h => s_calm_right_rel _ _ HS (HC' h))) as Ho.
  rewrite (w_jtold _ _ _ _ sh_tt_wrapper _ _ HS). destruct o as [[[s' r] og]| |]; [| |exact Ho].
  - destruct Ho as (H0 & H1 & H2 & H2' & is' & outs & H3 & H4 & H5). do 4 (split; [assumption|]).
    destruct (spread_settled sh jsee jsee rel is_key_clone (fun _ => []) sh_tt_block stt_red tt_red stt_cost tt_cost tr' tr is' r) as (is & HR & H3'); try assumption.
    { intros [x y t|x t|y t] [x' y' t'|x' t'|y' t']; try contradiction; cbn [j_rel]; intros Hi; decompose [and] Hi; subst; unfold vc, bc in *; subst; destruct t; cbn; auto. }
    { intros q Hq; discriminate (exec_broke _ _ _ _ He Hq). }
    exists is, outs. split; [exact H3'|]. split; [|exact H5]. exact (forall2_rel _ _ _ _ _ _ (fun i i' out => stt_becomes_rel tr' tr i i' out HS) HR H4).
  - destruct Ho as [Ho Hrest]. split; [|exact Hrest]. destruct Ho as [Ho|Ho]; [left; exact (w_panicked _ _ _ _ sh_tt_wrapper _ _ HS Ho)|right; exact (w_differ _ _ _ _ sh_tt_wrapper _ _ HS Ho)].
Qed.

Theorem unequal_set_tt {KK : Key K} (s right : tset K) st tr (o : outcome (tset K * R * origin)) : unequal s -> unequal right -> Forall jsteady tr ->
  exec (aset_tt st JwClosure TwClosure TwClosure s right) tr o ->
  longest s < 2 \/ longest right < 2 -> (2 <= longest s -> s_calm_left tr) -> (2 <= longest right -> s_calm_right tr) ->
  match o with
  | Ret (s', r, og) => unequal s'
  | Panic => jpanicked tr
  | Diverge => False
  end.
Proof.
  intros Hm Hr HF He HL HC HC'. apply aset_tt_map in He as (tr' & He & HS).
  pose proof (unequal_tt _ _ _ _ _ Hm Hr (w_steady _ _ _ _ sh_tt_wrapper _ _ HS HF) He HL (fun h => s_calm_left_rel _ _ HS (HC h)) (fun h => s_calm_right_rel _ _ HS (HC' h))) as Ho.
  destruct o as [[[s' r] og]| |]; [exact Ho| |exact Ho]. exact (w_panicked _ _ _ _ sh_tt_wrapper _ _ HS Ho).
Qed.

Theorem misused_set_tt_ends (s right : tset K) st tr (o : outcome (tset K * R * origin)) : misused s -> misused right ->
  exec (aset_tt st JwClosure TwClosure TwClosure s right) tr o -> longest s < 2 -> longest right < 2 ->
  (unbroken tr /\ exists x, o = Ret x) \/ (unbroken tr /\ hashes_differ tr /\ o = Panic) \/ (exists tr' q, tr = tr' ++ [broke q] /\ unbroken tr' /\ o = Panic).
Proof.
  intros Hm Hr He HL HL'. apply aset_tt_map in He as (tr' & He & HS). exact (w_ends _ _ _ _ sh_tt_wrapper _ _ HS _ (misused_tt_ends _ _ _ _ _ Hm Hr He HL HL')).
Qed.

Lemma skey_from_rel tr' tr ks k : spread sh tr' tr -> key_from tr' ks k -> skey_from tr ks k.
Proof. intros HS. induction 1 as [k Hk|k k' _ IH Hk]; [constructor; exact Hk|]. apply skf_clone with k; [exact IH|]. exact (w_key_clone _ _ _ _ sh_tt_wrapper _ _ HS _ _ Hk). Qed.

Theorem misused_set_tt_sound (s right : tset K) st wb wl wr tr (o : outcome (tset K * R * origin)) : misused s -> misused right -> exec (aset_tt st wb wl wr s right) tr o ->
  match o with
  | Ret (s', r, og) => misused s' /\ set_size s' = lenN (set_visit s') /\ Forall (skey_from tr (set_visit s ++ set_visit right)) (set_visit s') /\
      (og = Self -> s' = s) /\ (og = Right -> s' = right)
  | Panic => jpanicked tr \/ hashes_differ tr \/ (2 <= longest s /\ 2 <= longest right)
  | Diverge => 2 <= longest s /\ 2 <= longest right /\ (3 <= longest s \/ 3 <= longest right)
  end.
Proof.
  intros Hm Hr He. apply aset_tt_map in He as (tr' & He & HS). pose proof (misused_tt_sound _ _ _ _ _ _ _ _ Hm Hr He) as Ho.
  destruct o as [[[s' r] og]| |]; [| |exact Ho].
  - destruct Ho as (H1 & H2 & H3 & H4). split; [exact H1|]. split; [unfold set_size, set_visit; rewrite H2; unfold lenN; rewrite map_length; reflexivity|]. split; [|exact H4].
    unfold set_visit. rewrite <- map_app. apply Forall_map. eapply Forall_impl; [|exact H3]. intros e [He' _]. exact (skey_from_rel _ _ _ _ HS He').
  - destruct Ho as [Ho|[Ho|Ho]]; [left; exact (w_panicked _ _ _ _ sh_tt_wrapper _ _ HS Ho)|right; left; exact (w_differ _ _ _ _ sh_tt_wrapper _ _ HS Ho)|auto].
Qed.

Theorem unequal_set_tt_sound {KK : Key K} {L} {KL : Key L} (s right : tset K) st wb wl wr tr (o : outcome (tset K * R * origin)) (q : L) : unequal s -> unequal right -> Forall jsteady tr ->
  exec (aset_tt st wb wl wr s right) tr o ->
  match o with
  | Ret (s', r, og) => unequal s' /\ ((exists k, set_find s' q = Ret (Ok k) /\ In k (set_visit s') /\ cls k = cls q) \/
      (set_find s' q = Ret (Err NotFound) /\ forall k, In k (set_visit s') -> cls k <> cls q))
  | Panic => jpanicked tr \/ (2 <= longest s /\ 2 <= longest right)
  | Diverge => 2 <= longest s /\ 2 <= longest right /\ (3 <= longest s \/ 3 <= longest right)
  end.
Proof.
  intros Hm Hr HF He. apply aset_tt_map in He as (tr' & He & HS). pose proof (unequal_tt_sound _ _ _ _ _ _ _ _ q Hm Hr (w_steady _ _ _ _ sh_tt_wrapper _ _ HS HF) He) as Ho.
  destruct o as [[[s' r] og]| |]; [| |exact Ho].
  - destruct Ho as (H1 & H2). split; [exact H1|]. unfold set_find, set_visit. destruct H2 as [([k u] & H2 & H3 & H4)|[H2 H3]]; rewrite H2; cbn.
    + left. exists k. split; [reflexivity|]. split; [exact (in_map fst _ _ H3)|exact H4].
    + right. split; [reflexivity|]. intros k Hk. apply in_map_iff in Hk as (e & <- & Hi). exact (H3 _ Hi).
  - destruct Ho as [Ho|Ho]; [left; exact (w_panicked _ _ _ _ sh_tt_wrapper _ _ HS Ho)|auto].
Qed.
End TT.
