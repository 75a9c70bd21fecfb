(** How often the joint operations compare and hash keys: sets and transfute; maps whose
    hashes are in order. *)
From Coq Require Import NArith Arith List Bool Lia ZifyBool ZifyN ZifyNat.
From Verif Require Import Base Words WordsP Flag FlagP Bia BiaP Node Inv Api Trans Transform Joint JointT Sets Profile Eff EffP EffT EffJ EffApi EffSet Ask AskP AskHashP AskT AskJ AskTw
  AskSet AskApiP Misuse CostP SpecAsk SpecCount AskCountP AskCountTP AskCountAP.
Import ListNotations.
Open Scope N_scope.

(** * Calls made by a wrapper *)
Section Handle.
Context {Q Q' : Type} {A : Q -> Type} {A' : Q' -> Type} (fe fh : Q -> bool) (fe' fh' : Q' -> bool) (H : forall q, prog A (A' q)).
Context (Hno : forall q tr, ~ exec (H q) tr Diverge).
Context (Hask : forall q, asks fe fh (if fe' q then 1 else 0) (if fh' q then 1 else 0) any (H q)).

Lemma handle_tally {X} (p : prog A' X) : forall tr o, exec (handle H p) tr o ->
  exists tr', exec p tr' o /\ tally fe tr <= tally fe' tr' /\ tally fh tr <= tally fh' tr'.
Proof.
  induction p as [x| | |q k IH]; intros tr o Hx; cbn [handle] in Hx.
  - exists []. destruct Hx as [-> ->]. repeat split; apply N.le_refl.
  - exists []. destruct Hx as [-> ->]. repeat split; apply N.le_refl.
  - exists []. destruct Hx as [-> ->]. repeat split; apply N.le_refl.
  - apply exec_bind in Hx. destruct Hx as [(t1 & t2 & a & -> & H1 & H2)|[[H1 ->]|[H1 ->]]].
    + destruct (IH a _ _ H2) as (t3 & A1 & A2 & A3). destruct (Hask q _ _ H1) as (B1 & B2 & _).
      exists (answer q a :: t3). split; [left; exists a, t3; auto|]. rewrite !tally_app, !tally_cons. cbn [asked answer projT1]. lia.
    + destruct (Hask q _ _ H1) as (B1 & B2 & _). exists [broke q]. split; [right; auto|]. rewrite !tally_cons. cbn [asked broke projT1]. rewrite !tally_nil. lia.
    + exfalso. exact (Hno q tr H1).
Qed.
Lemma handle_asks {X} e h (P : X -> Prop) (p : prog A' X) : asks fe' fh' e h P p -> asks fe fh e h P (handle H p).
Proof. intros Hp tr o Hx. destruct (handle_tally p tr o Hx) as (tr' & A1 & A2 & A3). destruct (Hp _ _ A1) as (B1 & B2 & B3). repeat split; [lia|lia|exact B3]. Qed.
End Handle.

Section Ends.
Context {Q : Type} {A : Q -> Type}.
Lemma ends_ret {X} (x : X) tr : ~ exec (PRet (A := A) x) tr Diverge.
Proof. intros [_ ?]. discriminate. Qed.
Lemma ends_ask {X} q (k : A q -> prog A X) : (forall a tr, ~ exec (k a) tr Diverge) -> forall tr, ~ exec (PAsk q k) tr Diverge.
Proof. intros Hk tr [(a & tr' & _ & Hx)|[_ ?]]; [exact (Hk a tr' Hx)|discriminate]. Qed.
Lemma ends_bind {X Y} (p : prog A X) (f : X -> prog A Y) : (forall tr, ~ exec p tr Diverge) -> (forall x tr, ~ exec (f x) tr Diverge) -> forall tr, ~ exec (pbind p f) tr Diverge.
Proof. intros Hp Hf tr Hx. apply exec_bind in Hx. destruct Hx as [(t1 & t2 & x & -> & H1 & H2)|[[_ ?]|[H1 _]]]; [exact (Hf x _ H2)|discriminate|exact (Hp _ H1)]. Qed.
End Ends.

Ltac ends := intros; first [apply ends_ret | apply ends_ask; ends | apply ends_bind; ends].
Ltac cheap := intros; unfold free; cbn beta iota; first
  [ apply asks_ret; exact Logic.I
  | match goal with |- asks _ _ _ _ _ (PAsk ?q PRet) => exact (ask_cost q) end
  | unfold es_transform, es_transmute, es_joint, es_call, es_mcall; apply asks_free; cheap
  | match goal with |- asks _ _ _ _ _ (match ?x with _ => _ end) => destruct x; cheap end ].

(** The wrappers of sets and of the transfute operations. *)
Section Wrappers.
Context {E : Env}.
Lemma sh_tm_ends {K L R} (wb : tway R) q tr : ~ exec (sh_tm (K := K) (L := L) wb q) tr Diverge.
Proof. revert tr. destruct q; cbn -[exec not]; try (destruct wb); ends. Qed.
Lemma sh_mt_ends {K L R} (wb : tway R) q tr : ~ exec (sh_mt (K := K) (L := L) wb q) tr Diverge.
Proof. revert tr. destruct q; cbn -[exec not]; try (destruct wb); ends. Qed.
Lemma sh_mm_ends {K L R S} (wb : mway R) q tr : ~ exec (sh_mm (K := K) (L := L) (S := S) wb q) tr Diverge.
Proof. revert tr. destruct q; cbn -[exec not]; try (destruct wb); try contradiction; ends. Qed.
Lemma sh_tt_ends {K R} q tr : ~ exec (sh_tt (K := K) (R := R) q) tr Diverge.
Proof. revert tr. destruct q; cbn -[exec not]; ends. Qed.
Lemma mh_tf_ends {K V W R} q tr : ~ exec (mh_tf (K := K) (V := V) (W := W) (R := R) q) tr Diverge.
Proof. revert tr. destruct q; cbn -[exec not]; try ends. apply ends_ask. intros [|]; cbn -[exec not]; ends. Qed.
Lemma mh_ft_ends {K V W R} q tr : ~ exec (mh_ft (K := K) (V := V) (W := W) (R := R) q) tr Diverge.
Proof. revert tr. destruct q; cbn -[exec not]; try ends. apply ends_ask. intros [|]; cbn -[exec not]; ends. Qed.

Lemma sh_tm_asks {K L R} (wb : tway R) q : asks is_jeq is_jhash (if is_jeq q then 1 else 0) (if is_jhash q then 1 else 0) any (sh_tm (K := K) (L := L) wb q).
Proof. destruct q; cbn [sh_tm is_jeq is_jhash]; cheap. Qed.
Lemma sh_mt_asks {K L R} (wb : tway R) q : asks is_jeq is_jhash (if is_jeq q then 1 else 0) (if is_jhash q then 1 else 0) any (sh_mt (K := K) (L := L) wb q).
Proof. destruct q; cbn [sh_mt is_jeq is_jhash]; cheap. Qed.
Lemma sh_mm_asks {K L R S} (wb : mway R) q : asks is_jeq is_jhash (if is_jeq q then 1 else 0) (if is_jhash q then 1 else 0) any (sh_mm (K := K) (L := L) (S := S) wb q).
Proof. destruct q; cbn [sh_mm is_jeq is_jhash]; try contradiction; cheap. Qed.
Lemma sh_tt_asks {K R} q : asks is_jeq is_jhash (if is_jeq q then 1 else 0) (if is_jhash q then 1 else 0) any (sh_tt (K := K) (R := R) q).
Proof. destruct q; cbn [sh_tt is_jeq is_jhash]; cheap. Qed.
Lemma mh_tf_asks {K V W R} q : asks is_jeq is_jhash (if is_jeq q then 1 else 0) (if is_jhash q then 1 else 0) any (mh_tf (K := K) (V := V) (W := W) (R := R) q).
Proof. destruct q; cbn [mh_tf is_jeq is_jhash]; cheap. Qed.
Lemma mh_ft_asks {K V W R} q : asks is_jeq is_jhash (if is_jeq q then 1 else 0) (if is_jhash q then 1 else 0) any (mh_ft (K := K) (V := V) (W := W) (R := R) q).
Proof. destruct q; cbn [mh_ft is_jeq is_jhash]; cheap. Qed.
End Wrappers.

Lemma few_handle {E : Env} {KL VL KR VR K V TB TL TR R TB' TL' TR' KV KV' Y} (m : trie KL VL) (right : trie KR VR)
  (H : forall q, prog (jreply KL VL KR VR K V TB TL TR R) (jreply KL VL KR VR KV KV' TB' TL' TR' R q)) (p : prog (jreply KL VL KR VR KV KV' TB' TL' TR' R) Y) :
  (forall q tr, ~ exec (H q) tr Diverge) -> (forall q, asks is_jeq is_jhash (if is_jeq q then 1 else 0) (if is_jhash q then 1 else 0) any (H q)) ->
  few m right p -> few m right (handle H p).
Proof.
  intros Hno Hask Hp tr o Hx. destruct (handle_tally _ _ _ _ H Hno Hask p tr o Hx) as (tr' & A1 & A2 & A3). destruct (Hp _ _ A1) as (B1 & B2 & B3). repeat split; lia.
Qed.

Section Sets.
Context {E : Env} {K L R : Type}.
Lemma aset_tm_few (s : tset K) (right : tset L) st wb wl (wr : mway R) : misused s -> misused right -> few s right (aset_tm st wb wl wr s right).
Proof. intros Hs Hr. apply few_handle; [apply sh_tm_ends|apply sh_tm_asks|apply ask_tm_few; assumption]. Qed.
Lemma aset_mt_few (s : tset K) (right : tset L) st wb wl (wr : tway R) : misused s -> misused right -> few s right (aset_mt st wb wl wr s right).
Proof. intros Hs Hr. apply few_handle; [apply sh_mt_ends|apply sh_mt_asks|apply ask_mt_few; assumption]. Qed.
Lemma aset_mm_few {S} (s : tset K) (right : tset L) wb wl (wr : mway R) : misused s -> misused right -> few s right (aset_mm (S := S) wb wl wr s right).
Proof. intros Hs Hr. apply few_handle; [apply sh_mm_ends|apply sh_mm_asks|apply ask_mm_few; assumption]. Qed.
Lemma aset_tt_few (s right : tset K) st wb wl (wr : tway R) : misused s -> misused right -> few s right (aset_tt st wb wl wr s right).
Proof. intros Hs Hr. apply few_handle; [apply sh_tt_ends|apply sh_tt_asks|apply ask_tt_few; assumption]. Qed.
Lemma ask_tf_few {V W} (m : trie K V) (right : trie K W) st wb wl (wr : mway R) : misused m -> misused right -> few m right (ask_tf st wb wl wr m right).
Proof. intros Hm Hr. apply few_handle; [apply mh_tf_ends|apply mh_tf_asks|apply ask_tm_few; assumption]. Qed.
Lemma ask_ft_few {V W} (m : trie K V) (right : trie K W) st wb wl (wr : tway R) : misused m -> misused right -> few m right (ask_ft st wb wl wr m right).
Proof. intros Hm Hr. apply few_handle; [apply mh_ft_ends|apply mh_ft_asks|apply ask_mt_few; assumption]. Qed.
End Sets.

(** * Maps whose hashes are in order *)
Section Levels.
Context {E : Env} {K V : Type} {KK : Key K}.
Lemma max_attained (l : list (mnode K V)) : fold_right N.max 0 (map branches l) = 0 \/ exists c, In c l /\ branches c = fold_right N.max 0 (map branches l).
Proof.
  induction l as [|c l IH]; [left; reflexivity|]. cbn [map fold_right]. right.
  destruct (N.max_spec (branches c) (fold_right N.max 0 (map branches l))) as [[Hlt ->]|[Hle ->]]; [|exists c; cbn; auto].
  destruct IH as [IH|(c' & Hc & <-)]; [lia|]. exists c'. cbn. auto.
Qed.
Lemma placed_branches (n : mnode K V) : forall d p, placed d p n -> branches n = 0 \/ (d + branches n) * log_b fw < max_ones hw + log_b fw.
Proof.
  induction n as [bits values x IH|l|s] using mnode_ind'; intros d p Hp; [|left; reflexivity..]. right.
  inversion Hp as [| |d1 p1 b1 v1 x1 Hd _ Hok _ _ Hch]; subst. cbn [branches bvalues]. unfold off, hbits in Hd.
  destruct (max_attained values) as [->|(c & Hc & Hb)].
  - lia.
  - rewrite <- Hb. destruct (in_values_get _ _ _ _ Hok Hc) as (i & _ & Hg). rewrite Forall_forall in IH.
    destruct (IH c Hc _ _ (Hch i c Hg)) as [->|Hlt]; lia.
Qed.
Lemma unequal_branches (m : trie K V) : unequal m -> branches m * log_b fw < max_ones hw + log_b fw.
Proof. intros H. destruct (placed_branches m 0 0 (unequal_placed m H)) as [->|Hlt]; [|lia]. pose proof (log_b_pos fw). lia. Qed.
End Levels.

Lemma few_steady {E : Env} {KL VL KR VR K V TB TL TR R Y} {KKL : Key KL} {KKR : Key KR} (m : trie KL VL) (right : trie KR VR) (p : prog (jreply KL VL KR VR K V TB TL TR R) Y) :
  unequal m -> unequal right -> few m right p -> exists h h', forall tr o, exec p tr o ->
  tally is_jeq tr <= map_size m * lenN (with_hash h (map_visit right)) /\ tally is_jeq tr <= map_size right * lenN (with_hash h' (map_visit m)) /\
  tally is_jhash tr * log_b fw <= (max_ones hw + 3 * log_b fw) * N.max 1 (N.min (map_size m) (map_size right)).
Proof.
  intros Hm Hr Hp. destruct (unequal_longest right Hr) as [h Hh]. destruct (unequal_longest m Hm) as [h' Hh']. exists h, h'. intros tr o Hx.
  destruct (Hp tr o Hx) as (A1 & A2 & A3). pose proof (unequal_branches m Hm). pose proof (unequal_branches right Hr). repeat split; [nia|nia|].
  remember (N.max 1 (N.min (map_size m) (map_size right))) as z eqn:Ez. clear Ez.
  assert (N.max (branches m) (branches right) * log_b fw < max_ones hw + log_b fw) by lia. nia.
Qed.
