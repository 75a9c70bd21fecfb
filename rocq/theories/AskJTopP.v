(** The joint operations on maps, whatever the client's code answers: the calls, and
    where the entries lie. *)
From Coq Require Import NArith Arith List Bool Lia ZifyBool ZifyN ZifyNat Permutation.
From Verif Require Import Base Words WordsP Flag FlagP Bia BiaP Node Inv InsertP Api Trans Transform Joint Profile Eff EffP EffTP EffApi Ask AskP AskInsP AskHashP AskT SpecAsk SpecAskT SpecAskJ JoinP JointLeafP LoopP TransformP
  PermP AskTP AskTTP AskTopP AskJ AskJP AskJOneP AskJLeafP AskJMLeafP AskJTravP AskJTreeP.
Import ListNotations.
Open Scope N_scope.

(** * Where entries lie *)
Record place {E : Env} (KL VL KR VR K V TB TL TR R S X : Type) : Type := Place {
  pl_good : event (A := jreply KL VL KR VR K V TB TL TR R) -> Prop;
  pl_bad : list (event (A := jreply KL VL KR VR K V TB TL TR R)) -> Prop;
  pl_hasL : N -> KL * VL -> Prop;
  pl_hasR : N -> KR * VR -> Prop;
  pl_has : N -> S * X -> Prop;
  pl_tells : event (A := jreply KL VL KR VR K V TB TL TR R) -> N -> word -> Prop;
  pl_lies : N -> N -> N -> Prop;
  pl_deep : N -> N -> Prop;
  pl_broken : forall t, broken t -> pl_bad t;
  pl_incl : forall t t', incl t t' -> pl_bad t -> pl_bad t';
  pl_up : forall d p i h, pl_deep d p -> pl_lies (d + 1) (p + i * 2 ^ off d) h -> pl_lies d p h;
  pl_route : forall d p h w e, pl_deep d p -> pl_good e -> pl_tells e h w -> pl_lies d p h ->
    exists f i, flag_new_at_depth (proj1_sig w) d = Ret (Some f) /\ fl_flag f = 2 ^ i /\ i < max_ones fw /\ pl_lies (d + 1) (p + i * 2 ^ off d) h;
  pl_apart : forall d p h h' w w' e e', pl_good e -> pl_good e' -> pl_tells e h w -> pl_tells e' h' w' -> pl_lies d p h -> pl_lies d p h' ->
    same_hash w w' = false ->
    match aflags w w' d with
    | Ret (lf, rf) => forall a b, hleaf pl_has h a -> hleaf pl_has h' b ->
        match cnode_lift a lf b rf with
        | Ret c => shaped (leaf_of pl_has pl_lies) pl_deep d p (MC c) /\ Permutation (m_visit (MC c)) (m_visit a ++ m_visit b)
        | Panic => pl_bad [e; e']
        | Diverge => False
        end
    | Panic => pl_bad [e; e']
    | Diverge => False
    end;
  pl_hash : forall k w h v, pl_good (answer (JHash k) w) -> pl_hasL h (k, v) -> pl_tells (answer (JHash k) w) h w;
  pl_hash' : forall k w h v, pl_good (answer (JHash' k) w) -> pl_hasR h (k, v) -> pl_tells (answer (JHash' k) w) h w;
  pl_one : forall e h x e' h' x', pl_good e -> pl_good e' -> pl_tells e h x -> pl_tells e' h' x' -> proj1_sig x = proj1_sig x' ->
    (forall y, pl_hasL h y -> pl_hasL h' y) /\ (forall y, pl_hasR h y -> pl_hasR h' y);
  pl_new : pl_deep 0 0
}.
Arguments pl_good {E KL VL KR VR K V TB TL TR R S X}.
Arguments pl_bad {E KL VL KR VR K V TB TL TR R S X}.
Arguments pl_hasL {E KL VL KR VR K V TB TL TR R S X}.
Arguments pl_hasR {E KL VL KR VR K V TB TL TR R S X}.
Arguments pl_has {E KL VL KR VR K V TB TL TR R S X}.
Arguments pl_tells {E KL VL KR VR K V TB TL TR R S X}.
Arguments pl_lies {E KL VL KR VR K V TB TL TR R S X}.
Arguments pl_deep {E KL VL KR VR K V TB TL TR R S X}.
Arguments pl_broken {E KL VL KR VR K V TB TL TR R S X}.
Arguments pl_incl {E KL VL KR VR K V TB TL TR R S X}.
Arguments pl_up {E KL VL KR VR K V TB TL TR R S X}.
Arguments pl_route {E KL VL KR VR K V TB TL TR R S X}.
Arguments pl_apart {E KL VL KR VR K V TB TL TR R S X}.
Arguments pl_hash {E KL VL KR VR K V TB TL TR R S X}.
Arguments pl_hash' {E KL VL KR VR K V TB TL TR R S X}.
Arguments pl_one {E KL VL KR VR K V TB TL TR R S X}.
Arguments pl_new {E KL VL KR VR K V TB TL TR R S X}.

Section Any.
Context {E : Env} {KL VL KR VR K V TB TL TR R S X : Type}.
Notation A := (jreply KL VL KR VR K V TB TL TR R).
Notation event := (event (A := A)).
Notation trace := (list event).
Notation jitem := (jitem KL VL KR VR TB TL TR).
Notation ask q := (PAsk (A := A) q PRet).
Implicit Types tr t : trace.
Context (pl : place KL VL KR VR K V TB TL TR R S X) (stuck : Prop).
Context (rof : jitem -> R) (cost : jitem -> list (K + V)) (becomes : trace -> jitem -> list (S * X) -> Prop).
Context (mono : forall t t' i out, incl t t' -> becomes t i out -> becomes t' i out).

Definition j_ihas (h : N) (i : jitem) : Prop :=
  match i with
  | IBoth x y _ => pl_hasL pl h x /\ pl_hasR pl h y
  | ILeft x _ => pl_hasL pl h x
  | IRight y _ => pl_hasR pl h y
  end.
Context (owns : forall t i out h, Forall (pl_good pl) t -> becomes t i out -> j_ihas h i -> Forall (pl_has pl h) out).

Lemma calls_ask good (q : jcalls KL VL KR VR K V R) us : (forall a, jtold (existT _ q a : event) = us) -> calls good jtold (ask q) us (fun y e => e = answer q y).
Proof.
  intros Hu tr o He _. destruct He as [(a & t & -> & -> & ->)|[-> ->]]; cbn [flat_map]; unfold answer, broke; rewrite Hu, app_nil_r.
  - split; [reflexivity|]. exists (answer q a). auto.
  - split; [reflexivity|]. exists q. left. reflexivity.
Qed.

Lemma called_mono t t' i : incl t t' -> called t i -> called t' i.
Proof. intros H. destruct i; cbn; unfold said_equal; intros H1; repeat (destruct H1 as [? H1] || destruct H1 as [H1|H1]); auto. Qed.

Definition j_world : world A S X R jitem (K + V) ((KL * VL) + (KR * VR)).
Proof.
  refine (World E _ A S X R jitem (K + V) ((KL * VL) + (KR * VR)) (pl_good pl) (pl_bad pl) stuck jsee jtold rof cost becomes called (pl_has pl) j_ihas
    (pl_tells pl) (pl_lies pl) (pl_deep pl) (ask JDefault) (fun a b => ask (JReduce a b))
    (pl_broken pl) (pl_incl pl) mono owns (pl_up pl) (pl_route pl) (pl_apart pl) _ _).
  - eapply calls_weak; [|apply (calls_ask (pl_good pl) JDefault []); reflexivity]. intros y e _ ->. reflexivity.
  - intros a b. eapply calls_weak; [|apply (calls_ask (pl_good pl) (JReduce a b) []); reflexivity]. intros y e _ ->. reflexivity.
Defined.

Lemma j_hash k : calls (w_good j_world) (w_told j_world) (ask (JHash k)) [] (fun x e => w_see j_world e = ItNone /\ forall h v, pl_hasL pl h (k, v) -> w_tells j_world e h x).
Proof. eapply calls_weak; [|apply (calls_ask (pl_good pl) (JHash k) []); reflexivity]. intros y e Hg ->. split; [reflexivity|]. intros h v. apply (pl_hash pl). exact Hg. Qed.
Lemma j_hash' k : calls (w_good j_world) (w_told j_world) (ask (JHash' k)) [] (fun x e => w_see j_world e = ItNone /\ forall h v, pl_hasR pl h (k, v) -> w_tells j_world e h x).
Proof. eapply calls_weak; [|apply (calls_ask (pl_good pl) (JHash' k) []); reflexivity]. intros y e Hg ->. split; [reflexivity|]. intros h v. apply (pl_hash' pl). exact Hg. Qed.
Lemma j_eq k k' : calls (w_good j_world) (w_told j_world) (ask (JEq k k')) [] (fun b e => w_see j_world e = ItNone /\ (b = true -> forall t, In e t -> said_equal t k k')).
Proof. eapply calls_weak; [|apply (calls_ask (pl_good pl) (JEq k k') []); reflexivity]. intros y e Hg ->. split; [reflexivity|]. intros -> t Ht. left. exact Ht. Qed.
Lemma j_eq' k k' : calls (w_good j_world) (w_told j_world) (ask (JEq' k' k)) [] (fun b e => w_see j_world e = ItNone /\ (b = true -> forall t, In e t -> said_equal t k k')).
Proof. eapply calls_weak; [|apply (calls_ask (pl_good pl) (JEq' k' k) []); reflexivity]. intros y e Hg ->. split; [reflexivity|]. intros -> t Ht. right. exact Ht. Qed.
Lemma j_left x : calls (w_good j_world) (w_told j_world) (ask (JLeft x)) [inl x] (fun o e => w_see j_world e = ItOp (ILeft x o) /\
  (forall t, In e t -> w_called j_world t (ILeft x o)) /\ (forall h, pl_hasL pl h x -> w_ihas j_world h (ILeft x o))).
Proof. eapply calls_weak; [|apply (calls_ask (pl_good pl) (JLeft x) [inl x]); reflexivity]. intros y e Hg ->. split; [reflexivity|]. split; [intros t Ht; exact Ht|auto]. Qed.
Lemma j_right x : calls (w_good j_world) (w_told j_world) (ask (JRight x)) [inr x] (fun o e => w_see j_world e = ItOp (IRight x o) /\
  (forall t, In e t -> w_called j_world t (IRight x o)) /\ (forall h, pl_hasR pl h x -> w_ihas j_world h (IRight x o))).
Proof. eapply calls_weak; [|apply (calls_ask (pl_good pl) (JRight x) [inr x]); reflexivity]. intros y e Hg ->. split; [reflexivity|]. split; [intros t Ht; exact Ht|auto]. Qed.
Lemma j_both x x' : calls (w_good j_world) (w_told j_world) (ask (JBoth x x')) [inl x; inr x'] (fun o e => w_see j_world e = ItOp (IBoth x x' o) /\
  (forall t, In e t -> said_equal t (fst x) (fst x') -> w_called j_world t (IBoth x x' o)) /\ (forall h, pl_hasL pl h x -> pl_hasR pl h x' -> w_ihas j_world h (IBoth x x' o))).
Proof. eapply calls_weak; [|apply (calls_ask (pl_good pl) (JBoth x x') [inl x; inr x']); reflexivity]. intros y e Hg ->. split; [reflexivity|]. split; [intros t Ht Hs; split; assumption|intros h H1 H2; split; assumption]. Qed.

End Any.

Lemma nres_shaped {E : Env} {K V R} (leaf : N -> N -> list (K * V) -> Prop) (deep : N -> N -> Prop) (n : nres K V R) : deep 0 0 ->
  (forall m, nnode n = Some m -> shaped leaf deep 0 0 m) ->
  shaped leaf deep 0 0 (fst (nres_trie n)) /\ forall P : list (K * V) -> R -> Prop, P (ovisit (nnode n)) (nred n) -> P (map_visit (fst (nres_trie n))) (snd (nres_trie n)).
Proof.
  intros Hd H. destruct n as [c r|l r|s r|r]; cbn [nres_trie nnode nred ovisit fst snd] in *; (split; [|intros P HP; exact HP]); try (apply H; reflexivity).
  apply new_shaped. exact Hd.
Qed.

(** * transform_with_transmuted *)
Section TM.
Context {E : Env} {K V L W R : Type}.
Notation A := (jreply K V L W K V (vres V R) (vres V R) (kres K V R) R).
Notation event := (event (A := A)).
Notation trace := (list event).
Notation jitem := (jitem K V L W (vres V R) (vres V R) (kres K V R)).
Notation ask q := (PAsk (A := A) q PRet).
Implicit Types tr t : trace.

Lemma jbec_mono t t' (x : K * V) (o : vres V R) out : incl t t' -> jbecomes t x o out -> jbecomes t' x o out.
Proof.
  intros H. destruct o as [r|v r|r]; cbn; [|intros (k & H1 & ->); exists k; split; [apply H; exact H1|reflexivity]|auto].
  intros [->|(k & v & H1 & H2 & ->)]; [left; reflexivity|]. right. exists k, v. split; [apply H; exact H1|]. split; [apply H; exact H2|reflexivity].
Qed.
Lemma tm_mono t t' (i : jitem) out : incl t t' -> tm_becomes t i out -> tm_becomes t' i out.
Proof. intros H [H1 H2]. split; [eapply called_mono; eassumption|]. destruct i; try (eapply jbec_mono; eassumption); assumption. Qed.

Context (pl : place K V L W K V (vres V R) (vres V R) (kres K V R) R K V) (stuck : Prop).
Context (same : forall h x, pl_has pl h x <-> pl_hasL pl h x).
Context (Hclone : forall h k k' v v', pl_good pl (answer (JKey k) k') -> pl_has pl h (k, v) -> pl_has pl h (k', v')).
Context (Hright : forall h y o, pl_good pl (answer (JRight y) o) -> pl_hasR pl h y -> Forall (pl_has pl h) (jkout o)).

Lemma jbec_owns t h (x : K * V) (o : vres V R) out : Forall (pl_good pl) t -> jbecomes t x o out -> pl_has pl h x -> Forall (pl_has pl h) out.
Proof.
  intros Hg Hb Hh. rewrite Forall_forall in Hg. destruct x as [k0 v0]. destruct o as [r|v r|r]; cbn in Hb.
  - destruct Hb as [->|(k & v & H1 & H2 & ->)]; repeat constructor; [assumption|]. eapply Hclone; [exact (Hg _ H1)|exact Hh].
  - destruct Hb as (k & H1 & ->). repeat constructor. eapply Hclone; [exact (Hg _ H1)|exact Hh].
  - subst out. constructor.
Qed.
Lemma tm_owns t (i : jitem) out h : Forall (pl_good pl) t -> tm_becomes t i out -> j_ihas pl h i -> Forall (pl_has pl h) out.
Proof.
  intros Hg [Hc Hb] Hh. destruct i as [x y o|x o|y o]; cbn in Hh, Hc.
  - eapply jbec_owns; [exact Hg|exact Hb|]. apply same, Hh.
  - eapply jbec_owns; [exact Hg|exact Hb|]. apply same, Hh.
  - subst out. eapply Hright; [|exact Hh]. rewrite Forall_forall in Hg. apply Hg, Hc.
Qed.

Definition tm_world := j_world pl stuck tm_red tm_cost tm_becomes tm_mono tm_owns.

Definition tm_vi (i : jitem) (x : K * V) (o : vres V R) : Prop := i = ILeft x o \/ exists y, i = IBoth x y o.
Definition tm_ts : tside tm_world.
Proof.
  refine (Tside E _ A K V R jitem (K + V) _ tm_world inl tm_vi (fun x => ask (JLeft x)) (fun k => ask (JKey k)) (fun v => ask (JValue v)) inl inr
    (fun e k k' => e = answer (A := A) (JKey k) k') (fun e v v' => e = answer (A := A) (JValue v) v') _ _ _ _ _ _ _ _ _).
  - intros x. eapply calls_weak; [|apply (j_left pl stuck tm_red tm_cost tm_becomes tm_mono tm_owns x)]. intros o e _ (H1 & H2 & H3). exists (ILeft x o).
    split; [exact H1|]. split; [left; reflexivity|]. split; [exact H2|]. intros h Hh. apply H3, same, Hh.
  - intros k. eapply calls_weak; [|apply (calls_ask (pl_good pl) (JKey k) []); reflexivity]. intros y e _ ->. split; reflexivity.
  - intros v. eapply calls_weak; [|apply (calls_ask (pl_good pl) (JValue v) []); reflexivity]. intros y e _ ->. split; reflexivity.
  - intros i x o [->|(y & ->)]; reflexivity.
  - intros i x o [->|(y & ->)]; exists []; rewrite app_nil_r; destruct o; reflexivity.
  - intros t i x r Hc [->|(y & ->)]; (split; [exact Hc|]); left; reflexivity.
  - intros t i k v r k' v' e e' Hc Hv H1 -> H2 ->. assert (Hb : jbecomes t (k, v) (VUnchanged r) [(k', v')]) by (right; exists k', v'; auto).
    destruct Hv as [->|(y & ->)]; (split; [exact Hc|exact Hb]).
  - intros t i k v v' r k' e Hc Hv H1 ->. assert (Hb : jbecomes t (k, v) (VTransformed v' r) [(k', v')]) by (exists k'; auto).
    destruct Hv as [->|(y & ->)]; (split; [exact Hc|exact Hb]).
  - intros t i x r Hc [->|(y & ->)]; (split; [exact Hc|reflexivity]).
Defined.

Definition tm_ms : mside tm_world L W.
Proof.
  refine (Mside E _ A K V R jitem (K + V) _ tm_world L W inr (pl_hasR pl) (fun i o => exists y, i = IRight y o) (fun y => ask (JRight y)) _ _ _ _).
  - intros x. eapply calls_weak; [|apply (j_right pl stuck tm_red tm_cost tm_becomes tm_mono tm_owns x)]. intros o e _ (H1 & H2 & H3). exists (IRight x o). eauto 6.
  - intros i o (y & ->). reflexivity.
  - intros t i o Hc (y & ->). split; [exact Hc|reflexivity].
  - intros e h x e' h' x' G1 G2 T1 T2 He. apply (pl_one pl e h x e' h' x'); assumption.
Defined.

Lemma tm_laws : tmlaws tm_world tm_ts tm_ms jkeyed (fun p => ask (JBoth (fst p) (snd p))) said_equal.
Proof.
  constructor.
  - intros x y. eapply calls_weak; [|apply (j_both pl stuck tm_red tm_cost tm_becomes tm_mono tm_owns x y)]. intros o e _ (H1 & H2 & H3). exists (IBoth x y o).
    split; [exact H1|]. split; [right; eauto|]. split; [exact H2|]. intros h Hh Hm. apply H3; [apply same, Hh|exact Hm].
  - intros k k'. apply (j_eq pl stuck tm_red tm_cost tm_becomes tm_mono tm_owns).
  - intros k k'. apply (j_eq' pl stuck tm_red tm_cost tm_becomes tm_mono tm_owns).
  - intros k. eapply calls_weak; [|apply (j_hash pl stuck tm_red tm_cost tm_becomes tm_mono tm_owns)]. intros x e _ [H1 H2]. split; [exact H1|]. intros h v Hh. apply (H2 h v), same, Hh.
  - intros k. apply (j_hash' pl stuck tm_red tm_cost tm_becomes tm_mono tm_owns).
Qed.

Lemma ask_tm_any st (m : trie K V) (right : trie L W) : shaped (leaf_of (pl_has pl) (pl_lies pl)) (pl_deep pl) 0 0 m ->
  shaped (leaf_of (pl_hasR pl) (pl_lies pl)) (pl_deep pl) 0 0 right -> (3 <= longest right -> stuck) ->
  gs (pl_good pl) (ask_tm st TwClosure TwClosure MwClosure m right) (fun tr o =>
    exists rest, Permutation (jtold_all tr ++ rest) (map inl (map_visit m) ++ map inr (map_visit right)) /\
    match o with
    | Ret (m', r, og) => rest = [] /\ shaped (leaf_of (pl_has pl) (pl_lies pl)) (pl_deep pl) 0 0 m' /\ (og = Self -> m' = m) /\
        exists is outs, settled jsee tm_red tm_cost tr is r /\ Forall2 (tm_becomes tr) is outs /\ Permutation (map_visit m') (concat outs)
    | Panic => pl_bad pl tr
    | Diverge => stuck
    end).
Proof.
  intros Hm Hr Hst.
  assert (H : jfull tm_world (map inl (m_visit m) ++ map inr (m_visit right)) (ask_tm st TwClosure TwClosure MwClosure m right) (fun tr y =>
    shaped (leaf_of (pl_has pl) (pl_lies pl)) (pl_deep pl) 0 0 (fst (fst y)) /\ (snd y = Self -> fst (fst y) = m) /\
        exists is outs, settled jsee tm_red tm_cost tr is (snd (fst y)) /\ Forall2 (tm_becomes tr) is outs /\ Permutation (map_visit (fst (fst y))) (concat outs))).
  { eapply (jf_cut tm_world _ _ []); [exact (am_tm_j (w := tm_world) (ts := tm_ts) (ms := tm_ms) _ _ _ tm_laws st m right 0 0 Hm Hr Hst)| |].
    { rewrite app_nil_r. reflexivity. }
    intros t y _ [(is & outs & D1 & D2 & D3) D4]. change (tres K V R) in y. apply jf_ret. rewrite app_nil_r. destruct y as [r|n]; cbn [oout tred] in *.
    + split; [apply D4; reflexivity|]. split; [reflexivity|]. exists is, outs. auto.
    + destruct (nres_shaped _ _ n (pl_new pl) D4) as (N1 & N2). cbn [fst snd].
      split; [exact N1|]. split; [discriminate|]. apply (N2 (fun v r => exists is outs, settled jsee tm_red tm_cost t is r /\ Forall2 (tm_becomes t) is outs /\ Permutation v (concat outs))).
      exists is, outs. auto. }
  intros tr o He Hg. destruct (H tr o He Hg) as (rest & H1 & H2). exists rest. split; [exact H1|]. destruct o as [[[m' r] og]| |]; exact H2.
Qed.

End TM.

(** * transmute_with_transformed *)
Section MT.
Context {E : Env} {K V L W R : Type}.
Notation A := (jreply K V L W L W (vres W R) (kres L W R) (vres W R) R).
Notation event := (event (A := A)).
Notation trace := (list event).
Notation jitem := (jitem K V L W (vres W R) (kres L W R) (vres W R)).
Notation ask q := (PAsk (A := A) q PRet).
Implicit Types tr t : trace.

Lemma jbec_mono_r t t' (x : L * W) (o : vres W R) out : incl t t' -> jbecomes t x o out -> jbecomes t' x o out.
Proof.
  intros H. destruct o as [r|v r|r]; cbn; [|intros (k & H1 & ->); exists k; split; [apply H; exact H1|reflexivity]|auto].
  intros [->|(k & v & H1 & H2 & ->)]; [left; reflexivity|]. right. exists k, v. split; [apply H; exact H1|]. split; [apply H; exact H2|reflexivity].
Qed.
Lemma mt_mono t t' (i : jitem) out : incl t t' -> mt_becomes t i out -> mt_becomes t' i out.
Proof. intros H [H1 H2]. split; [eapply called_mono; eassumption|]. destruct i; try (eapply jbec_mono_r; eassumption); assumption. Qed.

Context (pl : place K V L W L W (vres W R) (kres L W R) (vres W R) R L W) (stuck : Prop).
Context (same : forall h x, pl_has pl h x <-> pl_hasR pl h x).
Context (Hclone : forall h k k' v v', pl_good pl (answer (JKey k) k') -> pl_has pl h (k, v) -> pl_has pl h (k', v')).
Context (Hleft : forall h y o, pl_good pl (answer (JLeft y) o) -> pl_hasL pl h y -> Forall (pl_has pl h) (jkout o)).

Lemma jbec_owns_r t h (x : L * W) (o : vres W R) out : Forall (pl_good pl) t -> jbecomes t x o out -> pl_has pl h x -> Forall (pl_has pl h) out.
Proof.
  intros Hg Hb Hh. rewrite Forall_forall in Hg. destruct x as [k0 v0]. destruct o as [r|v r|r]; cbn in Hb.
  - destruct Hb as [->|(k & v & H1 & H2 & ->)]; repeat constructor; [assumption|]. eapply Hclone; [exact (Hg _ H1)|exact Hh].
  - destruct Hb as (k & H1 & ->). repeat constructor. eapply Hclone; [exact (Hg _ H1)|exact Hh].
  - subst out. constructor.
Qed.
Lemma mt_owns t (i : jitem) out h : Forall (pl_good pl) t -> mt_becomes t i out -> j_ihas pl h i -> Forall (pl_has pl h) out.
Proof.
  intros Hg [Hc Hb] Hh. destruct i as [x y o|x o|y o]; cbn in Hh, Hc.
  - eapply jbec_owns_r; [exact Hg|exact Hb|]. apply same, Hh.
  - subst out. eapply Hleft; [|exact Hh]. rewrite Forall_forall in Hg. apply Hg, Hc.
  - eapply jbec_owns_r; [exact Hg|exact Hb|]. apply same, Hh.
Qed.

Definition mt_world := j_world pl stuck mt_red mt_cost mt_becomes mt_mono mt_owns.

Definition mt_vi (i : jitem) (x : L * W) (o : vres W R) : Prop := i = IRight x o \/ exists y, i = IBoth y x o.
Definition mt_ts : tside mt_world.
Proof.
  refine (Tside E _ A L W R jitem (L + W) _ mt_world inr mt_vi (fun x => ask (JRight x)) (fun k => ask (JKey k)) (fun v => ask (JValue v)) inl inr
    (fun e k k' => e = answer (A := A) (JKey k) k') (fun e v v' => e = answer (A := A) (JValue v) v') _ _ _ _ _ _ _ _ _).
  - intros x. eapply calls_weak; [|apply (j_right pl stuck mt_red mt_cost mt_becomes mt_mono mt_owns x)]. intros o e _ (H1 & H2 & H3). exists (IRight x o).
    split; [exact H1|]. split; [left; reflexivity|]. split; [exact H2|]. intros h Hh. apply H3, same, Hh.
  - intros k. eapply calls_weak; [|apply (calls_ask (pl_good pl) (JKey k) []); reflexivity]. intros y e _ ->. split; reflexivity.
  - intros v. eapply calls_weak; [|apply (calls_ask (pl_good pl) (JValue v) []); reflexivity]. intros y e _ ->. split; reflexivity.
  - intros i x o [->|(y & ->)]; reflexivity.
  - intros i x o [->|(y & ->)]; exists []; rewrite app_nil_r; destruct o; reflexivity.
  - intros t i x r Hc [->|(y & ->)]; (split; [exact Hc|]); left; reflexivity.
  - intros t i k v r k' v' e e' Hc Hv H1 -> H2 ->. assert (Hb : jbecomes t (k, v) (VUnchanged r) [(k', v')]) by (right; exists k', v'; auto).
    destruct Hv as [->|(y & ->)]; (split; [exact Hc|exact Hb]).
  - intros t i k v v' r k' e Hc Hv H1 ->. assert (Hb : jbecomes t (k, v) (VTransformed v' r) [(k', v')]) by (exists k'; auto).
    destruct Hv as [->|(y & ->)]; (split; [exact Hc|exact Hb]).
  - intros t i x r Hc [->|(y & ->)]; (split; [exact Hc|reflexivity]).
Defined.

Definition mt_ms : mside mt_world K V.
Proof.
  refine (Mside E _ A L W R jitem (L + W) _ mt_world K V inl (pl_hasL pl) (fun i o => exists y, i = ILeft y o) (fun y => ask (JLeft y)) _ _ _ _).
  - intros x. eapply calls_weak; [|apply (j_left pl stuck mt_red mt_cost mt_becomes mt_mono mt_owns x)]. intros o e _ (H1 & H2 & H3). exists (ILeft x o). eauto 6.
  - intros i o (y & ->). reflexivity.
  - intros t i o Hc (y & ->). split; [exact Hc|reflexivity].
  - intros e h x e' h' x' G1 G2 T1 T2 He. apply (pl_one pl e h x e' h' x'); assumption.
Defined.

Lemma mt_laws : tmlaws mt_world mt_ts mt_ms (ky_flip jkeyed) (fun p => ask (JBoth (snd p) (fst p))) (fun t k k' => said_equal t k' k).
Proof.
  constructor.
  - intros x y. eapply calls_perm; [apply perm_swap|]. eapply calls_weak; [|apply (j_both pl stuck mt_red mt_cost mt_becomes mt_mono mt_owns y x)]. intros o e _ (H1 & H2 & H3). exists (IBoth y x o).
    split; [exact H1|]. split; [right; eauto|]. split; [exact H2|]. intros h Hh Hm. apply H3; [exact Hm|apply same, Hh].
  - intros k k'. apply (j_eq' pl stuck mt_red mt_cost mt_becomes mt_mono mt_owns).
  - intros k k'. apply (j_eq pl stuck mt_red mt_cost mt_becomes mt_mono mt_owns).
  - intros k. eapply calls_weak; [|apply (j_hash' pl stuck mt_red mt_cost mt_becomes mt_mono mt_owns)]. intros x e _ [H1 H2]. split; [exact H1|]. intros h v Hh. apply (H2 h v), same, Hh.
  - intros k. apply (j_hash pl stuck mt_red mt_cost mt_becomes mt_mono mt_owns).
Qed.

Lemma ask_mt_any st (m : trie K V) (right : trie L W) : shaped (leaf_of (pl_hasL pl) (pl_lies pl)) (pl_deep pl) 0 0 m ->
  shaped (leaf_of (pl_has pl) (pl_lies pl)) (pl_deep pl) 0 0 right -> (3 <= longest m -> stuck) ->
  gs (pl_good pl) (ask_mt st TwClosure MwClosure TwClosure m right) (fun tr o =>
    exists rest, Permutation (jtold_all tr ++ rest) (map inl (map_visit m) ++ map inr (map_visit right)) /\
    match o with
    | Ret (m', r, og) => rest = [] /\ shaped (leaf_of (pl_has pl) (pl_lies pl)) (pl_deep pl) 0 0 m' /\ (og = Right -> m' = right) /\
        exists is outs, settled jsee mt_red mt_cost tr is r /\ Forall2 (mt_becomes tr) is outs /\ Permutation (map_visit m') (concat outs)
    | Panic => pl_bad pl tr
    | Diverge => stuck
    end).
Proof.
  intros Hm Hr Hst.
  assert (H : jfull mt_world (map inl (m_visit m) ++ map inr (m_visit right)) (ask_mt st TwClosure MwClosure TwClosure m right) (fun tr y =>
    shaped (leaf_of (pl_has pl) (pl_lies pl)) (pl_deep pl) 0 0 (fst (fst y)) /\ (snd y = Right -> fst (fst y) = right) /\
        exists is outs, settled jsee mt_red mt_cost tr is (snd (fst y)) /\ Forall2 (mt_becomes tr) is outs /\ Permutation (map_visit (fst (fst y))) (concat outs))).
  { eapply (jf_cut mt_world _ _ []); [exact (am_mt_j (w := mt_world) (ts := mt_ts) (ms := mt_ms) jkeyed (fun p => ask (JBoth (fst p) (snd p))) _ mt_laws st m right 0 0 Hm Hr Hst)| |].
    { rewrite app_nil_r. reflexivity. }
    intros t y _ [(is & outs & D1 & D2 & D3) D4]. change (tres L W R) in y. apply jf_ret. rewrite app_nil_r. destruct y as [r|n]; cbn [oout tred] in *.
    + split; [apply D4; reflexivity|]. split; [reflexivity|]. exists is, outs. auto.
    + destruct (nres_shaped _ _ n (pl_new pl) D4) as (N1 & N2). cbn [fst snd].
      split; [exact N1|]. split; [discriminate|]. apply (N2 (fun v r => exists is outs, settled jsee mt_red mt_cost t is r /\ Forall2 (mt_becomes t) is outs /\ Permutation v (concat outs))).
      exists is, outs. auto. }
  intros tr o He Hg. destruct (H tr o He Hg) as (rest & H1 & H2). exists rest. split; [exact H1|]. destruct o as [[[m' r] og]| |]; exact H2.
Qed.

End MT.

(** * transmute_with_transmuted *)
Section MM.
Context {E : Env} {K V L W S X R : Type}.
Notation A := (jreply K V L W Empty_set Empty_set (kres S X R) (kres S X R) (kres S X R) R).
Notation event := (event (A := A)).
Notation trace := (list event).
Notation jitem := (jitem K V L W (kres S X R) (kres S X R) (kres S X R)).
Notation ask q := (PAsk (A := A) q PRet).
Implicit Types tr t : trace.

Lemma mm_mono t t' (i : jitem) out : incl t t' -> mm_becomes t i out -> mm_becomes t' i out.
Proof. intros H [H1 H2]. split; [eapply called_mono; eassumption|exact H2]. Qed.

Context (pl : place K V L W Empty_set Empty_set (kres S X R) (kres S X R) (kres S X R) R S X) (stuck : Prop).
Context (Hleft : forall h x o, pl_good pl (answer (JLeft x) o) -> pl_hasL pl h x -> Forall (pl_has pl h) (jkout o)).
Context (Hright : forall h y o, pl_good pl (answer (JRight y) o) -> pl_hasR pl h y -> Forall (pl_has pl h) (jkout o)).
Context (Hboth : forall h x y o, pl_good pl (answer (JBoth x y) o) -> pl_hasL pl h x -> pl_hasR pl h y -> Forall (pl_has pl h) (jkout o)).

Lemma mm_owns t (i : jitem) out h : Forall (pl_good pl) t -> mm_becomes t i out -> j_ihas pl h i -> Forall (pl_has pl h) out.
Proof.
  intros Hg [Hc ->] Hh. rewrite Forall_forall in Hg. destruct i as [x y o|x o|y o]; cbn in Hh, Hc |- *.
  - eapply Hboth; [apply Hg, Hc|apply Hh|apply Hh].
  - eapply Hleft; [apply Hg, Hc|apply Hh].
  - eapply Hright; [apply Hg, Hc|apply Hh].
Qed.

Definition mm_world := j_world pl stuck mm_red mm_cost mm_becomes mm_mono mm_owns.

Definition mm_ml : mside mm_world K V.
Proof.
  refine (Mside E _ A S X R jitem (Empty_set + Empty_set) _ mm_world K V inl (pl_hasL pl) (fun i o => exists y, i = ILeft y o) (fun y => ask (JLeft y)) _ _ _ _).
  - intros x. eapply calls_weak; [|apply (j_left pl stuck mm_red mm_cost mm_becomes mm_mono mm_owns x)]. intros o e _ (H1 & H2 & H3). exists (ILeft x o). eauto 6.
  - intros i o (y & ->). reflexivity.
  - intros t i o Hc (y & ->). split; [exact Hc|reflexivity].
  - intros e h x e' h' x' G1 G2 T1 T2 He. apply (pl_one pl e h x e' h' x'); assumption.
Defined.
Definition mm_mr : mside mm_world L W.
Proof.
  refine (Mside E _ A S X R jitem (Empty_set + Empty_set) _ mm_world L W inr (pl_hasR pl) (fun i o => exists y, i = IRight y o) (fun y => ask (JRight y)) _ _ _ _).
  - intros x. eapply calls_weak; [|apply (j_right pl stuck mm_red mm_cost mm_becomes mm_mono mm_owns x)]. intros o e _ (H1 & H2 & H3). exists (IRight x o). eauto 6.
  - intros i o (y & ->). reflexivity.
  - intros t i o Hc (y & ->). split; [exact Hc|reflexivity].
  - intros e h x e' h' x' G1 G2 T1 T2 He. apply (pl_one pl e h x e' h' x'); assumption.
Defined.

Lemma mm_laws : mmlaws mm_world mm_ml mm_mr jkeyed (fun p => ask (JBoth (fst p) (snd p))) said_equal.
Proof.
  constructor.
  - intros x y. eapply calls_weak; [|apply (j_both pl stuck mm_red mm_cost mm_becomes mm_mono mm_owns x y)]. intros o e _ (H1 & H2 & H3). exists (IBoth x y o).
    split; [exact H1|]. split; [reflexivity|]. split; [|exact H3]. intros t Hi Hy. split; [apply H2; assumption|reflexivity].
  - intros k k'. apply (j_eq pl stuck mm_red mm_cost mm_becomes mm_mono mm_owns).
  - intros k k'. apply (j_eq' pl stuck mm_red mm_cost mm_becomes mm_mono mm_owns).
  - intros k. apply (j_hash pl stuck mm_red mm_cost mm_becomes mm_mono mm_owns).
  - intros k. apply (j_hash' pl stuck mm_red mm_cost mm_becomes mm_mono mm_owns).
Qed.

Lemma ask_mm_any (m : trie K V) (right : trie L W) : shaped (leaf_of (pl_hasL pl) (pl_lies pl)) (pl_deep pl) 0 0 m ->
  shaped (leaf_of (pl_hasR pl) (pl_lies pl)) (pl_deep pl) 0 0 right -> (3 <= longest m -> stuck) -> (3 <= longest right -> stuck) ->
  gs (pl_good pl) (ask_mm MwClosure MwClosure MwClosure m right) (fun tr o =>
    exists rest, Permutation (jtold_all tr ++ rest) (map inl (map_visit m) ++ map inr (map_visit right)) /\
    match o with
    | Ret (m', r) => rest = [] /\ shaped (leaf_of (pl_has pl) (pl_lies pl)) (pl_deep pl) 0 0 m' /\
        exists is outs, settled jsee mm_red mm_cost tr is r /\ Forall2 (mm_becomes tr) is outs /\ Permutation (map_visit m') (concat outs)
    | Panic => pl_bad pl tr
    | Diverge => stuck
    end).
Proof.
  intros Hm Hr Hsl Hsr.
  assert (H : jfull mm_world (map inl (m_visit m) ++ map inr (m_visit right)) (ask_mm MwClosure MwClosure MwClosure m right) (fun tr y =>
    shaped (leaf_of (pl_has pl) (pl_lies pl)) (pl_deep pl) 0 0 (fst y) /\
        exists is outs, settled jsee mm_red mm_cost tr is (snd y) /\ Forall2 (mm_becomes tr) is outs /\ Permutation (map_visit (fst y)) (concat outs))).
  { eapply (jf_cut mm_world _ _ []); [exact (am_mm_j (w := mm_world) (ml := mm_ml) (mr := mm_mr) jkeyed (fun p => ask (JBoth (fst p) (snd p))) _ mm_laws m right 0 0 Hm Hr Hsl Hsr)| |].
    { rewrite app_nil_r. reflexivity. }
    intros t n _ [(is & outs & D1 & D2 & D3) D4]. change (nres S X R) in n. apply jf_ret. rewrite app_nil_r.
    destruct (nres_shaped _ _ n (pl_new pl) D4) as (N1 & N2).
    split; [exact N1|]. apply (N2 (fun v r => exists is outs, settled jsee mm_red mm_cost t is r /\ Forall2 (mm_becomes t) is outs /\ Permutation v (concat outs))).
    exists is, outs. auto. }
  intros tr o He Hg. destruct (H tr o He Hg) as (rest & H1 & H2). exists rest. split; [exact H1|]. destruct o as [[m' r]| |]; exact H2.
Qed.

End MM.
