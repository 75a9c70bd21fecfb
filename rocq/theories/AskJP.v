(** Joint operations whatever the client's code answers: the books, the loops. *)
From Coq Require Import NArith Arith List Bool Lia ZifyBool ZifyN ZifyNat Permutation.
From Verif Require Import Base Words WordsP Flag FlagP Bia BiaP Node Inv InsertP Api Trans Transform Joint Profile Eff EffP EffTP EffApi Ask AskP AskHashP AskT SpecAskT JoinP LoopP TransformP
  PermP AskTP AskTTP AskJ.
Import ListNotations.
Open Scope N_scope.

(** * What is known of the client's code *)

Section Call.
Context {Q : Type} {A : Q -> Type} {U : Type} (good : event (A := A) -> Prop) (told : event (A := A) -> list U).

(** One call, which tells the client [us]. *)
Definition calls {Y} (p : prog A Y) (us : list U) (it : Y -> event (A := A) -> Prop) : Prop :=
  gs good p (fun tr o => Permutation (flat_map told tr) us /\
    match o with Ret y => exists e, tr = [e] /\ it y e | Panic => broken tr | Diverge => False end).

Lemma calls_weak {Y} (p : prog A Y) us (it it' : Y -> event (A := A) -> Prop) :
  (forall y e, good e -> it y e -> it' y e) -> calls p us it -> calls p us it'.
Proof.
  intros H Hp tr o He Hg. destruct (Hp tr o He Hg) as [H1 H2]. split; [assumption|]. destruct o; try assumption.
  destruct H2 as (e & -> & Hi). exists e. split; [reflexivity|]. apply H; [|assumption]. inversion Hg. assumption.
Qed.
End Call.

(** A leaf or collision list whose entries have [h]. *)
Definition hleaf {E : Env} {S X} (has : N -> S * X -> Prop) (h : N) (n : mnode S X) : Prop := leafy n /\ Forall (has h) (m_visit n).
Definition leaf_of {E : Env} {S X} (has : N -> S * X -> Prop) (lies : N -> N -> N -> Prop) (d p : N) (es : list (S * X)) : Prop :=
  exists h, Forall (has h) es /\ lies d p h.

Record world {E : Env} {Q : Type} (A : Q -> Type) (S X R I C U : Type) : Type := World {
  w_good : event (A := A) -> Prop;
  w_bad : list (event (A := A)) -> Prop;
  w_stuck : Prop;
  w_see : event (A := A) -> item I C R;
  w_told : event (A := A) -> list U;
  w_rof : I -> R;
  w_cost : I -> list C;
  (** What an item of the books becomes; whether its call was in order. *)
  w_becomes : list (event (A := A)) -> I -> list (S * X) -> Prop;
  w_called : list (event (A := A)) -> I -> Prop;
  (** The hash of an entry of the result, of the entries of an item, what an answer
      says of it, and where in the tree it lies. *)
  w_has : N -> S * X -> Prop;
  w_ihas : N -> I -> Prop;
  w_tells : event (A := A) -> N -> word -> Prop;
  w_lies : N -> N -> N -> Prop;
  w_deep : N -> N -> Prop;
  w_def : prog A R;
  w_red : R -> R -> prog A R;
  w_broken : forall t, broken t -> w_bad t;
  w_incl : forall t t', incl t t' -> w_bad t -> w_bad t';
  w_mono : forall t t' i out, incl t t' -> w_becomes t i out -> w_becomes t' i out;
  w_owns : forall t i out h, Forall w_good t -> w_becomes t i out -> w_ihas h i -> Forall (w_has h) out;
  w_up : forall d p i h, w_deep d p -> w_lies (d + 1) (p + i * 2 ^ off d) h -> w_lies d p h;
  w_route : forall d p h w e, w_deep d p -> w_good e -> w_tells e h w -> w_lies d p h ->
    exists f i, flag_new_at_depth (proj1_sig w) d = Ret (Some f) /\ fl_flag f = 2 ^ i /\ i < max_ones fw /\ w_lies (d + 1) (p + i * 2 ^ off d) h;
  w_apart : forall d p h h' w w' e e', w_good e -> w_good e' -> w_tells e h w -> w_tells e' h' w' -> w_lies d p h -> w_lies d p h' ->
    same_hash w w' = false ->
    match aflags w w' d with
    | Ret (lf, rf) => forall a b, hleaf w_has h a -> hleaf w_has h' b ->
        match cnode_lift a lf b rf with
        | Ret c => shaped (leaf_of w_has w_lies) w_deep d p (MC c) /\ Permutation (m_visit (MC c)) (m_visit a ++ m_visit b)
        | Panic => w_bad [e; e']
        | Diverge => False
        end
    | Panic => w_bad [e; e']
    | Diverge => False
    end;
  w_calls_def : calls w_good w_told w_def [] (fun r e => w_see e = ItDefault r);
  w_calls_red : forall a b, calls w_good w_told (w_red a b) [] (fun r e => w_see e = ItReduce a b r)
}.
Arguments w_good {E Q A S X R I C U}.
Arguments w_bad {E Q A S X R I C U}.
Arguments w_stuck {E Q A S X R I C U}.
Arguments w_see {E Q A S X R I C U}.
Arguments w_told {E Q A S X R I C U}.
Arguments w_rof {E Q A S X R I C U}.
Arguments w_cost {E Q A S X R I C U}.
Arguments w_becomes {E Q A S X R I C U}.
Arguments w_called {E Q A S X R I C U}.
Arguments w_has {E Q A S X R I C U}.
Arguments w_ihas {E Q A S X R I C U}.
Arguments w_tells {E Q A S X R I C U}.
Arguments w_lies {E Q A S X R I C U}.
Arguments w_deep {E Q A S X R I C U}.
Arguments w_def {E Q A S X R I C U}.
Arguments w_red {E Q A S X R I C U}.
Arguments w_broken {E Q A S X R I C U}.
Arguments w_incl {E Q A S X R I C U}.
Arguments w_mono {E Q A S X R I C U}.
Arguments w_owns {E Q A S X R I C U}.
Arguments w_up {E Q A S X R I C U}.
Arguments w_route {E Q A S X R I C U}.
Arguments w_apart {E Q A S X R I C U}.
Arguments w_calls_def {E Q A S X R I C U}.
Arguments w_calls_red {E Q A S X R I C U}.

Section Core.
Context {E : Env} {Q : Type} {A : Q -> Type} {S X R I C U : Type} (w : world A S X R I C U).
Notation event := (event (A := A)).
Notation trace := (list event).
Implicit Types tr t : trace.
Notation good := (w_good w).
Notation bad := (w_bad w).
Notation stuck := (w_stuck w).
Notation see := (w_see w).
Notation told := (w_told w).
Notation rof := (w_rof w).
Notation cost := (w_cost w).
Notation becomes := (w_becomes w).
Notation calls := (calls good told).
Notation settled := (settled see rof cost).
Notation shaped := (shaped (leaf_of (w_has w) (w_lies w)) (w_deep w)).

(** * Runs *)

(** The client was told [us] but for [rest]. *)
Definition jspec {Y} (us : list U) (p : prog A Y) (G : trace -> Y -> list U -> Prop) : Prop :=
  gs good p (fun tr o => exists rest, Permutation (flat_map told tr ++ rest) us /\
    match o with Ret y => G tr y rest | Panic => bad tr | Diverge => stuck end).
Definition jfull {Y} (us : list U) (p : prog A Y) (G : trace -> Y -> Prop) : Prop :=
  jspec us p (fun t y rest => rest = [] /\ G t y).

Lemma bad_app t t' : bad t' -> bad (t ++ t').
Proof. apply w_incl. intros e He. apply in_or_app. auto. Qed.

Lemma js_perm {Y} us us' (p : prog A Y) G : Permutation us us' -> jspec us p G -> jspec us' p G.
Proof. intros HP H tr o He Hg. destruct (H tr o He Hg) as (rest & H1 & H2). exists rest. rewrite H1. auto. Qed.
Lemma jf_perm {Y} us us' (p : prog A Y) G : Permutation us us' -> jfull us p G -> jfull us' p G.
Proof. apply js_perm. Qed.

Lemma js_ret {Y} us (y : Y) (G : trace -> Y -> list U -> Prop) : G [] y us -> jspec us (PRet y) G.
Proof. intros H. apply gs_ret. exists us. auto. Qed.
Lemma jf_ret {Y} (y : Y) (G : trace -> Y -> Prop) : G [] y -> jfull [] (PRet y) G.
Proof. intros H. apply js_ret. auto. Qed.

Lemma js_bind {Y Z} us (p : prog A Y) (k : Y -> prog A Z) P G : jspec us p P ->
  (forall t y rest, Forall good t -> P t y rest -> jspec rest (k y) (fun t' => G (t ++ t'))) -> jspec us (pbind p k) G.
Proof.
  intros H1 H2. eapply gs_bind; [exact H1|..].
  - intros t y Ht (rest & Hr & HP). eapply gs_weak; [apply (H2 t y rest Ht HP)|].
    intros t' o (rest' & Hr' & Ho). exists rest'. split; [rewrite flat_map_app, <- app_assoc, Hr'; exact Hr|].
    destruct o; [assumption|apply bad_app; assumption|assumption].
  - intros t H. exact H.
  - intros t H. exact H.
Qed.

(** A part of the work that uses only [us1]. *)
Lemma js_cut {Y Z} us us1 us2 (p : prog A Y) (k : Y -> prog A Z) (P : trace -> Y -> Prop) G : jfull us1 p P -> Permutation us (us1 ++ us2) ->
  (forall t y, Forall good t -> P t y -> jspec us2 (k y) (fun t' => G (t ++ t'))) -> jspec us (pbind p k) G.
Proof.
  intros H1 HP H2. eapply js_perm; [symmetry; exact HP|].
  apply (js_bind (us1 ++ us2) p k (fun t y rest => rest = us2 /\ P t y)).
  - intros tr o He Hg. destruct (H1 tr o He Hg) as (rest & Hr & Ho). destruct o as [y| |].
    + destruct Ho as [-> Ho]. exists us2. split; [|auto]. rewrite app_nil_r in Hr. rewrite Hr. reflexivity.
    + exists (rest ++ us2). split; [rewrite app_assoc, Hr; reflexivity|assumption].
    + exists (rest ++ us2). split; [rewrite app_assoc, Hr; reflexivity|assumption].
  - intros t y rest Ht [-> Hy]. auto.
Qed.
Lemma jf_cut {Y Z} us us1 us2 (p : prog A Y) (k : Y -> prog A Z) (P : trace -> Y -> Prop) G : jfull us1 p P -> Permutation us (us1 ++ us2) ->
  (forall t y, Forall good t -> P t y -> jfull us2 (k y) (fun t' => G (t ++ t'))) -> jfull us (pbind p k) G.
Proof. intros H1 HP H2. eapply js_cut; [exact H1|exact HP|]. exact H2. Qed.

Lemma calls_full {Y} (p : prog A Y) us it : calls p us it -> jfull us p (fun t y => exists e, t = [e] /\ it y e).
Proof.
  intros H tr o He Hg. destruct (H tr o He Hg) as [Hu Ho]. exists []. split; [rewrite app_nil_r; exact Hu|].
  destruct o; [auto|apply w_broken; assumption|destruct Ho].
Qed.
Lemma js_call {Y Z} us us1 us2 (p : prog A Y) (k : Y -> prog A Z) it G : calls p us1 it -> Permutation us (us1 ++ us2) ->
  (forall y e, good e -> it y e -> jspec us2 (k y) (fun t' => G (e :: t'))) -> jspec us (pbind p k) G.
Proof.
  intros H1 HP H2. eapply js_cut; [apply calls_full; exact H1|exact HP|]. intros t y Ht (e & -> & Hi). apply (H2 y e); [|assumption]. inversion Ht. assumption.
Qed.
Lemma jf_call {Y Z} us us1 us2 (p : prog A Y) (k : Y -> prog A Z) it G : calls p us1 it -> Permutation us (us1 ++ us2) ->
  (forall y e, good e -> it y e -> jfull us2 (k y) (fun t' => G (e :: t'))) -> jfull us (pbind p k) G.
Proof. intros H1 HP H2. eapply js_call; [exact H1|exact HP|]. exact H2. Qed.
Lemma js_quiet {Y Z} us (p : prog A Y) (k : Y -> prog A Z) it G : calls p [] it ->
  (forall y e, good e -> it y e -> jspec us (k y) (fun t' => G (e :: t'))) -> jspec us (pbind p k) G.
Proof. intros H1 H2. apply (js_call us [] us p k it G H1); [reflexivity|exact H2]. Qed.
Lemma jf_quiet {Y Z} us (p : prog A Y) (k : Y -> prog A Z) it G : calls p [] it ->
  (forall y e, good e -> it y e -> jfull us (k y) (fun t' => G (e :: t'))) -> jfull us (pbind p k) G.
Proof. intros H1 H2. eapply js_quiet; [exact H1|exact H2]. Qed.

Lemma js_lift {Y Z} us (o : outcome Y) y (k : Y -> prog A Z) G : o = Ret y -> jspec us (k y) G -> jspec us (pbind (lift o) k) G.
Proof. intros -> H. exact H. Qed.
Lemma jf_lift {Y Z} us (o : outcome Y) y (k : Y -> prog A Z) G : o = Ret y -> jfull us (k y) G -> jfull us (pbind (lift o) k) G.
Proof. intros -> H. exact H. Qed.

Lemma js_weak {Y} us (p : prog A Y) (P G : trace -> Y -> list U -> Prop) : jspec us p P -> (forall t y rest, Forall good t -> P t y rest -> G t y rest) -> jspec us p G.
Proof.
  intros H1 H2 t o He Ht. destruct (H1 t o He Ht) as (rest & Hr & Ho). exists rest. split; [assumption|].
  destruct o; [|assumption..]. auto.
Qed.
Lemma jf_weak {Y} us (p : prog A Y) (P G : trace -> Y -> Prop) : jfull us p P -> (forall t y, Forall good t -> P t y -> G t y) -> jfull us p G.
Proof. intros H1 H2. eapply js_weak; [exact H1|]. intros t y rest Ht [-> Hy]. auto. Qed.

(** What is told to no closure. *)
Definition none (e : event) : Prop := see e = ItNone.

(** * The books *)

(** The entries [out] and the reduction [r] are what became of the calls in [t]. *)
Definition jdone (out : list (S * X)) (r : R) t : Prop :=
  exists is outs, settled t is r /\ Forall2 (becomes t) is outs /\ Permutation out (concat outs).

Lemma bec_mono t t' is outs : incl t t' -> Forall2 (becomes t) is outs -> Forall2 (becomes t') is outs.
Proof. intros H HF. induction HF; [constructor|]. constructor; [eapply (w_mono w); eassumption|assumption]. Qed.

Lemma jd_perm out r t t' : Permutation t t' -> jdone out r t -> jdone out r t'.
Proof.
  intros HP (is & outs & H1 & H2 & H3). exists is, outs. split; [eapply settled_perm; eassumption|]. split; [|assumption].
  eapply bec_mono; [|exact H2]. intros e He. eapply Permutation_in; eassumption.
Qed.

Lemma jd_out out out' r t : Permutation out' out -> jdone out r t -> jdone out' r t.
Proof. intros HP (is & outs & H1 & H2 & H3). exists is, outs. rewrite HP. auto. Qed.

Lemma nones n : Forall none n -> ops see n = [] /\ clones see n = [] /\ reduces see n = 0 /\ defaults see n = 0.
Proof.
  induction 1 as [|e n He _ IH]; [repeat split|]. destruct IH as (H1 & H2 & H3 & H4). unfold none in He.
  unfold ops, clones, reduces, defaults in *. cbn [flat_map filter]. rewrite He. auto.
Qed.

Lemma settled_none n t is r : Forall none n -> settled t is r -> settled (n ++ t) is r.
Proof.
  intros Hn (H1 & H2 & H3 & rest & H4). destruct (nones n Hn) as (N1 & N2 & N3 & N4). split; [|split; [|split]].
  - rewrite ops_app, N1. exact H1.
  - eapply reduced_incl; [|exact H2]. intros e He. apply in_or_app. auto.
  - rewrite reduces_app, defaults_app, N3, N4. exact H3.
  - exists rest. rewrite clones_app, N2. exact H4.
Qed.

Lemma jd_none n out r t : Forall none n -> jdone out r t -> jdone out r (n ++ t).
Proof.
  intros Hn (is & outs & H1 & H2 & H3). exists is, outs. split; [apply settled_none; assumption|]. split; [|assumption].
  eapply bec_mono; [|exact H2]. intros e He. apply in_or_app. auto.
Qed.

Lemma jd_op n e i cs rest out : Forall none n -> see e = ItOp i -> (forall c, In c cs -> exists x, see c = ItClone x) ->
  Permutation (clones see cs ++ rest) (cost i) -> becomes (n ++ e :: cs) i out -> jdone out (rof i) (n ++ e :: cs).
Proof.
  intros Hn He Hc HP Hb. exists [i], [out]. split; [apply settled_none; [assumption|]; eapply settled_op; eassumption|].
  split; [repeat constructor; assumption|]. cbn. rewrite app_nil_r. reflexivity.
Qed.

Lemma jd_join out1 out2 out r1 r2 r t1 t2 t e : jdone out1 r1 t1 -> jdone out2 r2 t2 -> see e = ItReduce r1 r2 r ->
  Permutation t (t1 ++ t2 ++ [e]) -> Permutation out (out1 ++ out2) -> jdone out r t.
Proof.
  intros (is & outs & H1 & H2 & H3) (is' & outs' & G1 & G2 & G3) He Ht Ho. apply (jd_perm _ _ (t1 ++ t2 ++ [e])); [symmetry; exact Ht|].
  exists (is ++ is'), (outs ++ outs'). split; [eapply settled_reduce; eassumption|]. split.
  - apply Forall2_app; (eapply bec_mono; [|eassumption]); intros x Hx; rewrite !in_app_iff; auto.
  - rewrite Ho, H3, G3, concat_app. reflexivity.
Qed.

(** The same, and the entries have [h]. *)
Definition hdone (h : N) (out : list (S * X)) (r : R) t : Prop := jdone out r t /\ Forall (w_has w h) out.

Lemma hd_join h out1 out2 out r1 r2 r t1 t2 t e : hdone h out1 r1 t1 -> hdone h out2 r2 t2 -> see e = ItReduce r1 r2 r ->
  Permutation t (t1 ++ t2 ++ [e]) -> Permutation out (out1 ++ out2) -> hdone h out r t.
Proof.
  intros [H1 H2] [G1 G2] He Ht Ho. split; [exact (jd_join _ _ _ _ _ _ _ _ _ _ H1 G1 He Ht Ho)|]. rewrite Forall_forall in *. intros x Hx.
  eapply Permutation_in in Hx; [|exact Ho]. apply in_app_or in Hx. destruct Hx; auto.
Qed.
Lemma hd_perm h out r t t' : Permutation t t' -> hdone h out r t -> hdone h out r t'.
Proof. intros HP [H1 H2]. split; [eapply jd_perm; eassumption|assumption]. Qed.
Lemma hd_none h n out r t : Forall none n -> hdone h out r t -> hdone h out r (n ++ t).
Proof. intros HP [H1 H2]. split; [apply jd_none; assumption|assumption]. Qed.

Lemma hd_op h n e i cs rest out : Forall none n -> see e = ItOp i -> (forall c, In c cs -> exists x, see c = ItClone x) ->
  Permutation (clones see cs ++ rest) (cost i) -> becomes (n ++ e :: cs) i out -> Forall good (n ++ e :: cs) -> w_ihas w h i ->
  hdone h out (rof i) (n ++ e :: cs).
Proof. intros Hn He Hc HP Hb Hg Hi. split; [eapply jd_op; eassumption|]. eapply (w_owns w); eassumption. Qed.

(** What is left of a leaf. *)
Definition ldone (h : N) (on : option (mnode S X)) (r : R) t : Prop :=
  hdone h (ovisit on) r t /\ (forall n, on = Some n -> leafy n).
(** What is left of a node. *)
Definition sdone (d p : N) (on : option (mnode S X)) (r : R) t : Prop :=
  jdone (ovisit on) r t /\ (forall n, on = Some n -> shaped d p n).

Lemma l_s_done d p h on r t : w_lies w d p h -> ldone h on r t -> sdone d p on r t.
Proof.
  intros Hl [[H1 H2] H3]. split; [assumption|]. intros n Hn. apply leafy_shaped; [apply H3; assumption|]. exists h. subst on. split; [exact H2|assumption].
Qed.

(** * The loops *)
Section Loop.
Context (d p : N) (Hd : w_deep w d p).
(** The flag says that what became of the calls is also what is in the slots [kept]. *)
Context (flag : acc S X R -> bool) (kept : N -> option (mnode S X)).

Definition jinv (lo i : N) tr (a : acc S X R) : Prop :=
  okv i (a_bits a) (a_values a) /\ (forall j, j < lo -> N.testbit (a_bits a) j = false) /\
  a_size a = lenN (concat (map m_visit (a_values a))) /\
  (forall j c, getv (a_bits a) (a_values a) j = Some c -> shaped (d + 1) (p + j * 2 ^ off d) c) /\
  jdone (concat (map m_visit (a_values a))) (a_red a) tr /\
  (flag a = true -> jdone (flat_map (fun j => ovisit (kept j)) (range lo i)) (a_red a) tr).

Lemma jinv_start lo e r : see e = ItDefault r -> jinv lo lo [e] (acc0 r).
Proof.
  intros He. split; [apply okv_nil|]. split; [intros; apply N.bits_0|]. split; [reflexivity|]. split; [|split].
  - intros j c. cbn [acc0 a_bits a_values]. rewrite getv_nil. discriminate.
  - exists [], []. split; [apply settled_default; assumption|]. split; [constructor|reflexivity].
  - intros _. rewrite range_nil. exists [], []. split; [apply settled_default; assumption|]. split; [constructor|reflexivity].
Qed.

(** One slot more. *)
Definition grow (a : acc S X R) (i : N) (on : option (mnode S X)) (r : R) : acc S X R :=
  Acc (a_size a + match on with Some c => m_size c | None => 0 end)
    (N.lor (a_bits a) (match on with Some _ => 2 ^ i | None => 0 end)) (a_values a ++ olist on) (a_ul a) (a_ur a) r.

Lemma jinv_grow' lo i tr t a on r e r' ul ur : lo <= i -> i < max_ones fw -> jinv lo i tr a -> sdone (d + 1) (p + i * 2 ^ off d) on r t ->
  see e = ItReduce (a_red a) r r' ->
  forall a', a' = (let g := grow a i on r' in Acc (a_size g) (a_bits g) (a_values g) ul ur (a_red g)) ->
  (flag a' = true -> flag a = true /\ jdone (ovisit (kept i)) r t) ->
  jinv lo (i + 1) (tr ++ t ++ [e]) a'.
Proof.
  intros Hlo Hi (H1 & H2 & H3 & H4 & H5 & H6) [D1 D2] He a' -> Hf. unfold grow in *. cbn [a_bits a_values a_size a_red] in *.
  split; [|split; [|split; [|split; [|split]]]]; cbn [a_bits a_values a_size a_red].
  - destruct on as [c|]; cbn [olist].
    + replace (i + 1) with (N.succ i) by lia. apply okv_push. assumption.
    + rewrite N.lor_0_r, app_nil_r. apply (okv_mono i); [lia|assumption].
  - intros j Hj. rewrite N.lor_spec, H2 by assumption. destruct on; [|apply N.bits_0].
    rewrite N.pow2_bits_eqb. destruct (N.eqb_spec i j); [lia|reflexivity].
  - rewrite map_app, concat_app, lenN_app, H3. destruct on as [c|]; cbn [olist map concat]; [|reflexivity].
    rewrite app_nil_r, (shaped_size _ _ _ _ _ (D2 c eq_refl)). reflexivity.
  - intros j c Hg. destruct on as [c'|]; cbn [olist] in Hg.
    + rewrite (getv_push i _ _ c' j H1) in Hg. destruct (N.eqb_spec i j) as [<-|]; [injection Hg as <-; auto|auto].
    + rewrite N.lor_0_r, app_nil_r in Hg. auto.
  - eapply jd_join; [exact H5|exact D1|exact He|reflexivity|]. rewrite map_app, concat_app. destruct on; cbn; [rewrite app_nil_r|]; reflexivity.
  - intros Hu. destruct (Hf Hu) as [Hf1 Hf2]. replace (i + 1) with (N.succ i) by lia. rewrite range_snoc, flat_map_app by lia. cbn [flat_map]. rewrite app_nil_r.
    eapply jd_join; [exact (H6 Hf1)|exact Hf2|exact He|reflexivity|reflexivity].
Qed.
Lemma jinv_grow lo i tr t a on r e r' ul ur : lo <= i -> i < max_ones fw -> jinv lo i tr a -> sdone (d + 1) (p + i * 2 ^ off d) on r t ->
  see e = ItReduce (a_red a) r r' ->
  forall a', a' = (let g := grow a i on r' in Acc (a_size g) (a_bits g) (a_values g) ul ur (a_red g)) ->
  (flag a' = true -> flag a = true /\ on = kept i) ->
  jinv lo (i + 1) (tr ++ t ++ [e]) a'.
Proof.
  intros Hlo Hi HI HD He a' Ha Hf. eapply jinv_grow'; try eassumption. intros Hu. destruct (Hf Hu) as [H1 <-]. split; [exact H1|apply HD].
Qed.

Lemma jinv_skip lo i tr a : lo <= i -> kept i = None -> jinv lo i tr a -> jinv lo (i + 1) tr a.
Proof.
  intros Hlo Hg (H1 & H2 & H3 & H4 & H5 & H6). split; [apply (okv_mono i); [lia|assumption]|].
  split; [assumption|]. split; [assumption|]. split; [assumption|]. split; [assumption|]. intros Hf.
  replace (i + 1) with (N.succ i) by lia. rewrite range_snoc, flat_map_app by lia. cbn [flat_map]. rewrite Hg. cbn [ovisit]. rewrite !app_nil_r. auto.
Qed.

Lemma apush_j lo i tr a c r : i < max_ones fw -> jinv lo i tr a ->
  jfull [] (apush (w_red w) a i c (m_size c) r)
    (fun t a' => exists e r', t = [e] /\ see e = ItReduce (a_red a) r r' /\ a' = grow a i (Some c) r').
Proof.
  intros Hi HI. unfold apush. apply (jf_lift _ _ (2 ^ i)); [rewrite nth_bit_ok by assumption; reflexivity|].
  assert (Hb : N.testbit (a_bits a) i = false) by (apply (okv_testbit_ge i _ (a_values a)); [apply HI|lia]).
  apply (jf_lift _ _ (N.lor (a_bits a) (2 ^ i))); [rewrite bit_insert_pow2, Hb; reflexivity|].
  eapply jf_quiet; [apply w_calls_red|]. intros r' e He Hr. apply jf_ret. exists e, r'. auto.
Qed.

Lemma apush_new_j lo i tr a n : i < max_ones fw -> jinv lo i tr a ->
  jfull [] (apush_new (w_red w) a i n)
    (fun t a' => exists e r', t = [e] /\ see e = ItReduce (a_red a) (nred n) r' /\ a' = grow a i (nnode n) r').
Proof.
  intros Hi HI. destruct n as [c r|l r|s r|r]; cbn [apush_new nnode nred].
  - apply (apush_j lo i tr a (MC c) r); assumption.
  - apply (apush_j lo i tr a (ML l) r); assumption.
  - apply (apush_j lo i tr a (MS s) r); assumption.
  - eapply jf_quiet; [apply w_calls_red|]. intros r' e He Hr. apply jf_ret. exists e, r'. split; [reflexivity|]. split; [assumption|].
    unfold grow. cbn [olist]. rewrite N.lor_0_r, N.add_0_r, app_nil_r. reflexivity.
Qed.

Section Step.
Context (step : acc S X R -> N -> prog A (acc S X R)) (us : N -> list U).
Context (Hstep : forall lo i tr a, lo <= i -> i < max_ones fw -> Forall good tr -> jinv lo i tr a ->
  jfull (us i) (step a i) (fun t a' => jinv lo (i + 1) (tr ++ t) a')).

Lemma eloop_j n : forall lo i tr a, lo <= i -> i + N.of_nat n <= max_ones fw -> Forall good tr -> jinv lo i tr a ->
  jfull (flat_map us (range i (i + N.of_nat n))) (eloop step (range i (i + N.of_nat n)) a)
    (fun t a' => jinv lo (i + N.of_nat n) (tr ++ t) a').
Proof.
  induction n as [|n IH]; intros lo i tr a Hlo Hi Ht HI.
  - rewrite N.add_0_r, range_nil. cbn [eloop flat_map]. apply jf_ret. rewrite app_nil_r. assumption.
  - replace (i + N.of_nat (Datatypes.S n)) with (N.succ i + N.of_nat n) by lia. rewrite range_cons by lia. cbn [eloop flat_map].
    eapply jf_cut; [apply (Hstep lo i tr a); auto; lia|reflexivity|]. intros t a' Hg HI'. cbn beta in HI'.
    replace (i + 1) with (N.succ i) in HI' by lia.
    eapply jf_weak; [apply (IH lo (N.succ i) (tr ++ t) a'); [lia|lia|apply Forall_app; auto|assumption]|].
    intros t' y _ H. rewrite app_assoc. assumption.
Qed.

Lemma aloop_j lo hi : lo <= hi -> hi <= max_ones fw ->
  jfull (flat_map us (range lo hi)) (aloop (w_def w) step (range lo hi)) (fun t a => jinv lo hi t a).
Proof.
  intros H1 H2. unfold aloop. eapply jf_quiet; [apply w_calls_def|]. intros r e Hg He.
  pose proof (eloop_j (N.to_nat (hi - lo)) lo lo [e] (acc0 r) ltac:(lia) ltac:(lia) (Forall_cons _ Hg (Forall_nil _)) (jinv_start _ _ _ He)) as H.
  replace (lo + N.of_nat (N.to_nat (hi - lo))) with hi in H by lia. exact H.
Qed.

Lemma arun_j st : (forall l r s b v x, flag (Acc s b v (a_ul l && a_ul r) (a_ur l && a_ur r) x) = true -> flag l = true /\ flag r = true) ->
  jfull (flat_map us (range 0 (max_ones fw))) (arun_loop (w_def w) (w_red w) st step) (fun t a => jinv 0 (max_ones fw) t a).
Proof.
  intros Hfl. destruct st; cbn [arun_loop]; [apply aloop_j; lia|]. unfold ahalves. fold half. pose proof half_le as Hh.
  rewrite range_half, flat_map_app. eapply jf_cut; [apply aloop_j; lia|reflexivity|]. intros t1 l Ht1 HL. cbn beta in HL.
  eapply jf_cut; [apply aloop_j; lia|rewrite app_nil_r; reflexivity|]. intros t2 r Ht2 HR. cbn beta in HR.
  destruct HL as (L1 & L2 & L3 & L4 & L5 & L6). destruct HR as (R1 & R2 & R3 & R4 & R5 & R6).
  assert (Hland : N.land (a_bits l) (a_bits r) = 0) by (eapply disjoint_land; eassumption).
  apply (jf_lift _ _ (N.lor (a_bits l) (a_bits r))).
  { unfold bit_merge. rewrite Hland. reflexivity. }
  eapply jf_quiet; [apply w_calls_red|]. intros x e He Hx. apply jf_ret.
  split; [|split; [|split; [|split; [|split]]]]; cbn [a_bits a_values a_size a_red].
  - eapply okv_merge; eassumption.
  - intros j Hj. lia.
  - rewrite map_app, concat_app, lenN_app, L3, R3. reflexivity.
  - intros j c Hg. rewrite (getv_merge half (max_ones fw)) in Hg by assumption. destruct (j <? half); auto.
  - eapply jd_join; [exact L5|exact R5|exact Hx|reflexivity|]. rewrite map_app, concat_app. reflexivity.
  - intros Hu. apply Hfl in Hu. destruct Hu as [U1 U2]. rewrite range_half, flat_map_app.
    eapply jd_join; [exact (L6 U1)|exact (R6 U2)|exact Hx|reflexivity|reflexivity].
Qed.

End Step.

(** The node built from the loop. *)
Lemma finish_j tr a : jinv 0 (max_ones fw) tr a -> exists n, finish a = Ret n /\ sdone d p (nnode n) (nred n) tr.
Proof.
  intros (H1 & _ & H3 & H4 & H5 & _). unfold finish.
  assert (Hbig : a_values a <> [] -> exists n, (let* b := unwrap_ok (new_bia (a_bits a) (a_values a) (a_size a)) in Ret (NRC b (a_red a))) = Ret n /\
    sdone d p (nnode n) (nred n) tr).
  { intros Hne. rewrite (new_bia_ok fw) by assumption. cbn [unwrap_ok bind]. eexists. split; [reflexivity|]. split; [exact H5|].
    intros n' [= <-]. constructor; auto. }
  assert (Hone : forall n, a_values a = [n] -> leafy n -> shaped d p n).
  { intros n Hn Hl. destruct (in_values_get _ _ _ n H1) as (j & _ & Hj); [rewrite Hn; left; reflexivity|].
    specialize (H4 j n Hj). assert (Hup : forall l, leaf_of (w_has w) (w_lies w) (d + 1) (p + j * 2 ^ off d) l -> leaf_of (w_has w) (w_lies w) d p l).
    { intros l' (h & G1 & G2). exists h. split; [assumption|]. eapply (w_up w); eassumption. }
    inversion H4; subst; [| |contradiction].
    - constructor. apply Hup. assumption.
    - constructor; [assumption|]. apply Hup. assumption. }
  assert (Hlf : forall n, a_values a = [n] -> match n with MC _ => True | _ => leafy n end).
  { intros n Hn. destruct (in_values_get _ _ _ n H1) as (j & _ & Hj); [rewrite Hn; left; reflexivity|].
    specialize (H4 j n Hj). inversion H4; subst; cbn; auto. }
  destruct (a_values a) as [|n0 vs] eqn:Hv.
  - eexists. split; [reflexivity|]. split; [exact H5|]. discriminate.
  - destruct n0 as [c|l0|s0]; destruct vs as [|n1 vs]; try (apply Hbig; discriminate).
    + eexists. split; [reflexivity|]. split; [eapply jd_out; [|exact H5]; cbn; rewrite app_nil_r; reflexivity|].
      intros n' [= <-]. apply Hone; [reflexivity|]. apply (Hlf (ML l0) eq_refl).
    + eexists. split; [reflexivity|]. split; [exact H5|].
      intros n' [= <-]. apply Hone; [reflexivity|exact Logic.I].
Qed.

(** The slots as the flag leaves them. *)
Lemma jinv_kept tr a (n : mnode S X) : jinv 0 (max_ones fw) tr a -> flag a = true ->
  flat_map (fun j => ovisit (kept j)) (range 0 (max_ones fw)) = m_visit n -> jdone (m_visit n) (a_red a) tr.
Proof.
  intros (_ & _ & _ & _ & _ & H6) Hf <-. exact (H6 Hf).
Qed.

End Loop.
End Core.
