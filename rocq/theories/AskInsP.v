(** What insert does to loose maps. *)
From Coq Require Import NArith Arith List Bool Lia ZifyBool ZifyN ZifyNat Permutation.
From Verif Require Import Base Words WordsP Flag FlagP Bia BiaP Node Inv InsertP Api Profile Eff EffP Ask SpecAsk AskP AskOpP.
Import ListNotations.
Open Scope N_scope.

Section AskInsP.
Context {E : Env} {K V L W : Type}.
Notation event := (event (A := @reply E K V L W)).
Notation trace := (list event).
Implicit Types tr : trace.
Notation said := (@answer _ (@reply E K V L W)).

Definition leafish (n : mnode K V) : Prop :=
  match n with MC _ => False | ML l => lok l | MS _ => True end.

Lemma leafish_loose d n : leafish n -> loose d n.
Proof. destruct n; cbn [leafish]; [intros []|intros; constructor; assumption|constructor]. Qed.

Lemma pair_loose d bits i1 i2 (c1 c2 : mnode K V) size : usable d -> i1 < i2 -> i2 < max_ones fw -> leafish c1 -> leafish c2 ->
  size = lenN (m_visit c1) + lenN (m_visit c2) -> bits = N.lor (2 ^ i1) (2 ^ i2) ->
  exists c, new_bia bits [c1; c2] size = Ok c /\ loose d (MC c) /\ m_visit (MC c) = m_visit c1 ++ m_visit c2.
Proof.
  intros HU Hlt Hi2 H1 H2 Hs ->. destruct (pair_ok (max_ones fw) i1 i2 c1 c2 Hlt Hi2) as [Hok _].
  rewrite (new_bia_ok fw) by exact Hok. eexists. split; [reflexivity|]. split.
  - constructor; try assumption.
    + left. discriminate.
    + cbn [map concat]. rewrite app_nil_r, lenN_app. assumption.
    + intros c [<-|[<-|[]]]; apply leafish_loose; assumption.
  - cbn [m_visit map concat]. rewrite app_nil_r. reflexivity.
Qed.

Lemma c_lift_loose fuel : forall d (this : mnode K V) tf right rf, leafish this -> leafish right ->
  flag_at d tf -> flag_at d rf -> usable d -> 8 * hbits <= off d + N.of_nat fuel * log_b fw ->
  match c_lift fuel this tf right rf with
  | Ret c => loose d (MC c) /\ Permutation (m_visit (MC c)) (m_visit this ++ m_visit right)
  | Panic => True
  | Diverge => False
  end.
Proof.
  induction fuel as [|fuel IH]; intros d this tf right rf H1 H2 Ht Hr HU Hfu.
  - destruct HU as [HU _]. change (N.of_nat 0) with 0 in Hfu. lia.
  - cbn [c_lift]. destruct Ht as (Htd & i1 & Hi1 & Htf). destruct Hr as (Hrd & i2 & Hi2 & Hrf). rewrite Htf, Hrf, pow2_eqb.
    rewrite (loose_size d this) by (apply leafish_loose; assumption). rewrite (loose_size d right) by (apply leafish_loose; assumption).
    destruct (N.eqb_spec i1 i2) as [<-|Hne].
    + unfold flag_next. rewrite Htd, Hrd.
      destruct (flag_any (fl_hash tf) (d + 1)) as [(g & Hg & Hga & _ & HU')|[[Hg _]|[Hg _]]]; rewrite Hg; cbn [bind unwrap]; try exact I.
      destruct (flag_any (fl_hash rf) (d + 1)) as [(g' & Hg' & Hga' & _ & _)|[[Hg' _]|[Hg' _]]]; rewrite Hg'; cbn [bind unwrap]; try exact I.
      specialize (IH (d + 1) this g right g' H1 H2 Hga Hga' HU').
      rewrite off_succ in IH. specialize (IH ltac:(lia)).
      destruct (c_lift fuel this g right g') as [c| |]; cbn [bind]; try exact IH. destruct IH as [HL HP].
      destruct (single_ok (max_ones fw) i1 (MC c) Hi1) as [Hok _].
      rewrite (new_bia_ok fw) by exact Hok. cbn [unwrap_ok]. split.
      * constructor; try assumption.
        -- left. discriminate.
        -- cbn [map concat]. rewrite app_nil_r, <- lenN_app. symmetry. apply lenN_perm. assumption.
        -- intros c0 [<-|[]]. assumption.
      * cbn [m_visit map concat]. rewrite app_nil_r. exact HP.
    + rewrite bit_insert_pow2. rewrite N.pow2_bits_eqb. destruct (N.eqb_spec i1 i2); [contradiction|].
      cbn [unwrap_ok bind].
      rewrite bit_index_pow2, testbit_lor_pow2, N.pow2_bits_true. cbn [orb unwrap_ok bind].
      rewrite rank_lor_pow2, rank_pow2 by (rewrite N.pow2_bits_eqb; apply N.eqb_neq; assumption).
      rewrite N.ltb_irrefl, N.add_0_l.
      destruct (N.ltb_spec i2 i1).
      * change (1 =? 0) with false. cbn iota.
        edestruct (pair_loose d (N.lor (2 ^ i1) (2 ^ i2)) i2 i1 right this) as (c & Hc & HL & HV);
          [assumption|assumption|assumption|assumption|assumption|apply N.add_comm|apply N.lor_comm|].
        rewrite Hc. cbn [unwrap_ok]. split; [exact HL|]. rewrite HV. apply Permutation_app_comm.
      * change (0 =? 0) with true. cbn iota.
        edestruct (pair_loose d (N.lor (2 ^ i1) (2 ^ i2)) i1 i2 this right) as (c & Hc & HL & HV);
          [assumption|lia|assumption|assumption|assumption|reflexivity|reflexivity|].
        rewrite Hc. cbn [unwrap_ok]. split; [exact HL|]. rewrite HV. reflexivity.
Qed.

Lemma cnode_lift_loose d (this : mnode K V) tf right rf : leafish this -> leafish right ->
  flag_at d tf -> flag_at d rf -> usable d ->
  match cnode_lift this tf right rf with
  | Ret c => loose d (MC c) /\ Permutation (m_visit (MC c)) (m_visit this ++ m_visit right)
  | Panic => True
  | Diverge => False
  end.
Proof.
  intros. apply c_lift_loose; try assumption. unfold lift_fuel. rewrite N2Nat.id. unfold hbits. pose proof (log_b_pos fw). nia.
Qed.

(** ** The outcome of an insertion *)

(** [old] with [prev] taken out, some of the rest cloned, and [e] put in. *)
Definition put_in (old new : list (K * V)) (e : K * V) (prev : option (K * V)) tr : Prop :=
  exists l l', Permutation old (olist prev ++ l) /\ Forall2 (copied tr) l l' /\ Permutation new (e :: l').

Definition told (prev : option (K * V)) (q : L) tr : Prop :=
  match prev with Some e => In (said (CEq (fst e) q) true) tr | None => no_yes tr end.

Definition given (e : K * V) (q : L) (w : W) tr : Prop :=
  exists tr1, tr = tr1 ++ [said (CInto q) (fst e); said (CIntoV w) (snd e)] /\ no_into tr1.

(** Why an insertion may panic. *)
Definition contrary (q : L) tr : Prop :=
  exists k, In (said (CEq k q) true) tr /\ In (said (CEq k q) false) tr.

(** The leaf or list [l] at depth [d'] is where hash [h] leads from [n]. *)
Inductive leads (h : N) : N -> mnode K V -> N -> mnode K V -> Prop :=
| leads_here d n : leads h d n d n
| leads_down d bits values x f c d' l : flag_new_at_depth h d = Ret (Some f) -> bat (BIA bits values x) (fl_flag f) = Ok c ->
    leads h (d + 1) c d' l -> leads h d (MC (BIA bits values x)) d' l.

Definition elsewhere (d : N) (n : mnode K V) (q : L) (h : N) tr : Prop :=
  exists nx h' d' f g a b, leads h d n d' (next_mnode nx) /\ In (said (CHash (next_key nx)) h') tr /\ proj1_sig h' <> h /\
    flag_new_at_depth h d' = Ret (Some f) /\ flag_new_at_depth (proj1_sig h') d' = Ret (Some g) /\
    In (said (CInto q) a) tr /\ cnode_lift (next_mnode nx) g (MS (SN a b)) f = Panic.

(** What kinds of node an insertion makes of which, and when it replaced. *)
Definition fits (n n' : mnode K V) (prev : option (K * V)) : Prop :=
  match n, n', prev with
  | MC _, MC _, _ | ML _, ML _, _ | ML _, MC _, None | MS _, MC _, None | MS _, ML _, None | MS _, MS _, Some _ => True
  | _, _, _ => False
  end.

Definition ins_post (d : N) (n : mnode K V) (q : L) (w : W) (h : N) (rep : bool) tr (o : outcome (insert_result K V)) : Prop :=
  match o with
  | Ret (IFound k v) => rep = false /\ In (k, v) (m_visit n) /\
      exists tr1, tr = tr1 ++ [said (CEq k q) true] /\ no_yes tr1 /\ no_into tr1
  | Ret r =>
      match ires r with
      | Some (n', e, prev) => loose d n' /\ given e q w tr /\ told prev q tr /\
          put_in (m_visit n) (m_visit n') e prev tr /\ (rep = false -> prev = None) /\
          fits n n' prev
      | None => False
      end
  | Panic => failed tr \/ checked = true \/ contrary q tr \/ elsewhere d n q h tr \/ 8 * hbits <= off (d + branches n)
  | Diverge => False
  end.

Definition flagged (d h : N) (n : mnode K V) (f : option Flag) : Prop :=
  match f with
  | Some g => flag_new_at_depth h d = Ret (Some g) /\ flag_at d g /\ fl_hash g = h /\ usable d
  | None => 8 * hbits <= off d /\ leafish n
  end.

Lemma given_cons e q w (x : event) tr : is_into (asked x) = false -> given e q w tr -> given e q w (x :: tr).
Proof. intros Hx (tr1 & -> & H). exists (x :: tr1). split; [reflexivity|]. constructor; assumption. Qed.
Lemma given_app e q w tr tr' : no_into tr -> given e q w tr' -> given e q w (tr ++ tr').
Proof. intros Hx (tr1 & -> & H). exists (tr ++ tr1). split; [rewrite <- app_assoc; reflexivity|]. apply no_into_app; assumption. Qed.
Lemma no_yes_into q (k : K) w (v : V) : no_yes [said (CInto q) k; said (CIntoV w) v : event].
Proof. repeat constructor. Qed.

Lemma gives_into {X} q w (k : K * V -> prog (@reply E K V L W) X) (G : trace -> outcome X -> Prop) :
  (forall tr, failed tr -> G tr Panic) ->
  (forall a b, gives (k (a, b)) (fun tr o => G (said (CInto q) a :: said (CIntoV w) b :: tr) o)) -> gives (pbind (into q w) k) G.
Proof.
  intros H1 H2. unfold into, ask. cbn [pbind]. apply gives_ask; [apply H1, failed_here|]. intros a.
  apply gives_ask; [apply H1, failed_cons, failed_here|]. intros b. apply H2.
Qed.

(** The lift, after the calls [tr0] that found no equal key. *)
Lemma al_lift_post d (nx : lnext K V) q w f h rep tr0 : leafish (next_mnode nx) -> flag_new_at_depth h d = Ret (Some f) -> flag_at d f -> fl_hash f = h -> usable d ->
  no_yes tr0 -> no_into tr0 ->
  gives (al_lift nx q w f) (fun tr o => ins_post d (next_mnode nx) q w h rep (tr0 ++ tr) o).
Proof.
  intros HL Hfd0 Hf Hh HU Hy0 Hi0. unfold al_lift, ask. cbn [pbind]. apply gives_ask; [left; apply failed_app, failed_here|].
  intros hh. destruct (N.eqb_spec (proj1_sig (hh : word)) (fl_hash f)) as [He|Hne].
  - apply gives_into; [intros; left; apply failed_app, failed_cons; assumption|]. intros a b. apply gives_ret.
    cbn [ins_post ires]. split; [constructor; apply lok_new; destruct nx; exact HL|]. split; [|split; [|split; [|split]]].
    + apply given_app; [assumption|]. exists [said (CHash (next_key nx)) hh]. split; [|repeat constructor].
      destruct nx; reflexivity.
    + apply no_yes_app; [assumption|]. repeat constructor.
    + exists (m_visit (next_mnode nx)), (m_visit (next_mnode nx)). split; [reflexivity|]. split; [apply copied_refl|].
      cbn [m_visit]. rewrite l_visit_next. destruct nx; reflexivity.
    + reflexivity.
    + destruct nx; exact I.
  - destruct (flag_usable (proj1_sig (hh : word)) d HU) as (g & Hg & Hga & _).
    destruct Hf as (Hfd & Hff). rewrite Hfd, Hg. cbn [lift pbind unwrap].
    apply gives_into; [intros; left; apply failed_app, failed_cons; assumption|]. intros a b.
    pose proof (cnode_lift_loose d (next_mnode nx) g (MS (SN a b)) f HL I Hga (conj Hfd Hff) HU) as HC.
    destruct (cnode_lift (next_mnode nx) g (MS (SN a b)) f) as [c| |] eqn:Hcl; cbn [lift pbind].
    + apply gives_ret. destruct HC as [HC HP]. cbn [ins_post ires s_key s_value]. split; [exact HC|]. split; [|split; [|split; [|split]]].
      * apply given_app; [assumption|]. exists [said (CHash (next_key nx)) hh]. split; [reflexivity|repeat constructor].
      * apply no_yes_app; [assumption|]. repeat constructor.
      * exists (m_visit (next_mnode nx)), (m_visit (next_mnode nx)). split; [reflexivity|]. split; [apply copied_refl|].
        rewrite HP. rewrite Permutation_app_comm. reflexivity.
      * reflexivity.
      * destruct nx; exact I.
    + apply gives_panic. right. right. right. left. exists nx, hh, d, f, g, a, b. split; [constructor|]. split.
      { apply in_or_app. right. left. reflexivity. }
      split; [rewrite <- Hh; assumption|]. split; [assumption|]. split; [assumption|]. split; [|assumption].
      apply in_or_app. right. right. left. reflexivity.
    + destruct HC.
Qed.

Lemma as_insert_post d s q w f h rep : flagged d h (MS s) f -> gives (as_insert s q w f rep) (ins_post d (MS s) q w h rep).
Proof.
  intros Hf. unfold as_insert, ask. cbn [pbind]. apply gives_ask; [left; apply failed_here|]. intros [|].
  - destruct rep.
    + apply gives_into; [intros; left; apply failed_cons; assumption|]. intros a b. apply gives_ret.
      cbn [ins_post ires s_key s_value]. split; [constructor|]. split; [|split; [|split; [|split]]].
      * exists [said (CEq (s_key s) q) true]. split; [reflexivity|repeat constructor].
      * left. reflexivity.
      * exists [], []. repeat split; auto.
      * discriminate.
      * exact I.
    + apply gives_ret. cbn [ins_post]. split; [reflexivity|]. split; [left; reflexivity|]. exists []. repeat split; constructor.
  - destruct f as [g|]; cbn [unwrap lift pbind].
    + destruct Hf as (H0 & H1 & H2 & H3). eapply gives_weak; [apply (al_lift_post d (NS s) q w g h rep [said (CEq (s_key s) q) false]); try assumption; [exact I|repeat constructor..]|].
      intros tr o H. exact H.
    + apply gives_panic. do 4 right. destruct Hf as [Hf _]. cbn [branches]. rewrite N.add_0_r. assumption.
Qed.

Lemma al_insert_post d l q w f h rep : lok l -> flagged d h (ML l) f -> gives (al_insert l q w f rep) (ins_post d (ML l) q w h rep).
Proof.
  intros Hl Hf. unfold al_insert. eapply gives_bind; [apply al_find_post| | |].
  2:{ intros tr H. left. exact H. }
  2:{ intros tr []. }
  intros tr [[fk fv]|] Hp; cbn [find_post] in Hp.
  - destruct Hp as (Hin & tr1 & -> & Hy & Hi). destruct rep.
    + assert (Hi' : no_into (tr1 ++ [said (CEq fk q) true])) by (apply no_into_app; [assumption|repeat constructor]).
      eapply gives_bind; [apply al_remove_from_post; assumption| | |].
      2:{ intros tr H. left. apply failed_app. exact H. }
      2:{ intros tr []. }
      intros tr r Hp. destruct r as [|n rk rv|s rk rv]; cbn [lrem_post] in Hp.
      * destruct Hp as (_ & _ & Hp). apply gives_panic. right. right. left. exists fk. rewrite app_nil_r. split.
        { apply in_or_app. left. apply in_or_app. right. left. reflexivity. }
        { apply in_or_app. right. apply (Hp _ Hin). }
      * destruct Hp as (Hn & (Ht & l0 & l0' & HP & HF & HQ) & Hi2).
        apply gives_into; [intros; left; apply failed_app, failed_app; assumption|]. intros a b. apply gives_ret.
        cbn [ins_post ires]. split; [constructor; apply lok_new; assumption|]. split; [|split; [|split; [|split]]].
        { cbn [l_new l_key l_value]. apply given_app; [assumption|]. apply given_app; [assumption|]. exists []. split; [reflexivity|constructor]. }
        { cbn [told]. apply in_or_app. right. apply in_or_app. left. assumption. }
        { exists l0, l0'. split; [exact HP|]. split.
          - eapply copied_more; [|exact HF]. intros x Hx. apply in_or_app. right. apply in_or_app. auto.
          - cbn [l_new m_visit l_visit l_key l_value]. rewrite HQ. reflexivity. }
        { discriminate. }
        { exact I. }
      * destruct Hp as ((Ht & l0 & l0' & HP & HF & HQ) & Hi2).
        apply gives_into; [intros; left; apply failed_app, failed_app; assumption|]. intros a b. apply gives_ret.
        cbn [ins_post ires]. split; [constructor; apply lok_new; exact I|]. split; [|split; [|split; [|split]]].
        { cbn [l_new l_key l_value]. apply given_app; [assumption|]. apply given_app; [assumption|]. exists []. split; [reflexivity|constructor]. }
        { cbn [told]. apply in_or_app. right. apply in_or_app. left. assumption. }
        { exists l0, l0'. split; [exact HP|]. split.
          - eapply copied_more; [|exact HF]. intros x Hx. apply in_or_app. right. apply in_or_app. auto.
          - cbn [l_new m_visit l_visit l_key l_value]. cbn [m_visit] in HQ. rewrite HQ. reflexivity. }
        { discriminate. }
        { exact I. }
    + apply gives_ret. cbn [ins_post]. rewrite app_nil_r. split; [reflexivity|]. split; [assumption|]. exists tr1. auto.
  - destruct Hp as [Hy Hi]. destruct f as [g|]; cbn [unwrap lift pbind].
    + destruct Hf as (H0 & H1 & H2 & H3). apply (al_lift_post d (NL l) q w g h rep tr); assumption.
    + apply gives_panic. do 4 right. destruct Hf as [Hf _]. cbn [branches]. rewrite N.add_0_r. assumption.
Qed.

Lemma put_in_child l1 l2 (c : mnode K V) new new' e prev tr : put_in (m_visit c) new e prev tr ->
  Permutation new' (concat (map m_visit l1) ++ new ++ concat (map m_visit l2)) ->
  put_in (concat (map m_visit (l1 ++ c :: l2))) new' e prev tr.
Proof.
  intros (l & l' & HP & HF & HQ) HN.
  exists (l ++ concat (map m_visit l1) ++ concat (map m_visit l2)), (l' ++ concat (map m_visit l1) ++ concat (map m_visit l2)).
  split; [|split].
  - rewrite concat_split, HP. rewrite Permutation_app_swap_app. rewrite <- app_assoc. reflexivity.
  - apply Forall2_app; [assumption|apply copied_refl].
  - rewrite HN, HQ. rewrite Permutation_app_swap_app. reflexivity.
Qed.

Lemma put_in_len old new e prev tr : put_in old new e prev tr -> lenN new + lenN (olist prev) = lenN old + 1.
Proof.
  intros (l & l' & HP & HF & HQ). rewrite (lenN_perm _ _ HP), (lenN_perm _ _ HQ), lenN_app, lenN_cons.
  unfold lenN. rewrite (Forall2_len _ _ _ HF). lia.
Qed.

Lemma branches_child (values : list (mnode K V)) c : In c values -> branches c <= fold_right N.max 0 (map branches values).
Proof. induction values as [|a vs IH]; intros []; cbn [map fold_right]; [subst; lia|]. specialize (IH H). lia. Qed.

Lemma am_insert_post n : forall d q w f h rep, loose d n -> flagged d h n f -> gives (am_insert n q w f rep) (ins_post d n q w h rep).
Proof.
  induction n as [bits values x IH|l|s] using mnode_ind'; intros d q w f0 h rep HL Hf; cbn [am_insert].
  - inversion HL as [| |d1 b1 v1 x1 HU Hok Hne Hx Hch]; subst d1 b1 v1 x1. rewrite Forall_forall in IH.
    destruct f0 as [f|]; [|destruct Hf as [_ []]]. destruct Hf as (Hfd & (Hd & i & Hi & Hfl) & Hh & _).
    cbn [unwrap lift pbind]. rewrite Hfl. rewrite bat_map.
    destruct (bat (BIA bits values x) (2 ^ i)) as [c|e] eqn:Hb.
    2:{ apply gives_into; [intros; left; assumption|]. intros a b.
        pose proof (bat_err _ _ _ _ _ _ Hok Hb) as Ht.
        destruct (binserted_split fw bits values (MS (SN a b)) i x (x + 1) Hok Hi Ht) as (l1 & l2 & bits' & Hv & Hok' & He).
        rewrite He. cbn [unwrap_ok lift pbind]. apply gives_ret. cbn [ins_post ires s_key s_value].
        split; [|split; [|split; [|split; [|split]]]].
        - constructor; try assumption.
          + left. destruct l1; discriminate.
          + rewrite concat_split, !lenN_app, Hx, Hv, map_app, concat_app, lenN_app. change (lenN (m_visit (MS (SN a b)))) with 1. lia.
          + intros c Hc. apply in_app_or in Hc. destruct Hc as [Hc|[<-|Hc]]; [|constructor|]; apply Hch; rewrite Hv; apply in_or_app; auto.
        - exists []. split; [reflexivity|constructor].
        - cbn [told]. repeat constructor.
        - exists (concat (map m_visit values)), (concat (map m_visit values)). cbn [m_visit]. split; [reflexivity|]. split; [apply copied_refl|].
          rewrite concat_split, Hv, map_app, concat_app. change (m_visit (MS (SN a b))) with [(a, b)]. cbn [app]. symmetry. apply Permutation_middle.
        - reflexivity.
        - exact I. }
    destruct (bat_split _ _ _ _ _ _ Hok Hb) as (l1 & l2 & Hv & Ht & Hr).
    assert (Hin : In c values) by (rewrite Hv; apply in_or_app; right; left; reflexivity).
    pose proof (Hch _ Hin) as Hc. pose proof (loose_size _ _ Hc) as Hcs.
    assert (Hsz : x = lenN (concat (map m_visit l1)) + lenN (m_visit c) + lenN (concat (map m_visit l2))).
    { rewrite Hx, Hv, concat_split, !lenN_app. lia. }
    assert (Hbr : d + 1 + branches c <= d + branches (MC (BIA bits values x))).
    { cbn [branches bvalues]. pose proof (branches_child values c Hin). lia. }
    assert (Hoff : off (d + 1 + branches c) <= off (d + branches (MC (BIA bits values x)))).
    { unfold off. apply N.mul_le_mono_r. assumption. }
    assert (Hnext : forall (k : option Flag -> prog (@reply E K V L W) (insert_result K V)),
      (forall nx, flagged (d + 1) h c nx -> gives (k nx) (ins_post d (MC (BIA bits values x)) q w h rep)) ->
      gives (let+ nx := lift (flag_next f) in k nx) (ins_post d (MC (BIA bits values x)) q w h rep)).
    { intros k Hk. apply gives_lift; unfold flag_next; rewrite Hd, Hh; intros;
        destruct (flag_any h (d + 1)) as [(g & Hg & Hga & Hgh & HU')|[[Hg Hge]|[Hg Hck]]]; try congruence.
      - apply Hk. replace x0 with (Some g) by congruence. cbn [flagged]. auto.
      - apply Hk. replace x0 with (@None Flag) by congruence. cbn [flagged]. split; [assumption|].
        destruct c as [[bb vv xx]|l|s]; cbn [leafish]; [|inversion Hc; assumption|exact I].
        inversion Hc as [| |? ? ? ? [HU' _] _ _ _ _]. lia.
      - right. left. assumption. }
    subst values.
    assert (Hpan : forall tr, ins_post (d + 1) c q w h rep tr Panic -> ins_post d (MC (BIA bits (l1 ++ c :: l2) x)) q w h rep tr Panic).
    { intros tr H. cbn [ins_post] in *. destruct H as [H|[H|[H|[H|H]]]]; [auto|auto|auto|do 3 right; left|do 4 right; lia].
      destruct H as (nx & h' & d' & ff & g & a & b & H1 & H2). exists nx, h', d', ff, g, a, b. split; [|assumption].
      eapply leads_down; [exact Hfd| |exact H1]. rewrite Hfl. exact Hb. }
    assert (Hfnd : forall tr k v, ins_post (d + 1) c q w h rep tr (Ret (IFound k v)) ->
      gives (PRet (IFound k v)) (fun tr' o => ins_post d (MC (BIA bits (l1 ++ c :: l2) x)) q w h rep (tr ++ tr') o)).
    { intros tr k v (H1 & H2 & H3). apply gives_ret. rewrite app_nil_r. cbn [ins_post]. split; [assumption|]. split; [|assumption].
      cbn [m_visit]. rewrite concat_split. apply in_or_app. right. apply in_or_app. auto. }
    assert (Hup : forall tr r n' k v prev size, ins_post (d + 1) c q w h rep tr (Ret r) -> ires r = Some (n', (k, v), prev) ->
      size + lenN (m_visit c) = x + lenN (m_visit n') ->
      gives (let+ b := lift (unwrap_ok (bupdated (BIA bits (l1 ++ c :: l2) x) (2 ^ i) n' size)) in PRet (IC b k v prev))
        (fun tr' o => ins_post d (MC (BIA bits (l1 ++ c :: l2) x)) q w h rep (tr ++ tr') o)).
    { intros tr r n' k v prev size Hp Er Hs. cbn [ins_post] in Hp.
      assert (Hp' : loose (d + 1) n' /\ given (k, v) q w tr /\ told prev q tr /\ put_in (m_visit c) (m_visit n') (k, v) prev tr /\ (rep = false -> prev = None)).
      { destruct r; [discriminate Er|..]; cbn [ires] in *; injection Er as <- <- <- <-; tauto. }
      destruct Hp' as (H1 & H2 & H3 & H4 & H5).
      destruct (update_loose d bits l1 l2 c n' x size i HU Hok Ht Hr Hch H1 ltac:(lia)) as [He Hlo].
      rewrite He. cbn [unwrap_ok lift pbind]. apply gives_ret. rewrite app_nil_r. cbn [ins_post ires].
      split; [assumption|]. split; [assumption|]. split; [assumption|]. split; [|split; [assumption|exact I]].
      cbn [m_visit]. eapply put_in_child; [exact H4|]. rewrite concat_split. reflexivity. }
    assert (Hlen : forall tr r n' e prev, ins_post (d + 1) c q w h rep tr (Ret r) -> ires r = Some (n', e, prev) ->
      m_size n' = lenN (m_visit n') /\ lenN (m_visit n') + lenN (olist prev) = lenN (m_visit c) + 1 /\
      fits c n' prev).
    { intros tr r n' e prev Hp Er. cbn [ins_post] in Hp.
      assert (Hp' : loose (d + 1) n' /\ put_in (m_visit c) (m_visit n') e prev tr /\
        fits c n' prev).
      { destruct r; [discriminate Er|..]; cbn [ires] in *; injection Er as <- <- <-; tauto. }
      destruct Hp' as (H1 & H2 & H3). split; [apply (loose_size _ _ H1)|]. split; [apply (put_in_len _ _ _ _ _ H2)|assumption]. }
    destruct c as [c|l|s].
    + apply Hnext. intros nx Hnx. eapply gives_bind; [apply (IH _ Hin (d + 1) q w nx h rep Hc Hnx)|..].
      2:{ intros tr H. apply Hpan. exact H. }
      2:{ intros tr []. }
      intros tr r Hp. destruct r as [k v|c2 k v prev|l2' k v prev|s2 k v prev].
      * apply Hfnd. assumption.
      * destruct (Hlen _ _ _ _ _ Hp eq_refl) as (Hm & Hl & _). cbn [m_size] in *.
        unfold usub. destruct (N.leb_spec (bextra c) (x + bextra c2)); [|lia]. cbn [lift pbind].
        eapply Hup; [exact Hp|reflexivity|]. lia.
      * destruct (Hlen _ _ _ _ _ Hp eq_refl) as (_ & _ & []).
      * destruct (Hlen _ _ _ _ _ Hp eq_refl) as (_ & _ & []).
    + assert (Hlk : lok l) by (inversion Hc; assumption). apply Hnext. intros nx Hnx. eapply gives_bind; [apply (al_insert_post (d + 1) l q w nx h rep Hlk Hnx)|..].
      2:{ intros tr H. apply Hpan. exact H. }
      2:{ intros tr []. }
      intros tr r Hp. destruct r as [k v|c2 k v prev|l2' k v prev|s2 k v prev].
      * apply Hfnd. assumption.
      * destruct (Hlen _ _ _ _ _ Hp eq_refl) as (Hm & Hl & Hfi). destruct prev; [destruct Hfi|]. cbn [olist] in Hl. rewrite lenN_nil in Hl.
        eapply Hup; [exact Hp|reflexivity|]. lia.
      * destruct (Hlen _ _ _ _ _ Hp eq_refl) as (Hm & Hl & _). cbn [m_size] in *.
        unfold usub. destruct (N.leb_spec (l_size l) (x + l_size l2')); [|lia]. cbn [lift pbind].
        eapply Hup; [exact Hp|reflexivity|]. lia.
      * destruct (Hlen _ _ _ _ _ Hp eq_refl) as (_ & _ & []).
    + apply Hnext. intros nx Hnx. eapply gives_bind; [apply (as_insert_post (d + 1) s q w nx h rep Hnx)|..].
      2:{ intros tr H. apply Hpan. exact H. }
      2:{ intros tr []. }
      intros tr r Hp. destruct r as [k v|c2 k v prev|l2' k v prev|s2 k v prev].
      * apply Hfnd. assumption.
      * destruct (Hlen _ _ _ _ _ Hp eq_refl) as (Hm & Hl & Hfi). destruct prev; [destruct Hfi|]. cbn [olist] in Hl. rewrite lenN_nil in Hl.
        eapply Hup; [exact Hp|reflexivity|]. lia.
      * destruct (Hlen _ _ _ _ _ Hp eq_refl) as (Hm & Hl & Hfi). destruct prev; [destruct Hfi|]. cbn [olist] in Hl. rewrite lenN_nil in Hl.
        eapply Hup; [exact Hp|reflexivity|]. lia.
      * destruct (Hlen _ _ _ _ _ Hp eq_refl) as (Hm & Hl & Hfi). destruct prev; [|destruct Hfi]. cbn [olist] in Hl. rewrite lenN_cons, lenN_nil in Hl.
        eapply Hup; [exact Hp|reflexivity|]. lia.
  - inversion HL as [|? ? Hl|]; subst. apply al_insert_post; assumption.
  - apply as_insert_post. assumption.
Qed.

End AskInsP.
