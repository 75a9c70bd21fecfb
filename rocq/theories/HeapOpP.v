(** find, visit, size, insert and remove on the heap refine those on trees. *)
From Coq Require Import NArith Arith List Bool Lia ZifyBool ZifyN ZifyNat.
From Verif Require Import Base Words Flag Bia BiaP Node Api Heap SpecH HeapP.
Import ListNotations.
Open Scope N_scope.

Section Ops.
Context {E : Env} {K V : Type} {KK : Key K} {NZ : Noise K V}.
Notation heap := (heap K V).
Implicit Types (h : heap).

Lemma get_c_eq h a c : nth_error h a = Some (CellC c) -> get_c h a = Ret c.
Proof. unfold get_c. intros ->. reflexivity. Qed.
Lemma get_l_eq h a k v x z : nth_error h a = Some (CellL k v x z) -> get_l h a = Ret ((k, v), x, z).
Proof. unfold get_l. intros ->. reflexivity. Qed.
Lemma get_s_eq h a s : rep_s h a s -> get_s h a = Ret (s_key s, s_value s).
Proof. intros []. unfold get_s. rewrite H. reflexivity. Qed.

Lemma rep_l_inv h a l : rep_l h a l -> exists x z, nth_error h a = Some (CellL (l_key l) (l_value l) x z) /\
  rep_next h x (l_next l) /\ z = l_size l /\ (addr_of (hnext_node x) < a)%nat.
Proof.
  intros [a' k v b l' z Hn Hlt H|a' k v b s z Hn Hlt H]; cbn; [exists (XL b), z|exists (XS b), z]; auto.
Qed.

Lemma rep_LL_inv h a k v l z : rep_l h a (LNL k v l z) -> exists b, nth_error h a = Some (CellL k v (XL b) z) /\ (b < a)%nat /\ rep_l h b l.
Proof. intros H. inversion H; subst. eauto. Qed.
Lemma rep_LS_inv h a k v s z : rep_l h a (LNS k v s z) -> exists b, nth_error h a = Some (CellL k v (XS b) z) /\ (b < a)%nat /\ rep_s h b s.
Proof. intros H. inversion H; subst. eauto. Qed.

Lemma entry_l h a l : rep_l h a l -> entry_at h a = Some (l_key l, l_value l).
Proof. intros H. destruct (rep_l_inv _ _ _ H) as (x & z & Hn & _). unfold entry_at. rewrite Hn. reflexivity. Qed.
Lemma entry_s h a s : rep_s h a s -> entry_at h a = Some (s_key s, s_value s).
Proof. intros []. unfold entry_at. rewrite H. reflexivity. Qed.

(** ** size *)
Lemma h_size_ok h n t : rep h n t -> h_size h n = Ret (m_size t).
Proof.
  intros [a bits hs ts x Hn _ _|a l H|a s H]; cbn [h_size].
  - rewrite (get_c_eq _ _ _ Hn). reflexivity.
  - destruct (rep_l_inv _ _ _ H) as (x & z & Hn & _ & -> & _). rewrite (get_l_eq _ _ _ _ _ _ Hn). reflexivity.
  - reflexivity.
Qed.

(** ** visit *)
Lemma hl_visit_ok h l : forall a fuel, rep_l h a l -> (a < fuel)%nat -> hl_visit fuel h a = Ret (l_visit l).
Proof.
  induction l as [k v l IH z|k v s z]; intros a [|fuel] H Hf; try lia; cbn [hl_visit l_visit];
    [destruct (rep_LL_inv _ _ _ _ _ _ H) as (b & H3 & Hlb & H7)|destruct (rep_LS_inv _ _ _ _ _ _ H) as (b & H3 & Hlb & H7)];
    rewrite (get_l_eq _ _ _ _ _ _ H3); cbn [bind].
  - rewrite (IH b fuel) by (assumption || lia). reflexivity.
  - rewrite (get_s_eq _ _ _ H7). reflexivity.
Qed.

Lemma each_ok {A} (f : hnode -> outcome (list A)) (g : mnode K V -> list A) hs ts :
  Forall2 (fun c t => f c = Ret (g t)) hs ts -> each f hs = Ret (concat (map g ts)).
Proof. induction 1 as [|c t hs ts H HF IH]; cbn [each map concat]; [reflexivity|]. rewrite H, IH. reflexivity. Qed.

Lemma h_visit_ok h fuel : forall n t, rep h n t -> (addr_of n < fuel)%nat -> h_visit fuel h n = Ret (m_visit t).
Proof.
  induction fuel as [|fuel IH]; intros n t H Hf; [lia|]. destruct H as [a bits hs ts x Hn HF Hlt|a l H|a s H]; cbn [h_visit m_visit].
  - rewrite (get_c_eq _ _ _ Hn). cbn [bind bvalues]. apply each_ok.
    eapply (forall2_lt _ _ _ _ _ HF Hlt). intros c t Hc Ht. apply IH; [exact Ht|]. cbn [addr_of] in Hf. lia.
  - apply (hl_visit_ok h l a (S fuel)); assumption.
  - rewrite (get_s_eq _ _ _ H). reflexivity.
Qed.

Section Query.
Context {Q : Type} {KQ : Key Q}.

(** ** find *)

(** The address of an entry under [n]. *)
Definition at_ h (n : hnode) (a : addr) (e : K * V) : Prop := entry_at h a = Some e /\ inside h n a.

Lemma at_up h n n' a e : at_ h n a e -> (forall x, inside h n x -> inside h n' x) -> at_ h n' a e.
Proof. intros (H1 & H2) Hi. split; auto. Qed.

Lemma at_self_l h a l : rep_l h a l -> at_ h (HL a) a (l_key l, l_value l).
Proof. intros H. split; [apply entry_l, H|apply (in_self h (HL a))]. Qed.
Lemma at_self_s h a s : rep_s h a s -> at_ h (HS a) a (s_key s, s_value s).
Proof. intros H. split; [apply entry_s, H|apply (in_self h (HS a))]. Qed.

Lemma orel_up h n n' r r' : orel (at_ h n) r r' -> (forall x, inside h n x -> inside h n' x) -> orel (at_ h n') r r'.
Proof. intros [a b H|] Hi; constructor. eapply at_up; eassumption. Qed.

Lemma hs_find_ok h a s (q : Q) : rep_s h a s -> refines (orel (at_ h (HS a))) (hs_find h a q) (Ret (s_find s q)).
Proof.
  intros H. unfold hs_find, s_find. rewrite (get_s_eq _ _ _ H). cbn [bind fst]. constructor.
  destruct (keqb (s_key s) q); constructor. apply at_self_s, H.
Qed.

Lemma hl_find_ok h (q : Q) l : forall a fuel, rep_l h a l -> (a < fuel)%nat ->
  refines (orel (at_ h (HL a))) (hl_find fuel h a q) (Ret (l_find l q)).
Proof.
  induction l as [k v l IH z|k v s z]; intros a [|fuel] H Hf; try lia; cbn [hl_find l_find];
    [destruct (rep_LL_inv _ _ _ _ _ _ H) as (b & H3 & Hlb & H7)|destruct (rep_LS_inv _ _ _ _ _ _ H) as (b & H3 & Hlb & H7)];
    rewrite (get_l_eq _ _ _ _ _ _ H3); cbn [bind fst].
  - destruct (keqb k q); [constructor; constructor; apply (at_self_l h a _ H)|].
    eapply refines_weak; [apply (IH b fuel); [assumption|lia]|]. intros r r' Hr.
    apply (orel_up _ _ _ _ _ Hr). intros x Hx. eapply in_L; [exact H3|exact Hx].
  - destruct (keqb k q); [constructor; constructor; apply (at_self_l h a _ H)|].
    eapply refines_weak; [apply hs_find_ok; eassumption|]. intros r r' Hr.
    apply (orel_up _ _ _ _ _ Hr). intros x Hx. eapply in_L; [exact H3|exact Hx].
Qed.

(** A child of a branch. *)
Lemma child_rel h a bits hs ts x f : nth_error h a = Some (CellC (BIA bits hs x)) -> Forall2 (rep h) hs ts ->
  Forall (fun c => (addr_of c < a)%nat) hs ->
  rres (fun c t => rep h c t /\ (addr_of c < a)%nat /\ forall y, inside h c y -> inside h (HC a) y)
       (bat (BIA bits hs x) f) (bat (BIA bits ts x) f).
Proof.
  intros Hn HF Hlt. apply bat_rel. split; [reflexivity|]. split; [reflexivity|]. cbn [bvalues].
  assert (Hin : Forall (fun c => In c hs) hs) by (apply Forall_forall; auto).
  assert (HG : Forall (fun c => (addr_of c < a)%nat /\ In c hs) hs).
  { rewrite Forall_forall in *. auto. }
  eapply (forall2_lt _ _ _ _ _ HF HG). intros c t (H1 & H2) H3. split; [exact H3|]. split; [exact H1|].
  intros y Hy. eapply in_C; [exact Hn|exact H2|exact Hy].
Qed.

Lemma h_find_ok h (q : Q) fuel : forall n t f, rep h n t -> (addr_of n < fuel)%nat ->
  refines (orel (at_ h n)) (h_find fuel h n q f) (m_find t q f).
Proof.
  induction fuel as [|fuel IH]; intros n t f H Hf; [lia|]. destruct H as [a bits hs ts x Hn HF Hlt|a l H|a s H]; cbn [h_find m_find].
  - rewrite (get_c_eq _ _ _ Hn). cbn [bind addr_of] in *. apply refines_same. intros f' _. rewrite bat_map.
    destruct (child_rel h a bits hs ts x (fl_flag f') Hn HF Hlt) as [c t (Hc & Hlc & Hin)|e]; [|constructor; constructor].
    destruct Hc as [b bits' hs' ts' x' Hn' HF' Hlt'|b l H|b s H].
    + apply refines_same. intros nx _. eapply refines_weak; [apply (IH (HC b)); [econstructor; eassumption|lia]|].
      intros r r' Hr. apply (orel_up _ _ _ _ _ Hr Hin).
    + eapply refines_weak; [apply hl_find_ok; [eassumption|cbn in Hlc; lia]|]. intros r r' Hr. apply (orel_up _ _ _ _ _ Hr Hin).
    + eapply refines_weak; [apply hs_find_ok; eassumption|]. intros r r' Hr. apply (orel_up _ _ _ _ _ Hr Hin).
  - apply (hl_find_ok h q l a (S fuel)); assumption.
  - apply hs_find_ok. assumption.
Qed.

(** find gives the same address in a later heap. *)
Lemma hs_find_same h h' a s (q : Q) : rep_s h a s -> ext h h' -> hs_find h' a q = hs_find h a q.
Proof. intros H He. unfold hs_find. rewrite (get_s_eq _ _ _ H), (get_s_eq _ _ _ (rep_s_ext _ _ _ _ H He)). reflexivity. Qed.

Lemma hl_find_same h h' (q : Q) l : forall a fuel fuel', rep_l h a l -> ext h h' -> (a < fuel)%nat -> (a < fuel')%nat ->
  hl_find fuel' h' a q = hl_find fuel h a q.
Proof.
  induction l as [k v l IH z|k v s z]; intros a [|fuel] [|fuel'] H He Hf Hf'; try lia; cbn [hl_find];
    [destruct (rep_LL_inv _ _ _ _ _ _ H) as (b & H3 & Hlb & H7)|destruct (rep_LS_inv _ _ _ _ _ _ H) as (b & H3 & Hlb & H7)];
    rewrite (get_l_eq _ _ _ _ _ _ H3), (get_l_eq _ _ _ _ _ _ (nth_ext _ _ _ _ H3 He)); cbn [bind fst].
  - destruct (keqb k q); [reflexivity|]. apply IH; [assumption|assumption|lia|lia].
  - destruct (keqb k q); [reflexivity|]. eapply hs_find_same; eassumption.
Qed.

Lemma h_find_same h h' (q : Q) fuel : forall fuel' n t f, rep h n t -> ext h h' -> (addr_of n < fuel)%nat -> (addr_of n < fuel')%nat ->
  h_find fuel' h' n q f = h_find fuel h n q f.
Proof.
  induction fuel as [|fuel IH]; intros [|fuel'] n t f H He Hf Hf'; try lia. destruct H as [a bits hs ts x Hn HF Hlt|a l H|a s H].
  - cbn [h_find]. rewrite (get_c_eq _ _ _ Hn), (get_c_eq _ _ _ (nth_ext _ _ _ _ Hn He)). cbn [bind addr_of] in *.
    destruct f as [f|]; [|reflexivity]. cbn [bind unwrap].
    pose proof (child_rel h a bits hs ts x (fl_flag f) Hn HF Hlt) as Hc.
    destruct (bat (BIA bits hs x) (fl_flag f)) as [c|e]; [|reflexivity].
    inversion Hc as [c0 t (Hr & Hl & _) E1 E2|]; subst.
    destruct Hr as [b bits' hs' ts' x' Hn' HF' Hlt'|b l H|b s H]; cbn [addr_of] in Hl.
    + destruct (flag_next f); cbn [bind]; try reflexivity.
      eapply IH; [econstructor; eassumption|exact He|cbn; lia|cbn; lia].
    + eapply hl_find_same; [eassumption|exact He|lia|lia].
    + eapply hs_find_same; eassumption.
  - apply (hl_find_same h h' q l a (S fuel) (S fuel')); assumption.
  - eapply hs_find_same; eassumption.
Qed.

(** ** remove from a list *)
Definition lremoved (t : lnext K V) (k : K) (v : V) : lremove_result K V :=
  match t with NL l => LRL l k v | NS s => LRS s k v end.

Definition lrem_rel h (a : addr) (r : hlremove_result * heap) (r' : lremove_result K V) : Prop :=
  let (r, h') := r in
  match r with
  | HLNotFound => h' = h /\ r' = LRNotFound
  | HLRemoved x p => exists t k v, r' = lremoved t k v /\ ext h h' /\ rep_next h' x t /\ at_ h (HL a) p (k, v) /\
      shares h (HL a) h' (hnext_node x) /\ ((length h <= addr_of (hnext_node x))%nat \/ (addr_of (hnext_node x) < a)%nat)
  end.

Lemma shares_sub h n h' n' : (exists t, rep h n' t) -> ext h h' -> (forall x, inside h n' x -> inside h n x) -> shares h n h' n'.
Proof. intros (t & Ht) He Hi x Hx. right. apply Hi. eapply inside_old; eassumption. Qed.

Lemma shares_up h n m h' n' : shares h n h' n' -> (forall x, inside h n x -> inside h m x) -> shares h m h' n'.
Proof. intros H Hi x Hx. destruct (H x Hx); [left; assumption|right; auto]. Qed.

(** Cells added after [h'] beside [n']. *)
Lemma shares_more h n h' h2 n' t : shares h n h' n' -> rep h' n' t -> ext h' h2 -> shares h n h2 n'.
Proof. intros H Ht He x Hx. apply H. eapply inside_old; eassumption. Qed.

Lemma shares_new_L h n h' k v x z t : ext h h' -> rep_next h' x t -> shares h n h' (hnext_node x) ->
  shares h n (h' ++ [CellL k v x z]) (HL (length h')).
Proof.
  intros He Ht Hs y Hy. destruct (inside_new_L _ _ _ _ _ _ Hy) as [->|Hy2]; [left; apply ext_len, He|].
  apply Hs. eapply inside_old; [apply rep_next_node, Ht|apply ext_alloc|exact Hy2].
Qed.

Lemma shares_alloc_L h n h' k v x z t : ext h h' -> rep_next h' x t -> shares h n h' (hnext_node x) ->
  shares h n (others h' ++ [CellL k v x z]) (HL (length (others h'))).
Proof.
  intros He Ht Hs. pose proof (ext_others h') as Ho. eapply shares_new_L; [eapply ext_trans; eassumption|eapply rep_next_ext; eassumption|].
  eapply shares_more; [exact Hs|apply rep_next_node, Ht|exact Ho].
Qed.

Lemma len_others h h' : ext h h' -> (length h <= length (others h'))%nat.
Proof. intros He. apply ext_len. eapply ext_trans; [exact He|apply ext_others]. Qed.

Lemma rep_others_C h b b' : brel (rep h) b b' -> rep (others h ++ [CellC b]) (HC (length (others h))) (MC b').
Proof. intros Hb. apply rep_alloc_C. eapply brel_ext; [exact Hb|apply ext_others]. Qed.

Lemma hl_remove_from_ok h (q : Q) l : forall a fuel, rep_l h a l -> (a < fuel)%nat ->
  refines (lrem_rel h a) (hl_remove_from fuel h a q) (Ret (l_remove_from l q)).
Proof.
  induction l as [k v l IH z|k v s z]; intros a [|fuel] H Hf; try lia; cbn [hl_remove_from l_remove_from];
    [destruct (rep_LL_inv _ _ _ _ _ _ H) as (b & H3 & Hlb & H7)|destruct (rep_LS_inv _ _ _ _ _ _ H) as (b & H3 & Hlb & H7)];
    rewrite (get_l_eq _ _ _ _ _ _ H3); cbn [bind fst snd].
  - destruct (keqb k q).
    + constructor. exists (NL l), k, v. split; [reflexivity|]. split; [apply ext_refl|]. split; [exact H7|].
      split; [apply (at_self_l h a _ H)|]. split; [|right; assumption].
      apply shares_sub; [exists (ML l); constructor; assumption|apply ext_refl|].
      intros x Hx. eapply in_L; [exact H3|exact Hx].
    + specialize (IH b fuel H7 ltac:(lia)). inversion IH as [[r h'] r' Hr Hr1 Hr2| |]; subst. cbn [bind].
      destruct r as [|x p]; cbn in Hr.
      * destruct Hr as (-> & ->). constructor. split; reflexivity.
      * destruct Hr as (t & k' & v' & -> & He & Ht & Hp & Hs & _).
        destruct (hl_new_ok h' k v x t Ht) as (z' & Hnew & Hrep). rewrite Hnew. cbn [bind].
        replace (match lremoved t k' v' with
           | LRNotFound => LRNotFound
           | LRL n' k'0 v'0 => LRL (l_new k v (NL n')) k'0 v'0
           | LRS s' k'0 v'0 => LRL (l_new k v (NS s')) k'0 v'0
           end) with (LRL (l_new k v t) k' v') by (destruct t; reflexivity).
        constructor. exists (NL (l_new k v t)), k', v'. split; [reflexivity|].
        split; [eapply ext_trans; [exact He|apply ext_others_alloc]|]. split; [exact Hrep|].
        assert (Hup : forall x, inside h (HL b) x -> inside h (HL a) x) by (intros y Hy; eapply in_L; [exact H3|exact Hy]).
        split; [eapply at_up; [exact Hp|exact Hup]|]. cbn [hnext_node addr_of].
        split; [|left; apply len_others, He].
        apply shares_up with (n := HL b); [|exact Hup]. eapply shares_alloc_L; eassumption.
  - destruct (keqb k q).
    + constructor. exists (NS s), k, v. split; [reflexivity|]. split; [apply ext_refl|]. split; [exact H7|].
      split; [apply (at_self_l h a _ H)|]. split; [|right; assumption].
      apply shares_sub; [exists (MS s); constructor; assumption|apply ext_refl|].
      intros x Hx. eapply in_L; [exact H3|exact Hx].
    + rewrite (get_s_eq _ _ _ H7). cbn [bind fst].
      destruct (keqb (s_key s) q); [|constructor; split; reflexivity].
      constructor. exists (NS (SN k v)), (s_key s), (s_value s). split; [reflexivity|].
      split; [apply ext_others_alloc|]. split; [apply rep_alloc_S|]. cbn [hnext_node addr_of].
      split; [|split; [|left; apply len_others, ext_refl]].
      * eapply at_up; [apply at_self_s, H7|]. intros y Hy. eapply in_L; [exact H3|exact Hy].
      * intros y Hy. inversion Hy; subst. left. apply len_others, ext_refl.
Qed.

(** ** insert *)
Definition inserted (t : mnode K V) (e : K * V) (prev : option (K * V)) : insert_result K V :=
  match t with
  | MC c => IC c (fst e) (snd e) prev
  | ML l => IL l (fst e) (snd e) prev
  | MS s => IS s (fst e) (snd e) prev
  end.

Definition ins_rel h (n : hnode) (r : hinsert_result * heap) (r' : insert_result K V) : Prop :=
  let (r, h') := r in
  match r with
  | HFound a => h' = h /\ exists e, r' = IFound (fst e) (snd e) /\ at_ h n a e
  | HInserted n' a prev => exists t' e prev', r' = inserted t' e prev' /\ ext h h' /\ rep h' n' t' /\
      (length h <= addr_of n')%nat /\ (length h <= a)%nat /\ at_ h' n' a e /\ orel (at_ h n) prev prev' /\ shares h n h' n'
  end.

Lemma shares_new_C h n h' b : ext h h' -> (forall c, In c (bvalues b) -> (exists t, rep h' c t) /\ shares h n h' c) ->
  shares h n (h' ++ [CellC b]) (HC (length h')).
Proof.
  intros He Hc y Hy. destruct (inside_new_C _ _ _ Hy) as [->|(c & Hi & Hy2)]; [left; apply ext_len, He|].
  destruct (Hc c Hi) as ((t & Ht) & Hs). apply Hs. eapply inside_old; [exact Ht|apply ext_alloc|exact Hy2].
Qed.

Lemma shares_alloc_C h n h' b : ext h h' -> (forall c, In c (bvalues b) -> (exists t, rep h' c t) /\ shares h n h' c) ->
  shares h n (others h' ++ [CellC b]) (HC (length (others h'))).
Proof.
  intros He Hc. apply shares_new_C; [eapply ext_trans; [exact He|apply ext_others]|].
  intros c Hi. destruct (Hc c Hi) as ((t & Ht) & Hs). split; [exists t; eapply rep_ext; [exact Ht|apply ext_others]|].
  eapply shares_more; [exact Hs|exact Ht|apply ext_others].
Qed.

(** [c_lift]: the branch over two nodes. *)
Definition lift_rel h (this right : hnode) (r : addr * heap) (c : cnode K V) : Prop :=
  let (a, h') := r in
  ext h h' /\ rep h' (HC a) (MC c) /\ (length h <= a)%nat /\
  (forall x, inside h this x \/ inside h right x -> inside h' (HC a) x) /\
  (forall x, inside h' (HC a) x -> (length h <= x)%nat \/ inside h this x \/ inside h right x).

Lemma hc_lift_ok fuel : forall h this t tf right r rf, rep h this t -> rep h right r ->
  refines (lift_rel h this right) (hc_lift fuel h this tf right rf) (c_lift fuel t tf r rf).
Proof.
  induction fuel as [|fuel IH]; intros h this t tf right r rf Ht Hr; [constructor|]. cbn [hc_lift c_lift].
  rewrite (h_size_ok _ _ _ Ht), (h_size_ok _ _ _ Hr). cbn [bind].
  destruct (fl_flag tf =? fl_flag rf).
  - apply refines_same; intros tn0 _. apply refines_same; intros tn _. apply refines_same; intros rn0 _. apply refines_same; intros rn _.
    eapply refines_bind; [apply (IH h this t tn right r rn Ht Hr)|]. intros [a h'] c (He & Hc & Hl & Hin & Hout).
    assert (Hv : Forall2 (rep h') [HC a] [MC c]) by (constructor; [exact Hc|constructor]).
    pose proof (new_bia_rel (rep h') (fl_flag tf) _ _ (m_size t + m_size r) Hv) as Hb.
    inversion Hb as [b b' Hbb Hb1 Hb2|e Hb1 Hb2]; [|constructor]. symmetry in Hb1. apply new_bia_values in Hb1. cbn [unwrap_ok bind].
    constructor. unfold alloc, lift_rel. split; [eapply ext_trans; [exact He|apply ext_others_alloc]|].
    split; [apply rep_others_C, Hbb|]. split; [apply len_others, He|]. split.
    + intros x Hx. eapply in_C; [apply nth_new|subst b; left; reflexivity|].
      eapply inside_ext; [apply Hin, Hx|apply ext_others_alloc].
    + intros x Hx. destruct (inside_new_C _ _ _ Hx) as [->|(c' & Hi & Hy)]; [left; apply len_others, He|].
      subst b. destruct Hi as [<-|[]]. apply Hout. eapply inside_old; [exact Hc|apply ext_others_alloc|exact Hy].
  - apply refines_same; intros flags _. apply refines_same; intros i _.
    set (hv := if i =? 0 then [this; right] else [right; this]). set (tv := if i =? 0 then [t; r] else [r; t]).
    assert (Hv : Forall2 (rep h) hv tv) by (subst hv tv; destruct (i =? 0); repeat constructor; assumption).
    assert (Hin : forall c, In c hv <-> c = this \/ c = right).
    { intros c. subst hv. destruct (i =? 0); cbn; intuition congruence. }
    pose proof (new_bia_rel (rep h) flags _ _ (m_size t + m_size r) Hv) as Hb.
    inversion Hb as [b b' Hbb Hb1 Hb2|e Hb1 Hb2]; [|constructor]. symmetry in Hb1. apply new_bia_values in Hb1. cbn [unwrap_ok bind].
    constructor. unfold alloc, lift_rel. split; [apply ext_others_alloc|]. split; [apply rep_others_C, Hbb|].
    pose proof (len_others h h (ext_refl h)) as Hlo. split; [exact Hlo|]. split.
    + intros x [Hx|Hx]; [apply in_C with (c := b) (child := this)|apply in_C with (c := b) (child := right)];
        try apply nth_new; try (subst b; cbn [bvalues]; apply Hin; auto); (eapply inside_ext; [exact Hx|apply ext_others_alloc]).
    + intros x Hx. destruct (inside_new_C _ _ _ Hx) as [->|(c' & Hi & Hy)]; [left; exact Hlo|].
      subst b. cbn [bvalues] in Hi. apply Hin in Hi. right.
      destruct Hi as [->|Hi]; [left|right; subst c']; (eapply inside_old; [|apply ext_others_alloc|exact Hy]; eassumption).
Qed.

Lemma hl_lift_ok h x t k v f n : rep_next h x t -> (forall y, inside h (hnext_node x) y -> inside h n y) ->
  refines (ins_rel h n) (hl_lift h x k v f) (l_lift t k v f).
Proof.
  intros Ht Hup. unfold hl_lift, l_lift. pose proof (len_others h h (ext_refl h)) as Hlo.
  assert (Hk : hnext_key h x = Ret (next_key t)).
  { destruct x as [a|a], t as [l|s]; try contradiction; cbn in *.
    - destruct (rep_l_inv _ _ _ Ht) as (y & z & Hn & _). rewrite (get_l_eq _ _ _ _ _ _ Hn). reflexivity.
    - rewrite (get_s_eq _ _ _ Ht). reflexivity. }
  rewrite Hk. cbn [bind]. destruct (hashk (next_key t) =? fl_hash f).
  - destruct (hl_new_ok h k v x t Ht) as (z & Hnew & Hrep). rewrite Hnew. cbn [bind]. constructor.
    exists (ML (l_new k v t)), (k, v), None. split; [destruct t; reflexivity|]. split; [apply ext_others_alloc|].
    split; [constructor; exact Hrep|]. cbn [addr_of]. split; [lia|]. split; [lia|].
    split; [replace (k, v) with (l_key (l_new k v t), l_value (l_new k v t)) by (destruct t; reflexivity); apply at_self_l, Hrep|].
    split; [constructor|]. eapply shares_alloc_L; [apply ext_refl|exact Ht|].
    apply shares_sub; [eexists; apply rep_next_node, Ht|apply ext_refl|exact Hup].
  - apply refines_same; intros tf0 _. apply refines_same; intros tf _. unfold hs_new, alloc. unfold cnode_lift.
    set (h0 := others h) in *. set (h1 := h0 ++ [CellS k v]).
    assert (He1 : ext h h1) by apply ext_others_alloc.
    assert (Hs1 : rep_s h1 (length h0) (SN k v)) by apply rep_alloc_S.
    eapply refines_bind.
    { apply (hc_lift_ok lift_fuel h1 (hnext_node x) (next_mnode t) tf (HS (length h0)) (MS (SN k v)) f).
      - eapply rep_ext; [apply rep_next_node, Ht|exact He1].
      - constructor. exact Hs1. }
    intros [a h'] c (He & Hc & Hl & Hin & Hout). constructor.
    assert (Hl1 : length h1 = S (length h0)) by (unfold h1; rewrite app_length; cbn; lia).
    exists (MC c), (k, v), None. split; [reflexivity|]. split; [eapply ext_trans; [exact He1|exact He]|].
    split; [exact Hc|]. cbn [addr_of]. split; [lia|]. split; [lia|].
    split; [split; [eapply entry_ext; [apply (entry_s h1 (length h0) (SN k v) Hs1)|exact He]|apply Hin; right; apply (in_self h1 (HS (length h0)))]|].
    split; [constructor|]. intros y Hy. destruct (Hout y Hy) as [H|[H|H]].
    + left. lia.
    + right. apply Hup. eapply inside_old; [apply rep_next_node, Ht|exact He1|exact H].
    + left. inversion H; subst. cbn. lia.
Qed.

Lemma hs_insert_ok h a s (q : Q) k v f replace : rep_s h a s ->
  refines (ins_rel h (HS a)) (hs_insert h a q k v f replace) (s_insert s q k v f replace).
Proof.
  intros H. unfold hs_insert, s_insert. pose proof (len_others h h (ext_refl h)) as Hlo. rewrite (get_s_eq _ _ _ H). cbn [bind fst].
  destruct (keqb (s_key s) q).
  - destruct replace.
    + constructor. exists (MS (SN k v)), (k, v), (Some (s_key s, s_value s)). split; [reflexivity|]. split; [apply ext_others_alloc|].
      split; [constructor; apply rep_alloc_S|]. cbn [addr_of]. split; [lia|]. split; [lia|].
      split; [apply (at_self_s (others h ++ [CellS k v]) (length (others h)) (SN k v)), rep_alloc_S|].
      split; [constructor; apply at_self_s, H|]. intros y Hy. inversion Hy; subst. left. cbn. lia.
    + constructor. split; [reflexivity|]. exists (s_key s, s_value s). split; [reflexivity|]. apply at_self_s, H.
  - apply refines_same. intros f' _. apply (hl_lift_ok h (XS a) (NS s)); [exact H|auto].
Qed.

Lemma hl_insert_ok h a l fuel (q : Q) k v f replace : rep_l h a l -> (a < fuel)%nat ->
  refines (ins_rel h (HL a)) (hl_insert fuel h a q k v f replace) (l_insert l q k v f replace).
Proof.
  intros H Hf. unfold hl_insert, l_insert.
  pose proof (hl_find_ok h q l a fuel H Hf) as Hfind.
  inversion Hfind as [r r' Hr Hr1 Hr2| |]; subst. cbn [bind].
  destruct Hr as [p e Hp|].
  - destruct e as [fk fv]. destruct replace.
    + pose proof (hl_remove_from_ok h q l a fuel H Hf) as Hrem.
      inversion Hrem as [[r h'] r' Hr Hr1' Hr2'| |]; subst. cbn [bind].
      destruct r as [|x c]; cbn in Hr.
      * destruct Hr as (-> & ->). constructor.
      * destruct Hr as (t & k' & v' & -> & He & Ht & Hc & Hs & _).
        destruct (hl_new_ok h' k v x t Ht) as (z' & Hnew & Hrep). rewrite Hnew. cbn [bind].
        replace (match lremoved t k' v' with
          | LRNotFound => Panic
          | LRL n rk rv => Ret (IL (l_new k v (NL n)) (l_key (l_new k v (NL n))) (l_value (l_new k v (NL n))) (Some (rk, rv)))
          | LRS s rk rv => Ret (IL (l_new k v (NS s)) (l_key (l_new k v (NS s))) (l_value (l_new k v (NS s))) (Some (rk, rv)))
          end) with (Ret (IL (l_new k v t) k v (Some (k', v')))) by (destruct t; reflexivity).
        constructor. exists (ML (l_new k v t)), (k, v), (Some (k', v')). split; [reflexivity|].
        split; [eapply ext_trans; [exact He|apply ext_others_alloc]|]. split; [constructor; exact Hrep|]. cbn [addr_of].
        pose proof (len_others _ _ He). split; [lia|]. split; [lia|].
        split; [replace (k, v) with (l_key (l_new k v t), l_value (l_new k v t)) by (destruct t; reflexivity); apply at_self_l, Hrep|].
        split; [constructor; exact Hc|]. eapply shares_alloc_L; eassumption.
    + constructor. split; [reflexivity|]. exists (fk, fv). split; [reflexivity|exact Hp].
  - apply refines_same. intros f' _. apply (hl_lift_ok h (XL a) (NL l)); [exact H|auto].
Qed.

(** A branch with one slot replaced. *)
Lemma ins_up h a bits hs ts x child h' (n' : hnode) (t' : mnode K V) (p : addr) e prev prev' fl size :
  nth_error h a = Some (CellC (BIA bits hs x)) -> Forall2 (rep h) hs ts ->
  (forall y, inside h child y -> inside h (HC a) y) ->
  ext h h' -> rep h' n' t' -> (length h <= p)%nat -> at_ h' n' p e -> orel (at_ h child) prev prev' -> shares h child h' n' ->
  refines (ins_rel h (HC a))
    (let* b := unwrap_ok (bupdated (BIA bits hs x) fl n' size) in
     let (c, h) := alloc h' (CellC b) in Ret (HInserted (HC c) p prev, h))
    (let* b := unwrap_ok (bupdated (BIA bits ts x) fl t' size) in Ret (IC b (fst e) (snd e) prev')).
Proof.
  intros Hn HF Hup He Ht Hp Hat Hpr Hs.
  assert (Hb : brel (rep h') (BIA bits hs x) (BIA bits ts x)).
  { apply brel_ext with (h := h); [|exact He]. repeat split. exact HF. }
  pose proof (bupdated_rel _ _ _ fl n' t' size Hb Ht) as Hu.
  inversion Hu as [b b' Hbb Hb1 Hb2|er Hb1 Hb2]; [|constructor]. symmetry in Hb1. cbn [unwrap_ok bind alloc].
  constructor. exists (MC b'), e, prev'. split; [reflexivity|]. split; [eapply ext_trans; [exact He|apply ext_others_alloc]|].
  split; [apply rep_others_C, Hbb|]. cbn [addr_of]. split; [apply len_others, He|]. split; [exact Hp|].
  split.
  { destruct Hat as (H1 & H2). split; [eapply entry_ext; [exact H1|apply ext_others_alloc]|].
    eapply in_C; [apply nth_new|eapply bupdated_has; eassumption|eapply inside_ext; [exact H2|apply ext_others_alloc]]. }
  split; [eapply orel_up; eassumption|].
  apply shares_alloc_C; [exact He|]. intros c Hc. destruct (bupdated_in _ _ _ _ _ _ Hb1 Hc) as [->|Hi].
  - split; [eauto|]. eapply shares_up; eassumption.
  - cbn [bvalues] in Hi. destruct (in_forall2 _ _ _ _ HF Hi) as (t & _ & Hct).
    split; [exists t; eapply rep_ext; eassumption|].
    apply shares_sub; [eauto|exact He|]. intros y Hy. eapply in_C; [exact Hn|exact Hi|exact Hy].
Qed.

Lemma h_insert_ok (q : Q) k v replace fuel : forall h n t f, rep h n t -> (addr_of n < fuel)%nat ->
  refines (ins_rel h n) (h_insert fuel h n q k v f replace) (m_insert t q k v f replace).
Proof.
  induction fuel as [|fuel IH]; intros h n t f H Hf; [lia|]. destruct H as [a bits hs ts x Hn HF Hlt|a l H|a s H].
  2:{ apply (hl_insert_ok h a l (S fuel)); assumption. }
  2:{ apply hs_insert_ok. assumption. }
  cbn [h_insert m_insert].
  rewrite (get_c_eq _ _ _ Hn). cbn [bind addr_of] in *. apply refines_same. intros f' _. rewrite bat_map.
  destruct (child_rel h a bits hs ts x (fl_flag f') Hn HF Hlt) as [c t (Hc & Hlc & Hin)|e].
  - destruct Hc as [b bits' hs' ts' x' Hn' HF' Hlt'|b l H|b s H]; apply refines_same; intros nx _.
    + eapply refines_bind; [apply (IH h (HC b)); [econstructor; eassumption|lia]|].
      intros [[p|n' p prev] h'] r' Hr; cbn in Hr.
      * destruct Hr as (-> & e & -> & He). constructor. split; [reflexivity|]. exists e. split; [reflexivity|]. eapply at_up; eassumption.
      * destruct Hr as (t' & e & prev' & -> & He & Ht & Hl & Hp & Hat & Hpr & Hs).
        destruct t' as [c2|l2|s2]; cbn [inserted]; inversion Ht; subst; try constructor.
        assert (Hcc : rep h' (HC b) (MC (BIA bits' ts' x'))) by (eapply rep_ext; [econstructor; eassumption|exact He]).
        rewrite (h_size_ok _ _ _ Ht), (h_size_ok _ _ _ Hcc). cbn [bind m_size bextra].
        apply refines_same. intros size _.
        eapply (ins_up h a bits hs ts x (HC b)); eassumption.
    + eapply refines_bind; [apply (hl_insert_ok h b l fuel); [assumption|cbn in Hlc; lia]|].
      intros [[p|n' p prev] h'] r' Hr; cbn in Hr.
      * destruct Hr as (-> & e & -> & He). constructor. split; [reflexivity|]. exists e. split; [reflexivity|]. eapply at_up; eassumption.
      * destruct Hr as (t' & e & prev' & -> & He & Ht & Hl & Hp & Hat & Hpr & Hs).
        destruct t' as [c2|l2|s2]; cbn [inserted]; inversion Ht; subst; try constructor.
        -- cbn [bind bextra]. eapply (ins_up h a bits hs ts x (HL b)); eassumption.
        -- assert (Hcc : rep h' (HL b) (ML l)) by (eapply rep_ext; [econstructor; eassumption|exact He]).
           rewrite (h_size_ok _ _ _ Ht), (h_size_ok _ _ _ Hcc). cbn [bind m_size bextra].
           apply refines_same. intros size _. eapply (ins_up h a bits hs ts x (HL b)); eassumption.
    + eapply refines_bind; [apply (hs_insert_ok h b s); assumption|].
      intros [[p|n' p prev] h'] r' Hr; cbn in Hr.
      * destruct Hr as (-> & e & -> & He). constructor. split; [reflexivity|]. exists e. split; [reflexivity|]. eapply at_up; eassumption.
      * destruct Hr as (t' & e & prev' & -> & He & Ht & Hl & Hp & Hat & Hpr & Hs).
        destruct t' as [c2|l2|s2]; cbn [inserted]; inversion Ht; subst; cbn [bind bextra];
          eapply (ins_up h a bits hs ts x (HS b)); eassumption.
  - pose proof (len_others h h (ext_refl h)) as Hlo.
    unfold hs_new, alloc. set (h0 := others h) in *. set (h1 := h0 ++ [CellS k v]).
    assert (Hs1 : rep_s h1 (length h0) (SN k v)) by apply rep_alloc_S.
    assert (Hl1 : length h1 = S (length h0)) by (unfold h1; rewrite app_length; cbn; lia).
    assert (He : ext h h1) by apply ext_others_alloc. pose proof (len_others h1 h1 (ext_refl h1)) as Hlo1.
    assert (Hb : brel (rep h1) (BIA bits hs x) (BIA bits ts x)).
    { apply brel_ext with (h := h); [|exact He]. repeat split. exact HF. }
    pose proof (binserted_rel _ _ _ (fl_flag f') (HS (length h0)) (MS (SN k v)) (x + 1) Hb ltac:(constructor; exact Hs1)) as Hu.
    cbn [bextra].
    inversion Hu as [b b' Hbb Hb1 Hb2|er Hb1 Hb2]; [|constructor]. symmetry in Hb1. cbn [unwrap_ok bind].
    constructor. exists (MC b'), (k, v), None. split; [reflexivity|]. split; [eapply ext_trans; [exact He|apply ext_others_alloc]|].
    split; [apply rep_others_C, Hbb|]. cbn [addr_of]. split; [lia|]. split; [lia|]. split.
    { split; [eapply entry_ext; [apply (entry_s _ _ _ Hs1)|apply ext_others_alloc]|].
      eapply in_C; [apply nth_new|eapply binserted_has; eassumption|apply (in_self _ (HS (length h0)))]. }
    split; [constructor|]. apply shares_alloc_C; [exact He|].
    intros c Hc. destruct (binserted_in _ _ _ _ _ _ Hb1 Hc) as [->|Hi].
    + split; [exists (MS (SN k v)); constructor; exact Hs1|]. intros y Hy. inversion Hy; subst. left. cbn. lia.
    + cbn [bvalues] in Hi. destruct (in_forall2 _ _ _ _ HF Hi) as (t & _ & Hct).
      split; [exists t; eapply rep_ext; eassumption|].
      apply shares_sub; [eauto|exact He|]. intros y Hy. eapply in_C; [exact Hn|exact Hi|exact Hy].
Qed.

(** ** remove *)
Definition removed_ (t : mnode K V) (e : K * V) : remove_result K V :=
  match t with
  | MC c => RC c (fst e) (snd e)
  | ML l => RL l (fst e) (snd e)
  | MS s => RS s (fst e) (snd e)
  end.

Definition rem_rel h (n : hnode) (r : hremove_result * heap) (r' : remove_result K V) : Prop :=
  let (r, h') := r in
  match r with
  | HNotFound => h' = h /\ r' = RNotFound
  | HRemoved n' a => exists t' e, r' = removed_ t' e /\ ext h h' /\ rep h' n' t' /\
      ((length h <= addr_of n')%nat \/ (addr_of n' < addr_of n)%nat) /\ at_ h n a e /\ shares h n h' n'
  | HZ a => h' = h /\ exists e, r' = RZ (fst e) (snd e) /\ at_ h n a e
  end.

Lemma rem_new_C h a bits hs ts x h' b b' p e :
  nth_error h a = Some (CellC (BIA bits hs x)) -> Forall2 (rep h) hs ts -> ext h h' -> brel (rep h') b b' ->
  (forall c, In c (bvalues b) -> In c hs \/ (exists t, rep h' c t) /\ shares h (HC a) h' c) -> at_ h (HC a) p e ->
  rem_rel h (HC a) (HRemoved (HC (length (others h'))) p, others h' ++ [CellC b]) (RC b' (fst e) (snd e)).
Proof.
  intros Hn HF He Hb Hin Hat. exists (MC b'), e. split; [reflexivity|].
  split; [eapply ext_trans; [exact He|apply ext_others_alloc]|]. split; [apply rep_others_C, Hb|].
  split; [left; apply len_others, He|]. split; [exact Hat|]. apply shares_alloc_C; [exact He|].
  intros c Hc. destruct (Hin c Hc) as [Hi|H]; [|exact H].
  destruct (in_forall2 _ _ _ _ HF Hi) as (t & _ & Hct). split; [exists t; eapply rep_ext; eassumption|].
  apply shares_sub; [eauto|exact He|]. intros y Hy. eapply in_C; [exact Hn|exact Hi|exact Hy].
Qed.

Lemma h_remove_ok (q : Q) fuel : forall h n t f, rep h n t -> (addr_of n < fuel)%nat ->
  refines (rem_rel h n) (h_remove fuel h n q f) (m_remove t q f).
Proof.
  induction fuel as [|fuel IH]; intros h n t f H Hf; [lia|]. destruct H as [a bits hs ts x Hn HF Hlt|a l H|a s H]; cbn [h_remove m_remove].
  - rewrite (get_c_eq _ _ _ Hn). cbn [bind addr_of] in *. apply refines_same. intros f' _. rewrite bat_map.
    destruct (child_rel h a bits hs ts x (fl_flag f') Hn HF Hlt) as [c t (Hc & Hlc & Hin)|e]; [|constructor; split; reflexivity].
    apply refines_same. intros nx _. eapply refines_bind; [apply (IH h c t nx Hc); lia|].
    intros [[|n' p|p] h'] r' Hr; cbn in Hr.
    + destruct Hr as (-> & ->). constructor. split; reflexivity.
    + destruct Hr as (t' & e & -> & He & Ht & _ & Hat & Hs).
      assert (Hb : brel (rep h') (BIA bits hs x) (BIA bits ts x)).
      { apply brel_ext with (h := h); [|exact He]. repeat split. exact HF. }
      assert (Hfin : forall size, refines (rem_rel h (HC a))
        (let* b := unwrap_ok (bupdated (BIA bits hs x) (fl_flag f') n' size) in
         let (c, h) := alloc h' (CellC b) in Ret (HRemoved (HC c) p, h))
        (let* b := unwrap_ok (bupdated (BIA bits ts x) (fl_flag f') t' size) in Ret (RC b (fst e) (snd e)))).
      { intros size. pose proof (bupdated_rel _ _ _ (fl_flag f') n' t' size Hb Ht) as Hu.
        inversion Hu as [b b' Hbb Hb1 Hb2|er Hb1 Hb2]; [|constructor]. symmetry in Hb1. cbn [unwrap_ok bind alloc].
        constructor. eapply rem_new_C; [exact Hn|exact HF|exact He|exact Hbb| |eapply at_up; eassumption].
        intros c' Hc'. destruct (bupdated_in _ _ _ _ _ _ Hb1 Hc') as [->|Hi]; [right|left; exact Hi].
        split; [eauto|]. eapply shares_up; eassumption. }
      destruct t' as [c2|l2|s2]; cbn [removed_]; inversion Ht; subst.
      * rewrite (h_size_ok _ _ _ Ht). cbn [bind m_size]. destruct (_ =? 0); [constructor|].
        cbn [bextra]. apply refines_same. intros size _. apply Hfin.
      * cbn [bind bextra]. change (1 =? 0) with false. cbn iota. apply refines_same. intros size _. apply Hfin.
      * cbn [bind bextra]. change (1 =? 0) with false. cbn iota. apply refines_same. intros size _. apply Hfin.
    + destruct Hr as (-> & e & -> & Hat). cbn [bextra]. destruct (x =? 1).
      * constructor. split; [reflexivity|]. exists e. split; [reflexivity|]. eapply at_up; eassumption.
      * apply refines_same. intros size _.
        assert (Hb : brel (rep h) (BIA bits hs x) (BIA bits ts x)) by (repeat split; exact HF).
        pose proof (bremoved_rel _ _ _ (fl_flag f') size Hb) as Hu.
        inversion Hu as [b b' Hbb Hb1 Hb2|er Hb1 Hb2]; [|constructor]. symmetry in Hb1. cbn [unwrap_ok bind alloc].
        constructor. eapply rem_new_C; [exact Hn|exact HF|apply ext_refl|exact Hbb| |eapply at_up; eassumption].
        intros c' Hc'. left. apply (bremoved_in _ _ _ _ _ Hb1 Hc').
  - pose proof (hl_remove_from_ok h q l a (S fuel) H Hf) as Hrem.
    set (o := hl_remove_from (S fuel) h a q) in *. clearbody o. unfold l_remove.
    inversion Hrem as [[r h'] r' Hr Hr1 Hr2| |]; subst. cbn [bind].
    destruct r as [|y p]; cbn in Hr.
    + destruct Hr as (-> & ->). constructor. split; reflexivity.
    + destruct Hr as (t & k & v & -> & He & Ht & Hat & Hs & Hl).
      constructor. exists (next_mnode t), (k, v). split; [destruct t; reflexivity|]. split; [exact He|].
      split; [apply rep_next_node, Ht|]. auto.
  - rewrite (get_s_eq _ _ _ H). cbn [bind fst]. constructor. unfold s_remove.
    destruct (keqb (s_key s) q); [|split; reflexivity].
    split; [reflexivity|]. exists (s_key s, s_value s). split; [reflexivity|]. apply at_self_s, H.
Qed.

End Query.
End Ops.
