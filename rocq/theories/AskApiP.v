(** find, insert and remove on maps whose keys do not keep their contracts. *)
From Coq Require Import NArith Arith List Bool Lia ZifyBool ZifyN ZifyNat Permutation.
From Verif Require Import Base Words WordsP Flag FlagP Bia BiaP Node Spec SpecP Inv NodeP InsertP TrieP Api ApiP Reach ReachP Cost Profile CostP
  Eff EffP Ask SpecAsk AskP AskOpP AskInsP AskCostP AskHashP Trans Transform EffApi AskT SpecAskT AskTP AskTopP AskJ SpecAskJ AskJLooseP AskTw AskTwPlaceP Misuse.
Import ListNotations.
Open Scope N_scope.

Section AskApiP.
Context {E : Env} {K V : Type} {KK : Key K}.

Section Loose.
Context {L W : Type}.
Notation event := (event (A := @reply E K V L W)).
Notation said := (@answer _ (@reply E K V L W)).

Lemma flagged_0 h (n : mnode K V) : exists f, flag_new h = Ret f /\ flagged 0 h n (Some f).
Proof.
  destruct (flag_new_at h) as (f & H1 & H2 & H3). exists f. split; [assumption|]. cbn [flagged].
  assert (Ho : off 0 < hbits) by (unfold off, hbits; pose proof (max_ones_ge hw); lia).
  split; [|split; [assumption|split; [assumption|apply placed_usable; assumption]]].
  rewrite flag_at_ok by assumption. rewrite flag_new_ok in H1. congruence.
Qed.

Lemma ask_find_loose (m : trie K V) (q : L) tr o : loose 0 m -> exec (ask_find (W := W) m q) tr o ->
  match o with
  | Ret (Ok e) => In e (map_visit m) /\ exists tr1, tr = tr1 ++ [said (CEq (fst e) q) true] /\ no_yes tr1
  | Ret (Err _) => no_yes tr
  | Panic => failed tr
  | Diverge => False
  end.
Proof.
  intros HL. revert tr o. change (gives (ask_find (W := W) m q) (fun tr o => match o with
  | Ret (Ok e) => In e (map_visit m) /\ exists tr1, tr = tr1 ++ [said (CEq (fst e) q) true] /\ no_yes tr1
  | Ret (Err _) => no_yes tr
  | Panic => failed tr
  | Diverge => False
  end)).
  unfold ask_find, ask. cbn [pbind]. apply gives_ask; [apply failed_here|]. intros h.
  destruct (flag_new_at (proj1_sig (h : word))) as (f & Hf & Hfa & _). rewrite Hf. cbn [lift pbind].
  eapply gives_bind; [eapply am_find_post; eassumption| | |].
  - intros tr [e|] Hp; cbn [find_post] in Hp; apply gives_ret; rewrite app_nil_r.
    + destruct Hp as (H1 & tr1 & -> & H2 & _). split; [assumption|]. exists (said (CHashQ q) h :: tr1). split; [reflexivity|].
      constructor; [reflexivity|assumption].
    + destruct Hp as [Hp _]. constructor; [reflexivity|assumption].
  - intros tr H. apply failed_cons. exact H.
  - intros tr [].
Qed.

Lemma ask_remove_loose (m : trie K V) (q : L) tr o : loose 0 m -> exec (ask_remove (W := W) m q) tr o ->
  match o with
  | Ret (Ok (m', e)) => loose 0 m' /\ no_into tr /\ In (said (CEq (fst e) q) true) tr /\
      exists l l', Permutation (map_visit m) (e :: l) /\ Forall2 (copied tr) l l' /\ Permutation (map_visit m') l'
  | Ret (Err _) => no_yes tr /\ no_into tr
  | Panic => failed tr \/ checked = true
  | Diverge => False
  end.
Proof.
  intros HL. revert tr o. change (gives (ask_remove (W := W) m q) (fun tr o => match o with
  | Ret (Ok (m', e)) => loose 0 m' /\ no_into tr /\ In (said (CEq (fst e) q) true) tr /\
      exists l l', Permutation (map_visit m) (e :: l) /\ Forall2 (copied tr) l l' /\ Permutation (map_visit m') l'
  | Ret (Err _) => no_yes tr /\ no_into tr
  | Panic => failed tr \/ checked = true
  | Diverge => False
  end)).
  unfold ask_remove, ask. cbn [pbind]. apply gives_ask; [left; apply failed_here|]. intros h.
  destruct (flag_new_at (proj1_sig (h : word))) as (f & Hf & Hfa & _). rewrite Hf. cbn [lift pbind].
  eapply gives_bind; [apply (am_remove_post m 0 q (Some f)); [assumption|eauto]| | |].
  - intros tr r Hp. cbn [rem_post] in Hp. destruct Hp as [Hi Hp]. apply gives_ret. rewrite app_nil_r.
    assert (Hgo : forall n' e, loose 0 n' -> taken (m_visit m) (m_visit n') e q tr ->
      loose 0 n' /\ no_into (said (CHashQ q) h :: tr) /\ In (said (CEq (fst e) q) true) (said (CHashQ q) h :: tr) /\
      exists l l', Permutation (map_visit m) (e :: l) /\ Forall2 (copied (said (CHashQ q) h :: tr)) l l' /\ Permutation (map_visit n') l').
    { intros n' e Hn' Ht. apply (taken_more _ _ _ _ _ (said (CHashQ q) h :: tr)) in Ht; [|intros; right; assumption].
      destruct Ht as (Ht & l & l' & H1 & H2 & H3). split; [assumption|]. split; [constructor; [reflexivity|assumption]|].
      split; [assumption|]. exists l, l'. auto. }
    destruct r as [|c k v|l k v|s k v|k v]; cbn [left_by] in Hp.
    + split; constructor; auto.
    + destruct Hp as (H1 & _ & H2). apply Hgo; assumption.
    + destruct Hp as (H1 & _ & H2). apply Hgo; assumption.
    + destruct Hp as (H1 & _ & H2). apply Hgo; assumption.
    + apply Hgo; [|exact Hp]. unfold map_new, bdefault. constructor; auto.
      * apply placed_usable. unfold off, hbits. pose proof (max_ones_ge hw). lia.
      * apply okv_nil.
      * intros c [].
  - intros tr [H|H]; [left; apply failed_cons; exact H|right; exact H].
  - intros tr [].
Qed.

(** Another hash than the given key's was answered for a stored key. *)
Definition other_hash (q : L) (tr : list event) : Prop :=
  exists h k h', In (said (CHashQ q) h) tr /\ In (said (CHash k) h') tr /\ proj1_sig h' <> proj1_sig h.

Lemma ask_insert_loose (m : trie K V) (q : L) (w : W) rep tr o : loose 0 m -> exec (ask_insert m q w rep) tr o ->
  match o with
  | Ret (Ok (m', e, prev)) => loose 0 m' /\ (rep = false -> prev = None) /\
      (exists tr1, tr = tr1 ++ [said (CInto q) (fst e); said (CIntoV w) (snd e)] /\ no_into tr1) /\
      match prev with Some p => In (said (CEq (fst p) q) true) tr | None => no_yes tr end /\
      exists l l', Permutation (map_visit m) (olist prev ++ l) /\ Forall2 (copied tr) l l' /\ Permutation (map_visit m') (e :: l')
  | Ret (Err e) => rep = false /\ In e (map_visit m) /\ exists tr1, tr = tr1 ++ [said (CEq (fst e) q) true] /\ no_yes tr1 /\ no_into tr1
  | Panic => failed tr \/ checked = true \/ contrary q tr \/ other_hash q tr \/ 8 * hbits <= off (branches m)
  | Diverge => False
  end.
Proof.
  intros HL. revert tr o. change (gives (ask_insert m q w rep) (fun tr o => match o with
  | Ret (Ok (m', e, prev)) => loose 0 m' /\ (rep = false -> prev = None) /\
      (exists tr1, tr = tr1 ++ [said (CInto q) (fst e); said (CIntoV w) (snd e)] /\ no_into tr1) /\
      match prev with Some p => In (said (CEq (fst p) q) true) tr | None => no_yes tr end /\
      exists l l', Permutation (map_visit m) (olist prev ++ l) /\ Forall2 (copied tr) l l' /\ Permutation (map_visit m') (e :: l')
  | Ret (Err e) => rep = false /\ In e (map_visit m) /\ exists tr1, tr = tr1 ++ [said (CEq (fst e) q) true] /\ no_yes tr1 /\ no_into tr1
  | Panic => failed tr \/ checked = true \/ contrary q tr \/ other_hash q tr \/ 8 * hbits <= off (branches m)
  | Diverge => False
  end)).
  unfold ask_insert, ask. cbn [pbind]. apply gives_ask; [left; apply failed_here|]. intros h.
  destruct (flagged_0 (proj1_sig (h : word)) m) as (f & Hf & Hfa). rewrite Hf. cbn [lift pbind].
  eapply gives_bind; [apply (am_insert_post m 0 q w (Some f) _ rep HL Hfa)| | |].
  - intros tr r Hp. apply gives_ret. rewrite app_nil_r.
    assert (Hgo : forall n' e prev, ires r = Some (n', e, prev) -> loose 0 n' /\ (rep = false -> prev = None) /\
      (exists tr1, said (CHashQ q) h :: tr = tr1 ++ [said (CInto q) (fst e); said (CIntoV w) (snd e)] /\ no_into tr1) /\
      match prev with Some p => In (said (CEq (fst p) q) true) (said (CHashQ q) h :: tr) | None => no_yes (said (CHashQ q) h :: tr) end /\
      exists l l', Permutation (map_visit m) (olist prev ++ l) /\ Forall2 (copied (said (CHashQ q) h :: tr)) l l' /\ Permutation (map_visit n') (e :: l')).
    { intros n' e prev Er. cbn [ins_post] in Hp.
      assert (Hp' : loose 0 n' /\ given e q w tr /\ told prev q tr /\ put_in (m_visit m) (m_visit n') e prev tr /\ (rep = false -> prev = None)).
      { destruct r; [discriminate Er|..]; cbn [ires] in *; injection Er as <- <- <-; tauto. }
      destruct Hp' as (H1 & H2 & H3 & (l & l' & H4 & H5 & H6) & H7). split; [assumption|]. split; [assumption|]. split; [|split].
      - destruct H2 as (tr1 & -> & H2). exists (said (CHashQ q) h :: tr1). split; [reflexivity|]. constructor; [reflexivity|assumption].
      - destruct prev; cbn [told] in H3; [right; assumption|constructor; [reflexivity|assumption]].
      - exists l, l'. split; [assumption|]. split; [|assumption]. eapply copied_more; [|exact H5]. intros; right; assumption. }
    destruct r as [k v|c k v prev|l k v prev|s k v prev].
    + destruct Hp as (H1 & H2 & tr1 & -> & H3 & H4). split; [assumption|]. split; [exact H2|]. exists (said (CHashQ q) h :: tr1).
      split; [reflexivity|]. split; constructor; auto.
    + apply Hgo. reflexivity.
    + apply Hgo. reflexivity.
    + apply Hgo. reflexivity.
  - intros tr [H|[H|[H|[H|H]]]].
    + left. apply failed_cons. exact H.
    + right. left. exact H.
    + right. right. left. destruct H as (k & H1 & H2). exists k. split; right; assumption.
    + do 3 right. left. destruct H as (nx & h' & _ & _ & _ & _ & _ & _ & H1 & H2 & _). exists h, (next_key nx), h'.
      split; [left; reflexivity|]. split; [right; exact H1|exact H2].
    + do 4 right. rewrite N.add_0_l in H. exact H.
  - intros tr [].
Qed.

(** ** Calls *)

Lemma one_more (p : call K V L W -> bool) (e : event) tr b : count p tr <= b -> p (asked e) = false -> count p (e :: tr) <= b.
Proof. intros H He. rewrite count_cons, He. lia. Qed.

Lemma ask_find_spends (m : trie K V) (q : L) tr o : exec (ask_find (W := W) m q) tr o ->
  count is_hash_q tr = 1 /\ count is_eq tr <= longest m /\ count is_hash tr = 0 /\ count is_key tr = 0 /\ count is_value tr = 0 /\ count is_into tr = 0.
Proof.
  unfold ask_find, ask. cbn [pbind]. intros [(h & tr' & -> & He)|[-> _]].
  - assert (Hs : spent (longest m) 0 0 0 0 tr').
    { revert tr' o He. change (spends (longest m) 0 0 0 0 (let+ f := lift (flag_new (proj1_sig (h : word))) in
        let+ r := am_find (W := W) m q (Some f) in PRet (match r with Some e => Ok e | None => Err NotFound end))).
      apply spends_free. intros f _. eapply spends_weak; [eapply (spends_bind _ _ _ _ _ 0 0 0 0 0); [apply am_find_spends|intros; apply spends_ret]|lia..]. }
    destruct Hs as (H1 & H2 & H3 & H4 & H5 & H6). rewrite !count_cons. cbn [asked answer projT1 is_eq is_hash is_hash_q is_key is_value is_into]. repeat split; lia.
  - cbn. repeat split; lia.
Qed.

Lemma ask_remove_spends (m : trie K V) (q : L) tr o : exec (ask_remove (W := W) m q) tr o ->
  count is_hash_q tr = 1 /\ count is_eq tr <= longest m /\ count is_hash tr = 0 /\
  count is_key tr <= longest m - 1 /\ count is_value tr <= longest m - 1 /\ count is_into tr = 0.
Proof.
  unfold ask_remove, ask. cbn [pbind]. intros [(h & tr' & -> & He)|[-> _]].
  - assert (Hs : spent (longest m) 0 (longest m - 1) (longest m - 1) 0 tr').
    { revert tr' o He. match goal with |- forall tr o, exec ?p tr o -> _ => change (spends (longest m) 0 (longest m - 1) (longest m - 1) 0 p) end.
      apply spends_free. intros f _. eapply spends_weak; [eapply (spends_bind _ _ _ _ _ 0 0 0 0 0); [apply am_remove_spends|intros; apply spends_ret]|lia..]. }
    destruct Hs as (H1 & H2 & H3 & H4 & H5 & H6). rewrite !count_cons. cbn [asked answer projT1 is_eq is_hash is_hash_q is_key is_value is_into]. repeat split; lia.
  - cbn. repeat split; lia.
Qed.

Lemma ask_insert_spends (m : trie K V) (q : L) (w : W) rep tr o : exec (ask_insert m q w rep) tr o ->
  count is_hash_q tr = 1 /\ count is_eq tr <= 2 * longest m /\ count is_hash tr <= 1 /\
  count is_key tr <= longest m - 1 /\ count is_value tr <= longest m - 1 /\ count is_into tr <= 2.
Proof.
  unfold ask_insert, ask. cbn [pbind]. intros [(h & tr' & -> & He)|[-> _]].
  - assert (Hs : spent (2 * longest m) 1 (longest m - 1) (longest m - 1) 2 tr').
    { revert tr' o He. match goal with |- forall tr o, exec ?p tr o -> _ => change (spends (2 * longest m) 1 (longest m - 1) (longest m - 1) 2 p) end.
      apply spends_free. intros f _. eapply spends_weak; [eapply (spends_bind _ _ _ _ _ 0 0 0 0 0); [apply am_insert_spends|intros; apply spends_ret]|lia..]. }
    destruct Hs as (H1 & H2 & H3 & H4 & H5 & H6). rewrite !count_cons. cbn [asked answer projT1 is_eq is_hash is_hash_q is_key is_value is_into]. repeat split; lia.
  - cbn. repeat split; lia.
Qed.

End Loose.

End AskApiP.

Lemma Forall_forall_True {A} (l : list A) : Forall (fun _ => True) l.
Proof. induction l; constructor; auto. Qed.

(** ** Misused maps *)

Lemma new_placed {E : Env} {K V : Type} {KK : Key K} : placed 0 0 (map_new (K := K) (V := V)).
Proof. apply wf_placed, reachable_mwf. constructor. Qed.
Lemma new_loose {E : Env} {K V : Type} : loose 0 (map_new (K := K) (V := V)).
Proof. eapply shaped_loose, new_shaped. apply usable_0. Qed.

Lemma misused_loose {E : Env} {K V : Type} (m : trie K V) : misused m -> loose 0 m.
Proof.
  intros H. induction H as [K V KK m H|K V L W m q w rep tr m' e prev _ IH He|K V L W m q tr m' e _ IH He|K V R m st w tr m' r o _ IH He|K V S X R m w tr m' r _ IH He|
    K V L W R m right st tr m' r o _ IHl _ IHr He|K V L W R m right st tr m' r o _ IHl _ IHr He|K V L W S X R m right tr m' r _ IHl _ IHr He|K V R m right st wb wl wr tr m' r o _ IHl _ IHr He].
  - apply (placed_loose 0 0), wf_placed, reachable_mwf. assumption.
  - apply (ask_insert_loose _ _ _ _ _ _ IH He).
  - apply (ask_remove_loose _ _ _ _ IH He).
  - destruct w as [|r'|r'].
    + destruct (loose_transform st m IH _ _ He (Forall_forall_True _)) as (rest & _ & _ & H & _). exact H.
    + apply ask_transform_const in He. destruct He as [_ [= -> _ _]]. assumption.
    + apply ask_transform_const in He. destruct He as [_ [= -> _ _]]. apply new_loose.
  - destruct w as [|r'].
    + destruct (loose_transmute m IH _ _ He (Forall_forall_True _)) as (rest & _ & _ & H & _). exact H.
    + apply ask_transmute_const in He. destruct He as [_ [= -> _]]. apply new_loose.
  - destruct (loose_tm st m right _ _ IHl IHr He) as (rest & _ & _ & H & _). exact H.
  - destruct (loose_mt st m right _ _ IHl IHr He) as (rest & _ & _ & H & _). exact H.
  - destruct (loose_mm m right _ _ IHl IHr He) as (rest & _ & _ & H & _). exact H.
  - apply (loose_tt_any st wb wl wr m right tr (Ret (m', r, o)) IHl IHr He).
Qed.

Section Misused.
Context {E : Env} {K V : Type}.

Theorem misused_size (m : trie K V) : misused m -> map_size m = lenN (map_visit m).
Proof. intros H. apply (loose_size 0). apply misused_loose. assumption. Qed.

Theorem misused_find {L W} (m : trie K V) (q : L) tr o : misused m -> exec (ask_find (W := W) m q) tr o ->
  match o with
  | Ret (Ok e) => In e (map_visit m) /\ exists tr1, tr = tr1 ++ [answer (CEq (fst e) q) true] /\ no_yes tr1
  | Ret (Err _) => no_yes tr
  | Panic => failed tr
  | Diverge => False
  end.
Proof. intros H. apply ask_find_loose. apply misused_loose. assumption. Qed.

Theorem misused_remove {L W} (m : trie K V) (q : L) tr o : misused m -> exec (ask_remove (W := W) m q) tr o ->
  match o with
  | Ret (Ok (m', e)) => no_into tr /\ In (answer (CEq (fst e) q) true) tr /\
      exists l l', Permutation (map_visit m) (e :: l) /\ Forall2 (copied tr) l l' /\ Permutation (map_visit m') l'
  | Ret (Err _) => no_yes tr /\ no_into tr
  | Panic => failed tr \/ checked = true
  | Diverge => False
  end.
Proof.
  intros H He. pose proof (ask_remove_loose _ _ _ _ (misused_loose _ H) He) as Hp. destruct o as [[[m' e]|er]| |]; try exact Hp. apply Hp.
Qed.

Theorem misused_insert {L W} (m : trie K V) (q : L) (w : W) rep tr o : misused m -> exec (ask_insert m q w rep) tr o ->
  match o with
  | Ret (Ok (m', e, prev)) => (rep = false -> prev = None) /\
      (exists tr1, tr = tr1 ++ [answer (A := reply) (CInto q) (fst e); answer (A := reply) (CIntoV w) (snd e)] /\ no_into tr1) /\
      match prev with Some p => In (answer (CEq (fst p) q) true) tr | None => no_yes tr end /\
      exists l l', Permutation (map_visit m) (olist prev ++ l) /\ Forall2 (copied tr) l l' /\ Permutation (map_visit m') (e :: l')
  | Ret (Err e) => rep = false /\ In e (map_visit m) /\ exists tr1, tr = tr1 ++ [answer (CEq (fst e) q) true] /\ no_yes tr1 /\ no_into tr1
  | Panic => failed tr \/ checked = true \/
      (exists k, In (answer (CEq k q) true) tr /\ In (answer (CEq k q) false) tr) \/
      (exists h k h', In (answer (CHashQ q) h) tr /\ In (answer (CHash k) h') tr /\ proj1_sig h' <> proj1_sig h) \/
      8 * max_ones hw <= branches m * log_b fw
  | Diverge => False
  end.
Proof.
  intros H He. pose proof (ask_insert_loose _ _ _ _ _ _ (misused_loose _ H) He) as Hp.
  destruct o as [[[[m' e] prev]|er]| |]; try exact Hp. apply Hp.
Qed.

(** ** Maps with only == in disorder *)

End Misused.

Lemma unequal_placed {E : Env} {K V : Type} {KK : Key K} (m : trie K V) : unequal m -> placed 0 0 m.
Proof.
  intros H. induction H as [K V KK m H|K V KK L W KL m q w rep tr m' e prev _ IH HS He|K V KK L W KL m q tr m' e _ IH HS He|K V KK R m st w tr m' r o _ IH HS He|K V KK S X KS R m w tr m' r _ IH HS He|
    K V KK L W KL R m right st tr m' r o _ IHl _ IHr HS He|K V KK L W KL R m right st tr m' r o _ IHl _ IHr HS He|K V KK L W KL S X KS R m right tr m' r _ IHl _ IHr HS He|K V KK R m right st wb wl wr tr m' r o _ IHl _ IHr HS He].
  - apply wf_placed, reachable_mwf. assumption.
  - unfold ask_insert, ask in He. cbn [pbind] in He. destruct He as [(h & tr' & -> & He)|[_ He]]; [|discriminate].
    inversion HS as [|x y Hh HS']; subst. cbn [pbind] in He. change (proj1_sig (h : word) = hashk q) in Hh. rewrite Hh in He.
    rewrite flag_new_ok in He. cbn [lift pbind] in He. apply exec_bind in He.
    destruct He as [(t1 & t2 & r & -> & He & [-> Hr])|[[_ Hr]|[_ Hr]]]; [|discriminate..].
    rewrite app_nil_r in HS'.
    assert (HP0 : placed 0 (pre 0 (hashk q)) m) by (rewrite pre_0; exact IH).
    assert (Hf0 : flag_for 0 (hashk q) (mkFlag (hashk q) 0 (2 ^ idx 0 (hashk q)))) by repeat split.
    pose proof (am_insert_placed m 0 q w _ rep HP0 Hf0 _ _ He HS') as Hp. rewrite pre_0 in Hp.
    destruct r; [discriminate|..]; injection Hr as -> _ _; exact Hp.
  - unfold ask_remove, ask in He. cbn [pbind] in He. destruct He as [(h & tr' & -> & He)|[_ He]]; [|discriminate].
    inversion HS as [|x y Hh HS']; subst. cbn [pbind] in He. change (proj1_sig (h : word) = hashk q) in Hh. rewrite Hh in He.
    rewrite flag_new_ok in He. cbn [lift pbind] in He. apply exec_bind in He.
    destruct He as [(t1 & t2 & r & -> & He & [-> Hr])|[[_ Hr]|[_ Hr]]]; [|discriminate..].
    rewrite app_nil_r in HS'.
    assert (HP0 : placed 0 (pre 0 (hashk q)) m) by (rewrite pre_0; exact IH).
    assert (Hf0 : flag_for 0 (hashk q) (mkFlag (hashk q) 0 (2 ^ idx 0 (hashk q)))) by repeat split.
    pose proof (am_remove_placed m 0 (hashk q) q _ HP0 Hf0 _ _ He HS') as Hp. rewrite pre_0 in Hp.
    destruct r; [discriminate|..]; injection Hr as -> _; try exact Hp. apply new_placed.
  - destruct w as [|r'|r'].
    + eapply placed_transform; eassumption.
    + apply ask_transform_const in He. destruct He as [_ [= -> _ _]]. assumption.
    + apply ask_transform_const in He. destruct He as [_ [= -> _ _]]. apply new_placed.
  - destruct w as [|r'].
    + exact (placed_transmute m m' r tr IH He HS).
    + apply ask_transmute_const in He. destruct He as [_ [= -> _]]. apply new_placed.
  - exact (placed_tm st m right _ _ IHl IHr HS He).
  - exact (placed_mt st m right _ _ IHl IHr HS He).
  - exact (placed_mm m right _ _ IHl IHr HS He).
  - exact (placed_tt_any st wb wl wr m right tr (Ret (m', r, o)) IHl IHr HS He).
Qed.

Lemma unequal_misused {E : Env} {K V : Type} {KK : Key K} (m : trie K V) : unequal m -> misused m.
Proof.
  intros H. induction H; [eapply mis_reach; eassumption|eapply mis_insert; eassumption|eapply mis_remove; eassumption|eapply mis_transform; eassumption|eapply mis_transmute; eassumption|eapply mis_tm; [| |eassumption]; assumption|eapply mis_mt; [| |eassumption]; assumption|eapply mis_mm; [| |eassumption]; assumption|eapply mis_tt; [| |eassumption]; assumption].
Qed.

Section Unequal.
Context {E : Env} {K V : Type} {KK : Key K}.

Theorem unequal_insert_panics {L W} {KL : Key L} (m : trie K V) (q : L) (w : W) rep tr : unequal m ->
  exec (ask_insert m q w rep) tr Panic -> Forall steady tr -> checked = false ->
  failed tr \/ exists k, In (answer (CEq k q) true) tr /\ In (answer (CEq k q) false) tr.
Proof.
  intros HU He HS Hck. pose proof (unequal_placed _ HU) as HP. pose proof (placed_loose _ _ _ HP) as HL.
  unfold ask_insert, ask in He. cbn [pbind] in He. destruct He as [(h & tr' & -> & He)|[-> _]]; [|left; apply failed_here].
  inversion HS as [|x y Hh HS']; subst. cbn [pbind] in He. change (proj1_sig (h : word) = hashk q) in Hh. rewrite Hh in He.
  destruct (flagged_0 (hashk q) m) as (f & Hf & Hfl). rewrite Hf in He. cbn [lift pbind] in He. apply exec_bind in He.
  destruct He as [(t1 & t2 & r & -> & He & [_ Hr])|[[He _]|[_ Hr]]]; [discriminate| |discriminate].
  pose proof (am_insert_post m 0 q w (Some f) _ rep HL Hfl _ _ He) as [H|[H|[H|[H|H]]]].
  - left. apply failed_cons. exact H.
  - congruence.
  - right. destruct H as (k & H1 & H2). exists k. split; right; assumption.
  - exfalso. apply (steady_not_elsewhere _ _ _ HP HS' H).
  - exfalso. pose proof (placed_shallow _ HP). lia.
Qed.

Theorem unequal_find {L} {KL : Key L} (m : trie K V) (q : L) : unequal m ->
  (exists e, map_find m q = Ret (Ok e) /\ In e (map_visit m) /\ cls (fst e) = cls q) \/
  (map_find m q = Ret (Err NotFound) /\ forall e, In e (map_visit m) -> cls (fst e) <> cls q).
Proof.
  intros HU. pose proof (unequal_placed _ HU) as HP. unfold map_find. rewrite flag_new_ok. cbn [bind].
  assert (HP0 : placed 0 (pre 0 (hashk q)) m) by (rewrite pre_0; exact HP).
  assert (Hf0 : flag_for 0 (hashk q) (mkFlag (hashk q) 0 (2 ^ idx 0 (hashk q)))) by repeat split.
  destruct (m_find_placed m 0 q _ HP0 Hf0) as (r & -> & Hr). cbn [bind]. destruct r as [e|].
  - left. exists e. split; [reflexivity|exact Hr].
  - right. split; [reflexivity|exact Hr].
Qed.

(** The longest collision list is no longer than the keys of one hash are many. *)
Lemma filter_all {A} (f : A -> bool) l : (forall a, In a l -> f a = true) -> filter f l = l.
Proof. induction l as [|a l IH]; intros H; cbn [filter]; [reflexivity|]. rewrite (H a (or_introl eq_refl)), IH; [reflexivity|]. intros; apply H; right; assumption. Qed.

Lemma filter_concat_le {A} (f : A -> bool) (vs : list (mnode K V)) (g : mnode K V -> list A) c : In c vs ->
  lenN (filter f (g c)) <= lenN (filter f (concat (map g vs))).
Proof.
  induction vs as [|a vs IH]; intros []; cbn [map concat]; rewrite filter_app, lenN_app; [subst; lia|]. specialize (IH H). lia.
Qed.

Lemma placed_longest (n : mnode K V) : forall d p, placed d p n -> exists h, longest n <= lenN (with_hash h (m_visit n)).
Proof.
  induction n as [bits values x IH|l|s] using mnode_ind'; intros d p H.
  - inversion H as [| |? ? ? ? ? Ho Hp Hok Hne Hx Hch]; subst. cbn [longest bvalues m_visit]. rewrite Forall_forall in IH.
    assert (HB : forall vs, (forall c, In c vs -> In c values) ->
      exists h, fold_right N.max 0 (map longest vs) <= lenN (with_hash h (concat (map m_visit values)))).
    { induction vs as [|c vs IHv]; intros Hs; [exists 0; cbn; lia|]. cbn [map fold_right].
      destruct (IHv (fun y Hy => Hs y (or_intror Hy))) as (h1 & H1). assert (Hc : In c values) by (apply Hs; left; reflexivity).
      destruct (in_values_get _ _ _ _ Hok Hc) as (i & _ & Hg). destruct (IH c Hc _ _ (Hch _ _ Hg)) as (h2 & H2).
      destruct (N.max_spec (longest c) (fold_right N.max 0 (map longest vs))) as [[Hlt ->]|[Hle ->]]; [exists h1; assumption|].
      exists h2. etransitivity; [exact H2|]. apply filter_concat_le. assumption. }
    apply HB. auto.
  - inversion H as [|? ? ? h H1 H2 H3|]; subst. exists h. cbn [longest m_visit]. unfold with_hash. rewrite filter_all; [lia|].
    intros e He. apply N.eqb_eq. apply H2. assumption.
  - exists (hashk (s_key s)). cbn [longest m_visit s_visit with_hash filter fst]. unfold with_hash. cbn [filter fst]. unfold hashk. rewrite N.eqb_refl. cbn. lia.
Qed.

Theorem unequal_longest (m : trie K V) : unequal m -> exists h, longest m <= lenN (with_hash h (map_visit m)).
Proof. intros H. eapply placed_longest. apply unequal_placed. assumption. Qed.

End Unequal.
