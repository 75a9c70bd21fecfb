(** For the theorems of PropHeap.v. *)
From Coq Require Import NArith Arith List Bool Lia Permutation.
From Verif Require Import Base Words Bia Node Spec SpecP Inv Profile Trans Transform SpecT TransMapP Api ApiP Reach ReachP MapP Versions
  Heap SpecH HeapP HeapOpP HeapHist HeapHistP HeapCostP HeapPtrP.
Import ListNotations.
Open Scope N_scope.

Section HeapProp.
Context {E : Env} {K V R : Type} {KK : Key K}.
Context (rdef : R) (rd : R -> R -> R).
Notation heap := (heap K V).
Implicit Types (h : heap).

Theorem equal_sound cs h vs i j n m : hsteps rdef rd [] [] cs h vs -> nth_error vs i = Some n -> nth_error vs j = Some m ->
  hm_eq n m = true ->
  hm_size h n = hm_size h m /\ hm_visit h n = hm_visit h m /\
  forall Q (KQ : Key Q) (q : Q), hm_find h n q = hm_find h m q /\ hm_get h n q = hm_get h m q.
Proof. intros _ _ _ He. apply hm_eq_true in He. subst m. auto. Qed.

Theorem clone_equal cs h vs i n h' vs' : hsteps rdef rd [] [] cs h vs -> nth_error vs i = Some n ->
  hstep rdef rd h vs (HClone i) h' vs' -> forall m, nth_error vs' (length vs) = Some m -> h' = h /\ hm_eq m n = true /\ hm_eq n m = true.
Proof.
  intros _ Hi Hs m Hm. assert (Hnone : nth_error vs (length vs) = None) by (apply nth_error_None; lia).
  inversion Hs as [|h0 vs0 i0 n0 Hi'| | | | | |]; subst; [|congruence].
  rewrite nth_error_app2, Nat.sub_diag in Hm by lia. cbn in Hm. injection Hm as <-. unfold hm_clone.
  assert (n0 = n) by congruence. subst n0. split; [reflexivity|]. split; apply hm_eq_true; reflexivity.
Qed.

Theorem transform_equal cs h vs i n st f l h' vs' m : lawful rdef rd [] [] cs h vs -> nth_error vs i = Some n ->
  hm_visit h n = Ret l -> hstep rdef rd h vs (HCall (CTransform i st (TGeneric f))) h' vs' -> nth_error vs' (length vs) = Some m ->
  (forall e, In e l -> exists x, f e = VUnchanged x) -> hm_eq m n = true.
Proof.
  intros HL Hi Hv Hs Hm Hf. destruct (lawful_rep _ _ _ _ _ _ _ HL Hi) as (t & Ht & Hrt).
  assert (Hnone : nth_error vs (length vs) = None) by (apply nth_error_None; lia).
  inversion Hs as [| | | | | |h0 vs0 c0 ts t' x h1 n' Hb Hu HF Hd He Hr Hsrc|]; subst; [|congruence].
  rewrite nth_error_app2, Nat.sub_diag in Hm by lia. cbn in Hm. injection Hm as <-.
  pose proof (nth_rel _ _ _ HF i) as Ho. rewrite Hi in Ho. inversion Ho as [n0 t0 Ht0 E1 E2|]; subst.
  assert (Ht0t : t0 = t) by (eapply rep_fun; eassumption). subst t0.
  rewrite (hm_visit_ok _ _ _ Ht) in Hv. injection Hv as <-.
  assert (Hver : version map_new ts i = t) by (apply nth_version; symmetry; exact E2).
  cbn [derive] in Hd. cbn [source] in Hsrc. rewrite Hver in Hd, Hsrc.
  destruct (map_transform rdef rd st (TGeneric f) t) as [[[m0 r] o]| |] eqn:Hx; try discriminate.
  destruct (transform_unchanged _ _ _ _ _ _ _ _ Hrt Hx) as (Hiff & _). rewrite (proj2 Hiff Hf) in Hsrc.
  specialize (Hsrc i eq_refl). apply hm_eq_true. congruence.
Qed.

Section Query.
Context {Q : Type} {KQ : Key Q}.

Theorem insert_shares cs h vs i n into (q : Q) v replace r h' : lawful rdef rd [] [] cs h vs -> nth_error vs i = Some n ->
  hm_insert into h n q v replace = Ret (r, h') ->
  exists l, hm_visit h n = Ret l /\
  match r with
  | Ok (n', _, _) => ext h h' /\ shares h n h' n' /\
      exists b, N.of_nat b * log_b fw < max_ones hw + log_b fw /\ (length h' <= length h + b + Nat.max 1 (rivals q l))%nat
  | Err _ => h' = h
  end.
Proof.
  intros HL Hi Ho. destruct (lawful_rep _ _ _ _ _ _ _ HL Hi) as (t & Ht & Hrt). exists (map_visit t).
  split; [apply hm_visit_ok, Ht|]. pose proof (insert_cells into h n t q v replace r h' Hrt Ht Ho) as Hc.
  pose proof (hm_insert_ok into h n t q v replace Ht) as Hr. rewrite Ho in Hr. inversion Hr as [r0 r' Hrr E1 E2| |]; subst.
  destruct r as [[[n' a] prev]|a]; [|exact Hc]. destruct r' as [[[t' e] prev']|]; [|contradiction].
  destruct Hrr as (He & _ & _ & _ & _ & _ & Hs). split; [exact He|]. split; [exact Hs|exact Hc].
Qed.

Theorem remove_shares cs h vs i n (q : Q) r h' : lawful rdef rd [] [] cs h vs -> nth_error vs i = Some n ->
  hm_remove h n q = Ret (r, h') ->
  exists l, hm_visit h n = Ret l /\
  match r with
  | Ok (n', _) => ext h h' /\ shares h n h' n' /\
      exists b, N.of_nat b * log_b fw < max_ones hw + log_b fw /\ (length h' <= length h + b + Nat.max 1 (rivals q l))%nat
  | Err _ => h' = h
  end.
Proof.
  intros HL Hi Ho. destruct (lawful_rep _ _ _ _ _ _ _ HL Hi) as (t & Ht & Hrt). exists (map_visit t).
  split; [apply hm_visit_ok, Ht|]. pose proof (remove_cells h n t q r h' Hrt Ht Ho) as Hc.
  pose proof (hm_remove_ok h n t q Ht) as Hr. rewrite Ho in Hr. inversion Hr as [r0 r' Hrr E1 E2| |]; subst.
  destruct r as [[n' a]|a]; [|exact Hc]. destruct r' as [[t' e]|]; [|contradiction].
  destruct Hrr as (He & _ & _ & _ & Hs). split; [exact He|]. split; [exact Hs|exact Hc].
Qed.

End Query.
End HeapProp.
