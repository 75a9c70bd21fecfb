(** transform and transmute on reachable maps, seen through find, size and visit. *)
From Coq Require Import NArith Arith List Bool Lia ZifyBool ZifyN ZifyNat Permutation.
From Verif Require Import Base Words WordsP Flag FlagP Bia BiaP Node Spec SpecP Inv NodeP InsertP TrieP Api ApiP
  Trans Transform LoopP SpecT TransformP TransApiP Reach ReachP MapP.
Import ListNotations.
Open Scope N_scope.

(** What find says after an entry [e] became [f e]. *)
Definition found {K V S X} (f : K * V -> list (S * X)) (o : outcome (result (K * V) trie_error)) : outcome (result (S * X) trie_error) :=
  match o with
  | Ret (Ok e) => match f e with e' :: _ => Ret (Ok e') | [] => Ret (Err NotFound) end
  | Ret (Err x) => Ret (Err x)
  | Panic => Panic
  | Diverge => Diverge
  end.

Lemma empty_is_new {E : Env} {K V} {KK : Key K} (m : trie K V) : mwf m -> map_visit m = [] -> m = map_new.
Proof.
  intros HW HV. unfold map_visit in HV. inversion HW as [d p s Hs|d p l h Hl|d p bits values x Ho Hp Hok Hne Hx Hch]; subst.
  - discriminate.
  - destruct l; discriminate.
  - assert (Hb : bits = 0).
    { apply N.bits_inj. intros i. rewrite N.bits_0. destruct (N.testbit bits i) eqn:Ht; [|reflexivity]. exfalso.
      destruct (okv_some _ _ _ i Hok Ht) as [c Hc].
      pose proof (wf_nonempty _ _ _ (Hch i c Hc) ltac:(lia)) as Hn. destruct (m_visit c) as [|e es] eqn:He; [contradiction|].
      pose proof (visit_C_sub bits values (lenN (concat (map m_visit values))) i c Hok Hc e) as HI.
      rewrite HV in HI. apply HI. rewrite He. left. reflexivity. }
    subst bits. destruct Hok as [_ Hl]. change (count_ones 0) with 0 in Hl. destruct values; [reflexivity|].
    rewrite lenN_cons in Hl. lia.
Qed.

Theorem size_0_new {E : Env} {K V} {KK : Key K} (m : trie K V) : reachable m -> map_size m = 0 ->
  m = map_new /\ map_visit m = [] /\ forall Q (KQ : Key Q) (q : Q), map_find m q = Ret (Err NotFound).
Proof.
  intros HR Hs. pose proof (reachable_mwf m HR) as HW. rewrite (mwf_size m HW) in Hs.
  assert (HV : map_visit m = []) by (unfold lenN in Hs; destruct (map_visit m); [reflexivity|cbn in Hs; lia]).
  split; [apply empty_is_new; assumption|]. split; [assumption|].
  intros Q KQ q. apply find_err_iff; [assumption|]. rewrite HV. reflexivity.
Qed.

Section TransMap.
Context {E : Env} {K V : Type} {KK : Key K}.

Lemma found_lookup {S X} {KS : Key S} {Q} {KQ : Key Q} (f : K * V -> list (S * X)) (m : trie K V) (m' : trie S X) (q : Q) :
  mwf m -> mwf m' -> cls_map f (map_visit m) -> map_visit m' = flat_map f (map_visit m) ->
  map_find m' q = found f (map_find m q).
Proof.
  intros HW HW' HC HV. rewrite !map_find_ok by assumption. rewrite HV, cls_map_lookup; [|assumption|apply mwf_uniq; assumption].
  destruct (lookup (cls q) (map_visit m)) as [e|]; cbn; [|reflexivity]. destruct (f e); reflexivity.
Qed.

Context {R : Type} (rdef : R) (rd : R -> R -> R).

Theorem transform_exact st (op : transform_op (K * V) V R) (m : trie K V) : reachable m ->
  exists m' r o, map_transform rdef rd st op m = Ret (m', r, o) /\ reachable m' /\
    map_visit m' = flat_map (fun e => t_entry (tcall op e) e) (map_visit m) /\
    map_size m' = N.of_nat (length (map_visit m')) /\
    (forall Q (KQ : Key Q) (q : Q), map_find m' q = found (fun e => t_entry (tcall op e) e) (map_find m q)).
Proof.
  intros HR. pose proof (reachable_mwf m HR) as HW.
  destruct (map_transform_ok rdef rd st op m HW) as (m' & r & o & H1 & H2 & H3 & _). exists m', r, o.
  split; [assumption|]. split; [eapply reach_transform; eassumption|]. split; [exact H3|].
  split; [apply (mwf_size m' H2)|]. intros Q KQ q. apply found_lookup; try assumption. apply t_cls.
Qed.

Theorem transform_reduction st (f : K * V -> vres V R) (m : trie K V) m' r o : reachable m -> monoid rdef rd ->
  map_transform rdef rd st (TGeneric f) m = Ret (m', r, o) ->
  r = fold_right rd rdef (map (fun e => t_red (f e)) (map_visit m)).
Proof.
  intros HR HM HT. destruct (map_transform_ok rdef rd st (TGeneric f) m (reachable_mwf m HR)) as (m2 & r2 & o2 & H1 & _ & _ & _ & _ & H2).
  rewrite H1 in HT. injection HT as <- <- <-. apply H2; auto.
Qed.

Theorem transform_strategies (op : transform_op (K * V) V R) (m : trie K V) : reachable m ->
  exists m' r r' o, map_transform rdef rd Sequential op m = Ret (m', r, o) /\
    map_transform rdef rd MiddleIndex op m = Ret (m', r', o) /\ (monoid rdef rd -> r = r').
Proof. intros HR. apply map_transform_strategy. apply reachable_mwf. assumption. Qed.

Theorem transform_unchanged st (f : K * V -> vres V R) (m : trie K V) m' r o : reachable m ->
  map_transform rdef rd st (TGeneric f) m = Ret (m', r, o) ->
  (o = Self <-> forall e, In e (map_visit m) -> exists x, f e = VUnchanged x) /\ (o = Self -> m' = m).
Proof.
  intros HR HT. pose proof (reachable_mwf m HR) as HW. unfold map_transform in HT.
  destruct (m_transform_ok rdef rd st f 0 0 m HW) as (t & Ht & (H1 & H2 & H3) & H4). rewrite Ht in HT. cbn [bind] in HT.
  assert (HA : tu t = true <-> forall e, In e (map_visit m) -> exists x, f e = VUnchanged x).
  { rewrite H2, forallb_forall. split; intros H e He; specialize (H e He); cbn [tcall] in *.
    - destruct (f e); try discriminate. eauto.
    - destruct H as [x ->]. reflexivity. }
  rewrite <- HA. destruct t; cbn [tu].
  - injection HT as <- _ <-. split; [split; reflexivity|reflexivity].
  - assert (Ho : o = Other) by congruence. subst o. split; [split; discriminate|discriminate].
Qed.

Theorem transmute_exact {S X} {KS : Key S} (op : transmute_op (K * V) S X R) (m : trie K V) : reachable m ->
  (forall e k v r, In e (map_visit m) -> mcall op e = KTransmuted k v r -> cls k = cls (fst e)) ->
  exists m' r, map_transmute rdef rd op m = Ret (m', r) /\ reachable m' /\
    map_visit m' = flat_map (fun e => m_entry (mcall op e)) (map_visit m) /\
    map_size m' = N.of_nat (length (map_visit m')) /\
    (forall Q (KQ : Key Q) (q : Q), map_find m' q = found (fun e => m_entry (mcall op e)) (map_find m q)) /\
    (forall f, op = MGeneric f -> monoid rdef rd -> r = fold_right rd rdef (map (fun e => m_red (f e)) (map_visit m))).
Proof.
  intros HR HK. pose proof (reachable_mwf m HR) as HW.
  destruct (map_transmute_ok rdef rd op m HW HK) as (m' & r & H1 & H2 & H3 & H4). exists m', r.
  split; [assumption|]. split; [exact (reach_transmute K V KK S X KS R rdef rd op m m' r HR HK H1)|]. split; [exact H3|].
  split; [apply (mwf_size m' H2)|]. split; [|exact H4].
  intros Q KQ q. apply found_lookup; try assumption. apply m_cls. assumption.
Qed.

Theorem transform_all_dropped st (op : transform_op (K * V) V R) (m : trie K V) : reachable m ->
  (forall e, In e (map_visit m) -> exists x, tcall op e = VDropped x) ->
  exists r o, map_transform rdef rd st op m = Ret (map_new, r, o).
Proof.
  intros HR HD. destruct (transform_exact st op m HR) as (m' & r & o & H1 & H2 & H3 & _). exists r, o. rewrite H1.
  assert (HV : map_visit m' = []).
  { rewrite H3. clear - HD. induction (map_visit m) as [|e l IH]; [reflexivity|]. cbn [flat_map].
    destruct (HD e (or_introl eq_refl)) as [x ->]. cbn [t_entry app]. apply IH. intros e' He'. apply HD. right. assumption. }
  rewrite (empty_is_new m' (reachable_mwf m' H2) HV). reflexivity.
Qed.

Theorem transform_constants st st' (x x' : R) (m : trie K V) : reachable m ->
  (exists r o, map_transform rdef rd st (TUnchanged x) m = Ret (m, x, Self) /\
     map_transform rdef rd st' (TGeneric (fun _ => VUnchanged x')) m = Ret (m, r, o)) /\
  (exists r o, map_transform rdef rd st (TRemoved x) m = Ret (map_new, x, Other) /\
     map_transform rdef rd st' (TGeneric (fun _ => VDropped x')) m = Ret (map_new, r, o)).
Proof.
  intros HR. split.
  - destruct (transform_exact st' (TGeneric (fun _ => VUnchanged x')) m HR) as (m' & r & o & H1 & _). exists r, o.
    split; [unfold map_transform; destruct m as [[]|[]|]; reflexivity|]. rewrite H1.
    destruct (transform_unchanged st' _ m m' r o HR H1) as [[_ Ho] Hm]. rewrite Hm; [reflexivity|]. apply Ho. eauto.
  - destruct (transform_all_dropped st' (TGeneric (fun _ => VDropped x')) m HR) as (r & o & H); [cbn; eauto|]. exists r, o.
    split; [unfold map_transform; destruct m as [[]|[]|]; reflexivity|assumption].
Qed.

Theorem transmute_constants {S X} {KS : Key S} (x x' : R) (m : trie K V) : reachable m ->
  exists r, map_transmute rdef rd (MRemoved x) m = Ret (map_new (K := S) (V := X), x) /\
    map_transmute rdef rd (MGeneric (fun _ => KDropped x')) m = Ret (map_new (K := S) (V := X), r).
Proof.
  intros HR. destruct (transmute_exact (MGeneric (fun _ => KDropped (S := S) (X := X) x')) m HR) as (m' & r & H1 & H2 & H3 & _).
  { discriminate. }
  exists r. split; [unfold map_transmute; destruct m as [[]|[]|]; reflexivity|]. rewrite H1.
  rewrite (empty_is_new m' (reachable_mwf m' H2)); [reflexivity|]. rewrite H3. clear.
  induction (map_visit m) as [|e l IH]; [reflexivity|exact IH].
Qed.

End TransMap.

Theorem transform_calls {E : Env} {K V} {KK : Key K} st (f : K * V -> vres V (list (K * V))) (m : trie K V) m' r o :
  reachable m -> (forall e, t_red (f e) = [e]) ->
  map_transform [] (@app (K * V)) st (TGeneric f) m = Ret (m', r, o) -> r = map_visit m.
Proof.
  intros HR Hf HT.
  assert (HM : monoid [] (@app (K * V))) by (split; [exact (@app_assoc _)|split; [reflexivity|exact (@app_nil_r _)]]).
  rewrite (transform_reduction [] (@app (K * V)) st f m m' r o HR HM HT).
  clear - Hf. induction (map_visit m) as [|e l IH]; [reflexivity|]. cbn [map fold_right]. rewrite Hf, IH. reflexivity.
Qed.
