(** The joint operations on loose maps and on maps placed by their hashes. *)
From Coq Require Import NArith Arith List Bool Lia Permutation.
From Verif Require Import Base Words Flag Spec Bia Node Inv Api Trans Transform Joint Eff EffP EffTP EffApi Ask AskP AskHashP AskT SpecAsk SpecAskT SpecAskJ
  AskTP AskTopP AskJ AskJP AskJTreeP AskJTopP AskJPlaceP.
Import ListNotations.
Open Scope N_scope.

Lemma all_true {A} (l : list A) : Forall (fun _ => True) l.
Proof. apply Forall_forall. auto. Qed.

Section TM.
Context {E : Env} {K V L W R : Type}.
Notation A := (jreply K V L W K V (vres V R) (vres V R) (kres K V R) R).
Implicit Types tr : list (event (A := A)).

Lemma loose_tm st (m : trie K V) (right : trie L W) tr o : loose 0 m -> loose 0 right -> exec (ask_tm st TwClosure TwClosure MwClosure m right) tr o ->
  exists rest, Permutation (jtold_all tr ++ rest) (map inl (map_visit m) ++ map inr (map_visit right)) /\
  match o with
  | Ret (m', r, og) => rest = [] /\ loose 0 m' /\ (og = Self -> m' = m) /\
      exists is outs, settled jsee tm_red tm_cost tr is r /\ Forall2 (tm_becomes tr) is outs /\ Permutation (map_visit m') (concat outs)
  | Panic => broken tr \/ hashes_differ tr
  | Diverge => 3 <= longest right
  end.
Proof.
  intros Hm Hr He.
  destruct (ask_tm_any free_place (3 <= longest right) (fun _ _ => conj (fun x => x) (fun x => x)) (fun _ _ _ _ _ _ _ => I) (fun _ _ o _ _ => proj2 (Forall_forall _ (jkout o)) (fun _ _ => I))
    st m right (loose_free _ _ _ Hm) (loose_free _ _ _ Hr) (fun x => x) tr o He (all_true _)) as (rest & H1 & H2).
  exists rest. split; [exact H1|]. destruct o as [[[m' r] og]| |]; [|exact H2..]. destruct H2 as (H2 & H3 & H4). split; [exact H2|]. split; [eapply free_loose; exact H3|exact H4].
Qed.

Lemma placed_tm {KK : Key K} {KL : Key L} st (m : trie K V) (right : trie L W) tr o : placed 0 0 m -> placed 0 0 right -> Forall tm_steady tr ->
  exec (ask_tm st TwClosure TwClosure MwClosure m right) tr o ->
  match o with
  | Ret (m', r, og) => placed 0 0 m'
  | Panic => broken tr
  | Diverge => 3 <= longest right
  end.
Proof.
  intros Hm Hr HS He.
  set (pl := near_place (X := V) (KKL := KK) (KKR := KL) (KKS := KK) (tm_steady (K := K) (V := V) (L := L) (W := W) (R := R)) (fun k w H => proj1 H) (fun k w H => proj1 H)).
  assert (H1 : forall h k k' v v', pl_good pl (answer (JKey k) k') -> pl_has pl h (k, v) -> pl_has pl h (k', v')).
  { intros h k k' v v' [Hg _] Hk. unfold pl, near_place, pl_has, hashed, ecls in *. cbn in *. rewrite <- Hk. exact Hg. }
  assert (H2 : forall h y o', pl_good pl (answer (JRight y) o') -> pl_hasR pl h y -> Forall (pl_has pl h) (jkout o')).
  { intros h y o' [_ Hg] Hk. unfold pl, near_place, pl_has, pl_hasR, hashed, ecls in *. cbn in Hg, Hk. destruct o' as [k' v' r|r]; cbn in *; repeat constructor. rewrite <- Hk. exact Hg. }
  destruct (ask_tm_any pl (3 <= longest right) (fun h x => conj (fun y => y) (fun y => y)) H1 H2 st m right (placed_near _ _ _ Hm) (placed_near _ _ _ Hr) (fun x => x) tr o He HS) as (rest & _ & H3).
  destruct o as [[[m' r] og]| |]; [|exact H3..]. destruct H3 as (_ & H3 & _). eapply near_placed. exact H3.
Qed.
End TM.

Section MT.
Context {E : Env} {K V L W R : Type}.
Notation A := (jreply K V L W L W (vres W R) (kres L W R) (vres W R) R).
Implicit Types tr : list (event (A := A)).

Lemma loose_mt st (m : trie K V) (right : trie L W) tr o : loose 0 m -> loose 0 right -> exec (ask_mt st TwClosure MwClosure TwClosure m right) tr o ->
  exists rest, Permutation (jtold_all tr ++ rest) (map inl (map_visit m) ++ map inr (map_visit right)) /\
  match o with
  | Ret (m', r, og) => rest = [] /\ loose 0 m' /\ (og = Right -> m' = right) /\
      exists is outs, settled jsee mt_red mt_cost tr is r /\ Forall2 (mt_becomes tr) is outs /\ Permutation (map_visit m') (concat outs)
  | Panic => broken tr \/ hashes_differ tr
  | Diverge => 3 <= longest m
  end.
Proof.
  intros Hm Hr He.
  destruct (ask_mt_any free_place (3 <= longest m) (fun _ _ => conj (fun x => x) (fun x => x)) (fun _ _ _ _ _ _ _ => I) (fun _ _ o _ _ => proj2 (Forall_forall _ (jkout o)) (fun _ _ => I))
    st m right (loose_free _ _ _ Hm) (loose_free _ _ _ Hr) (fun x => x) tr o He (all_true _)) as (rest & H1 & H2).
  exists rest. split; [exact H1|]. destruct o as [[[m' r] og]| |]; [|exact H2..]. destruct H2 as (H2 & H3 & H4). split; [exact H2|]. split; [eapply free_loose; exact H3|exact H4].
Qed.

Lemma placed_mt {KK : Key K} {KL : Key L} st (m : trie K V) (right : trie L W) tr o : placed 0 0 m -> placed 0 0 right -> Forall mt_steady tr ->
  exec (ask_mt st TwClosure MwClosure TwClosure m right) tr o ->
  match o with
  | Ret (m', r, og) => placed 0 0 m'
  | Panic => broken tr
  | Diverge => 3 <= longest m
  end.
Proof.
  intros Hm Hr HS He.
  set (pl := near_place (X := W) (KKL := KK) (KKR := KL) (KKS := KL) (mt_steady (K := K) (V := V) (L := L) (W := W) (R := R)) (fun k w H => proj1 H) (fun k w H => proj1 H)).
  assert (H1 : forall h k k' v v', pl_good pl (answer (JKey k) k') -> pl_has pl h (k, v) -> pl_has pl h (k', v')).
  { intros h k k' v v' [Hg _] Hk. unfold pl, near_place, pl_has, hashed, ecls in *. cbn in *. rewrite <- Hk. exact Hg. }
  assert (H2 : forall h y o', pl_good pl (answer (JLeft y) o') -> pl_hasL pl h y -> Forall (pl_has pl h) (jkout o')).
  { intros h y o' [_ Hg] Hk. unfold pl, near_place, pl_has, pl_hasL, hashed, ecls in *. cbn in Hg, Hk. destruct o' as [k' v' r|r]; cbn in *; repeat constructor. rewrite <- Hk. exact Hg. }
  destruct (ask_mt_any pl (3 <= longest m) (fun h x => conj (fun y => y) (fun y => y)) H1 H2 st m right (placed_near _ _ _ Hm) (placed_near _ _ _ Hr) (fun x => x) tr o He HS) as (rest & _ & H3).
  destruct o as [[[m' r] og]| |]; [|exact H3..]. destruct H3 as (_ & H3 & _). eapply near_placed. exact H3.
Qed.
End MT.

Section MM.
Context {E : Env} {K V L W S X R : Type}.
Notation A := (jreply K V L W Empty_set Empty_set (kres S X R) (kres S X R) (kres S X R) R).
Implicit Types tr : list (event (A := A)).

Lemma loose_mm (m : trie K V) (right : trie L W) tr (o : outcome (trie S X * R)) : loose 0 m -> loose 0 right -> exec (ask_mm MwClosure MwClosure MwClosure m right) tr o ->
  exists rest, Permutation (jtold_all tr ++ rest) (map inl (map_visit m) ++ map inr (map_visit right)) /\
  match o with
  | Ret (m', r) => rest = [] /\ loose 0 m' /\
      exists is outs, settled jsee mm_red mm_cost tr is r /\ Forall2 (mm_becomes tr) is outs /\ Permutation (map_visit m') (concat outs)
  | Panic => broken tr \/ hashes_differ tr
  | Diverge => 3 <= longest m \/ 3 <= longest right
  end.
Proof.
  intros Hm Hr He.
  pose proof (fun (o : kres S X R) => proj2 (Forall_forall (fun _ => True) (jkout o)) (fun _ _ => I)) as HF.
  destruct (ask_mm_any free_place (3 <= longest m \/ 3 <= longest right) (fun _ _ o _ _ => HF o) (fun _ _ o _ _ => HF o) (fun _ _ _ o _ _ _ => HF o)
    m right (loose_free _ _ _ Hm) (loose_free _ _ _ Hr) (fun x => or_introl x) (fun x => or_intror x) tr o He (all_true _)) as (rest & H1 & H2).
  exists rest. split; [exact H1|]. destruct o as [[m' r]| |]; [|exact H2..]. destruct H2 as (H2 & H3 & H4). split; [exact H2|]. split; [eapply free_loose; exact H3|exact H4].
Qed.

Lemma placed_mm {KK : Key K} {KL : Key L} {KS : Key S} (m : trie K V) (right : trie L W) tr (o : outcome (trie S X * R)) : placed 0 0 m -> placed 0 0 right -> Forall mm_steady tr ->
  exec (ask_mm MwClosure MwClosure MwClosure m right) tr o ->
  match o with
  | Ret (m', r) => placed 0 0 m'
  | Panic => broken tr
  | Diverge => 3 <= longest m \/ 3 <= longest right
  end.
Proof.
  intros Hm Hr HS He.
  assert (Hk : forall {K0} {KK0 : Key K0} h (k : K0) (o' : kres S X R), hash (cls k) = h -> jkeeps k o' -> Forall (hashed h) (jkout o')).
  { intros K0 KK0 h k [k' v' r|r] H1 H2; repeat constructor. unfold hashed, ecls. rewrite <- H1. exact H2. }
  set (pl := near_place (X := X) (KKL := KK) (KKR := KL) (KKS := KS) (mm_steady (K := K) (V := V) (L := L) (W := W) (S := S) (X := X) (R := R)) (fun k w H => H) (fun k w H => H)).
  destruct (ask_mm_any pl (3 <= longest m \/ 3 <= longest right)) with (m := m) (right := right) (tr := tr) (o := o) as (rest & H1 & H2);
    try exact He; try exact HS; try (apply placed_near; assumption); auto.
  - intros h x o' Hg Hx. apply (Hk _ _ h (fst x)); [exact Hx|exact Hg].
  - intros h x o' Hg Hx. apply (Hk _ _ h (fst x)); [exact Hx|exact Hg].
  - intros h x y o' [Hg|Hg] Hx Hy; [apply (Hk _ _ h (fst x)); [exact Hx|exact Hg]|apply (Hk _ _ h (fst y)); [exact Hy|exact Hg]].
  - destruct o as [[m' r]| |]; [|exact H2..]. destruct H2 as (_ & H2 & _). eapply near_placed. exact H2.
Qed.
End MM.
