(** transform and transmute of misused maps. *)
From Coq Require Import NArith Arith List Bool Lia Permutation.
From Verif Require Import Base Words Flag Bia BiaP Node Inv Api Reach Trans Transform Eff EffP EffTP EffApi EffMapP Ask SpecAsk AskP AskHashP AskT SpecAskT AskTP AskTTP AskMP AskTopP Misuse AskApiP.
Import ListNotations.
Open Scope N_scope.

Section Sum.
Context {E : Env} {K V : Type}.

Theorem misused_transform {R} (m : trie K V) st tr (o : outcome (trie K V * R * origin)) : misused m -> exec (ask_transform st TwClosure m) tr o ->
  match o with
  | Ret (m', r, og) => exists is outs, map fst is = map_visit m /\ settled see vred vcost tr is r /\
      Forall2 (vbecomes tr) is outs /\ map_visit m' = concat outs /\
      og = (if forallb kept is then Self else Other) /\ (og = Self -> m' = m /\ clones see tr = [])
  | Panic => panicked tr /\ exists rest, Permutation (ops_asked tr ++ rest) (map_visit m)
  | Diverge => False
  end.
Proof.
  intros HM He. destruct (loose_transform st m (misused_loose m HM) _ _ He (Forall_forall_True _)) as (rest & Hr & Ho).
  destruct o as [[[m' r] og]| |]; [|split; [exact Ho|]|exact Ho].
  - destruct Ho as (_ & _ & H1 & is & outs & H2 & H3 & H4 & H5 & H6 & H7). exists is, outs. auto 10.
  - exists rest. unfold ops_asked. rewrite Hr. apply back_perm.
Qed.

Theorem misused_transmute {S X R} (m : trie K V) tr (o : outcome (trie S X * R)) : misused m -> exec (ask_transmute MwClosure m) tr o ->
  match o with
  | Ret (m', r) => exists is, map fst is = map_visit m /\ settled see kred kcost tr is r /\ map_visit m' = flat_map kbecomes is
  | Panic => panicked tr /\ exists rest, Permutation (ops_asked tr ++ rest) (map_visit m)
  | Diverge => False
  end.
Proof.
  intros HM He. destruct (loose_transmute m (misused_loose m HM) _ _ He (Forall_forall_True _)) as (rest & Hr & Ho).
  destruct o as [[m' r]| |]; [|split; [exact Ho|]|exact Ho].
  - destruct Ho as (_ & _ & is & H1 & H2 & H3). exists is. auto.
  - exists rest. unfold ops_asked. rewrite Hr. apply back_perm.
Qed.

Theorem unequal_transform_order {KK : Key K} {R} (m : trie K V) st (w : tway R) tr o : unequal m -> exec (ask_transform st w m) tr o ->
  exists rest, ops_asked tr ++ rest = match w with TwClosure => backwards (map_visit m) | _ => [] end /\ forall x, o = Ret x -> rest = [].
Proof.
  intros HU He. pose proof (unequal_placed _ HU) as HP. destruct w as [|r|r].
  - destruct (loose_transform st m (placed_loose _ _ _ HP) _ _ He (Forall_forall_True _)) as (rest & Hr & Ho).
    exists rest. unfold map_visit. rewrite <- (back_backwards _ _ _ HP). split; [exact Hr|]. intros x ->. apply Ho.
  - apply ask_transform_const in He. destruct He as [-> ->]. exists []. auto.
  - apply ask_transform_const in He. destruct He as [-> ->]. exists []. auto.
Qed.

Theorem unequal_transmute_order {KK : Key K} {S X R} (m : trie K V) (w : mway R) tr (o : outcome (trie S X * R)) : unequal m -> exec (ask_transmute w m) tr o ->
  exists rest, ops_asked tr ++ rest = match w with MwClosure => backwards (map_visit m) | _ => [] end /\ forall x, o = Ret x -> rest = [].
Proof.
  intros HU He. pose proof (unequal_placed _ HU) as HP. destruct w as [|r].
  - destruct (loose_transmute m (placed_loose _ _ _ HP) _ _ He (Forall_forall_True _)) as (rest & Hr & Ho).
    exists rest. unfold map_visit. rewrite <- (back_backwards _ _ _ HP). split; [exact Hr|]. intros x ->. apply Ho.
  - apply ask_transmute_const in He. destruct He as [-> ->]. exists []. auto.
Qed.

(** Every run that meets no panic returns. *)
Theorem misused_transform_ends {R} (m : trie K V) st (w : tway R) tr o : misused m -> exec (ask_transform st w m) tr o ->
  (unbroken tr /\ exists x, o = Ret x) \/ (exists tr' q, tr = tr' ++ [broke q] /\ unbroken tr' /\ o = Panic).
Proof.
  intros HM He. destruct (unbroken_or tr) as [HB|HB]; [left; split; [assumption|]|right; exact (exec_stops _ _ _ He HB)].
  destruct w as [|r|r]; [|apply ask_transform_const in He; destruct He as [_ ->]; eauto..].
  apply misused_transform in He; [|assumption]. destruct o as [x| |]; [eauto| |contradiction].
  destruct He as [[q Hq] _]. destruct (HB q Hq).
Qed.
Theorem misused_transmute_ends {S X R} (m : trie K V) (w : mway R) tr (o : outcome (trie S X * R)) : misused m -> exec (ask_transmute w m) tr o ->
  (unbroken tr /\ exists x, o = Ret x) \/ (exists tr' q, tr = tr' ++ [broke q] /\ unbroken tr' /\ o = Panic).
Proof.
  intros HM He. destruct (unbroken_or tr) as [HB|HB]; [left; split; [assumption|]|right; exact (exec_stops _ _ _ He HB)].
  destruct w as [|r]; [|apply ask_transmute_const in He; destruct He as [_ ->]; eauto].
  apply misused_transmute in He; [|assumption]. destruct o as [x| |]; [eauto| |contradiction].
  destruct He as [[q Hq] _]. destruct (HB q Hq).
Qed.

End Sum.
