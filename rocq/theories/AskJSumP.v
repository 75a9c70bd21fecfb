(** The joint operations on misused maps. *)
From Coq Require Import NArith Arith List Bool Lia Permutation.
From Verif Require Import Base Words Flag Bia BiaP Node Inv Api Reach Trans Transform Joint Eff EffP EffTP EffApi EffMapP Ask SpecAsk AskP AskHashP AskT SpecAskT AskTP AskTTP AskMP AskTopP AskJ SpecAskJ AskJTopP AskJPlaceP AskJLooseP Misuse AskApiP.
Import ListNotations.
Open Scope N_scope.

Section Sum.
Context {E : Env} {K V L W : Type}.

Theorem misused_tm  {R} (m : trie K V) (right : trie L W) st tr (o : outcome (trie K V * R * origin)) : misused m -> misused right -> exec (ask_tm st TwClosure TwClosure MwClosure m right) tr o ->
  match o with
  | Ret (m', r, og) => Permutation (jtold_all tr) (map inl (map_visit m) ++ map inr (map_visit right)) /\ (og = Self -> m' = m) /\
      exists is outs, settled jsee tm_red tm_cost tr is r /\ Forall2 (tm_becomes tr) is outs /\ Permutation (map_visit m') (concat outs)
  | Panic => (jpanicked tr \/ hashes_differ tr) /\ exists rest, Permutation (jtold_all tr ++ rest) (map inl (map_visit m) ++ map inr (map_visit right))
  | Diverge => (3 <= longest right) /\ exists rest, Permutation (jtold_all tr ++ rest) (map inl (map_visit m) ++ map inr (map_visit right))
  end.
Proof.
  intros Hm Hr He. destruct (loose_tm st m right tr o (misused_loose m Hm) (misused_loose right Hr) He) as (rest & H1 & H2).
  destruct o as [[[m1 r] og]| |]; [|split; [exact H2|exists rest; exact H1]..].
  destruct H2 as (-> & _ & H3 & H4). rewrite app_nil_r in H1. auto.
Qed.

Theorem unequal_tm {KK : Key K} {KL : Key L}  {R} (m : trie K V) (right : trie L W) st tr (o : outcome (trie K V * R * origin)) : unequal m -> unequal right -> Forall tm_steady tr -> exec (ask_tm st TwClosure TwClosure MwClosure m right) tr o ->
  match o with
  | Ret (m', r, og) => unequal m'
  | Panic => jpanicked tr
  | Diverge => 3 <= longest right
  end.
Proof.
  intros Hm Hr HS He. pose proof (placed_tm st m right tr o (unequal_placed _ Hm) (unequal_placed _ Hr) HS He) as H.
  destruct o as [[[m1 r] og]| |]; [|exact H..]. eapply (une_tm K V KK L W KL); [| | |exact He]; assumption.
Qed.

Theorem misused_tm_ends  {R} (m : trie K V) (right : trie L W) st tr (o : outcome (trie K V * R * origin)) : misused m -> misused right -> exec (ask_tm st TwClosure TwClosure MwClosure m right) tr o ->
  longest right < 3 ->
  (unbroken tr /\ exists x, o = Ret x) \/ (unbroken tr /\ hashes_differ tr /\ o = Panic) \/ (exists tr' q, tr = tr' ++ [broke q] /\ unbroken tr' /\ o = Panic).
Proof.
  intros Hm Hr He HA. destruct (unbroken_or tr) as [HU|HU]; [|right; right; exact (exec_stops _ _ _ He HU)].
  apply misused_tm in He; [|assumption..]. destruct o as [x| |]; [left; eauto| |exfalso; lia].
  right; left. split; [exact HU|]. split; [|reflexivity]. destruct He as [[[q Hq]|H] _]; [destruct (HU q Hq)|exact H].
Qed.

Theorem misused_mt  {R} (m : trie K V) (right : trie L W) st tr (o : outcome (trie L W * R * origin)) : misused m -> misused right -> exec (ask_mt st TwClosure MwClosure TwClosure m right) tr o ->
  match o with
  | Ret (m', r, og) => Permutation (jtold_all tr) (map inl (map_visit m) ++ map inr (map_visit right)) /\ (og = Right -> m' = right) /\
      exists is outs, settled jsee mt_red mt_cost tr is r /\ Forall2 (mt_becomes tr) is outs /\ Permutation (map_visit m') (concat outs)
  | Panic => (jpanicked tr \/ hashes_differ tr) /\ exists rest, Permutation (jtold_all tr ++ rest) (map inl (map_visit m) ++ map inr (map_visit right))
  | Diverge => (3 <= longest m) /\ exists rest, Permutation (jtold_all tr ++ rest) (map inl (map_visit m) ++ map inr (map_visit right))
  end.
Proof.
  intros Hm Hr He. destruct (loose_mt st m right tr o (misused_loose m Hm) (misused_loose right Hr) He) as (rest & H1 & H2).
  destruct o as [[[m1 r] og]| |]; [|split; [exact H2|exists rest; exact H1]..].
  destruct H2 as (-> & _ & H3 & H4). rewrite app_nil_r in H1. auto.
Qed.

Theorem unequal_mt {KK : Key K} {KL : Key L}  {R} (m : trie K V) (right : trie L W) st tr (o : outcome (trie L W * R * origin)) : unequal m -> unequal right -> Forall mt_steady tr -> exec (ask_mt st TwClosure MwClosure TwClosure m right) tr o ->
  match o with
  | Ret (m', r, og) => unequal m'
  | Panic => jpanicked tr
  | Diverge => 3 <= longest m
  end.
Proof.
  intros Hm Hr HS He. pose proof (placed_mt st m right tr o (unequal_placed _ Hm) (unequal_placed _ Hr) HS He) as H.
  destruct o as [[[m1 r] og]| |]; [|exact H..]. eapply (une_mt K V KK L W KL); [| | |exact He]; assumption.
Qed.

Theorem misused_mt_ends  {R} (m : trie K V) (right : trie L W) st tr (o : outcome (trie L W * R * origin)) : misused m -> misused right -> exec (ask_mt st TwClosure MwClosure TwClosure m right) tr o ->
  longest m < 3 ->
  (unbroken tr /\ exists x, o = Ret x) \/ (unbroken tr /\ hashes_differ tr /\ o = Panic) \/ (exists tr' q, tr = tr' ++ [broke q] /\ unbroken tr' /\ o = Panic).
Proof.
  intros Hm Hr He HA. destruct (unbroken_or tr) as [HU|HU]; [|right; right; exact (exec_stops _ _ _ He HU)].
  apply misused_mt in He; [|assumption..]. destruct o as [x| |]; [left; eauto| |exfalso; lia].
  right; left. split; [exact HU|]. split; [|reflexivity]. destruct He as [[[q Hq]|H] _]; [destruct (HU q Hq)|exact H].
Qed.

Theorem misused_mm {S X} {R} (m : trie K V) (right : trie L W) tr (o : outcome (trie S X * R)) : misused m -> misused right -> exec (ask_mm MwClosure MwClosure MwClosure m right) tr o ->
  match o with
  | Ret (m', r) => Permutation (jtold_all tr) (map inl (map_visit m) ++ map inr (map_visit right)) /\
      exists is outs, settled jsee mm_red mm_cost tr is r /\ Forall2 (mm_becomes tr) is outs /\ Permutation (map_visit m') (concat outs)
  | Panic => (jpanicked tr \/ hashes_differ tr) /\ exists rest, Permutation (jtold_all tr ++ rest) (map inl (map_visit m) ++ map inr (map_visit right))
  | Diverge => (3 <= longest m \/ 3 <= longest right) /\ exists rest, Permutation (jtold_all tr ++ rest) (map inl (map_visit m) ++ map inr (map_visit right))
  end.
Proof.
  intros Hm Hr He. destruct (loose_mm m right tr o (misused_loose m Hm) (misused_loose right Hr) He) as (rest & H1 & H2).
  destruct o as [[m1 r]| |]; [|split; [exact H2|exists rest; exact H1]..].
  destruct H2 as (-> & _ & H4). rewrite app_nil_r in H1. auto.
Qed.

Theorem unequal_mm {KK : Key K} {KL : Key L} {S X} {KS : Key S} {R} (m : trie K V) (right : trie L W) tr (o : outcome (trie S X * R)) : unequal m -> unequal right -> Forall mm_steady tr -> exec (ask_mm MwClosure MwClosure MwClosure m right) tr o ->
  match o with
  | Ret (m', r) => unequal m'
  | Panic => jpanicked tr
  | Diverge => 3 <= longest m \/ 3 <= longest right
  end.
Proof.
  intros Hm Hr HS He. pose proof (placed_mm m right tr o (unequal_placed _ Hm) (unequal_placed _ Hr) HS He) as H.
  destruct o as [[m1 r]| |]; [|exact H..]. eapply (une_mm K V KK L W KL S X KS); [| | |exact He]; assumption.
Qed.

Theorem misused_mm_ends {S X} {R} (m : trie K V) (right : trie L W) tr (o : outcome (trie S X * R)) : misused m -> misused right -> exec (ask_mm MwClosure MwClosure MwClosure m right) tr o ->
  longest m < 3 -> longest right < 3 ->
  (unbroken tr /\ exists x, o = Ret x) \/ (unbroken tr /\ hashes_differ tr /\ o = Panic) \/ (exists tr' q, tr = tr' ++ [broke q] /\ unbroken tr' /\ o = Panic).
Proof.
  intros Hm Hr He HA HB. destruct (unbroken_or tr) as [HU|HU]; [|right; right; exact (exec_stops _ _ _ He HU)].
  apply misused_mm in He; [|assumption..]. destruct o as [x| |]; [left; eauto| |exfalso; lia].
  right; left. split; [exact HU|]. split; [|reflexivity]. destruct He as [[[q Hq]|H] _]; [destruct (HU q Hq)|exact H].
Qed.

End Sum.
