(** transform_with_transformed on misused maps. *)
From Coq Require Import NArith Arith List Bool Lia Permutation.
From Verif Require Import Base Words Flag Bia BiaP Node Inv Api Reach Trans Transform Joint JointT Eff EffP EffTP EffApi EffMapP Ask SpecAsk AskP AskHashP AskT SpecAskT AskTP AskTTP AskMP AskTopP AskJ SpecAskJ AskJTopP AskJPlaceP AskJLooseP Misuse AskApiP
  AskTw SpecAskTw AskTwTopP AskTwPlaceP.
Import ListNotations.
Open Scope N_scope.

Section Sum.
Context {E : Env} {K V : Type}.

Theorem misused_tt {R} (m right : trie K V) st tr (o : outcome (trie K V * R * origin)) : misused m -> misused right ->
  exec (ask_tt st JwClosure TwClosure TwClosure m right) tr o ->
  longest m < 2 \/ longest right < 2 -> (2 <= longest m -> calm_left tr) -> (2 <= longest right -> calm_right tr) ->
  match o with
  | Ret (m', r, og) => misused m' /\ Permutation (jtold_all tr) (map inl (map_visit m) ++ map inr (map_visit right)) /\ (og = Self -> m' = m) /\ (og = Right -> m' = right) /\
      exists is outs, settled jsee tt_red tt_cost tr is r /\ Forall2 (tt_becomes tr) is outs /\ Permutation (map_visit m') (concat outs)
  | Panic => (jpanicked tr \/ hashes_differ tr) /\ exists rest, Permutation (jtold_all tr ++ rest) (map inl (map_visit m) ++ map inr (map_visit right))
  | Diverge => False
  end.
Proof.
  intros Hm Hr He Hone HL HR. destruct (loose_tt st m right tr o (misused_loose m Hm) (misused_loose right Hr) He Hone HL HR) as (rest & H1 & H2).
  destruct o as [[[m1 r] og]| |]; [|split; [exact H2|exists rest; exact H1]|exact H2].
  destruct H2 as (-> & _ & H3 & H4). rewrite app_nil_r in H1. split; [exact (mis_tt _ _ _ _ _ _ _ _ _ _ _ _ _ Hm Hr He)|auto].
Qed.

Theorem unequal_tt {KK : Key K} {R} (m right : trie K V) st tr (o : outcome (trie K V * R * origin)) : unequal m -> unequal right -> Forall jsteady tr ->
  exec (ask_tt st JwClosure TwClosure TwClosure m right) tr o ->
  longest m < 2 \/ longest right < 2 -> (2 <= longest m -> calm_left tr) -> (2 <= longest right -> calm_right tr) ->
  match o with
  | Ret (m', r, og) => unequal m'
  | Panic => jpanicked tr
  | Diverge => False
  end.
Proof.
  intros Hm Hr HS He Hone HL HR. pose proof (placed_tt st m right tr o (unequal_placed _ Hm) (unequal_placed _ Hr) HS He Hone HL HR) as H.
  destruct o as [[[m1 r] og]| |]; [|exact H..]. exact (une_tt _ _ _ _ _ _ _ _ _ _ _ _ _ _ Hm Hr HS He).
Qed.

Theorem misused_tt_ends {R} (m right : trie K V) st tr (o : outcome (trie K V * R * origin)) : misused m -> misused right ->
  exec (ask_tt st JwClosure TwClosure TwClosure m right) tr o -> longest m < 2 -> longest right < 2 ->
  (unbroken tr /\ exists x, o = Ret x) \/ (unbroken tr /\ hashes_differ tr /\ o = Panic) \/ (exists tr' q, tr = tr' ++ [broke q] /\ unbroken tr' /\ o = Panic).
Proof.
  intros Hm Hr He HA HB. destruct (unbroken_or tr) as [HU|HU]; [|right; right; exact (exec_stops _ _ _ He HU)].
  apply misused_tt in He; [|assumption|assumption|left; assumption|lia|lia]. destruct o as [x| |]; [left; eauto| |contradiction].
  right; left. split; [exact HU|]. split; [|reflexivity]. destruct He as [[[q Hq]|H] _]; [destruct (HU q Hq)|exact H].
Qed.

(** Also with constants, and with collision lists on both sides. *)
Theorem misused_tt_sound {R} (m right : trie K V) st wb wl wr tr (o : outcome (trie K V * R * origin)) : misused m -> misused right -> exec (ask_tt st wb wl wr m right) tr o ->
  match o with
  | Ret (m', r, og) => misused m' /\ map_size m' = lenN (map_visit m') /\ Forall (from tr m right) (map_visit m') /\ (og = Self -> m' = m) /\ (og = Right -> m' = right)
  | Panic => jpanicked tr \/ hashes_differ tr \/ (2 <= longest m /\ 2 <= longest right)
  | Diverge => 2 <= longest m /\ 2 <= longest right /\ (3 <= longest m \/ 3 <= longest right)
  end.
Proof.
  intros Hm Hr He. pose proof (loose_tt_any st wb wl wr m right tr o (misused_loose _ Hm) (misused_loose _ Hr) He) as H. destruct o as [[[m' r] og]| |]; [|exact H..].
  pose proof (mis_tt _ _ _ _ _ _ _ _ _ _ _ _ _ Hm Hr He) as HM. split; [exact HM|]. split; [apply misused_size, HM|]. apply H.
Qed.
Theorem unequal_tt_sound {KK : Key K} {R L} {KL : Key L} (m right : trie K V) st wb wl wr tr (o : outcome (trie K V * R * origin)) (q : L) : unequal m -> unequal right -> Forall jsteady tr ->
  exec (ask_tt st wb wl wr m right) tr o ->
  match o with
  | Ret (m', r, og) => unequal m' /\ ((exists e, map_find m' q = Ret (Ok e) /\ In e (map_visit m') /\ cls (fst e) = cls q) \/
      (map_find m' q = Ret (Err NotFound) /\ forall e, In e (map_visit m') -> cls (fst e) <> cls q))
  | Panic => jpanicked tr \/ (2 <= longest m /\ 2 <= longest right)
  | Diverge => 2 <= longest m /\ 2 <= longest right /\ (3 <= longest m \/ 3 <= longest right)
  end.
Proof.
  intros Hm Hr HS He. pose proof (placed_tt_any st wb wl wr m right tr o (unequal_placed _ Hm) (unequal_placed _ Hr) HS He) as H. destruct o as [[[m' r] og]| |]; [|exact H..].
  pose proof (une_tt _ _ _ _ _ _ _ _ _ _ _ _ _ _ Hm Hr HS He) as HU. split; [exact HU|]. apply unequal_find, HU.
Qed.
End Sum.
