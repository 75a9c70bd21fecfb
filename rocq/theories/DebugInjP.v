(** The text of a map tells the map (Debug.v). *)
From Coq Require Import Decimal DecimalN DecimalString NArith List Bool String Ascii Lia.
From Verif Require Import Base Words Flag Bia Node Profile Api Debug SpecDebug DebugP.
Import ListNotations.
Open Scope string_scope.

(** * Words *)
Definition wtext (n : N) : string := NilEmpty.string_of_uint (N.to_uint n).

Definition digit (c : ascii) : bool := (48 <=? N_of_ascii c)%N && (N_of_ascii c <=? 57)%N.

Lemma uint_apart d d' c c' s t : digit c = false -> digit c' = false ->
  NilEmpty.string_of_uint d ++ String c s = NilEmpty.string_of_uint d' ++ String c' t ->
  d = d' /\ String c s = String c' t.
Proof.
  intros Hc Hc'. revert d'.
  induction d; intros d'; destruct d'; cbn [NilEmpty.string_of_uint append]; intros H;
    try (injection H as E H; subst; discriminate);
    try (split; [reflexivity|exact H]);
    injection H as H; destruct (IHd _ H) as (-> & E2); split; (reflexivity || exact E2).
Qed.

Lemma wtext_apart n m c c' s t : digit c = false -> digit c' = false ->
  wtext n ++ String c s = wtext m ++ String c' t -> n = m /\ String c s = String c' t.
Proof.
  intros Hc Hc' H. destruct (uint_apart _ _ _ _ _ _ Hc Hc' H) as (E & Es). split; [|exact Es].
  rewrite <- (DecimalN.Unsigned.of_to n), <- (DecimalN.Unsigned.of_to m), E. reflexivity.
Qed.

Section Inj.
Context {K V : Type}.
Variable sk : K -> string.
Variable sv : V -> string.
Let dk (k : K) : fmt := text (sk k).
Let dv (v : V) : fmt := text (sv v).

(** * The text *)
Definition t_snode (s : snode K V) : string :=
  "SNode { key: " ++ sk (s_key s) ++ ", value: " ++ sv (s_value s) ++ " }".
Fixpoint t_lnode (l : lnode K V) : string :=
  match l with
  | LNL k v n z => "LNode { key: " ++ sk k ++ ", value: " ++ sv v ++ ", next: " ++
      ("L(" ++ t_lnode n ++ ")") ++ ", size: " ++ wtext z ++ " }"
  | LNS k v s z => "LNode { key: " ++ sk k ++ ", value: " ++ sv v ++ ", next: " ++
      ("S(" ++ t_snode s ++ ")") ++ ", size: " ++ wtext z ++ " }"
  end.
Fixpoint t_more (l : list string) : string :=
  match l with [] => "]" | a :: r => ", " ++ a ++ t_more r end.
Definition t_list (l : list string) : string :=
  match l with [] => "[]" | a :: r => "[" ++ a ++ t_more r end.
Fixpoint t_mnode (n : mnode K V) : string :=
  match n with
  | MC (BIA bits values extra) =>
      "C(" ++ ("CNode { nodes: " ++ ("BitIndexedArray { bits: " ++ wtext bits ++ ", values: " ++
        t_list (map t_mnode values) ++ ", extra: " ++ wtext extra ++ " }" ++ "") ++ " }") ++ ")"
  | ML l => "L(" ++ t_lnode l ++ ")"
  | MS s => "S(" ++ t_snode s ++ ")"
  end.

Lemma snode_text s : fmt_snode dk dv s = text (t_snode s).
Proof. reflexivity. Qed.
Lemma lnode_text l : fmt_lnode dk dv l = text (t_lnode l).
Proof.
  induction l as [k v n IH z|k v s z]; cbn [fmt_lnode t_lnode]; [rewrite IH|rewrite snode_text]; reflexivity.
Qed.
Lemma more_text l : more_entries (map text l) = text (t_more l).
Proof. induction l as [|a l IH]; [reflexivity|]. cbn [map more_entries]. rewrite IH. reflexivity. Qed.
Lemma list_text l : fmt_list (map text l) = text (t_list l).
Proof. destruct l as [|a l]; [reflexivity|]. cbn [map fmt_list]. rewrite more_text. reflexivity. Qed.
Lemma mnode_text n : fmt_mnode dk dv n = text (t_mnode n).
Proof.
  induction n as [bits values x IH|l|s] using mnode_ind'; cbn [fmt_mnode t_mnode].
  - assert (E : map (fmt_mnode dk dv) values = map text (map t_mnode values)).
    { rewrite map_map. clear -IH. induction IH as [|n values Hn _ IH2]; [reflexivity|].
      cbn [map]. rewrite Hn, IH2. reflexivity. }
    rewrite E. unfold fmt_array. rewrite list_text. reflexivity.
  - rewrite lnode_text. reflexivity.
  - reflexivity.
Qed.

(** * Reading it *)
Hypothesis Hk : parted ", value: " sk.
Hypothesis Hv : parted " }" sv.
Hypothesis Hn : parted ", next: " sv.

Definition reads {A} (f : A -> string) (x : A) : Prop :=
  forall y s t, f x ++ s = f y ++ t -> x = y /\ s = t.

Ltac peel H := apply sapp_cancel in H.

Lemma read_snode s : reads t_snode s.
Proof.
  intros s' x y H. destruct s as [k v], s' as [k' v']. unfold t_snode in H. cbn [s_key s_value] in H.
  rewrite !sapp_assoc in H. peel H.
  pose proof (Hk _ _ _ _ H) as <-. peel H. peel H.
  pose proof (Hv _ _ _ _ H) as <-. peel H. peel H. split; [reflexivity|exact H].
Qed.

Lemma read_lnode l : reads t_lnode l.
Proof.
  induction l as [k v n IH z|k v s z]; intros [k' v' n' z'|k' v' s' z'] x y H; cbn [t_lnode] in H;
    rewrite !sapp_assoc in H; peel H; pose proof (Hk _ _ _ _ H) as <-; peel H; peel H;
    pose proof (Hn _ _ _ _ H) as <-; peel H; peel H.
  - peel H. apply IH in H. destruct H as (<- & H). peel H. peel H.
    apply (wtext_apart _ _ " "%char " "%char (("}" ++ x)) ("}" ++ y) eq_refl eq_refl) in H.
    destruct H as (<- & H). split; [reflexivity|]. apply (sapp_cancel " }"). exact H.
  - discriminate H.
  - discriminate H.
  - peel H. apply read_snode in H. destruct H as (<- & H). peel H. peel H.
    apply (wtext_apart _ _ " "%char " "%char (("}" ++ x)) ("}" ++ y) eq_refl eq_refl) in H.
    destruct H as (<- & H). split; [reflexivity|]. apply (sapp_cancel " }"). exact H.
Qed.

Lemma read_more values : Forall (reads t_mnode) values ->
  reads (fun l => t_more (map t_mnode l)) values.
Proof.
  induction 1 as [|n values Hr _ IH]; intros [|n' values'] x y H; cbn [map t_more] in H.
  - peel H. split; [reflexivity|exact H].
  - discriminate H.
  - discriminate H.
  - rewrite !sapp_assoc in H. peel H. apply Hr in H. destruct H as (<- & H).
    apply IH in H. destruct H as (<- & H). split; [reflexivity|exact H].
Qed.


Lemma mnode_bracket n s t : "]" ++ s <> t_mnode n ++ t.
Proof. destruct n as [[bits values x]|l|c]; discriminate. Qed.

Lemma read_list values : Forall (reads t_mnode) values ->
  reads (fun l => t_list (map t_mnode l)) values.
Proof.
  intros HF [|n' values'] x y H; destruct values as [|n values]; cbn [map t_list] in H.
  - peel H. split; [reflexivity|exact H].
  - exfalso. rewrite !sapp_assoc in H. symmetry in H. apply (sapp_cancel "[") in H.
    exact (mnode_bracket _ _ _ H).
  - exfalso. rewrite !sapp_assoc in H. apply (sapp_cancel "[") in H. exact (mnode_bracket _ _ _ H).
  - inversion HF as [|? ? Hr HF']; subst. rewrite !sapp_assoc in H. peel H.
    apply Hr in H. destruct H as (<- & H).
    apply (read_more _ HF') in H. destruct H as (<- & H). split; [reflexivity|exact H].
Qed.

Lemma read_mnode n : reads t_mnode n.
Proof.
  induction n as [bits values z IH|l|c] using mnode_ind'; intros [[bits' values' z']|l'|c'] x y H;
    cbn [t_mnode] in H; try discriminate H; rewrite !sapp_assoc in H; peel H.
  - peel H. peel H.
    apply (wtext_apart _ _ ","%char ","%char (" values: " ++ _) (" values: " ++ _) eq_refl eq_refl) in H.
    destruct H as (<- & H). apply (sapp_cancel ", values: ") in H.
    apply (read_list _ IH) in H. destruct H as (<- & H). peel H.
    apply (wtext_apart _ _ " "%char " "%char ("}" ++ _) ("}" ++ _) eq_refl eq_refl) in H.
    destruct H as (<- & H). split; [reflexivity|]. apply (sapp_cancel " } })"). exact H.
  - apply read_lnode in H. destruct H as (<- & H). peel H. split; [reflexivity|exact H].
  - apply read_snode in H. destruct H as (<- & H). peel H. split; [reflexivity|exact H].
Qed.

Theorem debug_injective m m' : map_debug dk dv m = map_debug dk dv m' -> m = m'.
Proof.
  unfold map_debug, fmt_trie. rewrite !mnode_text. intros H. injection H as H. rewrite !sapp_assoc in H.
  exact (proj1 (read_mnode m m' _ _ H)).
Qed.

End Inj.

Theorem set_debug_injective {K} (sk : K -> string) (s s' : mnode K unit) : parted ", value: " sk ->
  set_debug (fun k => text (sk k)) s = set_debug (fun k => text (sk k)) s' -> s = s'.
Proof.
  intros Hk. unfold set_debug, fmt_trie.
  rewrite !(mnode_text sk (fun _ : unit => "()")). intros H. injection H as H. rewrite !sapp_assoc in H.
  refine (proj1 (read_mnode sk (fun _ : unit => "()") Hk _ _ s s' _ _ H)); intros [] []; reflexivity.
Qed.

(** Printing unsigned words, as Rust does, leaves no doubt before these separators. *)
Lemma parted_words sep c r : sep = String c r -> digit c = false -> parted sep wtext.
Proof.
  intros -> Hc x y s t H. cbn [append] in H. exact (proj1 (wtext_apart _ _ _ _ _ _ Hc Hc H)).
Qed.
