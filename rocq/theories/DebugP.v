(** Proofs about [Debug] (Debug.v). *)
From Coq Require Import Decimal DecimalN DecimalString NArith List Bool String Ascii Lia.
From Verif Require Import Base Words Flag Bia Node Profile Api Debug SpecDebug.
Import ListNotations.
Open Scope string_scope.

(** * Strings *)
Lemma sapp_assoc (a b c : string) : (a ++ b) ++ c = a ++ (b ++ c).
Proof. induction a as [|x a IH]; cbn [append]; [reflexivity|]. rewrite IH. reflexivity. Qed.
Lemma sapp_nil (a : string) : a ++ "" = a.
Proof. induction a as [|x a IH]; cbn [append]; [reflexivity|]. rewrite IH. reflexivity. Qed.
Lemma sapp_cancel (a b c : string) : a ++ b = a ++ c -> b = c.
Proof. induction a as [|x a IH]; cbn [append]; [trivial|]. intros H. injection H as H. exact (IH H). Qed.

(** * Sequences of calls *)
Lemma fseq_assoc a b c : fseq (fseq a b) c = fseq a (fseq b c).
Proof.
  destruct a as [sa []], b as [sb []], c as [sc ec]; unfold fseq; cbn [fst snd]; try reflexivity.
  rewrite sapp_assoc. reflexivity.
Qed.
Lemma fseq_nil a : fseq a (text "") = a.
Proof. destruct a as [s []]; unfold fseq, text; cbn [fst snd]; rewrite ?sapp_nil; reflexivity. Qed.


Definition glue (gs hs : list string) : list string :=
  match rev gs, hs with
  | g :: r, h :: hs' => (rev r ++ [append g h] ++ hs')%list
  | _, _ => hs
  end.
Lemma weave_glue gs hs cs ds :
  List.length gs = S (List.length cs) -> List.length hs = S (List.length ds) ->
  fseq (weave gs cs) (weave hs ds) = weave (glue gs hs) (cs ++ ds) /\
  List.length (glue gs hs) = S (List.length (cs ++ ds)).
Proof.
  revert cs. induction gs as [|g gs IH]; intros cs Hg Hh; [discriminate|].
  destruct cs as [|[s e] cs].
  - destruct gs; [|discriminate]. destruct hs as [|h hs]; [discriminate|].
    cbn [glue rev app weave]. split; [|cbn [List.length] in *; lia].
    destruct ds as [|[s e] ds]; cbn [weave fseq fst snd]; [reflexivity|].
    destruct e; unfold fseq; cbn [fst snd]; rewrite ?sapp_assoc; reflexivity.
  - cbn [List.length] in Hg. destruct (IH cs ltac:(lia) Hh) as (E & L).
    assert (Hgl : glue (g :: gs) hs = g :: glue gs hs).
    { unfold glue. cbn [rev]. destruct (rev gs) as [|x r] eqn:Er.
      - apply (f_equal (@List.length _)) in Er. rewrite rev_length in Er. cbn in Er. lia.
      - destruct hs as [|h hs]; [discriminate|]. cbn [app]. rewrite rev_app_distr. reflexivity. }
    rewrite Hgl. cbn [app weave]. split; [|cbn [List.length]; lia].
    destruct e; unfold fseq in *; cbn [fst snd] in *; try reflexivity.
    rewrite <- E. destruct (snd (weave gs cs)); cbn [fst snd]; rewrite ?sapp_assoc; reflexivity.
Qed.

Lemma weave_text s : text s = weave [s] [].
Proof. reflexivity. Qed.
Lemma weave_call c : c = weave [""; ""] [c].
Proof. destruct c as [s []]; cbn [weave fst snd append]; rewrite ?sapp_nil; reflexivity. Qed.

Section Weave.
Context {K V : Type}.

(** [f] shows the entries [l], whatever the client's code. *)
Definition shows_all (f : (K -> fmt) -> (V -> fmt) -> fmt) (mk : (K -> fmt) -> (V -> fmt) -> list fmt) : Prop :=
  exists gaps, forall dk dv, List.length gaps = S (List.length (mk dk dv)) /\ f dk dv = weave gaps (mk dk dv).

Lemma shows_seq f g mf mg : shows_all f mf -> shows_all g mg ->
  shows_all (fun dk dv => fseq (f dk dv) (g dk dv)) (fun dk dv => mf dk dv ++ mg dk dv)%list.
Proof.
  intros (gf & Hf) (gg & Hg). exists (glue gf gg). intros dk dv.
  destruct (Hf dk dv) as (Lf & Ef), (Hg dk dv) as (Lg & Eg). rewrite Ef, Eg.
  destruct (weave_glue gf gg _ _ Lf Lg) as (E & L). split; [exact L|exact E].
Qed.
Lemma shows_text s : shows_all (fun _ _ => text s) (fun _ _ => []).
Proof. exists [s]. intros. split; reflexivity. Qed.
Lemma shows_key k : shows_all (fun dk _ => dk k) (fun dk _ => [dk k]).
Proof. exists [""; ""]. intros. split; [reflexivity|apply weave_call]. Qed.
Lemma shows_val v : shows_all (fun _ dv => dv v) (fun _ dv => [dv v]).
Proof. exists [""; ""]. intros. split; [reflexivity|apply weave_call]. Qed.
Lemma shows_eq f mk mk' : (forall dk dv, mk dk dv = mk' dk dv) -> shows_all f mk -> shows_all f mk'.
Proof. intros H (g & Hg). exists g. intros dk dv. rewrite <- H. apply Hg. Qed.

Lemma row_length dk dv (l : list (K * V)) : List.length (row dk dv l) = (2 * List.length l)%nat.
Proof. unfold row. induction l as [|e l IH]; [reflexivity|]. cbn [flat_map app List.length]. lia. Qed.

Definition shows_row f (l : list (K * V)) : Prop := shows_all f (fun dk dv => row dk dv l).

Lemma row_app dk dv (l r : list (K * V)) : (row dk dv (l ++ r) = row dk dv l ++ row dk dv r)%list.
Proof. unfold row. apply flat_map_app. Qed.

Lemma shows_variant n f mk : shows_all f mk -> shows_all (fun dk dv => fmt_variant n (f dk dv)) mk.
Proof.
  intros H. unfold fmt_variant.
  eapply shows_eq; [|exact (shows_seq _ _ _ _ (shows_text _) (shows_seq _ _ _ _ H (shows_text _)))].
  intros dk dv. cbn [app]. apply app_nil_r.
Qed.

Lemma shows_snode (s : snode K V) : shows_row (fun dk dv => fmt_snode dk dv s) (s_visit s).
Proof.
  unfold shows_row, fmt_snode, fmt_struct, more_fields.
  eapply shows_eq; [|exact (shows_seq _ _ _ _ (shows_text _) (shows_seq _ _ _ _ (shows_key (s_key s))
    (shows_seq _ _ _ _ (shows_text _) (shows_seq _ _ _ _ (shows_val (s_value s)) (shows_text _)))))].
  reflexivity.
Qed.

Lemma shows_lstruct k v n z f l : shows_row f l ->
  shows_row (fun dk dv => fmt_struct "LNode" [("key", dk k); ("value", dv v);
                          ("next", fmt_variant n (f dk dv)); ("size", fmt_word z)]) ((k, v) :: l).
Proof.
  intros H. unfold shows_row, fmt_struct, more_fields.
  eapply shows_eq; [|exact (shows_seq _ _ _ _ (shows_text _) (shows_seq _ _ _ _ (shows_key k)
    (shows_seq _ _ _ _ (shows_text _) (shows_seq _ _ _ _ (shows_val v)
    (shows_seq _ _ _ _ (shows_text _) (shows_seq _ _ _ _ (shows_variant n _ _ H)
    (shows_seq _ _ _ _ (shows_text _) (shows_seq _ _ _ _ (shows_text _) (shows_text _)))))))))].
  intros dk dv. cbn [app row flat_map fst snd]. rewrite app_nil_r. reflexivity.
Qed.

Lemma shows_lnode (l : lnode K V) : shows_row (fun dk dv => fmt_lnode dk dv l) (l_visit l).
Proof.
  induction l as [k v n IH z|k v s z]; cbn [fmt_lnode l_visit]; apply shows_lstruct; [exact IH|apply shows_snode].
Qed.

Lemma shows_more (values : list (mnode K V)) :
  Forall (fun n => shows_row (fun dk dv => fmt_mnode dk dv n) (m_visit n)) values ->
  shows_row (fun dk dv => more_entries (map (fmt_mnode dk dv) values)) (List.concat (map m_visit values)).
Proof.
  induction values as [|n values IH]; intros H; cbn [map more_entries List.concat]; [apply shows_text|].
  inversion H as [|? ? Hn Hv]; subst.
  eapply shows_eq; [|exact (shows_seq _ _ _ _ (shows_text _) (shows_seq _ _ _ _ Hn (IH Hv)))].
  intros dk dv. cbn [app]. symmetry. apply row_app.
Qed.

Lemma shows_mnode (n : mnode K V) : shows_row (fun dk dv => fmt_mnode dk dv n) (m_visit n).
Proof.
  induction n as [bits values x IH|l|s] using mnode_ind'; cbn [fmt_mnode m_visit].
  - apply shows_variant. unfold fmt_struct, more_fields, fmt_array, fseqs.
    assert (HL : shows_row (fun dk dv => fmt_list (map (fmt_mnode dk dv) values)) (List.concat (map m_visit values))).
    { destruct values as [|n values]; cbn [map fmt_list]; [apply shows_text|].
      inversion IH as [|? ? Hn Hv]; subst. cbn [List.concat].
      eapply shows_eq; [|exact (shows_seq _ _ _ _ (shows_text _) (shows_seq _ _ _ _ Hn (shows_more _ Hv)))].
      intros dk dv. cbn [app]. symmetry. apply row_app. }
    eapply shows_eq; [|exact (shows_seq _ _ _ _ (shows_text _) (shows_seq _ _ _ _
     (shows_seq _ _ _ _ (shows_text _) (shows_seq _ _ _ _ (shows_text _)
      (shows_seq _ _ _ _ (shows_text _) (shows_seq _ _ _ _ HL (shows_seq _ _ _ _ (shows_text _)
      (shows_seq _ _ _ _ (shows_text _) (shows_seq _ _ _ _ (shows_text _) (shows_text _)))))))) (shows_text _)))].
    intros dk dv. cbn [app]. rewrite !app_nil_r. reflexivity.
  - apply shows_variant, shows_lnode.
  - apply shows_variant, shows_snode.
Qed.

Lemma shows_one name field f mk : shows_all f mk -> shows_all (fun dk dv => fmt_struct name [(field, f dk dv)]) mk.
Proof.
  intros H. unfold fmt_struct, more_fields.
  eapply shows_eq; [|exact (shows_seq _ _ _ _ (shows_text _) (shows_seq _ _ _ _ H (shows_text _)))].
  intros dk dv. cbn [app]. apply app_nil_r.
Qed.

Theorem debug_entries (m : mnode K V) : exists gaps, forall dk dv,
  List.length gaps = S (List.length (row dk dv (map_visit m))) /\
  map_debug dk dv m = weave gaps (row dk dv (map_visit m)).
Proof. exact (shows_one _ _ _ _ (shows_one _ _ _ _ (shows_mnode m))). Qed.

Lemma weave_end gaps cs : List.length gaps = S (List.length cs) -> snd (weave gaps cs) = first_end cs.
Proof.
  revert gaps. induction cs as [|[s e] cs IH]; intros [|g gaps] H; try discriminate; [reflexivity|].
  cbn [weave first_end]. destruct e; [|reflexivity..]. cbn [snd]. apply IH. cbn [List.length] in H. lia.
Qed.

Theorem debug_end dk dv (m : mnode K V) : snd (map_debug dk dv m) = first_end (row dk dv (map_visit m)).
Proof. destruct (debug_entries m) as (g & Hg). destruct (Hg dk dv) as (L & E). rewrite E. apply weave_end, L. Qed.

End Weave.

(** * Sets *)

(** Gaps of a row whose values are all the text "()". *)
Fixpoint pair_gaps (gaps : list string) : list string :=
  match gaps with
  | g :: h :: r => match pair_gaps r with x :: r' => g :: (h ++ "()" ++ x) :: r' | [] => [g; h ++ "()"] end
  | _ => gaps
  end.
Lemma set_row {K} (dk : K -> fmt) (l : list (K * unit)) gaps : List.length gaps = S (2 * List.length l)%nat ->
  List.length (pair_gaps gaps) = S (List.length l) /\
  weave gaps (row dk (fun _ => text "()") l) = weave (pair_gaps gaps) (map (fun e => dk (fst e)) l).
Proof.
  revert gaps. induction l as [|[k []] l IH]; intros gaps H.
  - destruct gaps as [|g [|h gaps]]; try discriminate. split; reflexivity.
  - destruct gaps as [|g [|h gaps]]; cbn [List.length] in H; try lia.
    destruct (IH gaps ltac:(lia)) as (L & E). cbn [pair_gaps].
    destruct (pair_gaps gaps) as [|x r]; [discriminate|]. split; [cbn [List.length] in *; lia|].
    cbn [row flat_map app map fst snd weave].
    destruct (dk k) as [s []]; cbn [weave text fst snd]; [|reflexivity..].
    fold (row dk (fun _ : unit => text "()") l). rewrite E.
    destruct (map (fun e => dk (fst e)) l) as [|[s' e'] cs].
    + cbn [weave fst snd]. rewrite ?sapp_assoc. reflexivity.
    + cbn [weave fst snd]. destruct e'; cbn [fst snd]; rewrite ?sapp_assoc; reflexivity.
Qed.

Theorem set_debug_entries {K} (s : mnode K unit) : exists gaps, List.length gaps = S (List.length (set_visit s)) /\
  forall dk, set_debug dk s = weave gaps (map dk (set_visit s)).
Proof.
  destruct (shows_one "HashTrieSet" "set" _ _ (shows_one "HashTrie" "root" _ _ (shows_mnode s))) as (g & Hg).
  exists (pair_gaps g).
  assert (HL : List.length g = S (2 * List.length (map_visit s))%nat).
  { destruct (Hg (fun _ => text "") (fun _ => text "")) as (L & _). rewrite L, row_length. reflexivity. }
  assert (Hall : forall dk, List.length (pair_gaps g) = S (List.length (set_visit s)) /\
            set_debug dk s = weave (pair_gaps g) (map dk (set_visit s))).
  { intros dk. destruct (Hg dk (fun _ => text "()")) as (_ & E). destruct (set_row dk (map_visit s) g HL) as (L & E2).
    unfold set_visit. rewrite map_length, map_map. split; [exact L|].
    etransitivity; [exact E|]. exact E2. }
  split; [exact (proj1 (Hall (fun _ => text "")))|]. intros dk. apply Hall.
Qed.
