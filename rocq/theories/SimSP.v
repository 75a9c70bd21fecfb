(** C66 for sets and the transfute operations. *)
From Coq Require Import NArith Arith List Bool Lia Permutation.
From Verif Require Import Base Words Flag Bia Node Api Reach Trans Transform Joint JointT Sets Eff EffP EffApi EffMapP EffSet Ask AskP AskT SpecAskT AskJ SpecAskJ Misuse AskApiP AskSet SpecAskSet HandleP AskSetP AskSetJP SpecConst SpecConstSet SimP SimAP SimBP SimHP.
Import ListNotations.
Open Scope N_scope.

Section Same.
Context {Q : Type} {A : Q -> Type} (keep soft : Q -> bool) (fair : event (A := A) -> Prop).
Lemma same_same (t : list event) : Forall (fun e => keep (asked e) = true) t -> Forall fair t -> same keep soft fair t t.
Proof.
  intros H1 H2. split; [reflexivity|]. split; [eapply Forall_impl; [|exact H1]; intros e He; cbn; rewrite He; reflexivity|]. split; [exact H2|]. split; [auto|lia].
Qed.
Lemma answer_not_broke q (a : A q) : ~ exists q', In (broke q') [answer q a].
Proof. intros [q' [Hq|[]]]. discriminate (f_equal (fun e => match projT2 e with Some _ => true | None => false end) Hq). Qed.
Lemma same_ghost q (a : A q) : keep q = false -> fair (answer q a) -> same keep soft fair [] [answer q a].
Proof.
  intros H1 H2. unfold same, calls_kept. cbn [filter]. change (asked (answer q a)) with q. rewrite H1. split; [reflexivity|]. split; [constructor|]. split; [constructor; [exact H2|constructor]|].
  split; [|cbn; lia]. intros H. destruct (answer_not_broke _ _ H).
Qed.
End Same.

Lemma sw_fair_all {R} (w : tway R) : tw_closure w = true -> forall a : option (sres R), sw_fair w a.
Proof. destruct w; [|discriminate..]. intros _ [a|]; [exact Logic.I|reflexivity]. Qed.
Lemma skw_fair_all {S R} (w : mway R) : mw_closure w = true -> forall a : option (skres S R), skw_fair w a.
Proof. destruct w; [|discriminate]. intros _ [a|]; [exact Logic.I|reflexivity]. Qed.
Lemma sw_from_fair {R} (w : tway R) (o : sres R) (P : Prop) : sw_fair w (Some o) -> (tw_closure w = true -> P) -> sw_from w o P.
Proof. destruct w; cbn; auto. Qed.
Lemma skw_from_fair {S R} (w : mway R) (o : skres S R) (P : Prop) : skw_fair w (Some o) -> (mw_closure w = true -> P) -> skw_from w o P.
Proof. destruct w; cbn; auto. Qed.

Ltac fair_tac := first [exact Logic.I | apply tw_fair_all; assumption | apply mw_fair_all; assumption | apply sw_fair_all; assumption | apply skw_fair_all; assumption].
(** A call that is kept. *)
Ltac unask_all Ht := unask Ht; try match type of Ht with context [match ?a with SKTransmuted _ _ => _ | SKDropped _ => _ end] => destruct a; unask Ht end.
Ltac kept_tac Ht := match type of Ht with exec _ ?t _ => exists t; split; [exact Ht|]; apply same_same; unask_all Ht; subst;
  repeat (constructor; [first [reflexivity|assumption|fair_tac]|]); constructor end.
Ltac asks_tac := let q := fresh "q" in intros q; destruct q; repeat match goal with x : Empty_set |- _ => destruct x | w : tway _ |- _ => destruct w | w : mway _ |- _ => destruct w end; cbn; repeat (first [exact Logic.I|let a := fresh "a" in intros a; try destruct a; cbn]).
Ltac soft_tac := let q := fresh "q" in let t := fresh "t" in let o := fresh "o" in let Hq := fresh "Hq" in let Hs := fresh "Hs" in let Ht := fresh "Ht" in
  intros q Hq Hs t o Ht; destruct q; repeat match goal with x : Empty_set |- _ => destruct x end; cbn in Hq, Hs; try discriminate; unask Ht; subst; split; repeat constructor.
(** A closure that stands for a constant. *)
Tactic Notation "one_call" constr(B) uconstr(q) uconstr(a) := exists [answer (A := B) q a]; split; [left; exists a, []; cbn; auto|]; split; [constructor; [first [reflexivity|assumption]|constructor]|]; split; [constructor; [cbn; auto|constructor]|cbn; lia].

Section SET_TM.
Context {E : Env} {K L R : Type}.
Notation A := (jreply K unit L unit K unit (sres R) (sres R) (skres K R) R).
Theorem set_tm_sim st (wb : tway R) (wl : tway R) (wr : mway R) (m : tset K) (right : tset L) : loose 0 m -> loose 0 right ->
  sim (jkeep (tw_closure wb) (tw_closure wl) (mw_closure wr)) jsoft (jfair (sw_fair wb) (sw_fair wl) (skw_fair wr)) same_map
    (aset_tm st wb wl wr m right) (aset_tm st TwClosure TwClosure MwClosure m right).
Proof.
  intros Hm Hr. unfold aset_tm. eapply sim_handle; [| | | | | |exact (ask_tm_sim st TwClosure wl wr m right Hm Hr)].
  - asks_tac.
  - asks_tac.
  - intros q Hq t o Ht. destruct q as [[x []] [y []]|[x []]|[y []]|x y| |k|k|k k'|k' k|k|v]; cbn in Hq; try discriminate; [|kept_tac Ht..].
    destruct wb as [|r|r]; [kept_tac Ht|..].
    + destruct Ht as [-> ->]. exists [answer (A := A) (JBoth (x, tt) (y, tt)) (SUnchanged r)]. split; [left; exists (SUnchanged r), []; cbn; auto|].
      apply same_ghost; reflexivity.
    + destruct Ht as [-> ->]. exists [answer (A := A) (JBoth (x, tt) (y, tt)) (SDropped r)]. split; [left; exists (SDropped r), []; cbn; auto|].
      apply same_ghost; reflexivity.
  - soft_tac.
  - intros q a Hq Hf. destruct q as [[x []] [y []]|[x []]|[y []]|x y| |k|k|k k'|k' k|k|v]; cbn in Hq; try discriminate.
    + destruct wl as [|r|r]; [discriminate Hq|..]; cbn in Hf; subst a; [one_call A (JLeft (x, tt)) (SUnchanged r)|one_call A (JLeft (x, tt)) (SDropped r)].
    + destruct wr as [|r]; [discriminate Hq|]; cbn in Hf; subst a; one_call A (JRight (y, tt)) (SKDropped r).
    + one_call A (JReduce x y) a.
    + one_call A JDefault a.
  - intros q Hq Hf. destruct q as [[x []] [y []]|[x []]|[y []]|x y| |k|k|k k'|k' k|k|v]; cbn in Hq; try discriminate.
    + cbn in Hf. subst wl. discriminate Hq.
    + cbn in Hf. subst wr. discriminate Hq.
    + exists [broke (A := A) (JReduce x y)]. split; [right; auto|]. split; [repeat constructor|]. split; [repeat constructor|cbn; lia].
    + exists [broke (A := A) JDefault]. split; [right; auto|]. split; [repeat constructor|]. split; [repeat constructor|cbn; lia].
Qed.
End SET_TM.

Section SET_MT.
Context {E : Env} {K L R : Type}.
Notation A := (jreply K unit L unit L unit (sres R) (skres L R) (sres R) R).
Theorem set_mt_sim st (wb : tway R) (wl : mway R) (wr : tway R) (m : tset K) (right : tset L) : loose 0 m -> loose 0 right ->
  sim (jkeep (tw_closure wb) (mw_closure wl) (tw_closure wr)) jsoft (jfair (sw_fair wb) (skw_fair wl) (sw_fair wr)) same_map
    (aset_mt st wb wl wr m right) (aset_mt st TwClosure MwClosure TwClosure m right).
Proof.
  intros Hm Hr. unfold aset_mt. eapply sim_handle; [| | | | | |exact (ask_mt_sim st TwClosure wl wr m right Hm Hr)].
  - asks_tac.
  - asks_tac.
  - intros q Hq t o Ht. destruct q as [[x []] [y []]|[x []]|[y []]|x y| |k|k|k k'|k' k|k|v]; cbn in Hq; try discriminate; [|kept_tac Ht..].
    destruct wb as [|r|r]; [kept_tac Ht|..].
    + destruct Ht as [-> ->]. exists [answer (A := A) (JBoth (x, tt) (y, tt)) (SUnchanged r)]. split; [left; exists (SUnchanged r), []; cbn; auto|].
      apply same_ghost; reflexivity.
    + destruct Ht as [-> ->]. exists [answer (A := A) (JBoth (x, tt) (y, tt)) (SDropped r)]. split; [left; exists (SDropped r), []; cbn; auto|].
      apply same_ghost; reflexivity.
  - soft_tac.
  - intros q a Hq Hf. destruct q as [[x []] [y []]|[x []]|[y []]|x y| |k|k|k k'|k' k|k|v]; cbn in Hq; try discriminate.
    + destruct wl as [|r]; [discriminate Hq|]; cbn in Hf; subst a; one_call A (JLeft (x, tt)) (SKDropped r).
    + destruct wr as [|r|r]; [discriminate Hq|..]; cbn in Hf; subst a; [one_call A (JRight (y, tt)) (SUnchanged r)|one_call A (JRight (y, tt)) (SDropped r)].
    + one_call A (JReduce x y) a.
    + one_call A JDefault a.
  - intros q Hq Hf. destruct q as [[x []] [y []]|[x []]|[y []]|x y| |k|k|k k'|k' k|k|v]; cbn in Hq; try discriminate.
    + cbn in Hf. subst wl. discriminate Hq.
    + cbn in Hf. subst wr. discriminate Hq.
    + exists [broke (A := A) (JReduce x y)]. split; [right; auto|]. split; [repeat constructor|]. split; [repeat constructor|cbn; lia].
    + exists [broke (A := A) JDefault]. split; [right; auto|]. split; [repeat constructor|]. split; [repeat constructor|cbn; lia].
Qed.
End SET_MT.

Section SET_MM.
Context {E : Env} {K L S R : Type}.
Notation A := (jreply K unit L unit Empty_set Empty_set (skres S R) (skres S R) (skres S R) R).
Theorem set_mm_sim (wb : mway R) (wl : mway R) (wr : mway R) (m : tset K) (right : tset L) : loose 0 m -> loose 0 right ->
  sim (jkeep (mw_closure wb) (mw_closure wl) (mw_closure wr)) jsoft (jfair (skw_fair wb) (skw_fair wl) (skw_fair wr)) same_made
    (aset_mm (S := S) wb wl wr m right) (aset_mm (S := S) MwClosure MwClosure MwClosure m right).
Proof.
  intros Hm Hr. unfold aset_mm. eapply sim_handle; [| | | | | |exact (ask_mm_sim MwClosure wl wr m right Hm Hr)].
  - asks_tac.
  - asks_tac.
  - intros q Hq t o Ht. destruct q as [[x []] [y []]|[x []]|[y []]|x y| |k|k|k k'|k' k|[]|[]]; cbn in Hq; try discriminate; [|kept_tac Ht..].
    destruct wb as [|r]; [kept_tac Ht|..].
    + destruct Ht as [-> ->]. exists [answer (A := A) (JBoth (x, tt) (y, tt)) (SKDropped r)]. split; [left; exists (SKDropped r), []; cbn; auto|].
      apply same_ghost; reflexivity.
  - soft_tac.
  - intros q a Hq Hf. destruct q as [[x []] [y []]|[x []]|[y []]|x y| |k|k|k k'|k' k|[]|[]]; cbn in Hq; try discriminate.
    + destruct wl as [|r]; [discriminate Hq|]; cbn in Hf; subst a; one_call A (JLeft (x, tt)) (SKDropped r).
    + destruct wr as [|r]; [discriminate Hq|]; cbn in Hf; subst a; one_call A (JRight (y, tt)) (SKDropped r).
    + one_call A (JReduce x y) a.
    + one_call A JDefault a.
  - intros q Hq Hf. destruct q as [[x []] [y []]|[x []]|[y []]|x y| |k|k|k k'|k' k|[]|[]]; cbn in Hq; try discriminate.
    + cbn in Hf. subst wl. discriminate Hq.
    + cbn in Hf. subst wr. discriminate Hq.
    + exists [broke (A := A) (JReduce x y)]. split; [right; auto|]. split; [repeat constructor|]. split; [repeat constructor|cbn; lia].
    + exists [broke (A := A) JDefault]. split; [right; auto|]. split; [repeat constructor|]. split; [repeat constructor|cbn; lia].
Qed.
End SET_MM.

Section TF.
Context {E : Env} {K V W R : Type}.
Notation A := (jreply K V K W K V (vres V R) (vres V R) (skres V R) R).
Theorem tf_sim st (wb : tway R) (wl : tway R) (wr : mway R) (m : trie K V) (right : trie K W) : loose 0 m -> loose 0 right ->
  sim (jkeep (tw_closure wb) (tw_closure wl) (mw_closure wr)) jsoft (jfair (tw_fair wb) (tw_fair wl) (skw_fair wr)) same_map
    (ask_tf st wb wl wr m right) (ask_tf st TwClosure TwClosure MwClosure m right).
Proof.
  intros Hm Hr. unfold ask_tf. eapply sim_handle; [| | | | | |exact (ask_tm_sim st wb wl wr m right Hm Hr)].
  - asks_tac.
  - asks_tac.
  - intros q Hq t o Ht. destruct q as [[x v] [y w]|[x v]|[y w]|x y| |k|k|k k'|k' k|k|v]; cbn in Hq; try discriminate.
    3: destruct wr; try discriminate Hq. 2: destruct wl; try discriminate Hq. 1: destruct wb; try discriminate Hq.
    all: try kept_tac Ht.
  - soft_tac.
  - intros q a Hq Hf. destruct q as [x y|x|y|x y| |k|k|k k'|k' k|k|v]; cbn in Hq; try discriminate.
    + destruct wb as [|r|r]; [discriminate Hq|..]; cbn in Hf; subst a; [one_call A (JBoth x y) (VUnchanged r)|one_call A (JBoth x y) (VDropped r)].
    + destruct wl as [|r|r]; [discriminate Hq|..]; cbn in Hf; subst a; [one_call A (JLeft x) (VUnchanged r)|one_call A (JLeft x) (VDropped r)].
    + destruct wr as [|r]; [discriminate Hq|]; cbn in Hf; subst a; one_call A (JRight y) (SKDropped r).
    + one_call A (JReduce x y) a.
    + one_call A JDefault a.
  - intros q Hq Hf. destruct q as [x y|x|y|x y| |k|k|k k'|k' k|k|v]; cbn in Hq; try discriminate.
    + cbn in Hf. subst wb. discriminate Hq.
    + cbn in Hf. subst wl. discriminate Hq.
    + cbn in Hf. subst wr. discriminate Hq.
    + exists [broke (A := A) (JReduce x y)]. split; [right; auto|]. split; [repeat constructor|]. split; [repeat constructor|cbn; lia].
    + exists [broke (A := A) JDefault]. split; [right; auto|]. split; [repeat constructor|]. split; [repeat constructor|cbn; lia].
Qed.
End TF.

Section FT.
Context {E : Env} {K V W R : Type}.
Notation A := (jreply K V K W K W (vres W R) (skres W R) (vres W R) R).
Theorem ft_sim st (wb : tway R) (wl : mway R) (wr : tway R) (m : trie K V) (right : trie K W) : loose 0 m -> loose 0 right ->
  sim (jkeep (tw_closure wb) (mw_closure wl) (tw_closure wr)) jsoft (jfair (tw_fair wb) (skw_fair wl) (tw_fair wr)) same_map
    (ask_ft st wb wl wr m right) (ask_ft st TwClosure MwClosure TwClosure m right).
Proof.
  intros Hm Hr. unfold ask_ft. eapply sim_handle; [| | | | | |exact (ask_mt_sim st wb wl wr m right Hm Hr)].
  - asks_tac.
  - asks_tac.
  - intros q Hq t o Ht. destruct q as [[x v] [y w]|[x v]|[y w]|x y| |k|k|k k'|k' k|k|v]; cbn in Hq; try discriminate.
    3: destruct wr; try discriminate Hq. 2: destruct wl; try discriminate Hq. 1: destruct wb; try discriminate Hq.
    all: try kept_tac Ht.
  - soft_tac.
  - intros q a Hq Hf. destruct q as [x y|x|y|x y| |k|k|k k'|k' k|k|v]; cbn in Hq; try discriminate.
    + destruct wb as [|r|r]; [discriminate Hq|..]; cbn in Hf; subst a; [one_call A (JBoth x y) (VUnchanged r)|one_call A (JBoth x y) (VDropped r)].
    + destruct wl as [|r]; [discriminate Hq|]; cbn in Hf; subst a; one_call A (JLeft x) (SKDropped r).
    + destruct wr as [|r|r]; [discriminate Hq|..]; cbn in Hf; subst a; [one_call A (JRight y) (VUnchanged r)|one_call A (JRight y) (VDropped r)].
    + one_call A (JReduce x y) a.
    + one_call A JDefault a.
  - intros q Hq Hf. destruct q as [x y|x|y|x y| |k|k|k k'|k' k|k|v]; cbn in Hq; try discriminate.
    + cbn in Hf. subst wb. discriminate Hq.
    + cbn in Hf. subst wl. discriminate Hq.
    + cbn in Hf. subst wr. discriminate Hq.
    + exists [broke (A := A) (JReduce x y)]. split; [right; auto|]. split; [repeat constructor|]. split; [repeat constructor|cbn; lia].
    + exists [broke (A := A) JDefault]. split; [right; auto|]. split; [repeat constructor|]. split; [repeat constructor|cbn; lia].
Qed.
End FT.

