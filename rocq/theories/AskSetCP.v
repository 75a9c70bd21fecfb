(** A constant for two keys of sets is as good as a closure that answers it. *)
From Coq Require Import NArith List Bool Permutation Lia.
From Verif Require Import Base Words Flag Bia Node Api Trans Transform Joint JointT Sets Eff EffP EffApi EffMapP EffSet Ask AskT SpecAskT AskJ SpecAskJ AskSet SpecAskSet HandleP AskSetP AskSetJP.
Import ListNotations.
Open Scope N_scope.

Section Const.
Context {E : Env} {KL VL KR VR K V TB TL TR TB' TL' TR' R : Type}.
Notation A := (jreply KL VL KR VR K V TB TL TR R).
Notation A' := (jreply KL VL KR VR K V TB' TL' TR' R).
Context (H H1 : forall q : jcalls KL VL KR VR K V R, prog A (A' q)) (c : TB) (conv : TB -> TB').
Context (Hb : forall x y, H (JBoth x y) = PRet (A := A) (X := TB') (conv c)).
Context (Hb1 : forall x y, H1 (JBoth x y) = PAsk (A := A) (JBoth x y) (fun b => PRet (X := TB') (conv b))).
Context (Ho : forall q, match q with JBoth _ _ => True | _ => H q = H1 q /\ forall t o, exec (H q) t o -> forall e, In e t -> not_both e = true end).

Lemma apart_event (e : event (A := A)) : not_both e = true -> both_says c e.
Proof. destruct e as [[] a]; try discriminate; intros _; exact I. Qed.
Lemma apart_filter (t : list (event (A := A))) : (forall e, In e t -> not_both e = true) -> filter not_both t = t.
Proof. induction t as [|e t IH]; intros Ht; cbn; [reflexivity|]. rewrite (Ht e (or_introl eq_refl)), IH; [reflexivity|]. intros e' He. apply Ht. right. exact He. Qed.
Lemma apart_forall (t : list (event (A := A))) : (forall e, In e t -> not_both e = true) -> Forall (both_says c) t.
Proof. intros Ht. apply Forall_forall. intros e He. apply apart_event, Ht, He. Qed.

Lemma const_closure tr' : forall tr, spread H tr' tr -> exists tr1, spread H1 tr' tr1 /\ Forall (both_says c) tr1 /\ tr = filter not_both tr1.
Proof.
  induction tr' as [|[q a] tr' IH]; intros tr HS.
  - cbn in HS. subst. exists []. cbn. auto.
  - destruct a as [a|]; cbn [spread] in HS.
    + destruct HS as (t & tr2 & -> & Ht & HS). destruct (IH _ HS) as (tr1 & H2 & H3 & ->).
      assert (Hq : exists t1, exec (H1 q) t1 (Ret a) /\ Forall (both_says c) t1 /\ t = filter not_both t1).
      { pose proof (Ho q) as Hq. destruct q as [x y|x|y|x y| |k|k|k k'|k' k|k|v]; [|destruct Hq as [Hq1 Hq2]; exists t; rewrite <- Hq1; split; [exact Ht|]; split; [apply apart_forall, (Hq2 _ _ Ht)|symmetry; apply apart_filter, (Hq2 _ _ Ht)]..].
        rewrite Hb in Ht. destruct Ht as [-> Ht]. injection Ht as ->. exists [answer (A := A) (JBoth x y) c]. rewrite Hb1. split; [left; exists c, []; cbn; auto|]. split; [repeat constructor|reflexivity]. }
      destruct Hq as (t1 & Ht1 & HF & ->). exists (t1 ++ tr1). split; [exists t1, tr1; auto|]. split; [apply Forall_app; auto|rewrite filter_app; reflexivity].
    + destruct HS as [-> Ht]. exists tr. pose proof (Ho q) as Hq.
      destruct q as [x y|x|y|x y| |k|k|k k'|k' k|k|v]; [rewrite Hb in Ht; destruct Ht as [_ Ht]; discriminate Ht|..];
        destruct Hq as [Hq1 Hq2]; (split; [split; [reflexivity|]; rewrite <- Hq1; exact Ht|]; split; [apply apart_forall, (Hq2 _ _ Ht)|symmetry; apply apart_filter, (Hq2 _ _ Ht)]).
Qed.
Lemma closure_const tr' : forall tr1, spread H1 tr' tr1 -> Forall (both_says c) tr1 -> spread H tr' (filter not_both tr1).
Proof.
  induction tr' as [|[q a] tr' IH]; intros tr HS HF.
  - cbn in HS. subst. reflexivity.
  - destruct a as [a|]; cbn [spread] in HS |- *.
    + destruct HS as (t & tr2 & -> & Ht & HS). apply Forall_app in HF as [HF1 HF2]. rewrite filter_app. exists (filter not_both t), (filter not_both tr2).
      split; [reflexivity|]. split; [|exact (IH _ HS HF2)]. pose proof (Ho q) as Hq.
      destruct q as [x y|x|y|x y| |k|k|k k'|k' k|k|v]; [|destruct Hq as [Hq1 Hq2]; rewrite <- Hq1 in Ht; rewrite (apart_filter _ (Hq2 _ _ Ht)); exact Ht..].
      rewrite Hb1 in Ht. destruct Ht as [(b & t' & -> & -> & Ht)|[_ Ht]]; [|discriminate Ht]. injection Ht as ->. inversion HF1 as [|? ? Hc _]; subst.
      injection Hc as ->. rewrite Hb. cbn. auto.
    + destruct HS as [-> Ht]. split; [reflexivity|]. pose proof (Ho q) as Hq.
      destruct q as [x y|x|y|x y| |k|k|k k'|k' k|k|v]; [|destruct Hq as [Hq1 Hq2]; rewrite <- Hq1 in Ht; rewrite (apart_filter _ (Hq2 _ _ Ht)); exact Ht..].
      rewrite Hb1 in Ht. destruct Ht as [(b & t' & -> & -> & Ht)|[-> _]]; [discriminate Ht|]. inversion HF as [|? ? Hc _]; subst. discriminate Hc.
Qed.

Context (HO : forall q, only_asks (H q)) (HO1 : forall q, only_asks (H1 q)).
Lemma const_iff {X} (p : prog A' X) tr o : exec (handle H p) tr o <-> exists tr1, exec (handle H1 p) tr1 o /\ Forall (both_says c) tr1 /\ tr = filter not_both tr1.
Proof.
  split.
  - intros He. apply exec_handle in He as (tr' & He & HS); [|exact HO]. destruct (const_closure _ _ HS) as (tr1 & H2 & H3 & H4). exists tr1.
    split; [exact (handle_exec _ _ _ _ _ He H2)|auto].
  - intros (tr1 & He & HF & ->). apply exec_handle in He as (tr' & He & HS); [|exact HO1]. exact (handle_exec _ _ _ _ _ He (closure_const _ _ HS HF)).
Qed.
End Const.

Ltac const_tac := intros q; destruct q; try exact I; (split; [reflexivity|]); intros t0 o0 He e0 Hi; unask He; subst; cbn in Hi;
  repeat match goal with Hi : _ \/ _ |- _ => destruct Hi as [Hi|Hi] end; try contradiction; subst; reflexivity.

Section Sets.
Context {E : Env} {K L R : Type}.
Theorem set_tm_constant st (wb wl : tway R) wr c (s : tset K) (right : tset L) tr o : tw_says wb = Some c ->
  exec (aset_tm st wb wl wr s right) tr o <->
  exists tr1, exec (aset_tm st TwClosure wl wr s right) tr1 o /\ Forall (both_says c) tr1 /\ tr = filter not_both tr1.
Proof.
  intros Hw. apply (const_iff (sh_tm wb) (sh_tm TwClosure) c vres_of).
  - intros [k []] [l []]. destruct wb; [discriminate Hw|injection Hw as <-; reflexivity..].
  - intros [k []] [l []]. reflexivity.
  - const_tac.
  - intros q. destruct q, wb; cbn; auto.
  - intros q. destruct q; cbn; auto.
Qed.
Theorem set_mt_constant st (wb : tway R) wl wr c (s : tset K) (right : tset L) tr o : tw_says wb = Some c ->
  exec (aset_mt st wb wl wr s right) tr o <->
  exists tr1, exec (aset_mt st TwClosure wl wr s right) tr1 o /\ Forall (both_says c) tr1 /\ tr = filter not_both tr1.
Proof.
  intros Hw. apply (const_iff (sh_mt wb) (sh_mt TwClosure) c vres_of).
  - intros [k []] [l []]. destruct wb; [discriminate Hw|injection Hw as <-; reflexivity..].
  - intros [k []] [l []]. reflexivity.
  - const_tac.
  - intros q. destruct q, wb; cbn; auto.
  - intros q. destruct q; cbn; auto.
Qed.
Theorem set_mm_constant {S} (wb wl wr : mway R) c (s : tset K) (right : tset L) tr (o : outcome (tset S * R)) : mw_says wb = Some c ->
  exec (aset_mm wb wl wr s right) tr o <->
  exists tr1, exec (aset_mm MwClosure wl wr s right) tr1 o /\ Forall (both_says c) tr1 /\ tr = filter not_both tr1.
Proof.
  intros Hw. apply (const_iff (sh_mm wb) (sh_mm MwClosure) c kres_of).
  - intros [k []] [l []]. destruct wb; [discriminate Hw|injection Hw as <-; reflexivity..].
  - intros [k []] [l []]. reflexivity.
  - intros q. destruct q as [x y|x|y|x y| |k|k|k k'|k' k|[]|[]]; try exact Logic.I; (split; [reflexivity|]); intros t0 o0 He e0 Hi; unask He; subst; cbn in Hi;
      repeat match goal with Hi : _ \/ _ |- _ => destruct Hi as [Hi|Hi] end; try contradiction; subst; reflexivity.
  - intros q. destruct q as [x y|x|y|x y| |k|k|k k'|k' k|[]|[]], wb; cbn; auto.
  - intros q. destruct q as [x y|x|y|x y| |k|k|k k'|k' k|[]|[]]; cbn; auto.
Qed.
End Sets.
