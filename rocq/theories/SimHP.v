(** Two runs side by side, with their calls replaced ([handle]). *)
From Coq Require Import NArith Arith List Bool Lia ZifyBool ZifyN ZifyNat Permutation.
From Verif Require Import Base Words Flag Bia Node Api Trans Eff EffP EffApi EffMapP Ask AskT SpecAskT AskTP AskSet HandleP SpecConst SimP.
Import ListNotations.
Open Scope N_scope.

(** A call that panics is the last. *)
Fixpoint ended {Q : Type} {A : Q -> Type} (tr : list (event (A := A))) : Prop :=
  match tr with [] => True | e :: t => match projT2 e with Some _ => ended t | None => t = [] end end.
Lemma exec_ended {Q : Type} {A : Q -> Type} {X} (p : prog A X) : forall tr o, exec p tr o -> ended tr.
Proof.
  induction p as [x| | |q k IH]; intros tr o; cbn [exec]; try (intros [-> _]; exact Logic.I).
  intros [(a & t & -> & He)|[-> _]]; cbn; [exact (IH a _ _ He)|reflexivity].
Qed.

Section Handle.
Context {Q Q' : Type} {A : Q -> Type} {A' : Q' -> Type} (H H1 : forall q, prog A (A' q)).
Context (keep' soft' : Q' -> bool) (fair' : event (A := A') -> Prop) (keep soft : Q -> bool) (fair : event (A := A) -> Prop).
Context (HO : forall q, only_asks (H q)) (HO1 : forall q, only_asks (H1 q)).
Context (Hk : forall q, keep' q = true -> forall t o, exec (H q) t o -> exists t1, exec (H1 q) t1 o /\ same keep soft fair t t1).
Context (Hs : forall q, keep' q = false -> soft' q = true -> forall t o, exec (H q) t o -> Forall (fun e => keep (asked e) = false /\ soft (asked e) = true) t /\ (length t <= 1)%nat).
Context (Hg : forall q a, keep' q = false -> fair' (answer q a) -> exists t, exec (H1 q) t (Ret a) /\ Forall (fun e => keep (asked e) = false) t /\ Forall fair t /\ (1 <= length t)%nat).
Context (Hb : forall q, keep' q = false -> fair' (broke q) -> exists t, exec (H1 q) t Panic /\ Forall (fun e => keep (asked e) = false) t /\ Forall fair t /\ (1 <= length t)%nat).
Notation unk tr := (length (filter (fun e => negb (keep' (asked e))) tr)).

Lemma kept_none (t : list (event (A := A))) : Forall (fun e => keep (asked e) = false) t -> calls_kept keep t = [].
Proof. unfold calls_kept. induction 1 as [|e t He Ht IH]; cbn [filter]; [reflexivity|]. rewrite He. exact IH. Qed.

Lemma spread_sim n : forall tr' tr1' tr, (length tr' + length tr1' <= n)%nat -> spread H tr' tr -> calls_kept keep' tr1' = calls_kept keep' tr' ->
  Forall (fun e => keep' (asked e) || soft' (asked e) = true) tr' -> Forall fair' tr1' -> ended tr1' ->
  exists tr1, spread H1 tr1' tr1 /\ calls_kept keep tr1 = calls_kept keep tr /\ Forall (fun e => keep (asked e) || soft (asked e) = true) tr /\ Forall fair tr1 /\
    (length tr + unk tr1' <= length tr1 + unk tr')%nat.
Proof.
  induction n as [|n IH]; intros tr' tr1' tr Hn HS HK HA HF HE.
  { destruct tr', tr1'; cbn in Hn; try lia. cbn in HS. subst tr. exists []. cbn. auto. }
  assert ((exists e a, tr' = e :: a /\ keep' (asked e) = false) \/ (tr' = [] \/ exists e a, tr' = e :: a /\ keep' (asked e) = true)) as Hc.
  { destruct tr' as [|e a]; [auto|]. destruct (keep' (asked e)) eqn:He; [right; right; eauto|left; eauto]. }
  destruct Hc as [(e & a & -> & He)|Hc].
  - inversion HA as [|? ? Hse HA']; subst. rewrite He in Hse. cbn in Hse. unfold calls_kept in HK. cbn [filter] in HK. rewrite He in HK. cbn [length] in Hn.
    assert (exists t tr2 o, tr = t ++ tr2 /\ exec (H (asked e)) t o /\ spread H a tr2) as (t & tr2 & o & -> & Ht & HS2).
    { destruct e as [q [x|]]; cbn [spread] in HS; [destruct HS as (t & tr2 & -> & Ht & HS); exists t, tr2, (Ret x); auto|].
      destruct HS as [-> Ht]. exists tr, [], Panic. rewrite app_nil_r. cbn. auto. }
    destruct (Hs _ He Hse _ _ Ht) as [H2 H3]. destruct (IH a tr1' tr2 ltac:(lia) HS2 HK HA' HF HE) as (tr1 & G1 & G2 & G3 & G4 & G5).
    exists tr1. split; [exact G1|]. assert (calls_kept keep (t ++ tr2) = calls_kept keep tr2) as ->.
    { unfold calls_kept. rewrite filter_app. fold (calls_kept keep t). rewrite kept_none; [reflexivity|]. eapply Forall_impl; [|exact H2]. intros ? [? _]. assumption. }
    split; [exact G2|]. split; [apply Forall_app; split; [|exact G3]; eapply Forall_impl; [|exact H2]; intros ? [_ Hx]; cbn; rewrite Hx; apply orb_true_r|]. split; [exact G4|].
    cbn [filter]. rewrite He. cbn [negb length]. rewrite app_length. lia.
  - destruct tr1' as [|e1 b].
    { destruct Hc as [->|(e & a & -> & He)]; [cbn in HS; subst; exists []; cbn; auto|]. unfold calls_kept in HK. cbn [filter] in HK. rewrite He in HK. discriminate HK. }
    inversion HF as [|? ? Hfe HF']; subst. destruct (keep' (asked e1)) eqn:He1.
    + destruct Hc as [->|(e & a & -> & He)]; [unfold calls_kept in HK; cbn [filter] in HK; rewrite He1 in HK; discriminate HK|].
      unfold calls_kept in HK. cbn [filter] in HK. rewrite He, He1 in HK. injection HK as -> HK. inversion HA as [|? ? _ HA']; subst. cbn [length] in Hn.
      destruct e as [q [x|]]; cbn [spread] in HS.
      * destruct HS as (t & tr2 & -> & Ht & HS2). destruct (Hk q He t _ Ht) as (t1 & Ht1 & S1 & S2 & S3 & _ & S5).
        destruct (IH a b tr2 ltac:(lia) HS2 HK HA' HF' HE) as (tr1 & G1 & G2 & G3 & G4 & G5). exists (t1 ++ tr1). split; [exists t1, tr1; auto|].
        unfold calls_kept in *. rewrite !filter_app, S1, G2. split; [reflexivity|]. split; [apply Forall_app; auto|]. split; [apply Forall_app; auto|].
        cbn [filter]. rewrite He. cbn [negb]. rewrite !app_length. lia.
      * destruct HS as [-> Ht]. cbn in HE. subst b. destruct (Hk q He tr _ Ht) as (t1 & Ht1 & S1 & S2 & S3 & _ & S5). exists t1. split; [cbn; auto|]. split; [exact S1|]. split; [exact S2|]. split; [exact S3|].
        cbn [filter]. rewrite He. cbn [negb filter length]. lia.
    + unfold calls_kept in HK. cbn [filter] in HK. rewrite He1 in HK. destruct e1 as [q [x|]]; cbn [ended projT2] in HE.
      * destruct (Hg q x He1 Hfe) as (t & Ht & T1 & T2 & T3). destruct (IH tr' b tr ltac:(cbn [length] in Hn; lia) HS HK HA HF' HE) as (tr1 & G1 & G2 & G3 & G4 & G5).
        exists (t ++ tr1). split; [exists t, tr1; auto|]. split; [unfold calls_kept; rewrite filter_app; fold (calls_kept keep t); rewrite kept_none; [exact G2|exact T1]|].
        split; [exact G3|]. split; [apply Forall_app; auto|]. cbn [filter]. rewrite He1. cbn [negb length]. rewrite app_length. lia.
      * subst b. destruct Hc as [->|(e & a & -> & He)]; [|cbn [filter] in HK; rewrite He in HK; discriminate HK]. cbn in HS. subst tr.
        destruct (Hb q He1 Hfe) as (t & Ht & T1 & T2 & T3). exists t. split; [cbn; auto|]. split; [apply kept_none, T1|]. split; [constructor|]. split; [exact T2|].
        cbn [filter]. rewrite He1. cbn [negb filter length]. lia.
Qed.

Lemma unk_length (tr : list (event (A := A'))) : (length tr = length (calls_kept keep' tr) + unk tr)%nat.
Proof. unfold calls_kept. induction tr as [|e t IH]; [reflexivity|]. cbn [filter]. destruct (keep' (asked e)); cbn [negb length]; lia. Qed.

Lemma sim_handle {X Y} (P : X -> Y -> Prop) (p : prog A' X) (p1 : prog A' Y) : sim keep' soft' fair' P p p1 -> sim keep soft fair P (handle H p) (handle H1 p1).
Proof.
  intros HP tr o He. apply exec_handle in He as (tr' & He & HS); [|exact HO]. destruct (HP _ _ He) as (tr1' & o1 & He1 & (S1 & S2 & S3 & S4 & S5) & Ho).
  destruct (spread_sim _ tr' tr1' tr (le_n _) HS S1 S2 S3 (exec_ended _ _ _ He1)) as (tr1 & G1 & G2 & G3 & G4 & G5).
  exists tr1, o1. split; [exact (handle_exec _ _ _ _ _ He1 G1)|]. split; [|exact Ho]. split; [exact G2|]. split; [exact G3|]. split; [exact G4|]. split.
  - intros [q Hq]. destruct (unbroken_or tr1') as [HU|[q' Hq']].
    + destruct (spread_unbroken H1 HO1 _ _ G1 HU q Hq).
    + destruct (S4 (ex_intro _ q' Hq')) as [q2 H2]. exact (spread_broke H HO _ _ _ HS H2).
  - pose proof (unk_length tr'). pose proof (unk_length tr1'). rewrite S1 in *. lia.
Qed.
End Handle.
