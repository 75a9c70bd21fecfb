(** Facts about the association-list specification. *)
From Coq Require Import NArith Arith List Bool Lia Permutation.
From Verif Require Import Base Spec Bia BiaP.
Import ListNotations.

Section SpecP.
Context {E : Env}.

Lemma ceqb_refl c : ceqb c c = true.
Proof. apply ceqb_eq. reflexivity. Qed.
Lemma ceqb_neq a b : ceqb a b = false <-> a <> b.
Proof.
  split.
  - intros H ->. rewrite ceqb_refl in H. discriminate.
  - intros H. destruct (ceqb a b) eqn:Hc; [|reflexivity]. apply ceqb_eq in Hc. contradiction.
Qed.
Lemma ceqb_sym a b : ceqb a b = ceqb b a.
Proof.
  destruct (ceqb a b) eqn:H.
  - apply ceqb_eq in H as ->. symmetry. apply ceqb_refl.
  - symmetry. apply ceqb_neq. intros ->. rewrite ceqb_refl in H. discriminate.
Qed.
Lemma ceqb_spec a b : reflect (a = b) (ceqb a b).
Proof.
  destruct (ceqb a b) eqn:H; constructor; [apply ceqb_eq|apply ceqb_neq]; assumption.
Qed.

Context {K V : Type} {KK : Key K}.
Implicit Types l : list (K * V).

Lemma lookup_cons c e l : lookup c (e :: l) = if ceqb (ecls e) c then Some e else lookup c l.
Proof. reflexivity. Qed.
Lemma lookup_app c l l' : lookup c (l ++ l') = match lookup c l with Some e => Some e | None => lookup c l' end.
Proof.
  induction l; [reflexivity|]. rewrite <- app_comm_cons, !lookup_cons.
  destruct (ceqb (ecls a) c); [reflexivity|assumption].
Qed.
Lemma lookup_none c l : lookup c l = None <-> (forall e, In e l -> ecls e <> c).
Proof.
  split.
  - intros H e He. pose proof (find_none _ _ H e He) as HH. cbn in HH. apply ceqb_neq. exact HH.
  - intros H. destruct (lookup c l) eqn:HL; [|reflexivity]. apply find_some in HL.
    destruct HL as [Hi He]. apply ceqb_eq in He. exfalso. eapply H; eassumption.
Qed.
Lemma lookup_in c l e : lookup c l = Some e -> In e l /\ ecls e = c.
Proof. intros H. apply find_some in H. rewrite ceqb_eq in H. exact H. Qed.

Lemma uniq_nil : uniq (@nil (K * V)).
Proof. constructor. Qed.
Lemma uniq_cons e l : uniq (e :: l) <-> lookup (ecls e) l = None /\ uniq l.
Proof.
  unfold uniq. cbn [map]. rewrite NoDup_cons_iff, lookup_none. split; intros [H1 H2]; split; try assumption.
  - intros e' Hi He. apply H1. rewrite <- He. apply in_map. assumption.
  - intros Hi. apply in_map_iff in Hi. destruct Hi as (e' & He & Hi). eapply H1; eassumption.
Qed.
Lemma uniq_perm l l' : Permutation l l' -> uniq l -> uniq l'.
Proof. intros HP. apply Permutation_NoDup. apply Permutation_map. assumption. Qed.

Lemma in_lookup l e : uniq l -> In e l -> lookup (ecls e) l = Some e.
Proof.
  induction l as [|a l IH]; intros Hu Hi; [destruct Hi|].
  apply uniq_cons in Hu. destruct Hu as [Hn Hu]. rewrite lookup_cons.
  destruct Hi as [->|Hi]; [rewrite ceqb_refl; reflexivity|].
  destruct (ceqb_spec (ecls a) (ecls e)) as [He|]; [|apply IH; assumption].
  exfalso. rewrite lookup_none in Hn. apply (Hn e Hi). congruence.
Qed.

Lemma lookup_spec l c e : uniq l -> lookup c l = Some e <-> In e l /\ ecls e = c.
Proof.
  intros Hu. split; [apply lookup_in|]. intros [Hi <-]. apply in_lookup; assumption.
Qed.

Lemma lookup_perm l l' c : uniq l -> Permutation l l' -> lookup c l = lookup c l'.
Proof.
  intros Hu HP. destruct (lookup c l') eqn:HL.
  - assert (Hu' := uniq_perm _ _ HP Hu). apply lookup_spec in HL; [|assumption].
    apply lookup_spec; [assumption|]. destruct HL. split; [|assumption].
    eapply Permutation_in; [|eassumption]. symmetry. assumption.
  - rewrite lookup_none in *. intros e Hi. apply HL. eapply Permutation_in; eassumption.
Qed.

(** Two finite maps with the same answers hold the same entries. *)
Lemma NoDup_of_uniq l : uniq l -> NoDup l.
Proof. intros H. eapply NoDup_map_inv. exact H. Qed.

Lemma lookup_ext_perm l l' : uniq l -> uniq l' -> (forall c, lookup c l = lookup c l') -> Permutation l l'.
Proof.
  intros Hu Hu' H. apply NoDup_Permutation; try (apply NoDup_of_uniq; assumption).
  intros e. split; intros Hi.
  - apply (in_lookup _ _ Hu) in Hi. rewrite H in Hi. apply lookup_in in Hi. apply Hi.
  - apply (in_lookup _ _ Hu') in Hi. rewrite <- H in Hi. apply lookup_in in Hi. apply Hi.
Qed.

Lemma without_app c l l' : without c (l ++ l') = without c l ++ without c l'.
Proof. apply filter_app. Qed.
Lemma without_cons c e l : without c (e :: l) = if ceqb (ecls e) c then without c l else e :: without c l.
Proof. cbn. destruct (ceqb (ecls e) c); reflexivity. Qed.
Lemma without_id c l : lookup c l = None -> without c l = l.
Proof.
  induction l as [|a l IH]; [reflexivity|]. rewrite lookup_cons, without_cons.
  destruct (ceqb (ecls a) c); [discriminate|]. intros H. rewrite IH by assumption. reflexivity.
Qed.
Lemma without_in c l e : In e (without c l) <-> In e l /\ ecls e <> c.
Proof.
  unfold without. rewrite filter_In. rewrite negb_true_iff, ceqb_neq. reflexivity.
Qed.
Lemma without_perm c l l' : Permutation l l' -> Permutation (without c l) (without c l').
Proof.
  induction 1.
  - constructor.
  - rewrite !without_cons. destruct (ceqb (ecls x) c); [assumption|constructor; assumption].
  - rewrite !without_cons. destruct (ceqb (ecls x) c), (ceqb (ecls y) c); try reflexivity. constructor.
  - etransitivity; eassumption.
Qed.
Lemma lookup_without_same c l : lookup c (without c l) = None.
Proof. apply lookup_none. intros e He. apply without_in in He. apply He. Qed.
Lemma lookup_without_other c c' l : c' <> c -> lookup c' (without c l) = lookup c' l.
Proof.
  intros Hn. induction l as [|a l IH]; [reflexivity|]. rewrite without_cons, lookup_cons.
  destruct (ceqb_spec (ecls a) c) as [<-|].
  - rewrite IH. destruct (ceqb_spec (ecls a) c'); [congruence|reflexivity].
  - rewrite lookup_cons, IH. reflexivity.
Qed.
Lemma uniq_without c l : uniq l -> uniq (without c l).
Proof.
  induction l as [|a l IH]; [intros; assumption|]. rewrite uniq_cons, without_cons. intros [H1 H2].
  destruct (ceqb (ecls a) c); [auto|]. apply uniq_cons. split; [|auto].
  destruct (ceqb_spec (ecls a) c) as [->|]; [apply lookup_without_same|].
  rewrite lookup_without_other; assumption.
Qed.
Lemma lookup_perm_cons_without l c e : uniq l -> lookup c l = Some e -> Permutation l (e :: without c l).
Proof.
  induction l as [|a l IH]; [discriminate|]. rewrite uniq_cons, lookup_cons, without_cons.
  intros [H1 H2]. destruct (ceqb_spec (ecls a) c) as [<-|Hn].
  - intros [= ->]. rewrite without_id by assumption. reflexivity.
  - intros HL. rewrite (IH H2 HL) at 1. apply perm_swap.
Qed.
Lemma len_without_some l c e : uniq l -> lookup c l = Some e -> (1 + lenN (without c l) = lenN l)%N.
Proof.
  intros Hu HL. unfold lenN. rewrite (Permutation_length (lookup_perm_cons_without l c e Hu HL)). cbn [length]. lia.
Qed.
Lemma uniq_insert k v l : uniq l -> uniq ((k, v) :: without (cls k) l).
Proof.
  intros H. apply uniq_cons. split; [apply lookup_without_same|apply uniq_without; assumption].
Qed.
Lemma uniq_app l l' : uniq l -> uniq l' -> (forall e e', In e l -> In e' l' -> ecls e <> ecls e') -> uniq (l ++ l').
Proof.
  induction l as [|a l IH]; intros Hu Hu' Hd; [assumption|].
  rewrite <- app_comm_cons. apply uniq_cons in Hu. apply uniq_cons. destruct Hu as [Hn Hu]. split.
  - rewrite lookup_app, Hn. apply lookup_none. intros e He. apply not_eq_sym. apply Hd; [left; reflexivity|assumption].
  - apply IH; try assumption. intros. apply Hd; [right|]; assumption.
Qed.
Lemma uniq_app_inv l l' : uniq (l ++ l') -> uniq l /\ uniq l' /\ (forall e e', In e l -> In e' l' -> ecls e <> ecls e').
Proof.
  induction l as [|a l IH]; intros H.
  - repeat split; [constructor|assumption|]. intros ? ? [].
  - rewrite <- app_comm_cons in H. apply uniq_cons in H. destruct H as [Hn Hu].
    destruct (IH Hu) as (H1 & H2 & H3). rewrite lookup_app in Hn.
    destruct (lookup (ecls a) l) eqn:HL; [discriminate|].
    repeat split; [apply uniq_cons; split; assumption|assumption|].
    intros e e' [<-|Hi] Hi'; [|apply H3; assumption].
    rewrite lookup_none in Hn. intros He. apply (Hn e' Hi'). congruence.
Qed.
End SpecP.
