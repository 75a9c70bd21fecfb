(** What find, insert and remove do on well-formed maps. *)
From Coq Require Import NArith Arith List Bool Lia ZifyBool ZifyN ZifyNat Permutation.
From Verif Require Import Base Words WordsP Flag FlagP Bia BiaP Node Spec SpecP Inv NodeP InsertP TrieP Api.
Import ListNotations.
Open Scope N_scope.

Section ApiP.
Context {E : Env} {K V : Type} {KK : Key K}.

(** Well-formed maps: the root stands at depth 0. *)
Definition mwf (m : trie K V) : Prop := wf 0 0 m.

Lemma max_ones_hw_pos : 0 < hbits.
Proof. unfold hbits. destruct hw; reflexivity. Qed.

Lemma off_0 : off 0 = 0.
Proof. reflexivity. Qed.

Lemma mwf_new : mwf map_new.
Proof.
  unfold mwf, map_new, bdefault. apply wf_C.
  - rewrite off_0. apply max_ones_hw_pos.
  - cbn. lia.
  - apply okv_nil.
  - right. reflexivity.
  - reflexivity.
  - intros i c H. rewrite getv_nil in H. discriminate.
Qed.

Lemma mwf_uniq m : mwf m -> uniq (map_visit m).
Proof. apply wf_uniq. Qed.

Lemma mwf_size m : mwf m -> map_size m = lenN (map_visit m).
Proof. apply wf_size. Qed.

Lemma flag_for_0 h : flag_for 0 h (mkFlag h 0 (2 ^ idx 0 h)).
Proof. apply flag_for_at. rewrite off_0. apply max_ones_hw_pos. Qed.

Definition find_res (o : option (K * V)) : result (K * V) trie_error :=
  match o with Some e => Ok e | None => Err NotFound end.

Section Query.
Context {Q : Type} {KQ : Key Q}.

Lemma map_find_ok m (q : Q) : mwf m -> map_find m q = Ret (find_res (lookup (cls q) (map_visit m))).
Proof.
  intros H. unfold map_find. rewrite flag_new_ok. cbn [bind].
  rewrite (m_find_ok 0 0 m H q _ (flag_for_0 _)). cbn [bind]. unfold map_visit.
  destruct (lookup (cls q) (m_visit m)); reflexivity.
Qed.

(** The debug-build panic condition of insert and remove. *)
Definition deep (m : trie K V) (c : C) : bool := hits 0 (hash c) m.

Lemma map_insert_ok (into : Q -> K) m q v replace : mwf m -> cls (into q) = cls q ->
  if checked && deep m (cls q) then map_insert into m q v replace = Panic
  else match spec_insert (into q) v replace (map_visit m) with
       | Err e => map_insert into m q v replace = Ret (Err e)
       | Ok (l', prev) => exists m', map_insert into m q v replace = Ret (Ok (m', (into q, v), prev)) /\
           mwf m' /\ Permutation (map_visit m') l'
       end.
Proof.
  intros H Hq. unfold map_insert. rewrite flag_new_ok. cbn [bind].
  assert (Hh : hashk q = hashk (into q)) by (unfold hashk; rewrite Hq; reflexivity).
  assert (HW : wf 0 (pre 0 (hashk (into q))) m) by (rewrite pre_0; exact H).
  pose proof (m_insert_ok m 0 q (into q) v _ replace HW (eq_sym Hq) (flag_for_0 _)) as HI.
  unfold deep. change (hash (cls q)) with (hashk q). rewrite Hh.
  destruct (checked && hits 0 (hashk (into q)) m).
  - rewrite HI. reflexivity.
  - destruct HI as (r & Hr & Hi & _). rewrite Hr. cbn [bind]. unfold spec_insert, map_visit.
    rewrite pre_0 in Hi. unfold ins_ok in Hi.
    destruct r as [k' v'|c k' v' prev|l k' v' prev|s k' v' prev]; cbn [ires] in Hi.
    1:{ destruct Hi as (-> & ->). reflexivity. }
    all: destruct Hi as (He & Hp & Hrep & HWn & HP).
    all: assert (HE : Ok (A := trie K V * (K * V) * option (K * V)) (E := K * V) = Ok) by reflexivity.
    all: destruct (lookup (cls (into q)) (m_visit m)) as [e|] eqn:HL; subst prev;
      [destruct Hrep as [->|]; [|discriminate]|]; eexists; (split; [rewrite He; reflexivity|]);
      (split; [exact HWn|]); rewrite ?(without_id _ _ HL) in HP; exact HP.
Qed.

Lemma map_remove_ok m (q : Q) : mwf m ->
  if checked && deep m (cls q) then map_remove m q = Panic
  else match spec_remove (cls q) (map_visit m) with
       | None => map_remove m q = Ret (Err NotFound)
       | Some (l', e) => exists m', map_remove m q = Ret (Ok (m', e)) /\ mwf m' /\ Permutation (map_visit m') l'
       end.
Proof.
  intros H. unfold map_remove. rewrite flag_new_ok. cbn [bind].
  assert (HW : wf 0 (pre 0 (hashk q)) m) by (rewrite pre_0; exact H).
  pose proof (m_remove_ok m 0 q _ HW (flag_for_0 _)) as HI.
  unfold deep. change (hash (cls q)) with (hashk q).
  destruct (checked && hits 0 (hashk q) m).
  - rewrite HI. reflexivity.
  - destruct HI as (r & Hr & Hi). rewrite Hr. cbn [bind]. unfold spec_remove, map_visit.
    rewrite pre_0 in Hi. unfold rem_ok in Hi.
    destruct r as [|c k v|l k v|s k v|k v]; cbn [rnode] in Hi.
    1:{ rewrite Hi. reflexivity. }
    1-3: destruct Hi as (-> & HWn & _ & HP); eexists; (split; [reflexivity|]); split; assumption.
    destruct Hi as (HL & Ho). rewrite HL. eexists. split; [reflexivity|]. split; [apply mwf_new|].
    rewrite Ho. apply lookup_in in HL. cbn. destruct HL as [_ HL]. rewrite HL, ceqb_refl. cbn. constructor.
Qed.

End Query.
End ApiP.
