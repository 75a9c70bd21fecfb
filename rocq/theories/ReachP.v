(** Reachable maps are well-formed. *)
From Coq Require Import NArith Arith List Bool Lia Permutation.
From Verif Require Import Base Words Flag Bia Node Spec SpecP Inv Api ApiP Trans Transform SpecT TransApiP Joint SpecJ JointApiP JointT JointTApiP Reach.
Import ListNotations.

Section ReachP.
Context {E : Env}.

Theorem reachable_mwf {K V} {KK : Key K} (m : trie K V) : reachable m -> mwf m.
Proof.
  induction 1 as [K V KK|K V KK Q KQ into m q v replace m' e prev Hm IH Hq Hi|K V KK Q KQ m q m' e Hm IH Hr
    |K V KK R rdef rd st op m m' r o Hm IH Ht|K V KK S X KS R rdef rd op m m' r Hm IH HK Ht
    |K V KK L W KL R rdef rd st both lop rop m right m' r o Hm IH Hr IHr HK Ht
    |K V KK L W KL R rdef rd st both lop rop m right m' r o Hm IH Hr IHr HK Ht
    |K V KK L W KL S X KS R rdef rd both lop rop m right m' r Hm IH Hr IHr HB HKl HKr Ht
    |K V KK R rdef rd st both lop rop m right m' r o Hm IH Hr IHr HT Ht].
  - apply mwf_new.
  - pose proof (map_insert_ok into m q v replace IH Hq) as HI.
    destruct (checked && deep m (cls q)); [congruence|].
    destruct (spec_insert (into q) v replace (map_visit m)) as [[l p]|e']; [|congruence].
    destruct HI as (m2 & HI & HW & _). rewrite HI in Hi. injection Hi as <- _ _. exact HW.
  - pose proof (map_remove_ok m q IH) as HI.
    destruct (checked && deep m (cls q)); [congruence|].
    destruct (spec_remove (cls q) (map_visit m)) as [[l p]|]; [|congruence].
    destruct HI as (m2 & HI & HW & _). rewrite HI in Hr. injection Hr as <- _. exact HW.
  - destruct (map_transform_ok rdef rd st op m IH) as (m2 & r2 & o2 & HT & HW & _). rewrite HT in Ht.
    injection Ht as <- _ _. exact HW.
  - destruct (map_transmute_ok rdef rd op m IH HK) as (m2 & r2 & HT & HW & _). rewrite HT in Ht.
    injection Ht as <- _. exact HW.
  - pose proof (map_tm_ok rdef rd st both lop rop m right IH IHr HK) as H. rewrite Ht in H. apply H.
  - pose proof (map_mt_ok rdef rd st both lop rop m right IH IHr HK) as H. rewrite Ht in H. apply H.
  - pose proof (map_mm_ok rdef rd both lop rop m right IH IHr HB HKl HKr) as H. rewrite Ht in H. apply H.
  - pose proof (map_tt_ok rdef rd st both lop rop m right IH IHr HT) as H. rewrite Ht in H.
    destruct H as [(fB & _ & HW & _) _]. exact HW.
Qed.

End ReachP.
