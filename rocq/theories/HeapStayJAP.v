(** Finding an entry again after a joint operation. *)
From Coq Require Import NArith Arith List Bool Lia.
From Verif Require Import Base Words WordsP Flag FlagP Bia BiaP Node Spec SpecP SpecT SpecJ Inv NodeP InsertP TrieP Api Trans Transform Joint JointT Reach ReachP
  Depth Heap SpecH SpecB HeapP HeapOpP HeapCostP HeapHist HeapHistP HeapBulk HeapBulkP HeapRun HeapRunP HeapBoundP HeapBoundAP HeapStayP HeapStayAP HeapStayJP.
Import ListNotations.
Open Scope N_scope.

(** What the client knows, in terms of what is read back. *)
Section Read.
Context {E : Env} {K V R : Type} {KK : Key K}.
Context (rdef : R) (rd : R -> R -> R).
Notation heap := (heap K V).
Implicit Types (h : heap).

Lemma read_map (cs : list (hcall K V R)) h vs i n : lawful rdef rd [] [] cs h vs -> nth_error vs i = Some n ->
  exists d t, h_deref (enough h) h n = Ret d /\ strip d = t /\ d_node d = n /\ lies h d /\ rep h n t /\ reachable t /\ wf 0 0 (strip d) /\ hm_visit h n = Ret (dvisit d).
Proof.
  intros HL Hi. destruct (lawful_rep _ _ _ _ _ _ _ HL Hi) as (t & Hr & Hrt).
  destruct (deref_ok h (fun _ => True) n t Hr (fun _ _ => I)) as (d & Hd & Hs & Hdn & _). destruct (h_deref_lies _ _ _ _ Hd) as (Hli & _).
  exists d, t. repeat split; try assumption; [rewrite Hs; apply (reachable_mwf _ Hrt)|]. unfold dvisit. rewrite Hs. apply hm_visit_ok, Hr.
Qed.

(** The handle is a list or leaf of the map, which the operation spares. *)
Lemma read_followed h n d c lc (op : transform_op (K * V) V R) : d_node d = n -> lies h d -> rep h n (strip d) -> wf 0 0 (strip d) -> below h n c -> (forall a, c <> HC a) ->
  hm_visit h c = Ret lc -> lc <> [] -> touched op lc = [] ->
  exists m x0, d_node m = c /\ found_in m h d /\ followed m x0 op /\ (exists e, In e lc /\ hash (cls (fst e)) = x0).
Proof.
  intros Hdn Hli Hr HW Hb Hc Hv Hne Ht. destruct (below_dbelow _ _ _ Hb d Hli Hdn) as (m & Hm & Hmc).
  rewrite <- Hdn in Hr. pose proof (sub_rep _ _ _ Hm Hli Hr) as Hrm. rewrite Hmc in Hrm. rewrite (hm_visit_ok _ _ _ Hrm) in Hv. injection Hv as Hv.
  change (dvisit m = lc) in Hv. destruct lc as [|e lc]; [contradiction|]. exists m, (hash (cls (fst e))).
  split; [exact Hmc|]. split; [split; assumption|]. split; [|exists e; split; [left; reflexivity|reflexivity]]. split; [|split].
  - destruct m as [a b|l|s]; [|exact I|exact I]. apply (Hc a). symmetry. exact Hmc.
  - intros e' He'. rewrite Hv in He'. eapply touched_nil; eassumption.
  - exists e. split; [rewrite Hv; left; reflexivity|reflexivity].
Qed.

(** From handles to find. *)
Lemma found_of {Q} {KQ : Key Q} h n (q : Q) b l (op : transform_op (K * V) V R) t : rep h n t -> wf 0 0 t -> hm_find h n q = Ret (Ok b) -> hm_visit h n = Ret l ->
  (forall e, In e (touched op l) -> hash (cls (fst e)) <> hashk q) ->
  exists c lc, below h n c /\ addr_of c = b /\ starts h c q /\ (forall a, c <> HC a) /\ hm_visit h c = Ret lc /\ lc <> [] /\ touched op lc = [] /\
    (forall e, In e lc -> hash (cls (fst e)) = hashk q).
Proof.
  intros Hr HW Hf Hv Ht. destruct (hm_find_starts _ _ _ _ Hf) as (c & Hb & <- & Hs).
  destruct (below_hash _ _ _ Hb _ _ _ Hr HW) as (tc & Hrc & Hin & Hone). rewrite (hm_visit_ok _ _ _ Hr) in Hv. injection Hv as Hv. unfold map_visit in Hv.
  destruct (starts_in _ _ _ _ Hs Hrc) as (e0 & Hi0 & He0).
  assert (Hh : forall e, In e (m_visit tc) -> hash (ecls e) = hashk q).
  { assert (Hx : exists x, forall e, In e (m_visit tc) -> hash (ecls e) = x) by (destruct c; [destruct Hs|exact Hone|exact Hone]).
    destruct Hx as (x & Hx). intros e Hie. rewrite (Hx e Hie), <- (Hx e0 Hi0), He0. reflexivity. }
  exists c, (m_visit tc). split; [exact Hb|]. split; [reflexivity|]. split; [exact Hs|]. split; [intros a ->; exact Hs|].
  split; [apply hm_visit_ok, Hrc|]. split; [intros Hn; rewrite Hn in Hi0; exact Hi0|]. split; [|exact Hh].
  destruct (touched op (m_visit tc)) as [|e tl] eqn:Htc; [reflexivity|]. exfalso.
  assert (Hin' : In e (touched op (m_visit tc))) by (rewrite Htc; left; reflexivity). apply filter_In in Hin'. destruct Hin' as (Hie & Hte).
  apply (Ht e); [apply filter_In; split; [rewrite <- Hv; apply Hin, Hie|exact Hte]|]. apply Hh, Hie.
Qed.
End Read.

Section Api.
Context {E : Env} {K V R : Type} {KK : Key K}.
Context (rdef : R) (rd : R -> R -> R).
Notation heap := (heap K V).
Implicit Types (h : heap).

Lemma apart_free {L W} {KL : Key L} (d : dnode L W) lc l' x0 : dvisit d = l' -> (exists e : K * V, In e lc /\ hash (cls (fst e)) = x0) ->
  (forall e e', In e lc -> In e' l' -> hash (cls (fst e)) <> hash (cls (fst e'))) -> no_hash x0 d.
Proof. intros <- (e & He & <-) H e' He' Hx. apply (H e e' He He'). symmetry. exact Hx. Qed.


Lemma tt_ext st both lop rop h n m t u n' r h' : rep h n t -> rep h m u -> hm_tt rdef rd st both lop rop h n m = Ret (n', r, h') ->
  ext h h' /\ exists t' z o, rep h' n' t' /\ map_tt rdef rd st both lop rop t u = Ret (t', z, o).
Proof.
  intros Hr Hu Ho. pose proof (hm_tt_ok rdef rd st both lop rop h n m t u Hr Hu) as Hrel. rewrite Ho in Hrel.
  inversion Hrel as [x y ((He & Hr' & _) & _) E1 E2| |]; subst. symmetry in E2. destruct y as [[t' z] o]. cbn [fst snd] in *. split; [exact He|]. eauto.
Qed.
Lemma tm_ext {L W} {KL : Key L} st (both : transform_op ((K * V) * (L * W)) V R) lop rop h n hr m t u n' r h' : rep h n t -> rep hr m u ->
  hm_tm rdef rd st both lop rop h n hr m = Ret (n', r, h') ->
  ext h h' /\ exists t' z o, rep h' n' t' /\ map_tm rdef rd st both lop rop t u = Ret (t', z, o).
Proof.
  intros Hr Hu Ho. pose proof (hm_tm_ok rdef rd st both lop rop h n hr m t u Hr Hu) as Hrel. rewrite Ho in Hrel.
  inversion Hrel as [x y ((He & Hr' & _) & _) E1 E2| |]; subst. symmetry in E2. destruct y as [[t' z] o]. cbn [fst snd] in *. split; [exact He|]. eauto.
Qed.
Lemma mt_ext {L W} {KL : Key L} st (both : transform_op ((L * W) * (K * V)) V R) lop rop hl n h m t u n' r h' : rep hl n t -> rep h m u ->
  hm_mt rdef rd st both lop rop hl n h m = Ret (n', r, h') ->
  ext h h' /\ exists t' z o, rep h' n' t' /\ map_mt rdef rd st both lop rop t u = Ret (t', z, o).
Proof.
  intros Hr Hu Ho. pose proof (hm_mt_ok rdef rd st both lop rop hl n h m t u Hr Hu) as Hrel. rewrite Ho in Hrel.
  inversion Hrel as [x y ((He & Hr' & _) & _) E1 E2| |]; subst. symmetry in E2. destruct y as [[t' z] o]. cbn [fst snd] in *. split; [exact He|]. eauto.
Qed.

(** * Handles *)
Theorem tt_left_kept (cs : list (hcall K V R)) h vs i j n m st both lop rop n' r h' c lc l' :
  lawful rdef rd [] [] cs h vs -> nth_error vs i = Some n -> nth_error vs j = Some m -> hm_tt rdef rd st both lop rop h n m = Ret (n', r, h') ->
  below h n c -> (forall a, c <> HC a) -> hm_visit h c = Ret lc -> hm_visit h m = Ret l' -> lc <> [] -> touched lop lc = [] ->
  (forall e e', In e lc -> In e' l' -> hash (cls (fst e)) <> hash (cls (fst e'))) -> below h' n' c.
Proof.
  intros HL Hi Hj Ho Hb Hc Hvc Hv' Hne Ht Hap. destruct (read_map _ _ _ _ _ _ _ HL Hi) as (d & t & Hd & Hs & Hdn & Hli & Hr & Hrt & HW & Hvd).
  destruct (read_map _ _ _ _ _ _ _ HL Hj) as (d' & u & Hd' & Hs' & Hdn' & Hli' & Hr' & Hru & HW' & Hvd').
  subst t u. destruct (read_followed _ _ _ _ _ lop Hdn Hli Hr HW Hb Hc Hvc Hne Ht) as (f & x0 & <- & Hin & Hf & Hx).
  rewrite Hv' in Hvd'. injection Hvd' as Hvd'. pose proof (apart_free d' lc l' x0 (eq_sym Hvd') Hx Hap) as Hno.
  destruct (tt_ext _ _ _ _ _ _ _ _ _ _ _ _ Hr Hr' Ho) as (He & _). unfold hm_tt in Ho. rewrite Hd, Hd' in Ho. cbn [bind] in Ho.
  apply bind_ret in Ho. destruct Ho as ([x w] & Hx1 & Ho).
  pose proof (h_tt_left rdef rd st f x0 lop Hf both rop d d' 0 0 h x w HW HW' Hin Hno Hx1) as Hl. destruct x as [z|z|z|[y z|z]]; try (destruct Hl; fail).
  - injection Ho as <- _ <-. eapply below_ext; [exact He|exact Hb].
  - cbn in Ho. injection Ho as <- _ <-. exact Hl.
Qed.
Theorem tt_right_kept (cs : list (hcall K V R)) h vs i j n m st both lop rop n' r h' c lc l :
  lawful rdef rd [] [] cs h vs -> nth_error vs i = Some n -> nth_error vs j = Some m -> hm_tt rdef rd st both lop rop h n m = Ret (n', r, h') ->
  below h m c -> (forall a, c <> HC a) -> hm_visit h c = Ret lc -> hm_visit h n = Ret l -> lc <> [] -> touched rop lc = [] ->
  (forall e e', In e lc -> In e' l -> hash (cls (fst e)) <> hash (cls (fst e'))) -> below h' n' c.
Proof.
  intros HL Hi Hj Ho Hb Hc Hvc Hv' Hne Ht Hap. destruct (read_map _ _ _ _ _ _ _ HL Hi) as (d & t & Hd & Hs & Hdn & Hli & Hr & Hrt & HW & Hvd).
  destruct (read_map _ _ _ _ _ _ _ HL Hj) as (d' & u & Hd' & Hs' & Hdn' & Hli' & Hr' & Hru & HW' & Hvd').
  subst t u. destruct (read_followed _ _ _ _ _ rop Hdn' Hli' Hr' HW' Hb Hc Hvc Hne Ht) as (f & x0 & <- & Hin & Hf & Hx).
  rewrite Hv' in Hvd. injection Hvd as Hvd. pose proof (apart_free d lc l x0 (eq_sym Hvd) Hx Hap) as Hno.
  destruct (tt_ext _ _ _ _ _ _ _ _ _ _ _ _ Hr Hr' Ho) as (He & _). unfold hm_tt in Ho. rewrite Hd, Hd' in Ho. cbn [bind] in Ho.
  apply bind_ret in Ho. destruct Ho as ([x w] & Hx1 & Ho).
  pose proof (h_tt_right rdef rd st f x0 rop Hf both lop d d' 0 0 h x w HW HW' Hin Hno Hx1) as Hl. destruct x as [z|z|z|[y z|z]]; try (destruct Hl; fail).
  - injection Ho as <- _ <-. eapply below_ext; [exact He|exact Hb].
  - cbn in Ho. injection Ho as <- _ <-. exact Hl.
Qed.
Theorem tm_kept {L W} {KL : Key L} (cs : list (hcall K V R)) h vs i n (cs' : list (hcall L W R)) hr vs' j m st both lop rop n' r h' c lc l' :
  lawful rdef rd [] [] cs h vs -> nth_error vs i = Some n -> lawful rdef rd [] [] cs' hr vs' -> nth_error vs' j = Some m ->
  hm_tm rdef rd st both lop rop h n hr m = Ret (n', r, h') ->
  below h n c -> (forall a, c <> HC a) -> hm_visit h c = Ret lc -> hm_visit hr m = Ret l' -> lc <> [] -> touched lop lc = [] ->
  (forall e e', In e lc -> In e' l' -> hash (cls (fst e)) <> hash (cls (fst e'))) -> below h' n' c.
Proof.
  intros HL Hi HL' Hj Ho Hb Hc Hvc Hv' Hne Ht Hap. destruct (read_map _ _ _ _ _ _ _ HL Hi) as (d & t & Hd & Hs & Hdn & Hli & Hr & Hrt & HW & Hvd).
  destruct (read_map _ _ _ _ _ _ _ HL' Hj) as (d' & u & Hd' & Hs' & Hdn' & Hli' & Hr' & Hru & HW' & Hvd').
  subst t u. destruct (read_followed _ _ _ _ _ lop Hdn Hli Hr HW Hb Hc Hvc Hne Ht) as (f & x0 & <- & Hin & Hf & Hx).
  rewrite Hv' in Hvd'. injection Hvd' as Hvd'. pose proof (apart_free d' lc l' x0 (eq_sym Hvd') Hx Hap) as Hno.
  destruct (tm_ext _ _ _ _ _ _ _ _ _ _ _ _ _ Hr Hr' Ho) as (He & _). unfold hm_tm in Ho. rewrite Hd, Hd' in Ho. cbn [bind] in Ho.
  apply bind_ret in Ho. destruct Ho as ([x w] & Hx1 & Ho).
  pose proof (h_tm_found rdef rd st f x0 lop Hf both rop d d' 0 0 h x w HW HW' Hin Hno Hx1) as Hl. destruct x as [z|[y z|z]]; [| |destruct Hl].
  - injection Ho as <- _ <-. eapply below_ext; [exact He|exact Hb].
  - cbn in Ho. injection Ho as <- _ <-. exact Hl.
Qed.
Theorem mt_kept {L W} {KL : Key L} (cs : list (hcall L W R)) hl vs i n (cs' : list (hcall K V R)) h vs' j m st both lop rop n' r h' c lc l :
  lawful rdef rd [] [] cs hl vs -> nth_error vs i = Some n -> lawful rdef rd [] [] cs' h vs' -> nth_error vs' j = Some m ->
  hm_mt rdef rd st both lop rop hl n h m = Ret (n', r, h') ->
  below h m c -> (forall a, c <> HC a) -> hm_visit h c = Ret lc -> hm_visit hl n = Ret l -> lc <> [] -> touched rop lc = [] ->
  (forall e e', In e lc -> In e' l -> hash (cls (fst e)) <> hash (cls (fst e'))) -> below h' n' c.
Proof.
  intros HL Hi HL' Hj Ho Hb Hc Hvc Hv' Hne Ht Hap. destruct (read_map _ _ _ _ _ _ _ HL Hi) as (d & t & Hd & Hs & Hdn & Hli & Hr & Hrt & HW & Hvd).
  destruct (read_map _ _ _ _ _ _ _ HL' Hj) as (d' & u & Hd' & Hs' & Hdn' & Hli' & Hr' & Hru & HW' & Hvd').
  subst t u. destruct (read_followed _ _ _ _ _ rop Hdn' Hli' Hr' HW' Hb Hc Hvc Hne Ht) as (f & x0 & <- & Hin & Hf & Hx).
  rewrite Hv' in Hvd. injection Hvd as Hvd. pose proof (apart_free d lc l x0 (eq_sym Hvd) Hx Hap) as Hno.
  destruct (mt_ext _ _ _ _ _ _ _ _ _ _ _ _ _ Hr Hr' Ho) as (He & _). unfold hm_mt in Ho. rewrite Hd, Hd' in Ho. cbn [bind] in Ho.
  apply bind_ret in Ho. destruct Ho as ([x w] & Hx1 & Ho).
  pose proof (h_mt_found rdef rd st f x0 rop Hf both lop d d' 0 0 h x w HW HW' Hin Hno Hx1) as Hl. destruct x as [z|[y z|z]]; [| |destruct Hl].
  - injection Ho as <- _ <-. eapply below_ext; [exact He|exact Hb].
  - cbn in Ho. injection Ho as <- _ <-. exact Hl.
Qed.

(** * find *)
Context {Q : Type} {KQ : Key Q}.
Theorem tt_left_found (cs : list (hcall K V R)) h vs i j n m st both lop rop n' r h' (q : Q) b l l' :
  lawful rdef rd [] [] cs h vs -> nth_error vs i = Some n -> nth_error vs j = Some m -> hm_tt rdef rd st both lop rop h n m = Ret (n', r, h') ->
  hm_visit h n = Ret l -> hm_visit h m = Ret l' -> tame both lop rop l l' -> hm_find h n q = Ret (Ok b) ->
  (forall e, In e (touched lop l ++ l') -> hash (cls (fst e)) <> hashk q) -> hm_find h' n' q = Ret (Ok b).
Proof.
  intros HL Hi Hj Ho Hv Hv' Htame Hf Hap. destruct (lawful_rep _ _ _ _ _ _ _ HL Hi) as (t & Hr & Hrt). destruct (lawful_rep _ _ _ _ _ _ _ HL Hj) as (u & Hu & Hrut).
  destruct (tt_ext _ _ _ _ _ _ _ _ _ _ _ _ Hr Hu Ho) as (He & t' & z & o & Hr' & Hmap).
  destruct (found_of h n q b l lop t Hr (reachable_mwf _ Hrt) Hf Hv) as (c & lc & Hb & <- & Hs & Hc & Hvc & Hne & Htc & Hh).
  { intros e He1. apply Hap, in_or_app. left. exact He1. }
  apply (hm_find_at h' n' q c t'); [|eapply starts_ext; eassumption|exact Hr'|].
  - eapply tt_left_kept; [exact HL|exact Hi|exact Hj|exact Ho|exact Hb|exact Hc|exact Hvc|exact Hv'|exact Hne|exact Htc|]. intros e e' Hie Hie'. rewrite (Hh e Hie). intros Heq. apply (Hap e'); [apply in_or_app; right; exact Hie'|]. symmetry. exact Heq.
  - apply reachable_mwf. rewrite (hm_visit_ok _ _ _ Hr) in Hv. injection Hv as <-. rewrite (hm_visit_ok _ _ _ Hu) in Hv'. injection Hv' as <-.
    eapply reach_tt; [exact Hrt|exact Hrut|exact Htame|exact Hmap].
Qed.
Theorem tt_right_found (cs : list (hcall K V R)) h vs i j n m st both lop rop n' r h' (q : Q) b l l' :
  lawful rdef rd [] [] cs h vs -> nth_error vs i = Some n -> nth_error vs j = Some m -> hm_tt rdef rd st both lop rop h n m = Ret (n', r, h') ->
  hm_visit h n = Ret l -> hm_visit h m = Ret l' -> tame both lop rop l l' -> hm_find h m q = Ret (Ok b) ->
  (forall e, In e (l ++ touched rop l') -> hash (cls (fst e)) <> hashk q) -> hm_find h' n' q = Ret (Ok b).
Proof.
  intros HL Hi Hj Ho Hv Hv' Htame Hf Hap. destruct (lawful_rep _ _ _ _ _ _ _ HL Hi) as (t & Hr & Hrt). destruct (lawful_rep _ _ _ _ _ _ _ HL Hj) as (u & Hu & Hrut).
  destruct (tt_ext _ _ _ _ _ _ _ _ _ _ _ _ Hr Hu Ho) as (He & t' & z & o & Hr' & Hmap).
  destruct (found_of h m q b l' rop u Hu (reachable_mwf _ Hrut) Hf Hv') as (c & lc & Hb & <- & Hs & Hc & Hvc & Hne & Htc & Hh).
  { intros e He1. apply Hap, in_or_app. right. exact He1. }
  apply (hm_find_at h' n' q c t'); [|eapply starts_ext; eassumption|exact Hr'|].
  - eapply tt_right_kept; [exact HL|exact Hi|exact Hj|exact Ho|exact Hb|exact Hc|exact Hvc|exact Hv|exact Hne|exact Htc|]. intros e e' Hie Hie'. rewrite (Hh e Hie). intros Heq. apply (Hap e'); [apply in_or_app; left; exact Hie'|]. symmetry. exact Heq.
  - apply reachable_mwf. rewrite (hm_visit_ok _ _ _ Hr) in Hv. injection Hv as <-. rewrite (hm_visit_ok _ _ _ Hu) in Hv'. injection Hv' as <-.
    eapply reach_tt; [exact Hrt|exact Hrut|exact Htame|exact Hmap].
Qed.
Theorem tm_found {L W} {KL : Key L} (cs : list (hcall K V R)) h vs i n (cs' : list (hcall L W R)) hr vs' j m st both lop rop n' r h' (q : Q) b l l' :
  lawful rdef rd [] [] cs h vs -> nth_error vs i = Some n -> lawful rdef rd [] [] cs' hr vs' -> nth_error vs' j = Some m ->
  hm_tm rdef rd st both lop rop h n hr m = Ret (n', r, h') ->
  hm_visit h n = Ret l -> hm_visit hr m = Ret l' -> m_keeps (mcall rop) l' -> hm_find h n q = Ret (Ok b) ->
  (forall e, In e (touched lop l) -> hash (cls (fst e)) <> hashk q) -> (forall e, In e l' -> hash (cls (fst e)) <> hashk q) -> hm_find h' n' q = Ret (Ok b).
Proof.
  intros HL Hi HL' Hj Ho Hv Hv' Hmk Hf Hap Hap'. destruct (lawful_rep _ _ _ _ _ _ _ HL Hi) as (t & Hr & Hrt). destruct (lawful_rep _ _ _ _ _ _ _ HL' Hj) as (u & Hu & Hrut).
  destruct (tm_ext _ _ _ _ _ _ _ _ _ _ _ _ _ Hr Hu Ho) as (He & t' & z & o & Hr' & Hmap).
  destruct (found_of h n q b l lop t Hr (reachable_mwf _ Hrt) Hf Hv Hap) as (c & lc & Hb & <- & Hs & Hc & Hvc & Hne & Htc & Hh).
  apply (hm_find_at h' n' q c t'); [|eapply starts_ext; eassumption|exact Hr'|].
  - eapply (tm_kept (KL := KL)); [exact HL|exact Hi|exact HL'|exact Hj|exact Ho|exact Hb|exact Hc|exact Hvc|exact Hv'|exact Hne|exact Htc|].
    intros e e' Hie Hie'. rewrite (Hh e Hie). intros Heq. apply (Hap' e' Hie'). symmetry. exact Heq.
  - apply reachable_mwf. rewrite (hm_visit_ok _ _ _ Hu) in Hv'. injection Hv' as <-.
    eapply reach_tm; [exact Hrt|exact Hrut|exact Hmk|exact Hmap].
Qed.
Theorem mt_found {L W} {KL : Key L} (cs : list (hcall L W R)) hl vs i n (cs' : list (hcall K V R)) h vs' j m st both lop rop n' r h' (q : Q) b l l' :
  lawful rdef rd [] [] cs hl vs -> nth_error vs i = Some n -> lawful rdef rd [] [] cs' h vs' -> nth_error vs' j = Some m ->
  hm_mt rdef rd st both lop rop hl n h m = Ret (n', r, h') ->
  hm_visit hl n = Ret l -> hm_visit h m = Ret l' -> m_keeps (mcall lop) l -> hm_find h m q = Ret (Ok b) ->
  (forall e, In e l -> hash (cls (fst e)) <> hashk q) -> (forall e, In e (touched rop l') -> hash (cls (fst e)) <> hashk q) -> hm_find h' n' q = Ret (Ok b).
Proof.
  intros HL Hi HL' Hj Ho Hv Hv' Hmk Hf Hap' Hap. destruct (lawful_rep _ _ _ _ _ _ _ HL Hi) as (t & Hr & Hrt). destruct (lawful_rep _ _ _ _ _ _ _ HL' Hj) as (u & Hu & Hrut).
  destruct (mt_ext _ _ _ _ _ _ _ _ _ _ _ _ _ Hr Hu Ho) as (He & t' & z & o & Hr' & Hmap).
  destruct (found_of h m q b l' rop u Hu (reachable_mwf _ Hrut) Hf Hv' Hap) as (c & lc & Hb & <- & Hs & Hc & Hvc & Hne & Htc & Hh).
  apply (hm_find_at h' n' q c t'); [|eapply starts_ext; eassumption|exact Hr'|].
  - eapply (mt_kept (KL := KL)); [exact HL|exact Hi|exact HL'|exact Hj|exact Ho|exact Hb|exact Hc|exact Hvc|exact Hv|exact Hne|exact Htc|].
    intros e e' Hie Hie'. rewrite (Hh e Hie). intros Heq. apply (Hap' e' Hie'). symmetry. exact Heq.
  - apply reachable_mwf. rewrite (hm_visit_ok _ _ _ Hr) in Hv. injection Hv as <-.
    eapply reach_mt; [exact Hrt|exact Hrut|exact Hmk|exact Hmap].
Qed.
End Api.
