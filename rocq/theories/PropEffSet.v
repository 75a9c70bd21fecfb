(** C57 (and the ends of C52): sets and transfute with closures that are not
    functions. *)
From Coq Require Import NArith List Bool Permutation.
From Verif Require Import Base Words Flag Bia Node Api Spec Trans Transform Joint JointT SpecJ Reach Sets Eff EffT EffJ EffP EffApi EffMapP EffSet EffSetP
  Ex PropSet PropJointT PropEff.
Import ListNotations.
Open Scope N_scope.

(** For the examples only; the theorems bind their own [Env]. *)
#[local] Existing Instance exE | 100.

(** * One set *)
(** [eset_transform .. w ask s] is transform on the set [s], with the closure or
    the constant [w]; the questions are elements. *)
Theorem C57_transform_calls : forall (E : Env) K R (KK : Key K) (rdef : R) (rd : R -> R -> R) st (w : tway R) (s : tset K) tr o,
  reachable s ->
  exec (eset_transform rdef rd st w ask s) tr o ->
  exists rest, calls tr ++ rest = match w with TwClosure => map fst (backwards (map_visit s)) | _ => [] end /\ forall x, o = Ret x -> rest = [].
Proof. intros E K R KK. exact strans_in_order. Qed.
Print Assumptions C57_transform_calls.
Theorem C57_transform_once : forall (E : Env) K R (KK : Key K) (rdef : R) (rd : R -> R -> R) st (w : tway R) (s : tset K) tr o,
  reachable s ->
  exec (eset_transform rdef rd st w ask s) tr o -> NoDup (map cls (calls tr)).
Proof. intros E K R KK. exact strans_once. Qed.
Print Assumptions C57_transform_once.
Theorem C57_transform_ends : forall (E : Env) K R (KK : Key K) (rdef : R) (rd : R -> R -> R) st (w : tway R) (s : tset K) tr o,
  reachable s ->
  exec (eset_transform rdef rd st w ask s) tr o ->
  (unbroken tr /\ exists x, o = Ret x) \/ (exists tr' q, tr = tr' ++ [broke q] /\ unbroken tr' /\ o = Panic).
Proof. intros E K R KK. exact strans_ends. Qed.
Print Assumptions C57_transform_ends.
Theorem C57_transform_answers : forall (E : Env) K R (KK : Key K) (rdef : R) (rd : R -> R -> R) st (w : tway R) (s : tset K) tr o,
  reachable s ->
  exec (eset_transform rdef rd st w ask s) tr o -> unbroken tr ->
  exists f, Forall (agrees f) tr /\ o = set_transform rdef rd st (stw_fun w f) s.
Proof. intros E K R KK. exact strans_answers. Qed.
Print Assumptions C57_transform_answers.
Theorem C57_transform_as : forall (E : Env) K R (KK : Key K) (rdef : R) (rd : R -> R -> R) st (w : tway R) (s : tset K) tr o f,
  exec (eset_transform rdef rd st w ask s) tr o -> Forall (agrees f) tr -> o = set_transform rdef rd st (stw_fun w f) s.
Proof. intros E K R KK. exact strans_as. Qed.
Print Assumptions C57_transform_as.
Theorem C57_transform_functions : forall (E : Env) K R (KK : Key K) (rdef : R) (rd : R -> R -> R) st (w : tway R) (s : tset K) f,
  exists tr, exec (eset_transform rdef rd st w ask s) tr (set_transform rdef rd st (stw_fun w f) s) /\ Forall (agrees f) tr.
Proof. intros E K R KK. exact strans_execs. Qed.
Print Assumptions C57_transform_functions.
(** A closure that keeps every other element it is asked about.  It drops 2,
    the two others with hash 0 stay. *)
Definition ex_every (n : nat) (q : key) : option (sres N) := Some (if Nat.even n then SUnchanged 1 else SDropped 100).
Definition ex_srun (f : nat -> key -> option (sres N)) := play (A := fun _ => sres N) f 0 (eset_transform 0 N.add Sequential TwClosure ask ex_s).
Example C57_transform_ex : reachable (E := exE) ex_s /\
  exec (eset_transform 0 N.add Sequential TwClosure ask ex_s) (fst (ex_srun ex_every)) (snd (ex_srun ex_every)) /\
  unbroken (fst (ex_srun ex_every)) /\
  set_visit ex_s = [(1, 1); (2, 0); (0, 0); (2 ^ 62, 0); (4096, 0); (128, 0); (36, 0)] /\
  calls (fst (ex_srun ex_every)) = [(0, 0); (2, 0); (1, 1); (2 ^ 62, 0); (4096, 0); (128, 0); (36, 0)] /\
  (exists s', snd (ex_srun ex_every) = Ret (s', 304, Other) /\ set_visit s' = [(1, 1); (0, 0); (4096, 0); (36, 0)]) /\
  calls (fst (ex_srun (fun n q => if Nat.eqb n 2 then None else ex_every n q))) = [(0, 0); (2, 0); (1, 1)] /\
  snd (ex_srun (fun n q => if Nat.eqb n 2 then None else ex_every n q)) = Panic.
Proof.
  split; [exact ex_s_reach|]. split; [exact (play_exec (A := fun _ : key => sres N) ex_every (eset_transform 0 N.add Sequential TwClosure ask ex_s) 0)|]. split.
  - intros q Hq. vm_compute in Hq. repeat (destruct Hq as [Hq|Hq]; [discriminate|]). destruct Hq.
  - do 2 (split; [vm_compute; reflexivity|]). split; [eexists; split; [vm_compute; reflexivity|vm_compute; reflexivity]|]. vm_compute. auto.
Qed.

Theorem C57_transmute_calls : forall (E : Env) K R (KK : Key K) (rdef : R) (rd : R -> R -> R) S (w : mway R) (s : tset K) tr o,
  reachable s ->
  exec (eset_transmute (S := S) rdef rd w ask s) tr o ->
  exists rest, calls tr ++ rest = match w with MwClosure => map fst (backwards (map_visit s)) | _ => [] end /\ forall x, o = Ret x -> rest = [].
Proof. intros E K R KK rdef rd S. exact (smute_in_order rdef rd). Qed.
Print Assumptions C57_transmute_calls.
Theorem C57_transmute_once : forall (E : Env) K R (KK : Key K) (rdef : R) (rd : R -> R -> R) S (w : mway R) (s : tset K) tr o,
  reachable s ->
  exec (eset_transmute (S := S) rdef rd w ask s) tr o -> NoDup (map cls (calls tr)).
Proof. intros E K R KK rdef rd S. exact (smute_once rdef rd). Qed.
Print Assumptions C57_transmute_once.
Theorem C57_transmute_ends : forall (E : Env) K R (KK : Key K) (rdef : R) (rd : R -> R -> R) S (KS : Key S) (w : mway R) (s : tset K) tr o,
  reachable s ->
  (forall q k r, In (answer q (SKTransmuted k r)) tr -> cls k = cls q) ->
  exec (eset_transmute (S := S) rdef rd w ask s) tr o ->
  (unbroken tr /\ exists x, o = Ret x) \/ (exists tr' q, tr = tr' ++ [broke q] /\ unbroken tr' /\ o = Panic).
Proof. intros E K R KK rdef rd S KS. exact (smute_ends rdef rd). Qed.
Print Assumptions C57_transmute_ends.
Theorem C57_transmute_answers : forall (E : Env) K R (KK : Key K) (rdef : R) (rd : R -> R -> R) S (w : mway R) (s : tset K) tr o,
  reachable s ->
  exec (eset_transmute (S := S) rdef rd w ask s) tr o -> unbroken tr ->
  exists f, Forall (agrees f) tr /\ o = set_transmute rdef rd (smw_fun w f) s.
Proof. intros E K R KK rdef rd S. exact (smute_answers rdef rd). Qed.
Print Assumptions C57_transmute_answers.
Theorem C57_transmute_as : forall (E : Env) K R (KK : Key K) (rdef : R) (rd : R -> R -> R) S (w : mway R) (s : tset K) tr o f,
  exec (eset_transmute (S := S) rdef rd w ask s) tr o -> Forall (agrees f) tr -> o = set_transmute rdef rd (smw_fun w f) s.
Proof. intros E K R KK rdef rd S. exact (smute_as rdef rd). Qed.
Print Assumptions C57_transmute_as.
Theorem C57_transmute_functions : forall (E : Env) K R (KK : Key K) (rdef : R) (rd : R -> R -> R) S (w : mway R) (s : tset K) f,
  exists tr, exec (eset_transmute (S := S) rdef rd w ask s) tr (set_transmute rdef rd (smw_fun w f) s) /\ Forall (agrees f) tr.
Proof. intros E K R KK rdef rd S. exact (smute_execs rdef rd). Qed.
Print Assumptions C57_transmute_functions.
Definition ex_severy (n : nat) (q : key) : option (skres num N) := Some (if Nat.even n then SKTransmuted (Num (fst q)) 1 else SKDropped 100).
Definition ex_smrun := play (A := fun _ => skres num N) ex_severy 0 (eset_transmute 0 N.add MwClosure ask ex_s).
Example C57_transmute_ex : reachable (E := exE) ex_s /\
  exec (eset_transmute 0 N.add MwClosure ask ex_s) (fst ex_smrun) (snd ex_smrun) /\ unbroken (fst ex_smrun) /\
  (forall q k r, In (answer q (SKTransmuted k r)) (fst ex_smrun) -> cls k = cls q) /\
  exists s', snd ex_smrun = Ret (s', 304) /\ set_visit s' = [Num 1; Num 0; Num 4096; Num 36].
Proof.
  split; [exact ex_s_reach|]. split; [exact (play_exec (A := fun _ : key => skres num N) ex_severy (eset_transmute 0 N.add MwClosure ask ex_s) 0)|]. split; [|split].
  - intros q Hq. vm_compute in Hq. repeat (destruct Hq as [Hq|Hq]; [discriminate|]). destruct Hq.
  - intros q k r Hq. apply (in_map (fun e : event (A := fun _ : key => skres num N) => ((projT1 e, projT2 e) : key * option (skres num N)))) in Hq.
    cbn [projT1 projT2 answer] in Hq. vm_compute in Hq.
    repeat (destruct Hq as [Hq|Hq]; [try discriminate Hq; injection Hq as <- <- _; reflexivity|]). destruct Hq.
  - eexists. split; vm_compute; reflexivity.
Qed.

Theorem C57_visit : forall (E : Env) K (s : tset K) tr o,
  exec (eset_visit (A := fun _ : K => unit) ask s) tr o ->
  (calls tr = set_visit s /\ unbroken tr /\ o = Ret tt) \/
  (exists tr' q rest, tr = tr' ++ [broke q] /\ unbroken tr' /\ calls tr ++ rest = set_visit s /\ o = Panic).
Proof. intros E K. exact svisit_ends. Qed.
Print Assumptions C57_visit.
Definition ex_svrun := play (A := fun _ => unit) (fun n _ => if Nat.eqb n 2 then None else Some tt) 0 (eset_visit ask ex_s).
Example C57_visit_ex : exec (eset_visit (A := fun _ : key => unit) ask ex_s) (fst ex_svrun) (snd ex_svrun) /\
  fst ex_svrun = [answer (A := fun _ : key => unit) (1, 1) tt; answer (A := fun _ : key => unit) (2, 0) tt; broke (0, 0)] /\ snd ex_svrun = Panic.
Proof. split; [exact (play_exec (A := fun _ : key => unit) (fun n _ => if Nat.eqb n 2 then None else Some tt) (eset_visit ask ex_s) 0)|]. vm_compute. auto. Qed.

(** * Two sets *)
Theorem C57_tm_calls : forall (E : Env) K L R (KK : Key K) (KL : Key L) (rdef : R) (rd : R -> R -> R) st (wb : tway R) (wl : tway R) (wr : mway R) (m : tset K) (r : tset L) tr o,
  reachable m -> reachable r ->
  exec (eset_tm (A := jans (sres R) (sres R) (skres K R)) rdef rd st wb ask_both wl ask_left wr ask_right m r) tr o ->
  makes (merge (fun e e' => tw_calls wb (AskBoth (fst e) (fst e'))) (fun e => tw_calls wl (AskLeft (fst e))) (fun e' => mw_calls wr (AskRight (fst e'))) (map_visit m) (map_visit r)) tr o.
Proof. intros E K L R KK KL. exact stm_makes. Qed.
Print Assumptions C57_tm_calls.
Theorem C57_tm_once : forall (E : Env) K L R (KK : Key K) (KL : Key L) (rdef : R) (rd : R -> R -> R) st (wb : tway R) (wl : tway R) (wr : mway R) (m : tset K) (r : tset L) tr o,
  reachable m -> reachable r ->
  exec (eset_tm (A := jans (sres R) (sres R) (skres K R)) rdef rd st wb ask_both wl ask_left wr ask_right m r) tr o -> NoDup (map sabout (calls tr)).
Proof. intros E K L R KK KL. exact stm_once. Qed.
Print Assumptions C57_tm_once.
Theorem C57_tm_answers : forall (E : Env) K L R (KK : Key K) (KL : Key L) (rdef : R) (rd : R -> R -> R) st (wb : tway R) (wl : tway R) (wr : mway R) (m : tset K) (r : tset L) tr o,
  reachable m -> reachable r ->
  exec (eset_tm (A := jans (sres R) (sres R) (skres K R)) rdef rd st wb ask_both wl ask_left wr ask_right m r) tr o -> unbroken tr ->
  exists f, Forall (agrees f) tr /\ o = set_tm rdef rd st (stw_fun wb (fun_both f)) (stw_fun wl (fun_left f)) (smw_fun wr (fun_right f)) m r.
Proof. intros E K L R KK KL. exact stm_answers. Qed.
Print Assumptions C57_tm_answers.
Theorem C57_tm_as : forall (E : Env) K L R (KK : Key K) (KL : Key L) (rdef : R) (rd : R -> R -> R) st (wb : tway R) (wl : tway R) (wr : mway R) (m : tset K) (r : tset L) tr o f,
  exec (eset_tm (A := jans (sres R) (sres R) (skres K R)) rdef rd st wb ask_both wl ask_left wr ask_right m r) tr o -> Forall (agrees f) tr ->
  o = set_tm rdef rd st (stw_fun wb (fun_both f)) (stw_fun wl (fun_left f)) (smw_fun wr (fun_right f)) m r.
Proof. intros E K L R KK KL. exact stm_as. Qed.
Print Assumptions C57_tm_as.
Theorem C57_tm_functions : forall (E : Env) K L R (KK : Key K) (KL : Key L) (rdef : R) (rd : R -> R -> R) st (wb : tway R) (wl : tway R) (wr : mway R) (m : tset K) (r : tset L) f,
  exists tr, exec (eset_tm (A := jans (sres R) (sres R) (skres K R)) rdef rd st wb ask_both wl ask_left wr ask_right m r) tr (set_tm rdef rd st (stw_fun wb (fun_both f)) (stw_fun wl (fun_left f)) (smw_fun wr (fun_right f)) m r) /\ Forall (agrees f) tr.
Proof. intros E K L R KK KL. exact stm_execs. Qed.
Print Assumptions C57_tm_functions.
(** Hashes shared by two elements of one set and three of the other can make it
    loop for ever (C28). *)
Theorem C57_tm_ends : forall (E : Env) K L R (KK : Key K) (KL : Key L) (rdef : R) (rd : R -> R -> R) st (wb : tway R) (wl : tway R) (wr : mway R) (m : tset K) (r : tset L) tr o,
  reachable m -> reachable r ->
  (forall h, (cnt h (map_visit m) < 2)%nat \/ (cnt h (map_visit r) < 3)%nat) ->
  (forall l k x, In (answer (A := jans (sres R) (sres R) (skres K R)) (AskRight l) (SKTransmuted k x)) tr -> cls k = cls l) ->
  exec (eset_tm (A := jans (sres R) (sres R) (skres K R)) rdef rd st wb ask_both wl ask_left wr ask_right m r) tr o ->
  (unbroken tr /\ exists x, o = Ret x) \/ (exists tr' q, tr = tr' ++ [broke q] /\ unbroken tr' /\ o = Panic).
Proof. intros E K L R KK KL. exact stm_ends. Qed.
Print Assumptions C57_tm_ends.

Theorem C57_mt_calls : forall (E : Env) K L R (KK : Key K) (KL : Key L) (rdef : R) (rd : R -> R -> R) st (wb : tway R) (wl : mway R) (wr : tway R) (m : tset K) (r : tset L) tr o,
  reachable m -> reachable r ->
  exec (eset_mt (A := jans (sres R) (skres L R) (sres R)) rdef rd st wb ask_both wl ask_left wr ask_right m r) tr o ->
  makes (merge (fun e e' => tw_calls wb (AskBoth (fst e) (fst e'))) (fun e => mw_calls wl (AskLeft (fst e))) (fun e' => tw_calls wr (AskRight (fst e'))) (map_visit m) (map_visit r)) tr o.
Proof. intros E K L R KK KL. exact smt_makes. Qed.
Print Assumptions C57_mt_calls.
Theorem C57_mt_once : forall (E : Env) K L R (KK : Key K) (KL : Key L) (rdef : R) (rd : R -> R -> R) st (wb : tway R) (wl : mway R) (wr : tway R) (m : tset K) (r : tset L) tr o,
  reachable m -> reachable r ->
  exec (eset_mt (A := jans (sres R) (skres L R) (sres R)) rdef rd st wb ask_both wl ask_left wr ask_right m r) tr o -> NoDup (map sabout (calls tr)).
Proof. intros E K L R KK KL. exact smt_once. Qed.
Print Assumptions C57_mt_once.
Theorem C57_mt_answers : forall (E : Env) K L R (KK : Key K) (KL : Key L) (rdef : R) (rd : R -> R -> R) st (wb : tway R) (wl : mway R) (wr : tway R) (m : tset K) (r : tset L) tr o,
  reachable m -> reachable r ->
  exec (eset_mt (A := jans (sres R) (skres L R) (sres R)) rdef rd st wb ask_both wl ask_left wr ask_right m r) tr o -> unbroken tr ->
  exists f, Forall (agrees f) tr /\ o = set_mt rdef rd st (stw_fun wb (fun_both f)) (smw_fun wl (fun_left f)) (stw_fun wr (fun_right f)) m r.
Proof. intros E K L R KK KL. exact smt_answers. Qed.
Print Assumptions C57_mt_answers.
Theorem C57_mt_as : forall (E : Env) K L R (KK : Key K) (KL : Key L) (rdef : R) (rd : R -> R -> R) st (wb : tway R) (wl : mway R) (wr : tway R) (m : tset K) (r : tset L) tr o f,
  exec (eset_mt (A := jans (sres R) (skres L R) (sres R)) rdef rd st wb ask_both wl ask_left wr ask_right m r) tr o -> Forall (agrees f) tr ->
  o = set_mt rdef rd st (stw_fun wb (fun_both f)) (smw_fun wl (fun_left f)) (stw_fun wr (fun_right f)) m r.
Proof. intros E K L R KK KL. exact smt_as. Qed.
Print Assumptions C57_mt_as.
Theorem C57_mt_functions : forall (E : Env) K L R (KK : Key K) (KL : Key L) (rdef : R) (rd : R -> R -> R) st (wb : tway R) (wl : mway R) (wr : tway R) (m : tset K) (r : tset L) f,
  exists tr, exec (eset_mt (A := jans (sres R) (skres L R) (sres R)) rdef rd st wb ask_both wl ask_left wr ask_right m r) tr (set_mt rdef rd st (stw_fun wb (fun_both f)) (smw_fun wl (fun_left f)) (stw_fun wr (fun_right f)) m r) /\ Forall (agrees f) tr.
Proof. intros E K L R KK KL. exact smt_execs. Qed.
Print Assumptions C57_mt_functions.
Theorem C57_mt_ends : forall (E : Env) K L R (KK : Key K) (KL : Key L) (rdef : R) (rd : R -> R -> R) st (wb : tway R) (wl : mway R) (wr : tway R) (m : tset K) (r : tset L) tr o,
  reachable m -> reachable r ->
  (forall h, (cnt h (map_visit m) < 3)%nat \/ (cnt h (map_visit r) < 2)%nat) ->
  (forall l k x, In (answer (A := jans (sres R) (skres L R) (sres R)) (AskLeft l) (SKTransmuted k x)) tr -> cls k = cls l) ->
  exec (eset_mt (A := jans (sres R) (skres L R) (sres R)) rdef rd st wb ask_both wl ask_left wr ask_right m r) tr o ->
  (unbroken tr /\ exists x, o = Ret x) \/ (exists tr' q, tr = tr' ++ [broke q] /\ unbroken tr' /\ o = Panic).
Proof. intros E K L R KK KL. exact smt_ends. Qed.
Print Assumptions C57_mt_ends.

Theorem C57_mm_calls : forall (E : Env) K L R (KK : Key K) (KL : Key L) (rdef : R) (rd : R -> R -> R) S (KS : Key S) (wb : mway R) (wl : mway R) (wr : mway R) (m : tset K) (r : tset L) tr o,
  reachable m -> reachable r ->
  exec (eset_mm (A := jans (skres S R) (skres S R) (skres S R)) rdef rd wb ask_both wl ask_left wr ask_right m r) tr o ->
  makes (merge (fun e e' => mw_calls wb (AskBoth (fst e) (fst e'))) (fun e => mw_calls wl (AskLeft (fst e))) (fun e' => mw_calls wr (AskRight (fst e'))) (map_visit m) (map_visit r)) tr o.
Proof. intros E K L R KK KL rdef rd S KS. exact (smm_makes rdef rd). Qed.
Print Assumptions C57_mm_calls.
Theorem C57_mm_once : forall (E : Env) K L R (KK : Key K) (KL : Key L) (rdef : R) (rd : R -> R -> R) S (KS : Key S) (wb : mway R) (wl : mway R) (wr : mway R) (m : tset K) (r : tset L) tr o,
  reachable m -> reachable r ->
  exec (eset_mm (A := jans (skres S R) (skres S R) (skres S R)) rdef rd wb ask_both wl ask_left wr ask_right m r) tr o -> NoDup (map sabout (calls tr)).
Proof. intros E K L R KK KL rdef rd S KS. exact (smm_once rdef rd). Qed.
Print Assumptions C57_mm_once.
Theorem C57_mm_answers : forall (E : Env) K L R (KK : Key K) (KL : Key L) (rdef : R) (rd : R -> R -> R) S (KS : Key S) (wb : mway R) (wl : mway R) (wr : mway R) (m : tset K) (r : tset L) tr o,
  reachable m -> reachable r ->
  exec (eset_mm (A := jans (skres S R) (skres S R) (skres S R)) rdef rd wb ask_both wl ask_left wr ask_right m r) tr o -> unbroken tr ->
  exists f, Forall (agrees f) tr /\ o = set_mm rdef rd (smw_fun wb (fun_both f)) (smw_fun wl (fun_left f)) (smw_fun wr (fun_right f)) m r.
Proof. intros E K L R KK KL rdef rd S KS. exact (smm_answers rdef rd). Qed.
Print Assumptions C57_mm_answers.
Theorem C57_mm_as : forall (E : Env) K L R (KK : Key K) (KL : Key L) (rdef : R) (rd : R -> R -> R) S (KS : Key S) (wb : mway R) (wl : mway R) (wr : mway R) (m : tset K) (r : tset L) tr o f,
  exec (eset_mm (A := jans (skres S R) (skres S R) (skres S R)) rdef rd wb ask_both wl ask_left wr ask_right m r) tr o -> Forall (agrees f) tr ->
  o = set_mm rdef rd (smw_fun wb (fun_both f)) (smw_fun wl (fun_left f)) (smw_fun wr (fun_right f)) m r.
Proof. intros E K L R KK KL rdef rd S KS. exact (smm_as rdef rd). Qed.
Print Assumptions C57_mm_as.
Theorem C57_mm_functions : forall (E : Env) K L R (KK : Key K) (KL : Key L) (rdef : R) (rd : R -> R -> R) S (KS : Key S) (wb : mway R) (wl : mway R) (wr : mway R) (m : tset K) (r : tset L) f,
  exists tr, exec (eset_mm (A := jans (skres S R) (skres S R) (skres S R)) rdef rd wb ask_both wl ask_left wr ask_right m r) tr (set_mm rdef rd (smw_fun wb (fun_both f)) (smw_fun wl (fun_left f)) (smw_fun wr (fun_right f)) m r) /\ Forall (agrees f) tr.
Proof. intros E K L R KK KL rdef rd S KS. exact (smm_execs rdef rd). Qed.
Print Assumptions C57_mm_functions.

Theorem C57_tt_calls : forall (E : Env) K R (KK : Key K) (rdef : R) (rd : R -> R -> R) st (wb : jway R) (wl : tway R) (wr : tway R) (m : tset K) (r : tset K) tr o,
  reachable m -> reachable r ->
  exec (eset_tt (A := jans (sbres R) (sres R) (sres R)) rdef rd st wb (fun k k' => ask_both (k, k')) wl ask_left wr ask_right m r) tr o ->
  makes (merge (fun e e' => jw_calls wb (AskBoth (fst e) (fst e'))) (fun e => tw_calls wl (AskLeft (fst e))) (fun e' => tw_calls wr (AskRight (fst e'))) (map_visit m) (map_visit r)) tr o.
Proof. intros E K R KK. exact stt_makes. Qed.
Print Assumptions C57_tt_calls.
Theorem C57_tt_once : forall (E : Env) K R (KK : Key K) (rdef : R) (rd : R -> R -> R) st (wb : jway R) (wl : tway R) (wr : tway R) (m : tset K) (r : tset K) tr o,
  reachable m -> reachable r ->
  exec (eset_tt (A := jans (sbres R) (sres R) (sres R)) rdef rd st wb (fun k k' => ask_both (k, k')) wl ask_left wr ask_right m r) tr o -> NoDup (map sabout (calls tr)).
Proof. intros E K R KK. exact stt_once. Qed.
Print Assumptions C57_tt_once.
Theorem C57_tt_answers : forall (E : Env) K R (KK : Key K) (rdef : R) (rd : R -> R -> R) st (wb : jway R) (wl : tway R) (wr : tway R) (m : tset K) (r : tset K) tr o,
  reachable m -> reachable r ->
  exec (eset_tt (A := jans (sbres R) (sres R) (sres R)) rdef rd st wb (fun k k' => ask_both (k, k')) wl ask_left wr ask_right m r) tr o -> unbroken tr ->
  exists f, Forall (agrees f) tr /\ o = set_tt rdef rd st (sjw_fun wb (fun k k' => fun_both f (k, k'))) (stw_fun wl (fun_left f)) (stw_fun wr (fun_right f)) m r.
Proof. intros E K R KK. exact stt_answers. Qed.
Print Assumptions C57_tt_answers.
Theorem C57_tt_as : forall (E : Env) K R (KK : Key K) (rdef : R) (rd : R -> R -> R) st (wb : jway R) (wl : tway R) (wr : tway R) (m : tset K) (r : tset K) tr o f,
  exec (eset_tt (A := jans (sbres R) (sres R) (sres R)) rdef rd st wb (fun k k' => ask_both (k, k')) wl ask_left wr ask_right m r) tr o -> Forall (agrees f) tr ->
  o = set_tt rdef rd st (sjw_fun wb (fun k k' => fun_both f (k, k'))) (stw_fun wl (fun_left f)) (stw_fun wr (fun_right f)) m r.
Proof. intros E K R KK. exact stt_as. Qed.
Print Assumptions C57_tt_as.
Theorem C57_tt_functions : forall (E : Env) K R (KK : Key K) (rdef : R) (rd : R -> R -> R) st (wb : jway R) (wl : tway R) (wr : tway R) (m : tset K) (r : tset K) f,
  exists tr, exec (eset_tt (A := jans (sbres R) (sres R) (sres R)) rdef rd st wb (fun k k' => ask_both (k, k')) wl ask_left wr ask_right m r) tr (set_tt rdef rd st (sjw_fun wb (fun k k' => fun_both f (k, k'))) (stw_fun wl (fun_left f)) (stw_fun wr (fun_right f)) m r) /\ Forall (agrees f) tr.
Proof. intros E K R KK. exact stt_execs. Qed.
Print Assumptions C57_tt_functions.

(** Counting closures on two sets with common elements 1, 128 and 36. *)
Definition ex_cs {T} (n : nat) (_ : T) : sres N := if Nat.even n then SUnchanged 1 else SDropped 100.
Definition ex_ck {S T} (k : S -> T) (n : nat) (q : S) : skres T N := if Nat.even n then SKDropped 10000 else SKTransmuted (k q) 100.
Definition ex_stm := play (counting (fun n => ex_cs n tt) ex_cs (ex_ck (fun k : key => k))) 0
  (eset_tm 0 N.add Sequential TwClosure ask_both TwClosure ask_left MwClosure ask_right ex_s ex_s2).
Definition ex_smt := play (counting (fun n => ex_cs n tt) (ex_ck (fun k : key => Num (fst k))) ex_cs) 0
  (eset_mt 0 N.add MiddleIndex (TwUnchanged 7) ask_both MwClosure ask_left TwClosure ask_right ex_s2 ex_sn).
Definition ex_smm := play (counting (fun n => SKDropped (N.of_nat n)) (ex_ck (fun k : key => Num (fst k))) (ex_ck (fun k => k))) 0
  (eset_mm (S := num) 0 N.add MwClosure ask_both (MwRemoved 7) ask_left MwClosure ask_right ex_s2 ex_sn).
Definition ex_stt := play (counting (fun n => if Nat.even n then SBUnchangedLR 1 else SBDropped 10) ex_cs ex_cs) 0
  (eset_tt 0 N.add Sequential JwClosure (fun k k' => ask_both (k, k')) TwClosure ask_left (TwRemoved 1000) ask_right ex_s ex_s2).
Example C57_tm_ex : reachable (E := exE) ex_s /\ reachable (E := exE) ex_s2 /\
  exec (eset_tm 0 N.add Sequential TwClosure ask_both TwClosure ask_left MwClosure ask_right ex_s ex_s2) (fst ex_stm) (snd ex_stm) /\ unbroken (fst ex_stm) /\
  calls (fst ex_stm) = [AskLeft (0, 0); AskLeft (2, 0); AskBoth (1, 1) (1, 100); AskRight (3, 103); AskLeft (2 ^ 62, 0);
    AskLeft (4096, 0); AskRight (4097, 201); AskBoth (128, 0) (128, 200); AskBoth (36, 0) (36, 301); AskRight (44, 300)] /\
  (exists s', snd ex_stm = Ret (s', 10504, Other) /\ set_visit s' = [(3, 103); (1, 1); (0, 0); (2 ^ 62, 0); (36, 0); (44, 300)]) /\
  (forall h, (cnt h (map_visit ex_s) < 2)%nat \/ (cnt h (map_visit ex_s2) < 3)%nat) /\
  (forall l k x, In (answer (A := jans (sres N) (sres N) (skres key N)) (AskRight l) (SKTransmuted k x)) (fst ex_stm) -> cls k = cls l).
Proof.
  split; [exact ex_s_reach|]. split; [exact ex_s2_reach|].
  split; [exact (play_exec (counting (fun n => ex_cs n tt) ex_cs (ex_ck (fun k : key => k))) (eset_tm 0 N.add Sequential TwClosure ask_both TwClosure ask_left MwClosure ask_right ex_s ex_s2) 0)|].
  split; [intros q Hq; vm_compute in Hq; repeat (destruct Hq as [Hq|Hq]; [discriminate|]); destruct Hq|].
  split; [vm_compute; reflexivity|]. split; [eexists; split; vm_compute; reflexivity|]. split.
  - intros h. right. vm_compute map_visit. unfold cnt. cbn [filter].
    repeat match goal with |- context [N.eqb (hash (ecls ?x)) h] => let y := eval vm_compute in (hash (ecls x)) in change (hash (ecls x)) with y end.
    destruct (N.eqb_spec 0 h) as [<-|]; [vm_compute; repeat constructor|].
    repeat match goal with |- context [if N.eqb ?x h then _ else _] => destruct (N.eqb_spec x h) as [<-|]; [vm_compute; repeat constructor|] end.
    vm_compute. repeat constructor.
  - intros l k x Hq.
    apply (in_map (fun e : event (A := jans (sres N) (sres N) (skres key N)) => match e with existT _ (AskRight q) o => Some (q, (o : option (skres key N))) | _ => None end : option (key * option (skres key N)))) in Hq.
    vm_compute in Hq. repeat (destruct Hq as [Hq|Hq]; [try discriminate Hq; injection Hq as <- <- _; reflexivity|]). destruct Hq.
Qed.
Example C57_mt_ex : reachable (E := exE) ex_s2 /\ reachable (E := exE) ex_sn /\
  exec (eset_mt 0 N.add MiddleIndex (TwUnchanged 7) ask_both MwClosure ask_left TwClosure ask_right ex_s2 ex_sn) (fst ex_smt) (snd ex_smt) /\ unbroken (fst ex_smt) /\
  calls (fst ex_smt) = [AskLeft (3, 103); AskLeft (128, 200); AskRight (Num 8); AskRight (Num 12); AskLeft (36, 301); AskLeft (44, 300)] /\
  exists s', snd ex_smt = Ret (s', 20315, Other) /\ set_visit s' = [Num 1; Num 4097; Num 128; Num 8; Num 44].
Proof.
  split; [exact ex_s2_reach|]. split; [exact ex_sn_reach|].
  split; [exact (play_exec (counting (fun n => ex_cs n tt) (ex_ck (fun k : key => Num (fst k))) ex_cs) (eset_mt 0 N.add MiddleIndex (TwUnchanged 7) ask_both MwClosure ask_left TwClosure ask_right ex_s2 ex_sn) 0)|].
  split; [intros q Hq; vm_compute in Hq; repeat (destruct Hq as [Hq|Hq]; [discriminate|]); destruct Hq|].
  split; [vm_compute; reflexivity|]. eexists; split; vm_compute; reflexivity.
Qed.
Example C57_mm_ex : reachable (E := exE) ex_s2 /\ reachable (E := exE) ex_sn /\
  exec (eset_mm (S := num) 0 N.add MwClosure ask_both (MwRemoved 7) ask_left MwClosure ask_right ex_s2 ex_sn) (fst ex_smm) (snd ex_smm) /\ unbroken (fst ex_smm) /\
  calls (fst ex_smm) = [AskBoth (1, 100) (Num 1); AskBoth (4097, 201) (Num 4097); AskRight (Num 8); AskRight (Num 12)] /\
  exists s', snd ex_smm = Ret (s', 10129) /\ set_visit s' = [Num 12].
Proof.
  split; [exact ex_s2_reach|]. split; [exact ex_sn_reach|].
  split; [exact (play_exec (counting (fun n => SKDropped (N.of_nat n)) (ex_ck (fun k : key => Num (fst k))) (ex_ck (fun k => k))) (eset_mm (S := num) 0 N.add MwClosure ask_both (MwRemoved 7) ask_left MwClosure ask_right ex_s2 ex_sn) 0)|].
  split; [intros q Hq; vm_compute in Hq; repeat (destruct Hq as [Hq|Hq]; [discriminate|]); destruct Hq|].
  split; [vm_compute; reflexivity|]. eexists; split; vm_compute; reflexivity.
Qed.
Example C57_tt_ex : reachable (E := exE) ex_s /\ reachable (E := exE) ex_s2 /\
  exec (eset_tt 0 N.add Sequential JwClosure (fun k k' => ask_both (k, k')) TwClosure ask_left (TwRemoved 1000) ask_right ex_s ex_s2) (fst ex_stt) (snd ex_stt) /\ unbroken (fst ex_stt) /\
  calls (fst ex_stt) = [AskLeft (0, 0); AskLeft (2, 0); AskBoth (1, 1) (1, 100); AskLeft (2 ^ 62, 0); AskLeft (4096, 0);
    AskBoth (128, 0) (128, 200); AskBoth (36, 0) (36, 301)] /\
  exists s', snd ex_stt = Ret (s', 3214, Other) /\ set_visit s' = [(1, 1); (0, 0); (4096, 0); (36, 0)].
Proof.
  split; [exact ex_s_reach|]. split; [exact ex_s2_reach|].
  split; [exact (play_exec (counting (fun n => if Nat.even n then SBUnchangedLR 1 else SBDropped 10) ex_cs ex_cs) (eset_tt 0 N.add Sequential JwClosure (fun k k' => ask_both (k, k')) TwClosure ask_left (TwRemoved 1000) ask_right ex_s ex_s2) 0)|].
  split; [intros q Hq; vm_compute in Hq; repeat (destruct Hq as [Hq|Hq]; [discriminate|]); destruct Hq|].
  split; [vm_compute; reflexivity|]. eexists; split; vm_compute; reflexivity.
Qed.

(** * Transfute *)
Theorem C57_tf_calls : forall (E : Env) K V W R (KK : Key K) (rdef : R) (rd : R -> R -> R) st (wb : tway R) (wl : tway R) (wr : mway R) (m : trie K V) (r : trie K W) tr o,
  reachable m -> reachable r ->
  exec (emap_tf (A := jans (vres V R) (vres V R) (skres V R)) rdef rd st wb ask_both wl ask_left wr ask_right m r) tr o ->
  makes (merge (fun e e' => tw_calls wb (AskBoth e e')) (fun e => tw_calls wl (AskLeft e)) (fun e' => mw_calls wr (AskRight e')) (map_visit m) (map_visit r)) tr o.
Proof. intros E K V W R KK. exact tf_makes. Qed.
Print Assumptions C57_tf_calls.
Theorem C57_tf_once : forall (E : Env) K V W R (KK : Key K) (rdef : R) (rd : R -> R -> R) st (wb : tway R) (wl : tway R) (wr : mway R) (m : trie K V) (r : trie K W) tr o,
  reachable m -> reachable r ->
  exec (emap_tf (A := jans (vres V R) (vres V R) (skres V R)) rdef rd st wb ask_both wl ask_left wr ask_right m r) tr o -> NoDup (map about (calls tr)).
Proof. intros E K V W R KK. exact tf_once. Qed.
Print Assumptions C57_tf_once.
Theorem C57_tf_answers : forall (E : Env) K V W R (KK : Key K) (rdef : R) (rd : R -> R -> R) st (wb : tway R) (wl : tway R) (wr : mway R) (m : trie K V) (r : trie K W) tr o,
  reachable m -> reachable r ->
  exec (emap_tf (A := jans (vres V R) (vres V R) (skres V R)) rdef rd st wb ask_both wl ask_left wr ask_right m r) tr o -> unbroken tr ->
  exists f, Forall (agrees f) tr /\ o = map_tf rdef rd st (tw_fun wb (fun_both f)) (tw_fun wl (fun_left f)) (smw_fun wr (fun_right f)) m r.
Proof. intros E K V W R KK. exact tf_answers. Qed.
Print Assumptions C57_tf_answers.
Theorem C57_tf_as : forall (E : Env) K V W R (KK : Key K) (rdef : R) (rd : R -> R -> R) st (wb : tway R) (wl : tway R) (wr : mway R) (m : trie K V) (r : trie K W) tr o f,
  exec (emap_tf (A := jans (vres V R) (vres V R) (skres V R)) rdef rd st wb ask_both wl ask_left wr ask_right m r) tr o -> Forall (agrees f) tr ->
  o = map_tf rdef rd st (tw_fun wb (fun_both f)) (tw_fun wl (fun_left f)) (smw_fun wr (fun_right f)) m r.
Proof. intros E K V W R KK. exact tf_as. Qed.
Print Assumptions C57_tf_as.
Theorem C57_tf_functions : forall (E : Env) K V W R (KK : Key K) (rdef : R) (rd : R -> R -> R) st (wb : tway R) (wl : tway R) (wr : mway R) (m : trie K V) (r : trie K W) f,
  exists tr, exec (emap_tf (A := jans (vres V R) (vres V R) (skres V R)) rdef rd st wb ask_both wl ask_left wr ask_right m r) tr (map_tf rdef rd st (tw_fun wb (fun_both f)) (tw_fun wl (fun_left f)) (smw_fun wr (fun_right f)) m r) /\ Forall (agrees f) tr.
Proof. intros E K V W R KK. exact tf_execs. Qed.
Print Assumptions C57_tf_functions.
Theorem C57_tf_ends : forall (E : Env) K V W R (KK : Key K) (rdef : R) (rd : R -> R -> R) st (wb : tway R) (wl : tway R) (wr : mway R) (m : trie K V) (r : trie K W) tr o,
  reachable m -> reachable r ->
  (forall h, (cnt h (map_visit m) < 2)%nat \/ (cnt h (map_visit r) < 3)%nat) ->
  exec (emap_tf (A := jans (vres V R) (vres V R) (skres V R)) rdef rd st wb ask_both wl ask_left wr ask_right m r) tr o ->
  (unbroken tr /\ exists x, o = Ret x) \/ (exists tr' q, tr = tr' ++ [broke q] /\ unbroken tr' /\ o = Panic).
Proof. intros E K V W R KK. exact tf_ends. Qed.
Print Assumptions C57_tf_ends.

Theorem C57_ft_calls : forall (E : Env) K V W R (KK : Key K) (rdef : R) (rd : R -> R -> R) st (wb : tway R) (wl : mway R) (wr : tway R) (m : trie K V) (r : trie K W) tr o,
  reachable m -> reachable r ->
  exec (emap_ft (A := jans (vres W R) (skres W R) (vres W R)) rdef rd st wb ask_both wl ask_left wr ask_right m r) tr o ->
  makes (merge (fun e e' => tw_calls wb (AskBoth e e')) (fun e => mw_calls wl (AskLeft e)) (fun e' => tw_calls wr (AskRight e')) (map_visit m) (map_visit r)) tr o.
Proof. intros E K V W R KK. exact ft_makes. Qed.
Print Assumptions C57_ft_calls.
Theorem C57_ft_once : forall (E : Env) K V W R (KK : Key K) (rdef : R) (rd : R -> R -> R) st (wb : tway R) (wl : mway R) (wr : tway R) (m : trie K V) (r : trie K W) tr o,
  reachable m -> reachable r ->
  exec (emap_ft (A := jans (vres W R) (skres W R) (vres W R)) rdef rd st wb ask_both wl ask_left wr ask_right m r) tr o -> NoDup (map about (calls tr)).
Proof. intros E K V W R KK. exact ft_once. Qed.
Print Assumptions C57_ft_once.
Theorem C57_ft_answers : forall (E : Env) K V W R (KK : Key K) (rdef : R) (rd : R -> R -> R) st (wb : tway R) (wl : mway R) (wr : tway R) (m : trie K V) (r : trie K W) tr o,
  reachable m -> reachable r ->
  exec (emap_ft (A := jans (vres W R) (skres W R) (vres W R)) rdef rd st wb ask_both wl ask_left wr ask_right m r) tr o -> unbroken tr ->
  exists f, Forall (agrees f) tr /\ o = map_ft rdef rd st (tw_fun wb (fun_both f)) (smw_fun wl (fun_left f)) (tw_fun wr (fun_right f)) m r.
Proof. intros E K V W R KK. exact ft_answers. Qed.
Print Assumptions C57_ft_answers.
Theorem C57_ft_as : forall (E : Env) K V W R (KK : Key K) (rdef : R) (rd : R -> R -> R) st (wb : tway R) (wl : mway R) (wr : tway R) (m : trie K V) (r : trie K W) tr o f,
  exec (emap_ft (A := jans (vres W R) (skres W R) (vres W R)) rdef rd st wb ask_both wl ask_left wr ask_right m r) tr o -> Forall (agrees f) tr ->
  o = map_ft rdef rd st (tw_fun wb (fun_both f)) (smw_fun wl (fun_left f)) (tw_fun wr (fun_right f)) m r.
Proof. intros E K V W R KK. exact ft_as. Qed.
Print Assumptions C57_ft_as.
Theorem C57_ft_functions : forall (E : Env) K V W R (KK : Key K) (rdef : R) (rd : R -> R -> R) st (wb : tway R) (wl : mway R) (wr : tway R) (m : trie K V) (r : trie K W) f,
  exists tr, exec (emap_ft (A := jans (vres W R) (skres W R) (vres W R)) rdef rd st wb ask_both wl ask_left wr ask_right m r) tr (map_ft rdef rd st (tw_fun wb (fun_both f)) (smw_fun wl (fun_left f)) (tw_fun wr (fun_right f)) m r) /\ Forall (agrees f) tr.
Proof. intros E K V W R KK. exact ft_execs. Qed.
Print Assumptions C57_ft_functions.
Theorem C57_ft_ends : forall (E : Env) K V W R (KK : Key K) (rdef : R) (rd : R -> R -> R) st (wb : tway R) (wl : mway R) (wr : tway R) (m : trie K V) (r : trie K W) tr o,
  reachable m -> reachable r ->
  (forall h, (cnt h (map_visit m) < 3)%nat \/ (cnt h (map_visit r) < 2)%nat) ->
  exec (emap_ft (A := jans (vres W R) (skres W R) (vres W R)) rdef rd st wb ask_both wl ask_left wr ask_right m r) tr o ->
  (unbroken tr /\ exists x, o = Ret x) \/ (exists tr' q, tr = tr' ++ [broke q] /\ unbroken tr' /\ o = Panic).
Proof. intros E K V W R KK. exact ft_ends. Qed.
Print Assumptions C57_ft_ends.

(** The right map has values of another type; the closure gives the entries
    only there the number of the call. *)
Definition ex_cf (n : nat) (_ : key * unit) : skres N N := if Nat.even n then SKDropped 10000 else SKTransmuted (N.of_nat n) 100.
Definition ex_tf := play (counting (fun n => ex_jv n tt) ex_jv ex_cf) 0
  (emap_tf 0 N.add Sequential TwClosure ask_both TwClosure ask_left MwClosure ask_right ex_m ex_s2).
Definition ex_ft := play (counting (fun n => ex_jv n tt) ex_cf ex_jv) 0
  (emap_ft 0 N.add Sequential TwClosure ask_both MwClosure ask_left (TwUnchanged 0) ask_right ex_s2 ex_m).
Lemma ex_few_s2 h : (cnt h (map_visit ex_s2) < 3)%nat.
Proof.
  vm_compute map_visit. unfold cnt. cbn [filter].
  repeat match goal with |- context [N.eqb (hash (ecls ?x)) h] => let y := eval vm_compute in (hash (ecls x)) in change (hash (ecls x)) with y end.
  repeat match goal with |- context [if N.eqb ?x h then _ else _] => destruct (N.eqb_spec x h) as [<-|]; [vm_compute; repeat constructor|] end.
  vm_compute. repeat constructor.
Qed.
Example C57_transfute_ex : reachable (E := exE) ex_m /\ reachable (E := exE) ex_s2 /\
  (forall h, (cnt h (map_visit ex_m) < 2)%nat \/ (cnt h (map_visit ex_s2) < 3)%nat) /\
  exec (emap_tf 0 N.add Sequential TwClosure ask_both TwClosure ask_left MwClosure ask_right ex_m ex_s2) (fst ex_tf) (snd ex_tf) /\ unbroken (fst ex_tf) /\
  calls (fst ex_tf) = [AskLeft (0, 0, 10); AskLeft (2, 0, 12); AskBoth (1, 1, 17) (1, 100, tt); AskRight (3, 103, tt);
    AskLeft (2 ^ 62, 0, 15); AskLeft (4096, 0, 14); AskRight (4097, 201, tt); AskBoth (128, 0, 13) (128, 200, tt);
    AskBoth (36, 0, 18) (36, 301, tt); AskRight (44, 300, tt)] /\
  (exists m', snd ex_tf = Ret (m', 10504, Other) /\ map_visit m' =
    [(3, 103, 3); (1, 1, 2); (2, 0, 12); (0, 0, 0); (2 ^ 62, 0, 4); (4096, 0, 14); (128, 0, 13); (36, 0, 8); (44, 300, 9)]) /\
  exec (emap_ft 0 N.add Sequential TwClosure ask_both MwClosure ask_left (TwUnchanged 0) ask_right ex_s2 ex_m) (fst ex_ft) (snd ex_ft) /\ unbroken (fst ex_ft) /\
  calls (fst ex_ft) = [AskBoth (1, 100, tt) (1, 1, 17); AskLeft (3, 103, tt); AskLeft (4097, 201, tt); AskBoth (128, 200, tt) (128, 0, 13);
    AskBoth (36, 301, tt) (36, 0, 18); AskLeft (44, 300, tt)] /\
  (exists m', snd ex_ft = Ret (m', 10302, Other) /\ map_visit m' =
    [(3, 103, 1); (1, 1, 0); (2, 0, 12); (0, 0, 10); (2 ^ 62, 0, 15); (4096, 0, 14); (128, 0, 13); (36, 0, 4); (44, 300, 5)]).
Proof.
  split; [exact ex_reach|]. split; [exact ex_s2_reach|]. split; [intros h; right; apply ex_few_s2|].
  split; [exact (play_exec (counting (fun n => ex_jv n tt) ex_jv ex_cf) (emap_tf 0 N.add Sequential TwClosure ask_both TwClosure ask_left MwClosure ask_right ex_m ex_s2) 0)|].
  split; [intros q Hq; vm_compute in Hq; repeat (destruct Hq as [Hq|Hq]; [discriminate|]); destruct Hq|].
  split; [vm_compute; reflexivity|]. split; [eexists; split; vm_compute; reflexivity|].
  split; [exact (play_exec (counting (fun n => ex_jv n tt) ex_cf ex_jv) (emap_ft 0 N.add Sequential TwClosure ask_both MwClosure ask_left (TwUnchanged 0) ask_right ex_s2 ex_m) 0)|].
  split; [intros q Hq; vm_compute in Hq; repeat (destruct Hq as [Hq|Hq]; [discriminate|]); destruct Hq|].
  split; [vm_compute; reflexivity|]. eexists; split; vm_compute; reflexivity.
Qed.

(** * C52: how the joint operations on maps end *)
Theorem C52_tm_ends : forall (E : Env) K V L W R (KK : Key K) (KL : Key L) (rdef : R) (rd : R -> R -> R) st (wb : tway R) (wl : tway R) (wr : mway R) (m : trie K V) (r : trie L W) tr o,
  reachable m -> reachable r ->
  (forall h, (cnt h (map_visit m) < 2)%nat \/ (cnt h (map_visit r) < 3)%nat) ->
  (forall e k v x, In (answer (A := jans (vres V R) (vres V R) (kres K V R)) (AskRight e) (KTransmuted k v x)) tr -> cls k = cls (fst e)) ->
  exec (emap_tm (A := jans (vres V R) (vres V R) (kres K V R)) rdef rd st (tw_op wb ask_both) (tw_op wl ask_left) (mw_op wr ask_right) m r) tr o ->
  (unbroken tr /\ exists x, o = Ret x) \/ (exists tr' q, tr = tr' ++ [broke q] /\ unbroken tr' /\ o = Panic).
Proof. intros E K V L W R KK KL. exact tm_ends. Qed.
Print Assumptions C52_tm_ends.
Theorem C52_mt_ends : forall (E : Env) K V L W R (KK : Key K) (KL : Key L) (rdef : R) (rd : R -> R -> R) st (wb : tway R) (wl : mway R) (wr : tway R) (m : trie K V) (r : trie L W) tr o,
  reachable m -> reachable r ->
  (forall h, (cnt h (map_visit m) < 3)%nat \/ (cnt h (map_visit r) < 2)%nat) ->
  (forall e k v x, In (answer (A := jans (vres W R) (kres L W R) (vres W R)) (AskLeft e) (KTransmuted k v x)) tr -> cls k = cls (fst e)) ->
  exec (emap_mt (A := jans (vres W R) (kres L W R) (vres W R)) rdef rd st (tw_op wb ask_both) (mw_op wl ask_left) (tw_op wr ask_right) m r) tr o ->
  (unbroken tr /\ exists x, o = Ret x) \/ (exists tr' q, tr = tr' ++ [broke q] /\ unbroken tr' /\ o = Panic).
Proof. intros E K V L W R KK KL. exact mt_ends. Qed.
Print Assumptions C52_mt_ends.
(** The runs of C52_tm_ex and C52_mt_ex meet the conditions. *)
Lemma ex_few_r h : (cnt h (map_visit ex_r) < 3)%nat.
Proof.
  vm_compute map_visit. unfold cnt. cbn [filter].
  repeat match goal with |- context [N.eqb (hash (ecls ?x)) h] => let y := eval vm_compute in (hash (ecls x)) in change (hash (ecls x)) with y end.
  repeat match goal with |- context [if N.eqb ?x h then _ else _] => destruct (N.eqb_spec x h) as [<-|]; [vm_compute; repeat constructor|] end.
  vm_compute. repeat constructor.
Qed.
Example C52_ends_ex : (forall h, (cnt h (map_visit ex_m) < 2)%nat \/ (cnt h (map_visit ex_r) < 3)%nat) /\
  (forall e k v x, In (answer (A := jans (vres N N) (vres N N) (kres key N N)) (AskRight e) (KTransmuted k v x)) (fst ex_tmrun) -> cls k = cls (fst e)) /\
  unbroken (fst ex_tmrun) /\
  (forall h, (cnt h (map_visit ex_r) < 3)%nat \/ (cnt h (map_visit ex_m) < 2)%nat) /\
  (forall e k v x, In (answer (A := jans (vres N N) (kres key N N) (vres N N)) (AskLeft e) (KTransmuted k v x)) (fst ex_mtrun) -> cls k = cls (fst e)) /\
  unbroken (fst ex_mtrun).
Proof.
  split; [intros h; right; apply ex_few_r|]. split; [|split; [|split; [intros h; left; apply ex_few_r|split]]].
  - intros l k v x Hq.
    apply (in_map (fun e : event (A := jans (vres N N) (vres N N) (kres key N N)) => match e with existT _ (AskRight q) o => Some (q, (o : option (kres key N N))) | _ => None end : option ((num * N) * option (kres key N N)))) in Hq.
    vm_compute in Hq. repeat (destruct Hq as [Hq|Hq]; [try discriminate Hq; injection Hq as <- <- _ _; reflexivity|]). destruct Hq.
  - intros q Hq. vm_compute in Hq. repeat (destruct Hq as [Hq|Hq]; [discriminate|]). destruct Hq.
  - intros l k v x Hq.
    apply (in_map (fun e : event (A := jans (vres N N) (kres key N N) (vres N N)) => match e with existT _ (AskLeft q) o => Some (q, (o : option (kres key N N))) | _ => None end : option ((num * N) * option (kres key N N)))) in Hq.
    vm_compute in Hq. repeat (destruct Hq as [Hq|Hq]; [try discriminate Hq; injection Hq as <- <- _ _; reflexivity|]). destruct Hq.
  - intros q Hq. vm_compute in Hq. repeat (destruct Hq as [Hq|Hq]; [discriminate|]). destruct Hq.
Qed.
