(** C51, C52: closures that are not functions. *)
From Coq Require Import NArith List Bool Permutation.
From Verif Require Import Base Words Flag Bia Node Api Spec Trans Transform Joint JointT SpecJ Reach Eff EffT EffJ EffP EffApi EffMapP EffSumP Ex PropJointT.
Import ListNotations.
Open Scope N_scope.

(** For the examples only; the theorems bind their own [Env]. *)
#[local] Existing Instance exE | 100.

(** * C51 *)

(** [emap_transform .. (tw_op w ask) m] is transform on [m] with a closure or a
    constant ([w]); [exec] of it with trace [tr] ending in [o] is any way it may
    go, with any answers. *)
Theorem C51_transform_calls : forall (E : Env) K V R (KK : Key K) (rdef : R) (rd : R -> R -> R) st (w : tway R) (m : trie K V) tr o,
  reachable m -> exec (emap_transform rdef rd st (tw_op w ask) m) tr o ->
  exists rest, calls tr ++ rest = match w with TwClosure => backwards (map_visit m) | _ => [] end /\ forall x, o = Ret x -> rest = [].
Proof. intros E K V R KK. exact transform_in_order. Qed.
Print Assumptions C51_transform_calls.
(** The same as a multiset, and by keys. *)
Theorem C51_transform_makes : forall (E : Env) K V R (KK : Key K) (rdef : R) (rd : R -> R -> R) st (w : tway R) (m : trie K V) tr o,
  reachable m -> exec (emap_transform rdef rd st (tw_op w ask) m) tr o ->
  makes (match w with TwClosure => map_visit m | _ => [] end) tr o.
Proof. intros E K V R KK. exact transform_makes. Qed.
Print Assumptions C51_transform_makes.
Theorem C51_transform_once : forall (E : Env) K V R (KK : Key K) (rdef : R) (rd : R -> R -> R) st (w : tway R) (m : trie K V) tr o,
  reachable m -> exec (emap_transform rdef rd st (tw_op w ask) m) tr o -> NoDup (map ecls (calls tr)).
Proof. intros E K V R KK. exact transform_once. Qed.
Print Assumptions C51_transform_once.
(** It returns unless the closure panics, and a panic is the last call. *)
Theorem C51_transform_ends : forall (E : Env) K V R (KK : Key K) (rdef : R) (rd : R -> R -> R) st (w : tway R) (m : trie K V) tr o,
  reachable m -> exec (emap_transform rdef rd st (tw_op w ask) m) tr o ->
  (unbroken tr /\ exists x, o = Ret x) \/ (exists tr' q, tr = tr' ++ [broke q] /\ unbroken tr' /\ o = Panic).
Proof. intros E K V R KK. exact transform_ends. Qed.
Print Assumptions C51_transform_ends.
(** The outcome is that of a function answering as the closure did. *)
Theorem C51_transform_answers : forall (E : Env) K V R (KK : Key K) (rdef : R) (rd : R -> R -> R) st (w : tway R) (m : trie K V) tr o,
  reachable m -> exec (emap_transform rdef rd st (tw_op w ask) m) tr o -> unbroken tr ->
  exists f, Forall (agrees f) tr /\ o = map_transform rdef rd st (tw_fun w f) m.
Proof. intros E K V R KK. exact transform_answers. Qed.
Print Assumptions C51_transform_answers.
Theorem C51_transform_as : forall (E : Env) K V R (rdef : R) (rd : R -> R -> R) st (w : tway R) (m : trie K V) tr o f,
  exec (emap_transform rdef rd st (tw_op w ask) m) tr o -> Forall (agrees f) tr -> o = map_transform rdef rd st (tw_fun w f) m.
Proof. intros E K V R. exact transform_as. Qed.
Print Assumptions C51_transform_as.
(** Every function is one of the ways a closure may answer. *)
Theorem C51_transform_functions : forall (E : Env) K V R (rdef : R) (rd : R -> R -> R) st (w : tway R) (m : trie K V) f,
  exists tr, exec (emap_transform rdef rd st (tw_op w ask) m) tr (map_transform rdef rd st (tw_fun w f) m) /\ Forall (agrees f) tr.
Proof. intros E K V R. exact transform_execs. Qed.
Print Assumptions C51_transform_functions.

(** A closure that counts its calls: it keeps the first entry it sees, changes
    the second to 1, drops the third, and so on.  The three colliding entries
    are seen last to first. *)
Definition ex_count (n : nat) (q : key * N) : option (vres N N) :=
  Some (match Nat.modulo n 3 with O => VUnchanged 1 | S O => VTransformed (N.of_nat n) 100 | _ => VDropped 10000 end).
(** Panics when called the fourth time. *)
Definition ex_fourth (n : nat) (q : key * N) : option (vres N N) :=
  match n with S (S (S O)) => None | _ => ex_count n q end.
Definition ex_run (f : nat -> key * N -> option (vres N N)) :=
  play (A := fun _ => vres N N) f 0 (emap_transform 0 N.add MiddleIndex (tw_op TwClosure ask) ex_m).
Example C51_transform_ex : reachable (E := exE) ex_m /\
  exec (emap_transform 0 N.add MiddleIndex (tw_op TwClosure ask) ex_m) (fst (ex_run ex_count)) (snd (ex_run ex_count)) /\
  unbroken (fst (ex_run ex_count)) /\
  map_visit ex_m = [(1, 1, 17); (2, 0, 12); (0, 0, 10); (4 * 2 ^ 60, 0, 15); (4 * 2 ^ 10, 0, 14); (4 * 2 ^ 5, 0, 13); (36, 0, 18)] /\
  calls (fst (ex_run ex_count)) = [(0, 0, 10); (2, 0, 12); (1, 1, 17); (4 * 2 ^ 60, 0, 15); (4 * 2 ^ 10, 0, 14); (4 * 2 ^ 5, 0, 13); (36, 0, 18)] /\
  backwards (map_visit ex_m) = calls (fst (ex_run ex_count)) /\
  (exists m', snd (ex_run ex_count) = Ret (m', 20203, Other) /\
     map_visit m' = [(2, 0, 1); (0, 0, 10); (4 * 2 ^ 60, 0, 15); (4 * 2 ^ 10, 0, 4); (36, 0, 18)]) /\
  calls (fst (ex_run ex_fourth)) = [(0, 0, 10); (2, 0, 12); (1, 1, 17); (4 * 2 ^ 60, 0, 15)] /\ snd (ex_run ex_fourth) = Panic.
Proof.
  split; [exact ex_reach|]. split; [exact (play_exec (A := fun _ : key * N => vres N N) ex_count (emap_transform 0 N.add MiddleIndex (tw_op TwClosure ask) ex_m) 0)|]. split.
  - intros q Hq. vm_compute in Hq. repeat (destruct Hq as [Hq|Hq]; [discriminate|]). destruct Hq.
  - do 3 (split; [vm_compute; reflexivity|]). split; [eexists; split; [vm_compute; reflexivity|vm_compute; reflexivity]|]. vm_compute. auto.
Qed.

Theorem C51_transmute_calls : forall (E : Env) K V R (KK : Key K) (rdef : R) (rd : R -> R -> R) S X (w : mway R) (m : trie K V) tr o,
  reachable m -> exec (emap_transmute (S := S) (X := X) rdef rd (mw_op w ask) m) tr o ->
  exists rest, calls tr ++ rest = match w with MwClosure => backwards (map_visit m) | _ => [] end /\ forall x, o = Ret x -> rest = [].
Proof. intros E K V R KK rdef rd S X. exact (transmute_in_order rdef rd). Qed.
Print Assumptions C51_transmute_calls.
Theorem C51_transmute_once : forall (E : Env) K V R (KK : Key K) (rdef : R) (rd : R -> R -> R) S X (w : mway R) (m : trie K V) tr o,
  reachable m -> exec (emap_transmute (S := S) (X := X) rdef rd (mw_op w ask) m) tr o -> NoDup (map ecls (calls tr)).
Proof. intros E K V R KK rdef rd S X. exact (transmute_once rdef rd). Qed.
Print Assumptions C51_transmute_once.
Theorem C51_transmute_ends : forall (E : Env) K V R (KK : Key K) (rdef : R) (rd : R -> R -> R) S X (KS : Key S) (w : mway R) (m : trie K V) tr o,
  reachable m -> (forall q k v r, In (answer q (KTransmuted k v r)) tr -> cls k = cls (fst q)) ->
  exec (emap_transmute (S := S) (X := X) rdef rd (mw_op w ask) m) tr o ->
  (unbroken tr /\ exists x, o = Ret x) \/ (exists tr' q, tr = tr' ++ [broke q] /\ unbroken tr' /\ o = Panic).
Proof. intros E K V R KK rdef rd S X KS. exact (transmute_ends rdef rd). Qed.
Print Assumptions C51_transmute_ends.
Theorem C51_transmute_answers : forall (E : Env) K V R (KK : Key K) (rdef : R) (rd : R -> R -> R) S X (w : mway R) (m : trie K V) tr o,
  reachable m -> exec (emap_transmute (S := S) (X := X) rdef rd (mw_op w ask) m) tr o -> unbroken tr ->
  exists f, Forall (agrees f) tr /\ o = map_transmute rdef rd (mw_fun w f) m.
Proof. intros E K V R KK rdef rd S X. exact (transmute_answers rdef rd). Qed.
Print Assumptions C51_transmute_answers.
Theorem C51_transmute_as : forall (E : Env) K V R (rdef : R) (rd : R -> R -> R) S X (w : mway R) (m : trie K V) tr o f,
  exec (emap_transmute (S := S) (X := X) rdef rd (mw_op w ask) m) tr o -> Forall (agrees f) tr -> o = map_transmute rdef rd (mw_fun w f) m.
Proof. intros E K V R rdef rd S X. exact (transmute_as rdef rd). Qed.
Print Assumptions C51_transmute_as.
Theorem C51_transmute_functions : forall (E : Env) K V R (rdef : R) (rd : R -> R -> R) S X (w : mway R) (m : trie K V) f,
  exists tr, exec (emap_transmute (S := S) (X := X) rdef rd (mw_op w ask) m) tr (map_transmute rdef rd (mw_fun w f) m) /\ Forall (agrees f) tr.
Proof. intros E K V R rdef rd S X. exact (transmute_execs rdef rd). Qed.
Print Assumptions C51_transmute_functions.

(** A closure that numbers the entries in the order it sees them, dropping
    every third. *)
Definition ex_number (n : nat) (q : key * N) : option (kres num N N) :=
  Some (match Nat.modulo n 3 with S (S O) => KDropped 10 | _ => KTransmuted (Num (fst (fst q))) (N.of_nat n) 1 end).
Definition ex_mrun := play (A := fun _ => kres num N N) ex_number 0 (emap_transmute 0 N.add (mw_op MwClosure ask) ex_m).
Example C51_transmute_ex : reachable (E := exE) ex_m /\
  exec (emap_transmute 0 N.add (mw_op MwClosure ask) ex_m) (fst ex_mrun) (snd ex_mrun) /\
  unbroken (fst ex_mrun) /\ (forall q k v r, In (answer q (KTransmuted k v r)) (fst ex_mrun) -> cls k = cls (fst q)) /\
  calls (fst ex_mrun) = backwards (map_visit ex_m) /\
  exists m', snd ex_mrun = Ret (m', 25) /\
     map_visit m' = [(Num 2, 1); (Num 0, 0); (Num (4 * 2 ^ 60), 3); (Num (4 * 2 ^ 10), 4); (Num 36, 6)].
Proof.
  split; [exact ex_reach|]. split; [exact (play_exec (A := fun _ : key * N => kres num N N) ex_number (emap_transmute 0 N.add (mw_op MwClosure ask) ex_m) 0)|]. split; [|split].
  - intros q Hq. vm_compute in Hq. repeat (destruct Hq as [Hq|Hq]; [discriminate|]). destruct Hq.
  - intros q k v r Hq. apply (in_map (fun e : event (A := fun _ : key * N => kres num N N) => ((projT1 e, projT2 e) : (key * N) * option (kres num N N)))) in Hq.
    cbn [projT1 projT2 answer] in Hq. vm_compute in Hq.
    repeat (destruct Hq as [Hq|Hq]; [try discriminate Hq; injection Hq as <- <- _ _; reflexivity|]). destruct Hq.
  - split; [vm_compute; reflexivity|]. eexists. split; vm_compute; reflexivity.
Qed.

(** visit makes its calls in the order of [map_visit], whatever happens. *)
Theorem C51_visit : forall (E : Env) K V (m : trie K V) tr o,
  exec (emap_visit (A := fun _ : K * V => unit) ask m) tr o ->
  (calls tr = map_visit m /\ unbroken tr /\ o = Ret tt) \/
  (exists tr' q rest, tr = tr' ++ [broke q] /\ unbroken tr' /\ calls tr ++ rest = map_visit m /\ o = Panic).
Proof. intros E K V. exact visit_ends. Qed.
Print Assumptions C51_visit.
Definition ex_vrun := play (A := fun _ => unit) (fun n _ => if Nat.eqb n 2 then None else Some tt) 0 (emap_visit ask ex_m).
Example C51_visit_ex : exec (emap_visit (A := fun _ : key * N => unit) ask ex_m) (fst ex_vrun) (snd ex_vrun) /\
  fst ex_vrun = [answer (A := fun _ : key * N => unit) (1, 1, 17) tt; answer (A := fun _ : key * N => unit) (2, 0, 12) tt; broke (0, 0, 10)] /\ snd ex_vrun = Panic.
Proof. split; [exact (play_exec (A := fun _ : key * N => unit) (fun n _ => if Nat.eqb n 2 then None else Some tt) (emap_visit ask ex_m) 0)|]. vm_compute. auto. Qed.

(** * C52 *)

Theorem C52_tm_calls : forall (E : Env) K V L W R (KK : Key K) (KL : Key L) (rdef : R) (rd : R -> R -> R) st (wb : tway R) (wl : tway R) (wr : mway R) (m : trie K V) (right : trie L W) tr o,
  reachable m -> reachable right ->
  exec (emap_tm (A := jans (vres V R) (vres V R) (kres K V R)) rdef rd st (tw_op wb ask_both) (tw_op wl ask_left) (mw_op wr ask_right) m right) tr o ->
  makes (merge (fun e e' => tw_calls wb (AskBoth e e')) (fun e => tw_calls wl (AskLeft e)) (fun e' => mw_calls wr (AskRight e'))
    (map_visit m) (map_visit right)) tr o.
Proof. intros E K V L W R KK KL. exact tm_makes. Qed.
Print Assumptions C52_tm_calls.
Theorem C52_tm_once : forall (E : Env) K V L W R (KK : Key K) (KL : Key L) (rdef : R) (rd : R -> R -> R) st (wb : tway R) (wl : tway R) (wr : mway R) (m : trie K V) (right : trie L W) tr o,
  reachable m -> reachable right ->
  exec (emap_tm (A := jans (vres V R) (vres V R) (kres K V R)) rdef rd st (tw_op wb ask_both) (tw_op wl ask_left) (mw_op wr ask_right) m right) tr o ->
  NoDup (map about (calls tr)).
Proof. intros E K V L W R KK KL. exact tm_once. Qed.
Print Assumptions C52_tm_once.
Theorem C52_tm_answers : forall (E : Env) K V L W R (KK : Key K) (KL : Key L) (rdef : R) (rd : R -> R -> R) st (wb : tway R) (wl : tway R) (wr : mway R) (m : trie K V) (right : trie L W) tr o,
  reachable m -> reachable right ->
  exec (emap_tm (A := jans (vres V R) (vres V R) (kres K V R)) rdef rd st (tw_op wb ask_both) (tw_op wl ask_left) (mw_op wr ask_right) m right) tr o -> unbroken tr ->
  exists f, Forall (agrees f) tr /\
    o = map_tm rdef rd st (tw_fun wb (fun_both f)) (tw_fun wl (fun_left f)) (mw_fun wr (fun_right f)) m right.
Proof. intros E K V L W R KK KL. exact tm_answers. Qed.
Print Assumptions C52_tm_answers.
Theorem C52_tm_as : forall (E : Env) K V L W R (KK : Key K) (KL : Key L) (rdef : R) (rd : R -> R -> R) st (wb : tway R) (wl : tway R) (wr : mway R) (m : trie K V) (right : trie L W) tr o f,
  exec (emap_tm (A := jans (vres V R) (vres V R) (kres K V R)) rdef rd st (tw_op wb ask_both) (tw_op wl ask_left) (mw_op wr ask_right) m right) tr o -> Forall (agrees f) tr ->
  o = map_tm rdef rd st (tw_fun wb (fun_both f)) (tw_fun wl (fun_left f)) (mw_fun wr (fun_right f)) m right.
Proof. intros E K V L W R KK KL. exact tm_as. Qed.
Print Assumptions C52_tm_as.
Theorem C52_tm_functions : forall (E : Env) K V L W R (KK : Key K) (KL : Key L) (rdef : R) (rd : R -> R -> R) st (wb : tway R) (wl : tway R) (wr : mway R) (m : trie K V) (right : trie L W) f,
  exists tr, exec (emap_tm (A := jans (vres V R) (vres V R) (kres K V R)) rdef rd st (tw_op wb ask_both) (tw_op wl ask_left) (mw_op wr ask_right) m right) tr
    (map_tm rdef rd st (tw_fun wb (fun_both f)) (tw_fun wl (fun_left f)) (mw_fun wr (fun_right f)) m right) /\ Forall (agrees f) tr.
Proof. intros E K V L W R KK KL. exact tm_execs. Qed.
Print Assumptions C52_tm_functions.

Theorem C52_mt_calls : forall (E : Env) K V L W R (KK : Key K) (KL : Key L) (rdef : R) (rd : R -> R -> R) st (wb : tway R) (wl : mway R) (wr : tway R) (m : trie K V) (right : trie L W) tr o,
  reachable m -> reachable right ->
  exec (emap_mt (A := jans (vres W R) (kres L W R) (vres W R)) rdef rd st (tw_op wb ask_both) (mw_op wl ask_left) (tw_op wr ask_right) m right) tr o ->
  makes (merge (fun e e' => tw_calls wb (AskBoth e e')) (fun e => mw_calls wl (AskLeft e)) (fun e' => tw_calls wr (AskRight e'))
    (map_visit m) (map_visit right)) tr o.
Proof. intros E K V L W R KK KL. exact mt_makes. Qed.
Print Assumptions C52_mt_calls.
Theorem C52_mt_once : forall (E : Env) K V L W R (KK : Key K) (KL : Key L) (rdef : R) (rd : R -> R -> R) st (wb : tway R) (wl : mway R) (wr : tway R) (m : trie K V) (right : trie L W) tr o,
  reachable m -> reachable right ->
  exec (emap_mt (A := jans (vres W R) (kres L W R) (vres W R)) rdef rd st (tw_op wb ask_both) (mw_op wl ask_left) (tw_op wr ask_right) m right) tr o ->
  NoDup (map about (calls tr)).
Proof. intros E K V L W R KK KL. exact mt_once. Qed.
Print Assumptions C52_mt_once.
Theorem C52_mt_answers : forall (E : Env) K V L W R (KK : Key K) (KL : Key L) (rdef : R) (rd : R -> R -> R) st (wb : tway R) (wl : mway R) (wr : tway R) (m : trie K V) (right : trie L W) tr o,
  reachable m -> reachable right ->
  exec (emap_mt (A := jans (vres W R) (kres L W R) (vres W R)) rdef rd st (tw_op wb ask_both) (mw_op wl ask_left) (tw_op wr ask_right) m right) tr o -> unbroken tr ->
  exists f, Forall (agrees f) tr /\
    o = map_mt rdef rd st (tw_fun wb (fun_both f)) (mw_fun wl (fun_left f)) (tw_fun wr (fun_right f)) m right.
Proof. intros E K V L W R KK KL. exact mt_answers. Qed.
Print Assumptions C52_mt_answers.
Theorem C52_mt_as : forall (E : Env) K V L W R (KK : Key K) (KL : Key L) (rdef : R) (rd : R -> R -> R) st (wb : tway R) (wl : mway R) (wr : tway R) (m : trie K V) (right : trie L W) tr o f,
  exec (emap_mt (A := jans (vres W R) (kres L W R) (vres W R)) rdef rd st (tw_op wb ask_both) (mw_op wl ask_left) (tw_op wr ask_right) m right) tr o -> Forall (agrees f) tr ->
  o = map_mt rdef rd st (tw_fun wb (fun_both f)) (mw_fun wl (fun_left f)) (tw_fun wr (fun_right f)) m right.
Proof. intros E K V L W R KK KL. exact mt_as. Qed.
Print Assumptions C52_mt_as.
Theorem C52_mt_functions : forall (E : Env) K V L W R (KK : Key K) (KL : Key L) (rdef : R) (rd : R -> R -> R) st (wb : tway R) (wl : mway R) (wr : tway R) (m : trie K V) (right : trie L W) f,
  exists tr, exec (emap_mt (A := jans (vres W R) (kres L W R) (vres W R)) rdef rd st (tw_op wb ask_both) (mw_op wl ask_left) (tw_op wr ask_right) m right) tr
    (map_mt rdef rd st (tw_fun wb (fun_both f)) (mw_fun wl (fun_left f)) (tw_fun wr (fun_right f)) m right) /\ Forall (agrees f) tr.
Proof. intros E K V L W R KK KL. exact mt_execs. Qed.
Print Assumptions C52_mt_functions.

Theorem C52_mm_calls : forall (E : Env) K V L W R (KK : Key K) (KL : Key L) (rdef : R) (rd : R -> R -> R) S X (KS : Key S) (wb : mway R) (wl : mway R) (wr : mway R) (m : trie K V) (right : trie L W) tr o,
  reachable m -> reachable right ->
  exec (emap_mm (A := jans (kres S X R) (kres S X R) (kres S X R)) rdef rd (mw_op wb ask_both) (mw_op wl ask_left) (mw_op wr ask_right) m right) tr o ->
  makes (merge (fun e e' => mw_calls wb (AskBoth e e')) (fun e => mw_calls wl (AskLeft e)) (fun e' => mw_calls wr (AskRight e'))
    (map_visit m) (map_visit right)) tr o.
Proof. intros E K V L W R KK KL rdef rd S X KS. exact (mm_makes rdef rd). Qed.
Print Assumptions C52_mm_calls.
Theorem C52_mm_once : forall (E : Env) K V L W R (KK : Key K) (KL : Key L) (rdef : R) (rd : R -> R -> R) S X (KS : Key S) (wb : mway R) (wl : mway R) (wr : mway R) (m : trie K V) (right : trie L W) tr o,
  reachable m -> reachable right ->
  exec (emap_mm (A := jans (kres S X R) (kres S X R) (kres S X R)) rdef rd (mw_op wb ask_both) (mw_op wl ask_left) (mw_op wr ask_right) m right) tr o ->
  NoDup (map about (calls tr)).
Proof. intros E K V L W R KK KL rdef rd S X KS. exact (mm_once rdef rd). Qed.
Print Assumptions C52_mm_once.
Theorem C52_mm_answers : forall (E : Env) K V L W R (KK : Key K) (KL : Key L) (rdef : R) (rd : R -> R -> R) S X (KS : Key S) (wb : mway R) (wl : mway R) (wr : mway R) (m : trie K V) (right : trie L W) tr o,
  reachable m -> reachable right ->
  exec (emap_mm (A := jans (kres S X R) (kres S X R) (kres S X R)) rdef rd (mw_op wb ask_both) (mw_op wl ask_left) (mw_op wr ask_right) m right) tr o -> unbroken tr ->
  exists f, Forall (agrees f) tr /\
    o = map_mm rdef rd (mw_fun wb (fun_both f)) (mw_fun wl (fun_left f)) (mw_fun wr (fun_right f)) m right.
Proof. intros E K V L W R KK KL rdef rd S X KS. exact (mm_answers rdef rd). Qed.
Print Assumptions C52_mm_answers.
Theorem C52_mm_as : forall (E : Env) K V L W R (KK : Key K) (KL : Key L) (rdef : R) (rd : R -> R -> R) S X (KS : Key S) (wb : mway R) (wl : mway R) (wr : mway R) (m : trie K V) (right : trie L W) tr o f,
  exec (emap_mm (A := jans (kres S X R) (kres S X R) (kres S X R)) rdef rd (mw_op wb ask_both) (mw_op wl ask_left) (mw_op wr ask_right) m right) tr o -> Forall (agrees f) tr ->
  o = map_mm rdef rd (mw_fun wb (fun_both f)) (mw_fun wl (fun_left f)) (mw_fun wr (fun_right f)) m right.
Proof. intros E K V L W R KK KL rdef rd S X KS. exact (mm_as rdef rd). Qed.
Print Assumptions C52_mm_as.
Theorem C52_mm_functions : forall (E : Env) K V L W R (KK : Key K) (KL : Key L) (rdef : R) (rd : R -> R -> R) S X (KS : Key S) (wb : mway R) (wl : mway R) (wr : mway R) (m : trie K V) (right : trie L W) f,
  exists tr, exec (emap_mm (A := jans (kres S X R) (kres S X R) (kres S X R)) rdef rd (mw_op wb ask_both) (mw_op wl ask_left) (mw_op wr ask_right) m right) tr
    (map_mm rdef rd (mw_fun wb (fun_both f)) (mw_fun wl (fun_left f)) (mw_fun wr (fun_right f)) m right) /\ Forall (agrees f) tr.
Proof. intros E K V L W R KK KL rdef rd S X KS. exact (mm_execs rdef rd). Qed.
Print Assumptions C52_mm_functions.

Theorem C52_tt_calls : forall (E : Env) K V R (KK : Key K) (rdef : R) (rd : R -> R -> R) st (wb : jway R) (wl : tway R) (wr : tway R) (m right : trie K V) tr o,
  reachable m -> reachable right ->
  exec (emap_tt (A := jans (bres V R) (vres V R) (vres V R)) rdef rd st (jw_op wb (fun e e' => ask_both (e, e'))) (tw_op wl ask_left) (tw_op wr ask_right) m right) tr o ->
  makes (merge (fun e e' => jw_calls wb (AskBoth e e')) (fun e => tw_calls wl (AskLeft e)) (fun e' => tw_calls wr (AskRight e'))
    (map_visit m) (map_visit right)) tr o.
Proof. intros E K V R KK. exact tt_makes. Qed.
Print Assumptions C52_tt_calls.
Theorem C52_tt_once : forall (E : Env) K V R (KK : Key K) (rdef : R) (rd : R -> R -> R) st (wb : jway R) (wl : tway R) (wr : tway R) (m right : trie K V) tr o,
  reachable m -> reachable right ->
  exec (emap_tt (A := jans (bres V R) (vres V R) (vres V R)) rdef rd st (jw_op wb (fun e e' => ask_both (e, e'))) (tw_op wl ask_left) (tw_op wr ask_right) m right) tr o ->
  NoDup (map about (calls tr)).
Proof. intros E K V R KK. exact tt_once. Qed.
Print Assumptions C52_tt_once.
Theorem C52_tt_answers : forall (E : Env) K V R (KK : Key K) (rdef : R) (rd : R -> R -> R) st (wb : jway R) (wl : tway R) (wr : tway R) (m right : trie K V) tr o,
  reachable m -> reachable right ->
  exec (emap_tt (A := jans (bres V R) (vres V R) (vres V R)) rdef rd st (jw_op wb (fun e e' => ask_both (e, e'))) (tw_op wl ask_left) (tw_op wr ask_right) m right) tr o -> unbroken tr ->
  exists f, Forall (agrees f) tr /\
    o = map_tt rdef rd st (jw_fun wb (fun e e' => fun_both f (e, e'))) (tw_fun wl (fun_left f)) (tw_fun wr (fun_right f)) m right.
Proof. intros E K V R KK. exact tt_answers. Qed.
Print Assumptions C52_tt_answers.
Theorem C52_tt_as : forall (E : Env) K V R (KK : Key K) (rdef : R) (rd : R -> R -> R) st (wb : jway R) (wl : tway R) (wr : tway R) (m right : trie K V) tr o f,
  exec (emap_tt (A := jans (bres V R) (vres V R) (vres V R)) rdef rd st (jw_op wb (fun e e' => ask_both (e, e'))) (tw_op wl ask_left) (tw_op wr ask_right) m right) tr o -> Forall (agrees f) tr ->
  o = map_tt rdef rd st (jw_fun wb (fun e e' => fun_both f (e, e'))) (tw_fun wl (fun_left f)) (tw_fun wr (fun_right f)) m right.
Proof. intros E K V R KK. exact tt_as. Qed.
Print Assumptions C52_tt_as.
Theorem C52_tt_functions : forall (E : Env) K V R (KK : Key K) (rdef : R) (rd : R -> R -> R) st (wb : jway R) (wl : tway R) (wr : tway R) (m right : trie K V) f,
  exists tr, exec (emap_tt (A := jans (bres V R) (vres V R) (vres V R)) rdef rd st (jw_op wb (fun e e' => ask_both (e, e'))) (tw_op wl ask_left) (tw_op wr ask_right) m right) tr
    (map_tt rdef rd st (jw_fun wb (fun e e' => fun_both f (e, e'))) (tw_fun wl (fun_left f)) (tw_fun wr (fun_right f)) m right) /\ Forall (agrees f) tr.
Proof. intros E K V R KK. exact tt_execs. Qed.
Print Assumptions C52_tt_functions.

(** A panic ends the operation at once, whichever it is: joint operations too. *)
Theorem C52_panic : forall Q (A : Q -> Type) X (p : prog A X) tr o,
  exec p tr o -> (exists q, In (broke q) tr) -> exists tr' q, tr = tr' ++ [broke q] /\ unbroken tr' /\ o = Panic.
Proof. intros Q A X. exact exec_stops. Qed.
Print Assumptions C52_panic.

(** ** Examples for C52 *)
(** Closures that count their calls, all three together. *)
Definition counting {I J TB TL TR} (b : nat -> TB) (l : nat -> I -> TL) (r : nat -> J -> TR) (n : nat) (q : jcalls I J) : option (jans TB TL TR q) :=
  match q return option (jans TB TL TR q) with
  | AskBoth _ _ => Some (b n)
  | AskLeft e => Some (l n e)
  | AskRight e' => Some (r n e')
  end.
Definition ex_jv {T} (n : nat) (_ : T) : vres N N := if Nat.even n then VTransformed (N.of_nat n) 1 else VUnchanged 100.
Definition ex_jk {S T} (k : S -> T) (n : nat) (e : S * N) : kres T N N := if Nat.even n then KDropped 10000 else KTransmuted (k (fst e)) (N.of_nat n) 100.
Definition ex_tmrun := play (counting (fun n => ex_jv n tt) ex_jv (ex_jk num_into)) 0
  (emap_tm 0 N.add Sequential (tw_op TwClosure ask_both) (tw_op TwClosure ask_left) (mw_op MwClosure ask_right) ex_m ex_r).
Definition ex_mtrun := play (counting (fun n => ex_jv n tt) (ex_jk num_into) ex_jv) 0
  (emap_mt 0 N.add MiddleIndex (tw_op (TwUnchanged 7) ask_both) (mw_op MwClosure ask_left) (tw_op TwClosure ask_right) ex_r ex_m).
Definition ex_mmrun := play (counting (fun n => KDropped (N.of_nat n)) (ex_jk (fun k : key => Num (fst k))) (ex_jk (fun k => k))) 0
  (emap_mm (S := num) (X := N) 0 N.add (mw_op (MwRemoved 7) ask_both) (mw_op MwClosure ask_left) (mw_op MwClosure ask_right) ex_m ex_r).
Definition ex_ttrun := play (counting (fun n => if Nat.even n then BUnchangedLR 1 else BTransformed (N.of_nat n) 10) ex_jv ex_jv) 0
  (emap_tt 0 N.add Sequential (jw_op JwClosure (fun e e' => ask_both (e, e'))) (tw_op TwClosure ask_left) (tw_op (TwRemoved 1000) ask_right) ex_m ex_t).
Definition ex_ttbreak := play (fun n q => if Nat.eqb n 3 then None else counting (fun n => if Nat.even n then BUnchangedLR 1 else BTransformed (N.of_nat n) 10) ex_jv ex_jv n q) 0
  (emap_tt 0 N.add Sequential (jw_op JwClosure (fun e e' => ask_both (e, e'))) (tw_op TwClosure ask_left) (tw_op (TwRemoved 1000) ask_right) ex_m ex_t).
(** Three closures. *)
Example C52_tm_ex : reachable (E := exE) ex_m /\ reachable (E := exE) ex_r /\
  exec (emap_tm 0 N.add Sequential (tw_op TwClosure ask_both) (tw_op TwClosure ask_left) (mw_op MwClosure ask_right) ex_m ex_r) (fst ex_tmrun) (snd ex_tmrun) /\ unbroken (fst ex_tmrun) /\
  calls (fst ex_tmrun) =
   [AskLeft (0, 0, 10); AskLeft (2, 0, 12); AskBoth (1, 1, 17) (Num 1, 100); AskRight (Num 3, 103);
    AskLeft (4 * 2 ^ 60, 0, 15); AskLeft (4096, 0, 14); AskRight (Num 4097, 201); AskBoth (128, 0, 13) (Num 128, 200);
    AskBoth (36, 0, 18) (Num 36, 301); AskRight (Num 44, 300)] /\
  exists m', snd ex_tmrun = Ret (m', 10504, Other) /\
    map_visit m' = [(3, 77, 3); (1, 1, 2); (2, 0, 12); (0, 0, 0); (4 * 2 ^ 60, 0, 4); (4096, 0, 14); (128, 0, 13); (36, 0, 8); (44, 77, 9)].
Proof.
  split; [exact ex_reach|]. split; [exact ex_r_reach|].
  split; [exact (play_exec (counting (fun n => ex_jv n tt) ex_jv (ex_jk num_into)) (emap_tm 0 N.add Sequential (tw_op TwClosure ask_both) (tw_op TwClosure ask_left) (mw_op MwClosure ask_right) ex_m ex_r) 0)|]. split.
  - intros q Hq. vm_compute in Hq. repeat (destruct Hq as [Hq|Hq]; [discriminate|]). destruct Hq.
  - split; [vm_compute; reflexivity|]. eexists. split; vm_compute; reflexivity.
Qed.
(** No closure for pairs. *)
Example C52_mt_ex : reachable (E := exE) ex_r /\ reachable (E := exE) ex_m /\
  exec (emap_mt 0 N.add MiddleIndex (tw_op (TwUnchanged 7) ask_both) (mw_op MwClosure ask_left) (tw_op TwClosure ask_right) ex_r ex_m) (fst ex_mtrun) (snd ex_mtrun) /\ unbroken (fst ex_mtrun) /\
  calls (fst ex_mtrun) =
   [AskRight (0, 0, 10); AskRight (2, 0, 12); AskLeft (Num 3, 103); AskRight (4 * 2 ^ 60, 0, 15);
    AskLeft (Num 4097, 201); AskRight (4096, 0, 14); AskLeft (Num 44, 300)] /\
  exists m', snd ex_mtrun = Ret (m', 30322, Other) /\
    map_visit m' = [(1, 1, 17); (2, 0, 12); (0, 0, 0); (4 * 2 ^ 60, 0, 15); (4096, 0, 14); (128, 0, 13); (36, 0, 18)].
Proof.
  split; [exact ex_r_reach|]. split; [exact ex_reach|].
  split; [exact (play_exec (counting (fun n => ex_jv n tt) (ex_jk num_into) ex_jv) (emap_mt 0 N.add MiddleIndex (tw_op (TwUnchanged 7) ask_both) (mw_op MwClosure ask_left) (tw_op TwClosure ask_right) ex_r ex_m) 0)|]. split.
  - intros q Hq. vm_compute in Hq. repeat (destruct Hq as [Hq|Hq]; [discriminate|]). destruct Hq.
  - split; [vm_compute; reflexivity|]. eexists. split; vm_compute; reflexivity.
Qed.
Example C52_mm_ex : reachable (E := exE) ex_m /\ reachable (E := exE) ex_r /\
  exec (emap_mm (S := num) (X := N) 0 N.add (mw_op (MwRemoved 7) ask_both) (mw_op MwClosure ask_left) (mw_op MwClosure ask_right) ex_m ex_r) (fst ex_mmrun) (snd ex_mmrun) /\ unbroken (fst ex_mmrun) /\
  calls (fst ex_mmrun) =
   [AskLeft (0, 0, 10); AskLeft (2, 0, 12); AskRight (Num 3, 103); AskLeft (4 * 2 ^ 60, 0, 15); AskLeft (4096, 0, 14);
    AskRight (Num 4097, 201); AskRight (Num 44, 300)] /\
  exists m', snd ex_mmrun = Ret (m', 40321) /\
    map_visit m' = [(Num 2, 1); (Num (4 * 2 ^ 60), 3); (Num 4097, 5)].
Proof.
  split; [exact ex_reach|]. split; [exact ex_r_reach|].
  split; [exact (play_exec (counting (fun n => KDropped (N.of_nat n)) (ex_jk (fun k : key => Num (fst k))) (ex_jk (fun k => k))) (emap_mm (S := num) (X := N) 0 N.add (mw_op (MwRemoved 7) ask_both) (mw_op MwClosure ask_left) (mw_op MwClosure ask_right) ex_m ex_r) 0)|]. split.
  - intros q Hq. vm_compute in Hq. repeat (destruct Hq as [Hq|Hq]; [discriminate|]). destruct Hq.
  - split; [vm_compute; reflexivity|]. eexists. split; vm_compute; reflexivity.
Qed.
(** A constant on the right, and a run that panics at the fourth call. *)
Example C52_tt_ex : reachable (E := exE) ex_m /\ reachable (E := exE) ex_t /\
  exec (emap_tt 0 N.add Sequential (jw_op JwClosure (fun e e' => ask_both (e, e'))) (tw_op TwClosure ask_left) (tw_op (TwRemoved 1000) ask_right) ex_m ex_t) (fst ex_ttrun) (snd ex_ttrun) /\ unbroken (fst ex_ttrun) /\
  calls (fst ex_ttrun) =
   [AskLeft (0, 0, 10); AskLeft (2, 0, 12); AskBoth (1, 1, 17) (1, 100, 100); AskLeft (4 * 2 ^ 60, 0, 15); AskLeft (4096, 0, 14);
    AskBoth (128, 0, 13) (128, 200, 200); AskBoth (36, 0, 18) (36, 301, 301)] /\
  exists m', snd ex_ttrun = Ret (m', 3214, Other) /\
    map_visit m' = [(1, 1, 17); (2, 0, 12); (0, 0, 0); (4 * 2 ^ 60, 0, 15); (4096, 0, 4); (128, 0, 5); (36, 0, 18)].
Proof.
  split; [exact ex_reach|]. split; [exact ex_t_reach|].
  split; [exact (play_exec (counting (fun n => if Nat.even n then BUnchangedLR 1 else BTransformed (N.of_nat n) 10) ex_jv ex_jv) (emap_tt 0 N.add Sequential (jw_op JwClosure (fun e e' => ask_both (e, e'))) (tw_op TwClosure ask_left) (tw_op (TwRemoved 1000) ask_right) ex_m ex_t) 0)|]. split.
  - intros q Hq. vm_compute in Hq. repeat (destruct Hq as [Hq|Hq]; [discriminate|]). destruct Hq.
  - split; [vm_compute; reflexivity|]. eexists. split; vm_compute; reflexivity.
Qed.
Example C52_panic_ex : exec (emap_tt 0 N.add Sequential (jw_op JwClosure (fun e e' => ask_both (e, e'))) (tw_op TwClosure ask_left) (tw_op (TwRemoved 1000) ask_right) ex_m ex_t) (fst ex_ttbreak) (snd ex_ttbreak) /\
  In (broke (AskLeft (4 * 2 ^ 60, 0, 15))) (fst ex_ttbreak) /\ snd ex_ttbreak = Panic /\
  calls (fst ex_ttbreak) = [AskLeft (0, 0, 10); AskLeft (2, 0, 12); AskBoth (1, 1, 17) (1, 100, 100); AskLeft (4 * 2 ^ 60, 0, 15)].
Proof.
  split; [exact (play_exec (fun n q => if Nat.eqb n 3 then None else counting (fun n => if Nat.even n then BUnchangedLR 1 else BTransformed (N.of_nat n) 10) ex_jv ex_jv n q) (emap_tt 0 N.add Sequential (jw_op JwClosure (fun e e' => ask_both (e, e'))) (tw_op TwClosure ask_left) (tw_op (TwRemoved 1000) ask_right) ex_m ex_t) 0)|].
  split; [vm_compute; tauto|]. split; vm_compute; reflexivity.
Qed.
