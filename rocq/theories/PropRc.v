(** Property C50: memory is freed exactly when nothing holds it. *)
From Coq Require Import NArith Arith List Lia.
From Verif Require Import Base Words Flag Bia Node Api Trans Transform Joint Versions Ex Heap SpecH HeapHist HeapBulk HeapRun HeapPlaceP Rc RcHistP PropHeap.
Import ListNotations.
Open Scope nat_scope.
#[local] Existing Instance exE | 100.

(** * C50 *)

(** After any history of making, cloning, using and dropping maps, whatever freed
    memory came to hold: a cell is alive exactly when some map the client holds
    contains it. *)
Theorem C50_alive : forall (E : Env) K V R (KK : Key K) (rdef : R) (rd : R -> R -> R) (cs : list (rcall K V R)) (h : heap K V) cnt vs a,
  rsteps rdef rd cs h cnt vs -> cnt a <> 0 <-> exists n, In n vs /\ inside h n a.
Proof. intros E K V R KK. exact rc_alive. Qed.
Print Assumptions C50_alive.
(** Its count is the number of [Arc]s that exist. *)
Theorem C50_counts : forall (E : Env) K V R (KK : Key K) (rdef : R) (rd : R -> R -> R) (cs : list (rcall K V R)) (h : heap K V) cnt vs a,
  rsteps rdef rd cs h cnt vs -> cnt a = arcs h cnt vs a.
Proof. intros E K V R KK. exact rc_counts. Qed.
Print Assumptions C50_counts.
(** Dropping a map always succeeds, never meets a freed cell, and frees exactly
    the cells of that map no other held map contains. *)
Theorem C50_drop : forall (E : Env) K V R (KK : Key K) (rdef : R) (rd : R -> R -> R) (cs : list (rcall K V R)) (h : heap K V) cnt vs i n,
  rsteps rdef rd cs h cnt vs -> nth_error vs i = Some n ->
  exists cnt', release (rc_fuel h) h [addr_of n] cnt = Ret cnt' /\
    forall a, cnt a <> 0 -> (cnt' a = 0 <-> inside h n a /\ ~ exists m, In m (remove_nth i vs) /\ inside h m a).
Proof. intros E K V R KK. exact rc_drop. Qed.
Print Assumptions C50_drop.
(** A call that returns can always count its result. *)
Theorem C50_step : forall (E : Env) K V R (KK : Key K) (rdef : R) (rd : R -> R -> R) (cs : list (rcall K V R)) (h : heap K V) cnt vs c n x h1,
  rsteps rdef rd cs h cnt vs -> Forall (fun i => i < length vs) (uses c) ->
  hrun rdef rd h vs c = Ret (n, x, h1) -> exists cnt', acquire (rc_fuel h1) h1 [addr_of n] cnt = Ret cnt'.
Proof. intros E K V R KK. exact rc_step. Qed.
Print Assumptions C50_step.
(** Every held map answers every read, and every call on the held maps does, what
    it would if nothing had ever been dropped or overwritten. *)
Theorem C50_contents : forall (E : Env) K V R (KK : Key K) (rdef : R) (rd : R -> R -> R) (cs : list (rcall K V R)) (h : heap K V) cnt vs,
  rsteps rdef rd cs h cnt vs ->
  exists ts, tree_steps rdef rd cs ts /\ Forall2 (answers h) vs ts /\
    forall c, Forall (fun i => i < length vs) (uses c) ->
      refines (fun p q => answers (snd p) (fst (fst p)) (fst q) /\ same_got (snd p) (snd (fst p)) (snd q))
        (hrun rdef rd h vs c) (derive rdef rd ts c).
Proof. intros E K V R KK. exact rc_contents. Qed.
Print Assumptions C50_contents.
(** No leak: with every map dropped, everything is freed. *)
Theorem C50_empty : forall (E : Env) K V R (KK : Key K) (rdef : R) (rd : R -> R -> R) (cs : list (rcall K V R)) (h : heap K V) cnt a,
  rsteps rdef rd cs h cnt [] -> cnt a = 0.
Proof. intros E K V R KK. exact rc_empty. Qed.
Print Assumptions C50_empty.
(** Where the pointers calls answer with point: into the new map (the stored
    entry), or into a map the client holds. *)
Theorem C50_answers : forall (E : Env) K V R (KK : Key K) (rdef : R) (rd : R -> R -> R) (cs : list (rcall K V R)) (h : heap K V) cnt vs c n x h1,
  rsteps rdef rd cs h cnt vs -> Forall (fun i => i < length vs) (uses c) ->
  hrun rdef rd h vs c = Ret (n, x, h1) ->
  match x with
  | HGInserted a prev => inside h1 n a /\ forall p, prev = Some p -> exists m, In m vs /\ inside h m p
  | HGRefused a | HGRemoved a => exists m, In m vs /\ inside h m a
  | HGNotFound | HGReduced _ => True
  end.
Proof. intros E K V R KK. exact rc_answers. Qed.
Print Assumptions C50_answers.
(** A pointer into a held map stays good, and the entry behind it the same,
    for as long as some held map contains it: that map or another. *)
Theorem C50_stays : forall (E : Env) K V R (KK : Key K) (rdef : R) (rd : R -> R -> R) (cs : list (rcall K V R)) (h : heap K V) cnt vs ds h' cnt' vs' n m a,
  rsteps rdef rd cs h cnt vs -> rthen rdef rd h cnt vs ds h' cnt' vs' ->
  In n vs -> inside h n a -> In m vs' -> inside h' m a -> nth_error h' a = nth_error h a.
Proof. intros E K V R KK. exact rc_stays. Qed.
Print Assumptions C50_stays.
Theorem C50_holds : forall (E : Env) K V R (KK : Key K) (rdef : R) (rd : R -> R -> R) (cs : list (rcall K V R)) (h : heap K V) cnt vs ds h' cnt' vs' n a,
  rsteps rdef rd cs h cnt vs -> rthen rdef rd h cnt vs ds h' cnt' vs' -> In n vs -> In n vs' ->
  (inside h' n a <-> inside h n a) /\ (inside h n a -> nth_error h' a = nth_error h a).
Proof. intros E K V R KK. exact rc_holds. Qed.
Print Assumptions C50_holds.

(** Four inserts: the maps of [ex_vs], all held. *)
Definition ex_rc : list (rcall key N N) :=
  [RNew; RCall (CInsert 0 (0, 0)%N 10%N false); RCall (CInsert 1 (1, 0)%N 11%N false); RCall (CInsert 2 (128, 0)%N 12%N false);
   RCall (CInsert 3 (2, 0)%N 13%N false)].
Ltac rsnoc := match goal with |- rsteps _ _ ?l _ _ _ =>
  let p := eval cbv [removelast] in (removelast l) in let c := eval cbv [last] in (last l RNew) in
  change l with (p ++ [c]); eapply rss_snoc end.
Ltac rsame := split; [reflexivity|intros; reflexivity].
Ltac rgo := first
  [ eapply rs_new; [reflexivity|vm_compute; reflexivity|rsame]
  | eapply rs_call; [repeat constructor; vm_compute; lia|vm_compute; reflexivity|vm_compute; reflexivity|rsame]
  | eapply rs_clone; [reflexivity|vm_compute; reflexivity|rsame]
  | eapply rs_drop; [reflexivity|vm_compute; reflexivity|rsame] ].
Ltac rall := first [apply rss_nil|rsnoc; [rall|rgo]].
Lemma ex_is cs (h h' : heap key N) cnt vs vs' : rsteps (E := exE) 0%N N.add cs h cnt vs -> h = h' -> vs = vs' -> rsteps 0%N N.add cs h' cnt vs'.
Proof. intros H <- <-. exact H. Qed.
Ltac rmade := eapply ex_is; [rall|vm_compute; reflexivity..].
Example C50_counts_ex : exists cnt, rsteps (E := exE) 0%N N.add ex_rc ex_hp cnt ex_vs /\
  map cnt (seq 0 12) = [1; 2; 1; 3; 1; 2; 1; 1; 1; 1; 1; 0] /\ map (arcs ex_hp cnt ex_vs) (seq 0 12) = [1; 2; 1; 3; 1; 2; 1; 1; 1; 1; 1; 0].
Proof. eexists. split; [unfold ex_rc; rmade|]. vm_compute. auto. Qed.
(** Cloning the last map and dropping the other five handles leaves the cells of
    that map; then whatever the freed cells hold, the map reads as before. *)
Definition ex_rd : list (rcall key N N) := ex_rc ++ [RClone 4; RDrop 4; RDrop 0; RDrop 0; RDrop 0; RDrop 0].
Example C50_alive_ex : exists cnt, rsteps (E := exE) 0%N N.add ex_rd ex_hp cnt [HC 10] /\
  map cnt (seq 0 12) = [0; 1; 0; 1; 0; 1; 0; 0; 1; 1; 1; 0].
Proof. eexists. split; [unfold ex_rd, ex_rc; cbn [app]; rmade|]. vm_compute. reflexivity. Qed.
Definition ex_hj : heap key N := map (fun p => match fst p with 1 | 3 | 5 | 8 | 9 | 10 => snd p | _ => CellS (7, 7)%N 7%N end) (combine (seq 0 11) ex_hp).
Lemma ex_rj : exists cnt, rsteps (E := exE) 0%N N.add (ex_rd ++ [RClone 0]) ex_hj cnt [HC 10; HC 10] /\ map cnt (seq 0 12) = [0; 1; 0; 1; 0; 1; 0; 0; 1; 1; 2; 0].
Proof.
  eexists. split.
  - unfold ex_rd, ex_rc. cbn [app]. eapply ex_is; [rsnoc; [rall|eapply rs_clone with (h' := ex_hj)]|reflexivity|vm_compute; reflexivity].
    + reflexivity.
    + vm_compute. reflexivity.
    + split; [reflexivity|]. intros a. do 11 (destruct a as [|a]; [vm_compute; congruence|]). intros H. exfalso. apply H. reflexivity.
  - vm_compute. reflexivity.
Qed.
Example C50_contents_ex : exists cnt, rsteps (E := exE) 0%N N.add (ex_rd ++ [RClone 0]) ex_hj cnt [HC 10; HC 10] /\
  nth_error ex_hj 0 <> nth_error ex_hp 0 /\ nth_error ex_hj 7 <> nth_error ex_hp 7 /\
  hm_visit ex_hj (HC 10) = Ret [(2, 0, 13); (1, 0, 11); (0, 0, 10); (128, 0, 12)]%N /\
  exists h', hrun (E := exE) 0%N N.add ex_hj [HC 10; HC 10] (CRemove 0 (2, 0)%N) = Ret (HC 12, HGRemoved 8, h').
Proof.
  destruct ex_rj as (cnt & H & _). exists cnt. split; [exact H|]. split; [vm_compute; discriminate|]. split; [vm_compute; discriminate|].
  split; [vm_compute; reflexivity|]. eexists. vm_compute. reflexivity.
Qed.
(** Dropping the first of all five maps frees its one cell, dropping the last
    frees the three it has alone; the other six stay. *)
Example C50_drop_ex : exists cnt, rsteps (E := exE) 0%N N.add ex_rc ex_hp cnt ex_vs /\ nth_error ex_vs 4 = Some (HC 10) /\
  (exists cnt', release (rc_fuel ex_hp) ex_hp [10] cnt = Ret cnt' /\ map cnt' (seq 0 12) = [1; 2; 1; 2; 1; 1; 1; 1; 0; 0; 0; 0]) /\
  (exists cnt', release (rc_fuel ex_hp) ex_hp [0] cnt = Ret cnt' /\ map cnt' (seq 0 12) = [0; 2; 1; 3; 1; 2; 1; 1; 1; 1; 1; 0]).
Proof.
  eexists. split; [unfold ex_rc; rmade|]. split; [reflexivity|]. split; eexists; (split; [vm_compute; reflexivity|vm_compute; reflexivity]).
Qed.
(** A step: the new map's cells get their counts. *)
Example C50_step_ex : exists cnt, rsteps (E := exE) 0%N N.add ex_rc ex_hp cnt ex_vs /\
  exists h1, hrun (E := exE) 0%N N.add ex_hp ex_vs (CInsert 4 (1, 0)%N 5%N true) = Ret (HC 14, HGInserted 12 (Some 3), h1) /\
    inside h1 (HC 14) 12 /\ inside ex_hp (HC 10) 3 /\
    exists cnt', acquire (rc_fuel h1) h1 [14] cnt = Ret cnt' /\ map cnt' (seq 0 16) = [1; 3; 1; 3; 1; 3; 1; 1; 1; 1; 1; 1; 1; 1; 1; 0].
Proof.
  eexists. split; [unfold ex_rc; rmade|]. eexists. split; [vm_compute; reflexivity|].
  split; [|split; [|eexists; split; vm_compute; reflexivity]].
  - eapply in_C; [reflexivity|left; reflexivity|]. eapply in_C; [reflexivity|left; reflexivity|]. apply (in_self _ (HL 12)).
  - eapply in_C; [reflexivity|left; reflexivity|]. eapply in_C; [reflexivity|left; reflexivity|]. eapply in_L; [reflexivity|]. apply (in_self _ (HL 3)).
Qed.
(** Everything dropped. *)
Example C50_empty_ex : exists cnt, rsteps (E := exE) 0%N N.add (ex_rd ++ [RDrop 0]) ex_hp cnt [] /\ map cnt (seq 0 12) = repeat 0 12.
Proof. eexists. split; [unfold ex_rd, ex_rc; cbn [app]; rmade|]. vm_compute. reflexivity. Qed.
(** The entry 1 of the second map (cell 3) while that map is dropped and a later
    one is kept. *)
Example C50_stays_ex : exists cnt cnt', rsteps (E := exE) 0%N N.add ex_rc ex_hp cnt ex_vs /\
  rthen (E := exE) 0%N N.add ex_hp cnt ex_vs [RDrop 2; RCall (CRemove 3 (2, 0)%N)] (ex_hp ++ [CellC (BIA 3%N [HL 3; HS 5] 3%N); CellC (BIA 1%N [HC 11] 3%N)]) cnt' [HC 0; HC 2; HC 7; HC 10; HC 12] /\
  inside ex_hp (HC 4) 3 /\ inside (ex_hp ++ [CellC (BIA 3%N [HL 3; HS 5] 3%N); CellC (BIA 1%N [HC 11] 3%N)]) (HC 12) 3 /\ In (HC 10) ex_vs /\ cnt' 4 = 0 /\ cnt' 3 = 3.
Proof.
  do 2 eexists. split; [unfold ex_rc; rmade|]. split.
  - eapply rt_snoc with (cs := [RDrop 2]); [eapply rt_snoc with (cs := []); [apply rt_nil|]|].
    + eapply rs_drop; [reflexivity|vm_compute; reflexivity|rsame].
    + change [HC 0; HC 2; HC 7; HC 10; HC 12] with ([HC 0; HC 2; HC 7; HC 10] ++ [HC 12]).
      eapply rs_call; [repeat constructor; vm_compute; lia|vm_compute; reflexivity|vm_compute; reflexivity|rsame].
  - split; [|split; [|split; [|vm_compute; auto]]].
    + eapply in_C; [reflexivity|left; reflexivity|]. apply (in_self _ (HL 3)).
    + eapply in_C; [reflexivity|left; reflexivity|]. eapply in_C; [reflexivity|left; reflexivity|]. apply (in_self _ (HL 3)).
    + right; right; right; right; left; reflexivity.
Qed.
(** A raw pointer handed out by insert (map.rs:95) does not keep anything alive:
    with the new map dropped, the entry it points to is freed. *)
Theorem C50_dangles : exists (cs : list (rcall key N N)) h cnt vs c n a prev h1 cnt1 cnt2,
  rsteps (E := exE) 0%N N.add cs h cnt vs /\ hrun (E := exE) 0%N N.add h vs c = Ret (n, HGInserted a prev, h1) /\
  rthen (E := exE) 0%N N.add h cnt vs [RCall c] h1 cnt1 (vs ++ [n]) /\ cnt1 a <> 0 /\
  rthen (E := exE) 0%N N.add h cnt vs ([RCall c] ++ [RDrop (length vs)]) h1 cnt2 vs /\ cnt2 a = 0.
Proof.
  exists ex_rc, ex_hp. eexists. exists ex_vs, (CInsert 4 (1, 0)%N 5%N true). do 6 eexists.
  split; [unfold ex_rc; rmade|]. split; [vm_compute; reflexivity|]. split; [|split; [|split]].
  - eapply rt_snoc with (cs := []); [apply rt_nil|]. eapply rs_call; [repeat constructor; vm_compute; lia|vm_compute; reflexivity|vm_compute; reflexivity|rsame].
  - vm_compute. discriminate.
  - eapply rt_snoc; [eapply rt_snoc with (cs := []); [apply rt_nil|]|].
    + eapply rs_call; [repeat constructor; vm_compute; lia|vm_compute; reflexivity|vm_compute; reflexivity|rsame].
    + eapply (rs_drop 0%N N.add _ _ (ex_vs ++ [HC 14]) 5 (HC 14)); [reflexivity|vm_compute; reflexivity|rsame].
  - vm_compute. reflexivity.
Qed.
Print Assumptions C50_dangles.
