(** C54: threads that share maps. *)
From Coq Require Import NArith Arith List Bool Lia.
From Verif Require Import Base Words Flag Bia Node Api Spec Trans Transform SpecT Joint JointT Reach Versions Hist Ex
  Heap SpecH HeapHist HeapBulk HeapRun Conc ConcP.
Import ListNotations.
Open Scope N_scope.

#[local] Existing Instance exE | 100.

(** However the calls of any number of threads overlap, every call gives the
    map and the answer that it gives when the calls are made one after the
    other, and from the moment it is handed out on, a map answers every reader
    the same, whatever the threads do meanwhile. *)
Theorem C54_threads : forall (E : Env) K V R (KK : Key K) (rdef : R) (rd : R -> R -> R) (g : heap K V) ms0 cs ms xs,
  Forall (fresh g) ms0 -> threads rdef rd g ms0 cs ms xs ->
  exists ts ys, versions rdef rd (repeat map_new (length ms0)) cs = Ret (ts, ys) /\
    Forall2 (fun m u => (snd m <= length g)%nat /\ forall t, (snd m <= t)%nat -> answers (firstn t g) (fst m) u) ms ts /\
    Forall2 (same_got g) xs ys.
Proof. intros E K V R KK. exact threads_versions. Qed.
Print Assumptions C54_threads.

(** Two threads insert into the same empty map (cell 0).  The first allocates
    cells 1 and 3, the second 2 and 4.  A third thread inserts into the first
    thread's map as soon as it is there, while the second is still at work:
    it starts at time 4 and makes cells 5 and 6.  At last the maps of the
    second and third are joined. *)
Definition ex_g : heap key N :=
  [CellC (BIA 0 [] 0); CellS (0, 0) 10; CellS (4, 0) 20; CellC (BIA 1 [HS 1%nat] 1); CellC (BIA 2 [HS 2%nat] 1);
   CellS (8, 0) 30; CellC (BIA 5 [HS 1%nat; HS 5%nat] 2); CellC (BIA 7 [HS 1%nat; HS 2%nat; HS 5%nat] 3)].
Definition ex_calls : list (call key N N) :=
  [CInsert 0 (0, 0) 10 false; CInsert 0 (4, 0) 20 false; CInsert 1 (8, 0) 30 false;
   CTT 2 3 Sequential (JGeneric (fun _ _ => BUnchangedLR 1) false) (TUnchanged 0) (TUnchanged 0)].
Definition ex_maps : list known := [(HC 0, 1); (HC 3, 4); (HC 4, 5); (HC 6, 7); (HC 7, 8)]%nat.
Definition ex_gots : list (hgot N) := [HGInserted 1%nat None; HGInserted 2%nat None; HGInserted 5%nat None; HGReduced 0].

(** What the others add when the heap has so many cells. *)
Definition ex_turns (l : list (nat * nat)) : Noise key N :=
  Some (fun h => match find (fun p => Nat.eqb (fst p) (length h)) l with
                 | Some p => firstn (snd p) (skipn (length h) ex_g)
                 | None => []
                 end).
Lemma ex_fresh : Forall (fresh ex_g) [(HC 0, 1)]%nat.
Proof.
  constructor; [|constructor]. exists quiet, 0%nat, [CellC (BIA 0 [] 0)]. split; [cbn; lia|]. split; [reflexivity|].
  split; [reflexivity|]. eexists. cbn [ex_g app]. reflexivity.
Qed.
Lemma ex_ready ms t (c : call key N N) :
  Forall (fun i => match nth_error ms i with Some (n, t') => (t' <=? t)%nat = true | None => False end) (uses c) -> ready ms t c.
Proof.
  intros Hl i Hi. rewrite Forall_forall in Hl. specialize (Hl i Hi). destruct (nth_error ms i) as [[n t']|] eqn:Hn; [|contradiction].
  exists n, t'. split; [exact Hn|]. apply Nat.leb_le, Hl.
Qed.
Ltac tcall time turns :=
  eapply th_call with (t := time) (others := turns);
    [cbn; lia|apply ex_ready; repeat constructor|vm_compute; reflexivity|eexists; cbn [ex_g app]; reflexivity|].
Lemma ex_threads : threads (E := exE) 0 N.add ex_g [(HC 0, 1)]%nat ex_calls ex_maps ex_gots.
Proof.
  unfold ex_calls, ex_gots. tcall 1%nat (ex_turns [(2, 1)]%nat). tcall 1%nat (ex_turns [(1, 1); (3, 1)]%nat). tcall 4%nat (ex_turns [(4, 1)]%nat).
  eapply th_call with (t := 7%nat) (others := quiet);
    [cbn; lia|apply ex_ready; repeat constructor|vm_compute; reflexivity|exists []; reflexivity|].
  apply th_nil.
Qed.
Example C54_threads_ex : Forall (fresh ex_g) [(HC 0, 1)]%nat /\ threads (E := exE) 0 N.add ex_g [(HC 0, 1)]%nat ex_calls ex_maps ex_gots /\
  map (fun m => hm_visit ex_g (fst m)) ex_maps =
    map Ret [[]; [(0, 0, 10)]; [(4, 0, 20)]; [(0, 0, 10); (8, 0, 30)]; [(0, 0, 10); (4, 0, 20); (8, 0, 30)]].
Proof. split; [exact ex_fresh|]. split; [exact ex_threads|]. vm_compute. reflexivity. Qed.

(** A call that starts at any time at which its maps are there returns, panics
    or runs for ever exactly as it does with no other thread about, and if it
    returns it returns the same. *)
Theorem C54_call : forall (E : Env) K V R (KK : Key K) (rdef : R) (rd : R -> R -> R) (g : heap K V) ms0 cs ms xs,
  Forall (fresh g) ms0 -> threads rdef rd g ms0 cs ms xs ->
  exists ts ys, versions rdef rd (repeat map_new (length ms0)) cs = Ret (ts, ys) /\
  forall t c (others : Noise K V), ready ms t c ->
    refines (fun p q => answers (snd p) (fst (fst p)) (fst q) /\ same_got (snd p) (snd (fst p)) (snd q))
      (hrun (NZ := others) rdef rd (firstn t g) (map fst ms) c) (derive rdef rd ts c).
Proof. intros E K V R KK. exact call_beside. Qed.
Print Assumptions C54_call.
(** The key goes; meanwhile someone adds a cell that makes no sense. *)
Example C54_call_ex : ready ex_maps 7 (CRemove 3 (8, 0) : call key N N) /\
  hrun (NZ := Some (fun _ => [CellC (BIA 9 [HL 77%nat] 4)])) 0 N.add (firstn 7 ex_g) (map fst ex_maps) (CRemove 3 (8, 0)) =
    Ret (HC 8%nat, HGRemoved 5%nat, firstn 7 ex_g ++ [CellC (BIA 9 [HL 77%nat] 4); CellC (BIA 1 [HS 1%nat] 1)]).
Proof. split; [|vm_compute; reflexivity]. intros i [<-|[]]. exists (HC 6%nat), 7%nat. split; [reflexivity|lia]. Qed.

(** The same calls interleaved in two ways: the maps and the answers are the
    same, though the cells lie elsewhere. *)
Theorem C54_schedules : forall (E : Env) K V R (KK : Key K) (rdef : R) (rd : R -> R -> R) (g g' : heap K V) ms0 ms0' cs ms ms' xs xs',
  Forall (fresh g) ms0 -> Forall (fresh g') ms0' -> length ms0 = length ms0' ->
  threads rdef rd g ms0 cs ms xs -> threads rdef rd g' ms0' cs ms' xs' ->
  Forall2 (fun m m' => alike g g' (fst m) (fst m')) ms ms' /\ Forall2 (same_answer g g') xs xs'.
Proof. intros E K V R KK. exact threads_alike. Qed.
Print Assumptions C54_schedules.

(** Within the contracts of C40 the maps hold what the specification says. *)
Theorem C54_spec : forall (E : Env) K V R (KK : Key K) (rdef : R) (rd : R -> R -> R) (g : heap K V) ms0 cs ms xs,
  Forall (fresh g) ms0 -> contracts rdef rd (repeat map_new (length ms0)) cs -> threads rdef rd g ms0 cs ms xs ->
  exists ls ys, spec_versions rdef rd (repeat [] (length ms0)) cs ls ys /\
    Forall2 (fun m l => forall t, (snd m <= t)%nat -> holds_entries (firstn t g) (fst m) l) ms ls /\ Forall2 (same_got g) xs ys.
Proof. intros E K V R KK. exact threads_spec. Qed.
Print Assumptions C54_spec.
(** The three inserts of the example. *)
Definition ex_calls3 : list (call key N N) := firstn 3 ex_calls.
Example C54_spec_ex : Forall (fresh ex_g) [(HC 0, 1)]%nat /\ contracts (E := exE) 0 N.add (repeat map_new 1) ex_calls3 /\
  threads (E := exE) 0 N.add ex_g [(HC 0, 1)]%nat ex_calls3 (firstn 4 ex_maps) (firstn 3 ex_gots).
Proof.
  split; [exact ex_fresh|]. split; [cbn [ex_calls3 firstn ex_calls contracts contract]; repeat (split; [exact I|intros ? ? _]); exact I|].
  unfold ex_calls3, ex_calls, ex_gots, firstn. tcall 1%nat (ex_turns [(2, 1)]%nat). tcall 1%nat (ex_turns [(1, 1); (3, 1)]%nat).
  tcall 4%nat (ex_turns [(4, 1)]%nat). apply th_nil.
Qed.

(** The histories of a single thread (C46) are executions too, and the same
    calls made alone and among others agree by C54_schedules. *)
Theorem C54_alone : forall (E : Env) K V R (KK : Key K) (rdef : R) (rd : R -> R -> R) (cs : list (call K V R)) n0 (h0 : heap K V) vs xs g,
  hm_new [] = (n0, h0) -> named 1 cs -> hruns rdef rd h0 [n0] cs = Ret (vs, xs, g) ->
  exists ms0 ms, length ms0 = 1%nat /\ Forall (fresh g) ms0 /\ threads rdef rd g ms0 cs ms xs /\ map fst ms = vs.
Proof. intros E K V R KK. exact alone_threads. Qed.
Print Assumptions C54_alone.
Definition ex_solo : heap key N :=
  [CellC (BIA 0 [] 0); CellS (0, 0) 10; CellC (BIA 1 [HS 1%nat] 1); CellS (4, 0) 20; CellC (BIA 2 [HS 3%nat] 1);
   CellS (8, 0) 30; CellC (BIA 5 [HS 1%nat; HS 5%nat] 2); CellC (BIA 7 [HS 1%nat; HS 3%nat; HS 5%nat] 3)].
Example C54_alone_ex : named 1 ex_calls /\
  hruns 0 N.add [CellC (BIA 0 [] 0)] [HC 0%nat] ex_calls = Ret (map HC [0; 2; 4; 6; 7]%nat,
    [HGInserted 1%nat None; HGInserted 3%nat None; HGInserted 5%nat None; HGReduced 0], ex_solo).
Proof. split; [cbn [named ex_calls uses]; repeat (split; [repeat constructor; cbn; lia|]); exact I|vm_compute; reflexivity]. Qed.
(** The same calls alone and overlapping. *)
Example C54_schedules_ex : exists ms0 ms, length ms0 = length [(HC 0, 1)]%nat /\ Forall (fresh ex_solo) ms0 /\ Forall (fresh ex_g) [(HC 0, 1)]%nat /\
  threads (E := exE) 0 N.add ex_solo ms0 ex_calls ms [HGInserted 1%nat None; HGInserted 3%nat None; HGInserted 5%nat None; HGReduced 0] /\
  threads (E := exE) 0 N.add ex_g [(HC 0, 1)]%nat ex_calls ex_maps ex_gots /\ ex_solo <> ex_g.
Proof.
  destruct (C54_alone exE key N N _ 0 N.add ex_calls (HC 0%nat) [CellC (BIA 0 [] 0)] _ _ _ eq_refl (proj1 C54_alone_ex) (proj2 C54_alone_ex))
    as (ms0 & ms & H1 & H2 & H3 & _).
  exists ms0, ms. split; [exact H1|]. split; [exact H2|]. split; [exact ex_fresh|]. split; [exact H3|]. split; [exact ex_threads|discriminate].
Qed.
