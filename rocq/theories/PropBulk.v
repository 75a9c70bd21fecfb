(** C46: transform, transmute and the joint operations on shared allocations. *)
From Coq Require Import NArith Arith List Bool Lia Permutation.
From Verif Require Import Base Words Flag Bia Node Api Spec Trans Transform SpecT Joint JointT Reach ReachP Versions Hist Ex
  Heap SpecH HeapHist HeapHistP HeapBulk HeapRun HeapPlaceP PropHeap PropVersions.
Import ListNotations.
Open Scope N_scope.

#[local] Existing Instance exE | 100.

(** * Histories *)

(** Any call on maps the client holds, run on the heap: no cell is changed;
    every cell of the new map is new or belongs to a map the call may take cells
    from ([keeps]: none for transmute and transmute_with_transmuted); and the
    step is one of [hstep], so C09, C33, C43 and C44 speak of it. *)
Theorem C46_call : forall (E : Env) K V R (KK : Key K) (rdef : R) (rd : R -> R -> R) (cs : list (hcall K V R)) (h : heap K V) vs c n' x h',
  hsteps rdef rd [] [] cs h vs -> Forall (fun i => (i < length vs)%nat) (uses c) -> hrun rdef rd h vs c = Ret (n', x, h') ->
  ext h h' /\ hstep rdef rd h vs (HCall c) h' (vs ++ [n']) /\
  forall a, inside h' n' a -> (length h <= a)%nat \/ exists i n, In i (keeps c) /\ nth_error vs i = Some n /\ inside h n a.
Proof. intros E K V R KK. exact call_places. Qed.
Print Assumptions C46_call.

(** A value in the middle of a collision list changes: the rest of the list
    (cell 1) and the other slot (cell 5) are shared, the heap is only extended.
    The second call reads map 2 as well and takes no cell of it; cell 11 is the
    leaf that as_snode makes for a member of a collision (lnode.rs:407). *)
Example C46_call_ex : hsteps (E := exE) 0 N.add [] [] ex_h1 ex_hp ex_vs /\
  hrun 0 N.add ex_hp ex_vs (CTransform 4 Sequential (TGeneric (fun e => if snd e =? 11 then VTransformed 21 1 else VUnchanged 0))) =
    Ret (HC 14%nat, HGReduced 1, ex_hp ++ [CellL (1, 0) 21 (XS 1%nat) 2; CellL (2, 0) 13 (XL 11%nat) 3;
      CellC (BIA 3 [HL 12%nat; HS 5%nat] 4); CellC (BIA 1 [HC 13%nat] 4)]) /\
  hrun 0 N.add ex_hp ex_vs (CTT 4 2 Sequential (JGeneric (fun e e' => BTransformed (snd e + snd e') 1) false) (TUnchanged 0) (TUnchanged 0)) =
    Ret (HC 16%nat, HGReduced 2, ex_hp ++ [CellS (0, 0) 10; CellS (0, 0) 20; CellL (1, 0) 22 (XS 12%nat) 2; CellL (2, 0) 13 (XL 13%nat) 3;
      CellC (BIA 3 [HL 14%nat; HS 5%nat] 4); CellC (BIA 1 [HC 15%nat] 4)]).
Proof. split; [exact ex_run1|]. vm_compute. auto. Qed.

(** A branching history of all operations, run on the heap, does on every map
    and at every step what the tree model of C40 does: it returns in the same
    cases, with maps that answer the same and the same results. *)
Theorem C46_same : forall (E : Env) K V R (KK : Key K) (rdef : R) (rd : R -> R -> R) (cs : list (call K V R)) n0 (h0 : heap K V),
  hm_new [] = (n0, h0) -> named 1 cs ->
  refines (fun p q => Forall2 (answers (snd p)) (fst (fst p)) (fst q) /\ Forall2 (same_got (snd p)) (snd (fst p)) (snd q))
    (hruns rdef rd h0 [n0] cs) (versions rdef rd [map_new] cs).
Proof. intros E K V R KK. exact runs_same. Qed.
Print Assumptions C46_same.
(** All six bulk operations, with maps handed back (versions 6, 7 and 9). *)
Definition ex_b : list (call key N N) :=
  [CInsert 0 (0, 0) 10 false; CInsert 1 (1, 0) 11 false; CInsert 2 (128, 0) 12 false; CInsert 3 (2, 0) 13 false;
   CTransform 4 Sequential (TGeneric (fun e => if snd e =? 11 then VTransformed 21 1 else VUnchanged 0));
   CTM 4 3 Sequential (TUnchanged 0) (TUnchanged 0) (MGeneric (fun e => KTransmuted (fst e) (snd e) 1));
   CTT 5 2 Sequential (JGeneric (fun e e' => BUnchangedL 1) false) (TUnchanged 0) (TRemoved 0);
   CTransmute 4 (MGeneric (fun e => KTransmuted (fst e) (snd e + 1) (snd e)));
   CTT 1 3 MiddleIndex (JGeneric (fun e e' => BUnchangedLR 1) false) (TUnchanged 0) (TUnchanged 0);
   CMT 2 1 Sequential (TGeneric (fun p => VUnchanged 0)) (MGeneric (fun e => KTransmuted (fst e) (snd e) 0)) (TUnchanged 0);
   CMM 2 1 (MGeneric (fun p => KTransmuted (fst (fst p)) (snd (snd p)) 3)) (MRemoved 0) (MRemoved 0)].
Example C46_same_ex : named 1 ex_b /\
  exists h', hruns 0 N.add [CellC (BIA 0 [] 0)] [HC 0%nat] ex_b =
    Ret (map HC [0; 2; 4; 7; 10; 14; 10; 14; 21; 7]%nat ++ [HL 22%nat; HS 23%nat],
         [HGInserted 1%nat None; HGInserted 3%nat None; HGInserted 5%nat None; HGInserted 8%nat None; HGReduced 1; HGReduced 0; HGReduced 2;
          HGReduced 46; HGReduced 1; HGReduced 0; HGReduced 3], h') /\ length h' = 24%nat.
Proof. split; [cbn [named ex_b uses]; repeat (split; [repeat constructor; cbn; lia|]); exact I|]. eexists. split; vm_compute; reflexivity. Qed.

(** Within the contracts of C40 every map of the history ends up holding the
    entries that the specification gives it, whatever was derived from it
    since, and every result is the specified one. *)
Theorem C46_history : forall (E : Env) K V R (KK : Key K) (rdef : R) (rd : R -> R -> R) (cs : list (call K V R)) n0 (h0 : heap K V) vs xs h',
  hm_new [] = (n0, h0) -> named 1 cs -> contracts rdef rd [map_new] cs -> hruns rdef rd h0 [n0] cs = Ret (vs, xs, h') ->
  lawful rdef rd [] [] (HNew :: map HCall cs) h' vs /\
  exists ls ys, spec_versions rdef rd [[]] cs ls ys /\ Forall2 (holds_entries h') vs ls /\ Forall2 (same_got h') xs ys.
Proof. intros E K V R KK. exact runs_lawful. Qed.
Print Assumptions C46_history.
Example C46_history_ex : named 1 ex_cs /\ contracts (E := exE) 0 N.add [map_new] ex_cs /\
  exists vs xs h', hruns 0 N.add [CellC (BIA 0 [] 0)] [HC 0%nat] ex_cs = Ret (vs, xs, h') /\
    map (hm_visit h') vs = map Ret
      [[]; [(0, 0, 10)]; [(1, 0, 11); (0, 0, 10)]; [(1, 0, 11); (0, 0, 10); (128, 0, 13)]; [(1, 0, 12); (0, 0, 11)]; [(36, 0, 18)];
       [(1, 0, 12); (0, 0, 11); (36, 5, 18)]; [(1, 0, 132); (0, 0, 110); (36, 5, 18)]; [(1, 0, 132); (0, 0, 110)]; [(36, 7, 118)];
       [(0, 3, 5); (36, 7, 118)]; [(1, 9, 11); (0, 9, 10); (128, 9, 13)]; [(0, 3, 5); (36, 7, 118)];
       [(1, 0, 11); (0, 0, 10); (128, 0, 13)]].
Proof.
  split; [cbn [named ex_cs uses]; repeat (split; [repeat constructor; cbn; lia|]); exact I|]. split; [exact (proj1 C40_compose_ex)|].
  do 3 eexists. split; vm_compute; reflexivity.
Qed.

(** * Each operation *)

(** [t] is the tree of C15-C29 and C36: the heap operation returns exactly when
    the tree operation does, with a map that answers as its result does. *)
Theorem C46_transform : forall (E : Env) K V R (KK : Key K) (rdef : R) (rd : R -> R -> R) (cs : list (hcall K V R)) (h : heap K V) vs i n st op,
  lawful rdef rd [] [] cs h vs -> nth_error vs i = Some n ->
  exists t, reachable t /\ answers h n t /\
    refines (fun p q => ext h (snd p) /\ answers (snd p) (fst (fst p)) (fst (fst q)) /\ snd (fst p) = snd (fst q) /\
        shares h n (snd p) (fst (fst p)) /\ (snd q = Self -> fst (fst p) = n))
      (hm_transform rdef rd st op h n) (map_transform rdef rd st op t).
Proof. intros E K V R KK. exact transform_places. Qed.
Print Assumptions C46_transform.
Example C46_transform_ex : lawful (E := exE) 0 N.add [] [] ex_h1 ex_hp ex_vs /\ nth_error ex_vs 4 = Some (HC 10%nat) /\
  hm_transform 0 N.add MiddleIndex (TGeneric (fun e => if snd e =? 12 then VDropped 5 else VUnchanged 1)) ex_hp (HC 10%nat) =
    Ret (HL 8%nat, 8, ex_hp) /\
  hm_transform 0 N.add Sequential (TGeneric (fun e => VUnchanged 1)) ex_hp (HC 10%nat) = Ret (HC 10%nat, 4, ex_hp).
Proof. split; [exact ex_law1|]. vm_compute. auto. Qed.

Theorem C46_tt : forall (E : Env) K V R (KK : Key K) (rdef : R) (rd : R -> R -> R) (cs : list (hcall K V R)) (h : heap K V) vs i j n m st
    both lop rop,
  lawful rdef rd [] [] cs h vs -> nth_error vs i = Some n -> nth_error vs j = Some m ->
  exists t u, reachable t /\ reachable u /\ answers h n t /\ answers h m u /\
    refines (fun p q => ext h (snd p) /\ answers (snd p) (fst (fst p)) (fst (fst q)) /\ snd (fst p) = snd (fst q) /\
        (forall a, inside (snd p) (fst (fst p)) a -> (length h <= a)%nat \/ inside h n a \/ inside h m a) /\
        (snd q = Self -> fst (fst p) = n) /\ (snd q = Right -> fst (fst p) = m))
      (hm_tt rdef rd st both lop rop h n m) (map_tt rdef rd st both lop rop t u).
Proof. intros E K V R KK. exact tt_places. Qed.
Print Assumptions C46_tt.
(** The first call hands back its right map; the second keeps cell 5 of its
    right map beside a leaf made for the entry that only the left map has. *)
Example C46_tt_ex : lawful (E := exE) 0 N.add [] [] ex_h1 ex_hp ex_vs /\ nth_error ex_vs 4 = Some (HC 10%nat) /\
  nth_error ex_vs 3 = Some (HC 7%nat) /\
  hm_tt 0 N.add Sequential (JGeneric (fun e e' => BUnchangedR 1) false) (TRemoved 0) (TUnchanged 0) ex_hp (HC 4%nat) (HC 7%nat) =
    Ret (HC 7%nat, 2, ex_hp ++ [CellS (0, 0) 10]) /\
  hm_tt 0 N.add Sequential (JGeneric (fun e e' => if snd e =? 12 then BUnchangedR 1 else BDropped 1) false) (TUnchanged 0) (TUnchanged 0) ex_hp (HC 10%nat) (HC 7%nat) =
    Ret (HC 14%nat, 3, ex_hp ++ [CellS (0, 0) 10; CellS (2, 0) 13; CellC (BIA 3 [HS 12%nat; HS 5%nat] 2); CellC (BIA 1 [HC 13%nat] 2)]).
Proof. split; [exact ex_law1|]. vm_compute. auto. Qed.

(** The results of transmute and transmute_with_transmuted share no cell with
    anything: they are of other types, and every cell is new. *)
Theorem C46_transmute : forall (E : Env) K V L W R (KK : Key K) (KL : Key L) (rdef : R) (rd : R -> R -> R) (cs : list (hcall K V R)) (h : heap K V) vs
    i n, lawful rdef rd [] [] cs h vs -> nth_error vs i = Some n ->
  forall op (w : heap L W), exists t, reachable t /\ answers h n t /\
    refines (fun p q => ext w (snd p) /\ answers (snd p) (fst (fst p)) (fst q) /\ snd (fst p) = snd q /\
        forall a, inside (snd p) (fst (fst p)) a -> (length w <= a)%nat)
      (hm_transmute rdef rd op h n w) (map_transmute rdef rd op t).
Proof. intros E K V L W R KK KL. exact transmute_places. Qed.
Print Assumptions C46_transmute.
Example C46_transmute_ex : lawful (E := exE) 0 N.add [] [] ex_h1 ex_hp ex_vs /\ nth_error ex_vs 3 = Some (HC 7%nat) /\
  hm_transmute 0 N.add (MGeneric (fun e : key * N => KTransmuted (Num (fst (fst e))) (snd e =? 11) 1)) ex_hp (HC 7%nat) [CellS (Num 3) true] =
    Ret (HC 5%nat, 3, [CellS (Num 3) true; CellS (Num 0) false; CellL (Num 1) true (XS 1%nat) 2; CellS (Num 128) false;
       CellC (BIA 3 [HL 2%nat; HS 3%nat] 3); CellC (BIA 1 [HC 4%nat] 3)]).
Proof. split; [exact ex_law1|]. vm_compute. auto. Qed.

(** A map with keys of another type. *)
Definition ex_h9 : list (hcall num N N) := [HNew; HCall (CInsert 0 (Num 1) 5 false); HCall (CInsert 1 (Num 128) 6 false); HCall (CInsert 2 (Num 36) 7 false)].
Definition ex_hp9 : heap num N := [CellC (BIA 0 [] 0); CellS (Num 1) 5; CellC (BIA 1 [HS 1%nat] 1); CellS (Num 128) 6; CellC (BIA 3 [HS 1%nat; HS 3%nat] 2);
   CellC (BIA 1 [HC 4%nat] 2); CellS (Num 36) 7; CellC (BIA 513 [HC 4%nat; HS 6%nat] 3)].
Definition ex_vs9 : list hnode := [HC 0; HC 2; HC 5; HC 7]%nat.
Lemma ex_law9 : lawful (E := exE) 0 N.add [] [] ex_h9 ex_hp9 ex_vs9.
Proof.
  unfold ex_h9. eapply lw_cons; [exact I|hnew|cbn [app]].
  do 3 (eapply lw_cons; [intros ? ?; exact I|hinsert|cbn [app]]). apply lw_nil.
Qed.

Theorem C46_tm : forall (E : Env) K V L W R (KK : Key K) (KL : Key L) (rdef : R) (rd : R -> R -> R) (cs : list (hcall K V R)) (h : heap K V) vs
    i n, lawful rdef rd [] [] cs h vs -> nth_error vs i = Some n ->
  forall (cs' : list (hcall L W R)) (h' : heap L W) vs' j m, lawful rdef rd [] [] cs' h' vs' -> nth_error vs' j = Some m ->
  forall st both lop rop, exists t u, reachable t /\ reachable u /\ answers h n t /\ answers h' m u /\
    refines (fun p q => ext h (snd p) /\ answers (snd p) (fst (fst p)) (fst (fst q)) /\ snd (fst p) = snd (fst q) /\
        shares h n (snd p) (fst (fst p)) /\ (snd q = Self -> fst (fst p) = n))
      (hm_tm rdef rd st both lop rop h n h' m) (map_tm rdef rd st both lop rop t u).
Proof. intros E K V L W R KK KL. exact tm_places. Qed.
Print Assumptions C46_tm.
(** The entry that only the right map has is added; the rest of the left map is
    shared. *)
Example C46_tm_ex : lawful (E := exE) 0 N.add [] [] ex_h1 ex_hp ex_vs /\ nth_error ex_vs 4 = Some (HC 10%nat) /\
  lawful (E := exE) 0 N.add [] [] ex_h9 ex_hp9 ex_vs9 /\ nth_error ex_vs9 3 = Some (HC 7%nat) /\
  hm_tm 0 N.add Sequential (TGeneric (fun p : (key * N) * (num * N) => VUnchanged 1)) (TUnchanged 0)
     (MGeneric (fun e : num * N => KTransmuted (num_n (fst e), 7) (snd e) 1)) ex_hp (HC 10%nat) ex_hp9 (HC 7%nat) = Ret (HC 12%nat, 3, ex_hp ++ [CellS (36, 7) 7; CellC (BIA 513 [HC 9%nat; HS 11%nat] 5)]).
Proof. split; [exact ex_law1|]. split; [reflexivity|]. split; [exact ex_law9|]. vm_compute. auto. Qed.

Theorem C46_mt : forall (E : Env) K V L W R (KK : Key K) (KL : Key L) (rdef : R) (rd : R -> R -> R) (cs : list (hcall K V R)) (h : heap K V) vs
    i n, lawful rdef rd [] [] cs h vs -> nth_error vs i = Some n ->
  forall (cs' : list (hcall L W R)) (h' : heap L W) vs' j m, lawful rdef rd [] [] cs' h' vs' -> nth_error vs' j = Some m ->
  forall st both lop rop, exists t u, reachable t /\ reachable u /\ answers h n t /\ answers h' m u /\
    refines (fun p q => ext h' (snd p) /\ answers (snd p) (fst (fst p)) (fst (fst q)) /\ snd (fst p) = snd (fst q) /\
        shares h' m (snd p) (fst (fst p)) /\ (snd q = Right -> fst (fst p) = m))
      (hm_mt rdef rd st both lop rop h n h' m) (map_mt rdef rd st both lop rop t u).
Proof. intros E K V L W R KK KL. exact mt_places. Qed.
Print Assumptions C46_mt.
Example C46_mt_ex : lawful (E := exE) 0 N.add [] [] ex_h9 ex_hp9 ex_vs9 /\ nth_error ex_vs9 3 = Some (HC 7%nat) /\
  lawful (E := exE) 0 N.add [] [] ex_h1 ex_hp ex_vs /\ nth_error ex_vs 4 = Some (HC 10%nat) /\
  hm_mt 0 N.add MiddleIndex (TGeneric (fun p : (num * N) * (key * N) => VTransformed (snd (fst p)) 1))
     (MGeneric (fun e : num * N => KTransmuted (num_n (fst e), 7) (snd e) 1)) (TUnchanged 0) ex_hp9 (HC 7%nat) ex_hp (HC 10%nat) = Ret (HC 16%nat, 3, ex_hp ++ [CellL (1, 0) 5 (XS 1%nat) 2; CellL (2, 0) 13 (XL 11%nat) 3; CellS (128, 0) 6;
       CellC (BIA 3 [HL 12%nat; HS 13%nat] 4); CellS (36, 7) 7; CellC (BIA 513 [HC 14%nat; HS 15%nat] 5)]).
Proof. split; [exact ex_law9|]. split; [reflexivity|]. split; [exact ex_law1|]. vm_compute. auto. Qed.

Theorem C46_mm : forall (E : Env) K V L W R (KK : Key K) (KL : Key L) (rdef : R) (rd : R -> R -> R) (cs : list (hcall K V R)) (h : heap K V) vs
    i n, lawful rdef rd [] [] cs h vs -> nth_error vs i = Some n ->
  forall (cs' : list (hcall L W R)) (h' : heap L W) vs' j m, lawful rdef rd [] [] cs' h' vs' -> nth_error vs' j = Some m ->
  forall S X (KS : Key S) both lop rop (w : heap S X), exists t u, reachable t /\ reachable u /\ answers h n t /\ answers h' m u /\
    refines (fun p q => ext w (snd p) /\ answers (snd p) (fst (fst p)) (fst q) /\ snd (fst p) = snd q /\
        forall a, inside (snd p) (fst (fst p)) a -> (length w <= a)%nat)
      (hm_mm rdef rd both lop rop h n h' m w) (map_mm rdef rd both lop rop t u).
Proof. intros E K V L W R KK KL. exact mm_places. Qed.
Print Assumptions C46_mm.
Example C46_mm_ex : lawful (E := exE) 0 N.add [] [] ex_h9 ex_hp9 ex_vs9 /\ nth_error ex_vs9 3 = Some (HC 7%nat) /\
  lawful (E := exE) 0 N.add [] [] ex_h1 ex_hp ex_vs /\ nth_error ex_vs 4 = Some (HC 10%nat) /\
  hm_mm 0 N.add (MGeneric (fun p : (num * N) * (key * N) => KTransmuted (fst (fst p)) (snd (fst p), snd (snd p)) 1))
     (MRemoved 0) (MGeneric (fun e : key * N => KTransmuted (Num (fst (fst e))) (0, snd e) 1)) ex_hp9 (HC 7%nat) ex_hp (HC 10%nat)
     [CellS (Num 3) (1, 1)] = Ret (HC 6%nat, 4, [CellS (Num 3) (1, 1); CellS (Num 0) (0, 10); CellL (Num 1) (5, 11) (XS 1%nat) 2; CellL (Num 2) (0, 13) (XL 2%nat) 3;
       CellS (Num 128) (6, 12); CellC (BIA 3 [HL 3%nat; HS 4%nat] 4); CellC (BIA 1 [HC 5%nat] 4)]).
Proof. split; [exact ex_law9|]. split; [reflexivity|]. split; [exact ex_law1|]. vm_compute. auto. Qed.
