(** Property C53: how much memory maps take. *)
From Coq Require Import NArith Arith List Lia.
From Verif Require Import Base Words Flag Bia Node Api Trans Transform Joint Versions Ex Heap SpecH HeapHist HeapBulk HeapRun HeapPlaceP Rc RcHistP Foot FootP
  PropHeap PropRc.
Import ListNotations.
Open Scope N_scope.
#[local] Existing Instance exE | 100.

(** * C53 *)

(** The entries visit shows lie in distinct cells of the map, one each, even when
    some have equal keys. *)
Theorem C53_own : forall (E : Env) K V R (KK : Key K) (rdef : R) (rd : R -> R -> R) (cs : list (rcall K V R)) (h : heap K V) cnt vs n,
  rlawful rdef rd cs h cnt vs -> In n vs ->
  exists l L, hm_visit h n = Ret l /\ NoDup L /\ (forall a, In a L -> inside h n a) /\ map (entry_at h) L = map Some l.
Proof. intros E K V R KK. exact own_cells. Qed.
Print Assumptions C53_own.
(** A map of n entries has at least n cells and at most
    [1 + n * (1 + depth_below)]. *)
Theorem C53_footprint : forall (E : Env) K V R (KK : Key K) (rdef : R) (rd : R -> R -> R) (cs : list (rcall K V R)) (h : heap K V) cnt vs n,
  rlawful rdef rd cs h cnt vs -> In n vs ->
  exists l F, hm_visit h n = Ret l /\ NoDup F /\ (forall a, In a F <-> inside h n a) /\
    N.of_nat (length l) <= N.of_nat (length F) <= 1 + N.of_nat (length l) * (1 + depth_below).
Proof. intros E K V R KK. exact footprint. Qed.
Print Assumptions C53_footprint.
(** No size exceeds the number of cells alive, so sizes cannot overflow the word
    that holds an address. *)
Theorem C53_sizes : forall (E : Env) K V R (KK : Key K) (rdef : R) (rd : R -> R -> R) (cs : list (rcall K V R)) (h : heap K V) cnt vs,
  rlawful rdef rd cs h cnt vs ->
  exists A, NoDup A /\ (forall a, In a A <-> cnt a <> 0%nat) /\
    forall n, In n vs -> exists z, hm_size h n = Ret z /\ z <= N.of_nat (length A).
Proof. intros E K V R KK. exact live_cells. Qed.
Print Assumptions C53_sizes.

Ltac lsnoc := match goal with |- rlawful _ _ ?l _ _ _ =>
  let p := eval cbv [removelast] in (removelast l) in let c := eval cbv [last] in (last l RNew) in
  change l with (p ++ [c]); eapply rl_snoc end.
Ltac lkeep := cbn [rkept]; try exact I; intros ? _; exact I.
Ltac lall := first [apply rl_nil|lsnoc; [lall|lkeep|rgo]].
Lemma ex_lis cs (h h' : heap key N) cnt vs vs' : rlawful (E := exE) 0 N.add cs h cnt vs -> h = h' -> vs = vs' -> rlawful 0 N.add cs h' cnt vs'.
Proof. intros H <- <-. exact H. Qed.
Ltac lmade := eapply ex_lis; [lall|vm_compute; reflexivity..].
(** The map of four entries, three of one hash, with the other maps dropped: six
    cells, four of them entries. *)
Example C53_own_ex : exists cnt, rlawful (E := exE) 0 N.add ex_rd ex_hp cnt [HC 10%nat] /\
  hm_visit ex_hp (HC 10%nat) = Ret [(2, 0, 13); (1, 0, 11); (0, 0, 10); (128, 0, 12)] /\
  map (entry_at ex_hp) [8%nat; 3%nat; 1%nat; 5%nat] = map Some [(2, 0, 13); (1, 0, 11); (0, 0, 10); (128, 0, 12)] /\
  map cnt (seq 0 12) = [0; 1; 0; 1; 0; 1; 0; 0; 1; 1; 1; 0]%nat.
Proof. eexists. split; [unfold ex_rd, ex_rc; cbn [app]; lmade|]. vm_compute. auto. Qed.
Example C53_footprint_ex : depth_below (E := exE) = 12 /\ exists cnt, rlawful (E := exE) 0 N.add ex_rc ex_hp cnt ex_vs /\
  (forall a, In a [8; 3; 1; 5; 9; 10]%nat <-> inside ex_hp (HC 10%nat) a) /\ 4 <= 6 <= 1 + 4 * 13.
Proof.
  split; [vm_compute; reflexivity|]. eexists. split; [unfold ex_rc; lmade|]. split; [|lia]. intros a. split.
  - intros H. cbn in H. repeat (destruct H as [<-|H]; [
      repeat first [apply (in_self ex_hp (HC 10%nat))|apply (in_self ex_hp (HC 9%nat))|apply (in_self ex_hp (HL 8%nat))|apply (in_self ex_hp (HL 3%nat))
        |apply (in_self ex_hp (HS 1%nat))|apply (in_self ex_hp (HS 5%nat))|idtac]|]); try contradiction.
    all: try (eapply in_C; [reflexivity|left; reflexivity|]).
    all: try apply (in_self ex_hp (HC 9%nat)).
    all: try (eapply in_C; [reflexivity|left; reflexivity|apply (in_self ex_hp (HL 8%nat))]).
    all: try (eapply in_C; [reflexivity|right; left; reflexivity|apply (in_self ex_hp (HS 5%nat))]).
    all: try (eapply in_C; [reflexivity|left; reflexivity|]; eapply in_L; [reflexivity|apply (in_self ex_hp (HL 3%nat))]).
    eapply in_C; [reflexivity|left; reflexivity|]. eapply in_L; [reflexivity|]. eapply in_L; [reflexivity|apply (in_self ex_hp (HS 1%nat))].
  - intros H. apply (inside_within ex_hp _ _ _ H); vm_compute; auto 10.
Qed.
Example C53_sizes_ex : exists cnt, rlawful (E := exE) 0 N.add ex_rd ex_hp cnt [HC 10%nat] /\
  hm_size ex_hp (HC 10%nat) = Ret 4 /\ length (filter (fun a => negb (Nat.eqb (cnt a) 0)) (seq 0 12)) = 6%nat.
Proof. eexists. split; [unfold ex_rd, ex_rc; cbn [app]; lmade|]. vm_compute. auto. Qed.

(** The contract on keys is needed.  Three entries transmuted to keys of other
    hashes are found in two places each: where they were and, moved on their own
    by an insert, where they belong.  Joining the two kinds of maps puts the same
    cells into one map twice: seven entries in five cells. *)
Definition ex_only (c : N) : transform_op (key * N) N N := TGeneric (fun e => if fst (fst e) =? c then VUnchanged 0 else VDropped 0).
Definition ex_join : joint_op (key * N) N N := JGeneric (fun _ _ => BUnchangedL 0) false.
Definition ex_bad : list (rcall key N N) :=
  [RNew; RCall (CInsert 0 (4, 0) 1 false); RCall (CInsert 1 (8, 0) 2 false); RCall (CInsert 2 (12, 0) 3 false);
   RCall (CTransmute 3 (MGeneric (fun e => KTransmuted (fst (fst e) + 12, 0) (snd e) 0)));
   RCall (CTransform 4 Sequential (ex_only 16)); RCall (CInsert 5 (0, 0) 9 false);
   RCall (CTransform 4 Sequential (ex_only 20)); RCall (CInsert 7 (0, 0) 9 false);
   RCall (CTransform 4 Sequential (ex_only 24)); RCall (CInsert 9 (0, 0) 9 false);
   RCall (CTT 4 6 Sequential ex_join (TUnchanged 0) (TUnchanged 0)); RCall (CTT 11 8 Sequential ex_join (TUnchanged 0) (TUnchanged 0));
   RCall (CTT 12 10 Sequential ex_join (TUnchanged 0) (TUnchanged 0));
   RDrop 0; RDrop 0; RDrop 0; RDrop 0; RDrop 0; RDrop 0; RDrop 0; RDrop 0; RDrop 0; RDrop 0; RDrop 0; RDrop 0; RDrop 0].
Theorem C53_contract_needed : exists (cs : list (rcall key N N)) h cnt n z A,
  rsteps (E := exE) 0 N.add cs h cnt [n] /\ (forall a, cnt a <> 0%nat -> In a A) /\ hm_size h n = Ret z /\ N.of_nat (length A) < z.
Proof.
  exists ex_bad. do 5 eexists. split; [unfold ex_bad; eapply ex_is; [rall|reflexivity|vm_compute; reflexivity]|]. split; [|split; [vm_compute; reflexivity|]].
  - match goal with
    | |- forall a, @?f a <> _ -> In a ?A =>
        let l := eval vm_compute in (filter (fun a => negb (Nat.eqb (f a) 0)) (seq 0 40)) in
        unify A l
    end.
    intros a Ha. do 24 (destruct a as [|a]; [first [now cbn; auto 12|exfalso; apply Ha; reflexivity]|]).
    exfalso; apply Ha; reflexivity.
  - reflexivity.
Qed.
Print Assumptions C53_contract_needed.
