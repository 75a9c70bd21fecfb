(** C09, C33, C43, C44: maps as handles into shared allocations. *)
From Coq Require Import NArith Arith List Bool Lia Permutation.
From Verif Require Import Base Words Flag Bia Node Api Spec Trans Transform SpecT Joint JointT Reach ReachP Versions Hist Ex
  Heap SpecH HeapHist HeapHistP HeapCostP HeapPtrP HeapPropP.
Import ListNotations.
Open Scope N_scope.

#[local] Existing Instance exE | 100.

(** * C09 *)

(** [hsteps] (HeapHist.v) runs a client that keeps every map it ever made: new,
    clone, and every operation on any maps it holds.  Whatever it does later, a
    map it holds keeps answering as before, and find keeps returning the same
    reference. *)
Theorem C09_persistence : forall (E : Env) K V R (KK : Key K) (rdef : R) (rd : R -> R -> R) (cs cs' : list (hcall K V R))
    (h : heap K V) vs (h' : heap K V) vs' i n,
  hsteps rdef rd [] [] cs h vs -> hsteps rdef rd h vs cs' h' vs' -> nth_error vs i = Some n ->
  nth_error vs' i = Some n /\
  (exists s l, hm_size h n = Ret s /\ hm_size h' n = Ret s /\ hm_visit h n = Ret l /\ hm_visit h' n = Ret l) /\
  forall Q (KQ : Key Q) (q : Q), hm_get h' n q = hm_get h n q /\ hm_find h' n q = hm_find h n q.
Proof. intros E K V R KK. exact persistence. Qed.
Print Assumptions C09_persistence.

(** The handles answer as the trees of the other theorems. *)
Theorem C09_versions : forall (E : Env) K V R (KK : Key K) (rdef : R) (rd : R -> R -> R) (cs : list (hcall K V R)) (h : heap K V) vs,
  hsteps rdef rd [] [] cs h vs ->
  exists ts, tsteps rdef rd [] cs ts /\
    Forall2 (fun n t => hm_size h n = Ret (map_size t) /\ hm_visit h n = Ret (map_visit t) /\
      forall Q (KQ : Key Q) (q : Q),
        hm_get h n q = (let* r := map_find t q in Ret (match r with Ok e => Some e | Err _ => None end))) vs ts.
Proof. intros E K V R KK. exact versions_of. Qed.
Print Assumptions C09_versions.

(** A new map, colliding inserts, a branch, a replacement, removals, a clone,
    and a transform that keeps everything. *)
Definition ex_h1 : list (hcall key N N) :=
  [HNew; HCall (CInsert 0 (0, 0) 10 false); HCall (CInsert 1 (1, 0) 11 false); HCall (CInsert 2 (128, 0) 12 false);
   HCall (CInsert 3 (2, 0) 13 false)].
Definition ex_h2 : list (hcall key N N) :=
  [HCall (CInsert 4 (1, 7) 99 true); HCall (CRemove 4 (0, 5)); HClone 4; HCall (CRemove 2 (1, 1));
   HCall (CTransform 4 Sequential (TGeneric (fun e => VUnchanged (snd e)))); HCall (CInsert 4 (0, 1) 5 false)].
Ltac hcons T := eapply hss_cons; [T|cbn [app]].
Ltac hnew := eapply hs_new; reflexivity.
Ltac hinsert := eapply hs_insert; [reflexivity|vm_compute; reflexivity].
Ltac hrefused := eapply hs_refused; [reflexivity|vm_compute; reflexivity].
Ltac hremove := eapply hs_remove; [reflexivity|vm_compute; reflexivity].
(** Reads the tree off a concrete heap. *)
Ltac reps := repeat (first [apply Forall2_nil | eapply Forall2_cons | apply Forall_nil | apply Forall_cons
  | eapply rep_MC; [reflexivity| |] | eapply rep_ML | eapply rep_MS | eapply rep_LL; [reflexivity| |] | eapply rep_LS; [reflexivity| |]
  | eapply rep_SN; reflexivity | (cbn; lia)]).
(** Where the first five steps lead. *)
Definition ex_hp : heap key N :=
  [CellC (BIA 0 [] 0); CellS (0, 0) 10; CellC (BIA 1 [HS 1%nat] 1); CellL (1, 0) 11 (XS 1%nat) 2; CellC (BIA 1 [HL 3%nat] 2);
   CellS (128, 0) 12; CellC (BIA 3 [HL 3%nat; HS 5%nat] 3); CellC (BIA 1 [HC 6%nat] 3);
   CellL (2, 0) 13 (XL 3%nat) 3; CellC (BIA 3 [HL 8%nat; HS 5%nat] 4); CellC (BIA 1 [HC 9%nat] 4)].
Definition ex_vs : list hnode := [HC 0; HC 2; HC 4; HC 7; HC 10]%nat.
Lemma ex_run1 : hsteps (E := exE) 0 N.add [] [] ex_h1 ex_hp ex_vs.
Proof. unfold ex_h1. hcons hnew. do 4 (hcons hinsert). apply hss_nil. Qed.
Lemma ex_law1 : lawful (E := exE) 0 N.add [] [] ex_h1 ex_hp ex_vs.
Proof.
  unfold ex_h1. eapply lw_cons; [exact I|hnew|cbn [app]].
  do 4 (eapply lw_cons; [intros ? ?; exact I|hinsert|cbn [app]]). apply lw_nil.
Qed.

Example C09_persistence_ex : hsteps (E := exE) 0 N.add [] [] ex_h1 ex_hp ex_vs /\
  exists h' vs', hsteps (E := exE) 0 N.add ex_hp ex_vs ex_h2 h' vs' /\
    vs' = [HC 0; HC 2; HC 4; HC 7; HC 10; HC 14; HC 18; HC 10; HC 19; HC 10; HC 10]%nat /\
    hm_visit ex_hp (HC 10%nat) = Ret [(2, 0, 13); (1, 0, 11); (0, 0, 10); (128, 0, 12)] /\
    hm_visit h' (HC 10%nat) = Ret [(2, 0, 13); (1, 0, 11); (0, 0, 10); (128, 0, 12)] /\
    hm_visit h' (HC 14%nat) = Ret [(1, 7, 99); (2, 0, 13); (0, 0, 10); (128, 0, 12)].
Proof.
  split; [exact ex_run1|]. do 2 eexists. split; [|split; [|split; [|split]]].
  - unfold ex_h2, ex_hp, ex_vs. hcons hinsert. hcons hremove. hcons ltac:(eapply hs_clone; reflexivity). hcons hremove.
    hcons ltac:(eapply hs_bulk with (n' := HC 10%nat); [exact I|repeat constructor|reps|vm_compute; reflexivity|exists []; symmetry; apply app_nil_r|reps|
      intros i Hi; vm_compute in Hi; injection Hi as <-; reflexivity]).
    hcons hrefused. apply hss_nil.
  - reflexivity.
  - vm_compute. reflexivity.
  - vm_compute. reflexivity.
  - vm_compute. reflexivity.
Qed.
Example C09_versions_ex : hsteps (E := exE) 0 N.add [] [] ex_h1 ex_hp ex_vs /\ hm_size ex_hp (HC 10%nat) = Ret 4 /\
  hm_get ex_hp (HC 10%nat) (Num 1) = Ret (Some (1, 0, 11)) /\ hm_get ex_hp (HC 10%nat) (Num 3) = Ret None.
Proof. split; [exact ex_run1|]. vm_compute. auto. Qed.

(** * C33 *)

(** == compares the root allocations (mnode.rs:365-388). *)
Theorem C33_equal : forall (E : Env) K V R (KK : Key K) (rdef : R) (rd : R -> R -> R) (cs : list (hcall K V R)) (h : heap K V) vs i j n m,
  hsteps rdef rd [] [] cs h vs -> nth_error vs i = Some n -> nth_error vs j = Some m -> hm_eq n m = true ->
  hm_size h n = hm_size h m /\ hm_visit h n = hm_visit h m /\
  forall Q (KQ : Key Q) (q : Q), hm_find h n q = hm_find h m q /\ hm_get h n q = hm_get h m q.
Proof. intros E K V R KK. exact equal_sound. Qed.
Print Assumptions C33_equal.
Theorem C33_clone : forall (E : Env) K V R (KK : Key K) (rdef : R) (rd : R -> R -> R) (cs : list (hcall K V R)) (h : heap K V) vs i n h' vs',
  hsteps rdef rd [] [] cs h vs -> nth_error vs i = Some n -> hstep rdef rd h vs (HClone i) h' vs' ->
  forall m, nth_error vs' (length vs) = Some m -> h' = h /\ hm_eq m n = true /\ hm_eq n m = true.
Proof. intros E K V R KK. exact clone_equal. Qed.
Print Assumptions C33_clone.
(** A transform that changes nothing hands back an equal map. *)
Theorem C33_transform : forall (E : Env) K V R (KK : Key K) (rdef : R) (rd : R -> R -> R) (cs : list (hcall K V R)) (h : heap K V) vs
    i n st f l h' vs' m,
  lawful rdef rd [] [] cs h vs -> nth_error vs i = Some n -> hm_visit h n = Ret l ->
  hstep rdef rd h vs (HCall (CTransform i st (TGeneric f))) h' vs' -> nth_error vs' (length vs) = Some m ->
  (forall e, In e l -> exists x, f e = VUnchanged x) -> hm_eq m n = true.
Proof. intros E K V R KK. exact transform_equal. Qed.
Print Assumptions C33_transform.
(** A successful insert gives a map that is equal to no map the client holds;
    a successful remove one that is not equal to its source. *)
Theorem C33_insert : forall (E : Env) K V R (KK : Key K) (rdef : R) (rd : R -> R -> R) (cs : list (hcall K V R)) (h : heap K V) vs i n
    Q (KQ : Key Q) into (q : Q) v replace n' a prev h',
  hsteps rdef rd [] [] cs h vs -> nth_error vs i = Some n -> hm_insert into h n q v replace = Ret (Ok (n', a, prev), h') ->
  forall j m, nth_error vs j = Some m -> hm_eq n' m = false.
Proof. intros E K V R KK rdef rd cs h vs i n Q KQ. exact (insert_differs rdef rd cs h vs i n). Qed.
Print Assumptions C33_insert.
Theorem C33_remove : forall (E : Env) K V R (KK : Key K) (rdef : R) (rd : R -> R -> R) (cs : list (hcall K V R)) (h : heap K V) vs i n
    Q (KQ : Key Q) (q : Q) n' a h',
  hsteps rdef rd [] [] cs h vs -> nth_error vs i = Some n -> hm_remove h n q = Ret (Ok (n', a), h') -> hm_eq n' n = false.
Proof. intros E K V R KK rdef rd cs h vs i n Q KQ. exact (remove_differs rdef rd cs h vs i n). Qed.
Print Assumptions C33_remove.
Example C33_ex : hsteps (E := exE) 0 N.add [] [] ex_h1 ex_hp ex_vs /\
  (exists vs', hstep (E := exE) 0 N.add ex_hp ex_vs (HClone 3) ex_hp vs' /\ nth_error vs' 5 = Some (HC 7%nat)) /\
  (exists vs', hstep (E := exE) 0 N.add ex_hp ex_vs (HCall (CTransform 4 MiddleIndex (TGeneric (fun e => VUnchanged (snd e))))) ex_hp vs' /\
     nth_error vs' 5 = Some (HC 10%nat)) /\
  (exists n' a h', hm_insert num_into ex_hp (HC 10%nat) (Num 1) 5 true = Ret (Ok (n', a, Some 3%nat), h') /\ n' = HC 14%nat) /\
  (exists n' h', hm_remove ex_hp (HC 10%nat) (Num 1) = Ret (Ok (n', 3%nat), h') /\ n' = HC 13%nat).
Proof.
  split; [exact ex_run1|]. split; [|split; [|split]].
  - eexists. split; [eapply hs_clone; reflexivity|reflexivity].
  - exists (ex_vs ++ [HC 10%nat]). split; [|reflexivity].
    eapply hs_bulk with (n' := HC 10%nat); [exact I|repeat constructor|reps|vm_compute; reflexivity|exists []; symmetry; apply app_nil_r|reps|
      intros i Hi; vm_compute in Hi; injection Hi as <-; reflexivity].
  - do 3 eexists. split; [vm_compute; reflexivity|reflexivity].
  - do 2 eexists. split; [vm_compute; reflexivity|reflexivity].
Qed.

(** The converse fails: maps with the same contents need not be equal. *)
Theorem C33_converse_refuted : exists (E : Env) K V R (KK : Key K) (rdef : R) (rd : R -> R -> R) (cs : list (hcall K V R)) (h : heap K V) vs i j n m l,
  hsteps rdef rd [] [] cs h vs /\ nth_error vs i = Some n /\ nth_error vs j = Some m /\
  hm_visit h n = Ret l /\ hm_visit h m = Ret l /\ hm_eq n m = false.
Proof.
  exists exE, key, N, N, key_key, 0, N.add, [HNew; HNew; HCall (CInsert 0 (3, 0) 1 false); HCall (CInsert 1 (3, 0) 1 false)].
  do 2 eexists. exists 2%nat, 3%nat. do 3 eexists. split; [|split; [|split; [|split; [|split]]]].
  - hcons hnew. hcons hnew. hcons hinsert. hcons hinsert. apply hss_nil.
  - reflexivity.
  - reflexivity.
  - vm_compute. reflexivity.
  - vm_compute. reflexivity.
  - reflexivity.
Qed.
Print Assumptions C33_converse_refuted.

(** * C43 *)

(** insert and remove copy only the path: [b] branches, one for each slice of
    the hash at most, and the collision list of the key, or one leaf.
    Everything else in the new map is shared with the old one; a call that
    fails allocates nothing. *)
Theorem C43_insert : forall (E : Env) K V R (KK : Key K) (rdef : R) (rd : R -> R -> R) Q (KQ : Key Q) (cs : list (hcall K V R)) (h : heap K V) vs i n
    into (q : Q) v replace r h',
  lawful rdef rd [] [] cs h vs -> nth_error vs i = Some n -> hm_insert into h n q v replace = Ret (r, h') ->
  exists l, hm_visit h n = Ret l /\
  match r with
  | Ok (n', _, _) => ext h h' /\ shares h n h' n' /\
      exists b, N.of_nat b * log_b fw < max_ones hw + log_b fw /\ (length h' <= length h + b + Nat.max 1 (rivals q l))%nat
  | Err _ => h' = h
  end.
Proof. intros E K V R KK rdef rd Q KQ. exact (insert_shares rdef rd). Qed.
Print Assumptions C43_insert.
Theorem C43_remove : forall (E : Env) K V R (KK : Key K) (rdef : R) (rd : R -> R -> R) Q (KQ : Key Q) (cs : list (hcall K V R)) (h : heap K V) vs i n
    (q : Q) r h',
  lawful rdef rd [] [] cs h vs -> nth_error vs i = Some n -> hm_remove h n q = Ret (r, h') ->
  exists l, hm_visit h n = Ret l /\
  match r with
  | Ok (n', _) => ext h h' /\ shares h n h' n' /\
      exists b, N.of_nat b * log_b fw < max_ones hw + log_b fw /\ (length h' <= length h + b + Nat.max 1 (rivals q l))%nat
  | Err _ => h' = h
  end.
Proof. intros E K V R KK rdef rd Q KQ. exact (remove_shares rdef rd). Qed.
Print Assumptions C43_remove.
(** Replacing the middle of three colliding keys: the last and the other slot
    (cells 1 and 5) are shared. *)
Example C43_insert_ex : lawful (E := exE) 0 N.add [] [] ex_h1 ex_hp ex_vs /\
  exists n' a prev, hm_insert num_into ex_hp (HC 10%nat) (Num 1) 5 true = Ret (Ok (n', a, prev), ex_hp ++
    [CellL (2, 0) 13 (XS 1%nat) 2; CellL (1, 77) 5 (XL 11%nat) 3; CellC (BIA 3 [HL 12%nat; HS 5%nat] 4); CellC (BIA 1 [HC 13%nat] 4)]) /\
  rivals (Num 1) [(2, 0, 13); (1, 0, 11); (0, 0, 10); (128, 0, 12)] = 3%nat.
Proof. split; [exact ex_law1|]. do 3 eexists. split; vm_compute; reflexivity. Qed.
Example C43_remove_ex : lawful (E := exE) 0 N.add [] [] ex_h1 ex_hp ex_vs /\
  (exists n' a, hm_remove ex_hp (HC 10%nat) (Num 2) = Ret (Ok (n', a), ex_hp ++
    [CellC (BIA 3 [HL 3%nat; HS 5%nat] 3); CellC (BIA 1 [HC 11%nat] 3)])) /\
  hm_remove ex_hp (HC 10%nat) (Num 3) = Ret (Err NotFound, ex_hp).
Proof. split; [exact ex_law1|]. split; [do 2 eexists|]; vm_compute; reflexivity. Qed.

(** * C44 *)

(** The pointers insert returns show the stored key and value, inside the new
    map, now and after anything the client does while it keeps the maps; find
    returns the same address.  The reference to what was replaced is the one
    find gives in the old map. *)
Theorem C44_insert : forall (E : Env) K V R (KK : Key K) (rdef : R) (rd : R -> R -> R) Q (KQ : Key Q) (cs : list (hcall K V R)) (h : heap K V) vs i n
    into (q : Q) v replace n' a prev h' cs' h'' vs'',
  lawful rdef rd [] [] cs h vs -> nth_error vs i = Some n -> cls (into q) = cls q ->
  hm_insert into h n q v replace = Ret (Ok (n', a, prev), h') -> hsteps rdef rd h' (vs ++ [n']) cs' h'' vs'' ->
  entry_at h'' a = Some (into q, v) /\ hm_find h'' n' q = Ret (Ok a) /\ inside h'' n' a /\ (length h <= a)%nat /\
  match prev with
  | Some p => hm_find h n q = Ret (Ok p) /\ inside h'' n p /\ exists e, entry_at h p = Some e /\ entry_at h'' p = Some e /\ cls (fst e) = cls q
  | None => exists e, hm_find h n q = Ret (Err e)
  end.
Proof. intros E K V R KK rdef rd Q KQ. exact (insert_pointer rdef rd). Qed.
Print Assumptions C44_insert.
Theorem C44_refused : forall (E : Env) K V R (KK : Key K) (rdef : R) (rd : R -> R -> R) Q (KQ : Key Q) (cs : list (hcall K V R)) (h : heap K V) vs i n
    into (q : Q) v replace a h' cs' h'' vs'',
  lawful rdef rd [] [] cs h vs -> nth_error vs i = Some n -> cls (into q) = cls q ->
  hm_insert into h n q v replace = Ret (Err a, h') -> hsteps rdef rd h' vs cs' h'' vs'' ->
  h' = h /\ hm_find h n q = Ret (Ok a) /\ inside h'' n a /\
  exists e, entry_at h a = Some e /\ entry_at h'' a = Some e /\ cls (fst e) = cls q.
Proof. intros E K V R KK rdef rd Q KQ. exact (refused_pointer rdef rd). Qed.
Print Assumptions C44_refused.
Theorem C44_find : forall (E : Env) K V R (KK : Key K) (rdef : R) (rd : R -> R -> R) Q (KQ : Key Q) (cs : list (hcall K V R)) (h : heap K V) vs i n
    (q : Q) a cs' h'' vs'',
  lawful rdef rd [] [] cs h vs -> nth_error vs i = Some n -> hm_find h n q = Ret (Ok a) -> hsteps rdef rd h vs cs' h'' vs'' ->
  hm_find h'' n q = Ret (Ok a) /\ inside h'' n a /\ exists e, entry_at h a = Some e /\ entry_at h'' a = Some e /\ cls (fst e) = cls q.
Proof. intros E K V R KK rdef rd Q KQ. exact (find_pointer rdef rd). Qed.
Print Assumptions C44_find.
(** remove's reference is the one find gives in the old map; the new map does
    not contain that cell. *)
Theorem C44_remove : forall (E : Env) K V R (KK : Key K) (rdef : R) (rd : R -> R -> R) Q (KQ : Key Q) (cs : list (hcall K V R)) (h : heap K V) vs i n
    (q : Q) n' a h' cs' h'' vs'',
  lawful rdef rd [] [] cs h vs -> nth_error vs i = Some n ->
  hm_remove h n q = Ret (Ok (n', a), h') -> hsteps rdef rd h' (vs ++ [n']) cs' h'' vs'' ->
  hm_find h n q = Ret (Ok a) /\ inside h'' n a /\ ~ inside h'' n' a /\
  exists e, entry_at h a = Some e /\ entry_at h'' a = Some e /\ cls (fst e) = cls q.
Proof. intros E K V R KK rdef rd Q KQ. exact (remove_pointer rdef rd). Qed.
Print Assumptions C44_remove.
(** Further steps after the insert: another insert and a removal in the new map. *)
Example C44_insert_ex : lawful (E := exE) 0 N.add [] [] ex_h1 ex_hp ex_vs /\ cls (num_into (Num 1)) = cls (Num 1) /\
  exists h', hm_insert num_into ex_hp (HC 10%nat) (Num 1) 5 true = Ret (Ok (HC 14%nat, 12%nat, Some 3%nat), h') /\
  exists h'' vs'', hsteps (E := exE) 0 N.add h' (ex_vs ++ [HC 14%nat]) [HCall (CInsert 5 (3, 0) 1 false); HCall (CRemove 5 (1, 0))] h'' vs'' /\
  entry_at h'' 12%nat = Some (1, 77, 5) /\ entry_at h'' 3%nat = Some (1, 0, 11).
Proof.
  split; [exact ex_law1|]. split; [reflexivity|]. eexists. split; [vm_compute; reflexivity|]. do 2 eexists. split; [|split].
  - unfold ex_vs. cbn [app]. hcons hinsert. hcons hremove. apply hss_nil.
  - vm_compute. reflexivity.
  - vm_compute. reflexivity.
Qed.
Example C44_refused_ex : lawful (E := exE) 0 N.add [] [] ex_h1 ex_hp ex_vs /\
  hm_insert num_into ex_hp (HC 10%nat) (Num 1) 5 false = Ret (Err 3%nat, ex_hp) /\ hm_find ex_hp (HC 10%nat) (Num 1) = Ret (Ok 3%nat) /\
  hsteps (E := exE) 0 N.add ex_hp ex_vs [] ex_hp ex_vs.
Proof. split; [exact ex_law1|]. split; [vm_compute; reflexivity|]. split; [vm_compute; reflexivity|]. apply hss_nil. Qed.
Example C44_remove_ex : lawful (E := exE) 0 N.add [] [] ex_h1 ex_hp ex_vs /\
  exists h', hm_remove ex_hp (HC 10%nat) (Num 1) = Ret (Ok (HC 13%nat, 3%nat), h') /\
  hm_visit h' (HC 13%nat) = Ret [(2, 0, 13); (0, 0, 10); (128, 0, 12)] /\
  hsteps (E := exE) 0 N.add h' (ex_vs ++ [HC 13%nat]) [] h' (ex_vs ++ [HC 13%nat]).
Proof. split; [exact ex_law1|]. eexists. split; [vm_compute; reflexivity|]. split; [vm_compute; reflexivity|]. apply hss_nil. Qed.
