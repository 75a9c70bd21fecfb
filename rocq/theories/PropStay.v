(** Property C48: what an operation does not touch stays where it is. *)
From Coq Require Import NArith List Lia.
From Verif Require Import Base Words Flag Bia Node Api Spec Trans SpecT SpecJ Transform Joint Versions Ex Heap SpecH SpecB HeapHist HeapBulk HeapRun HeapStayAP HeapStayJAP PropHeap PropBulk.
Import ListNotations.
Open Scope N_scope.
#[local] Existing Instance exE | 100.

(** * C48 *)

(** find answers with the address of the entry ([b]).  A successful insert leaves
    every other entry at its address, unless it replaces an entry with the same
    hash. *)
Theorem C48_insert : forall (E : Env) K V R (KK : Key K) (rdef : R) (rd : R -> R -> R) Q Q' (KQ : Key Q) (KQ' : Key Q') (cs : list (hcall K V R)) (h : heap K V) vs
    i n (into : Q -> K) q v replace n' a prev h' (q' : Q') b,
  lawful rdef rd [] [] cs h vs -> nth_error vs i = Some n -> cls (into q) = cls q ->
  hm_insert into h n q v replace = Ret (Ok (n', a, prev), h') -> hm_find h n q' = Ret (Ok b) ->
  hashk q' <> hashk q \/ prev = None -> hm_find h' n' q' = Ret (Ok b).
Proof. intros E K V R KK rdef rd Q Q' KQ KQ'. exact (insert_found rdef rd). Qed.
Print Assumptions C48_insert.
Theorem C48_remove : forall (E : Env) K V R (KK : Key K) (rdef : R) (rd : R -> R -> R) Q Q' (KQ : Key Q) (KQ' : Key Q') (cs : list (hcall K V R)) (h : heap K V) vs
    i n (q : Q) n' a h' (q' : Q') b,
  lawful rdef rd [] [] cs h vs -> nth_error vs i = Some n -> hm_remove h n q = Ret (Ok (n', a), h') ->
  hm_find h n q' = Ret (Ok b) -> hashk q' <> hashk q -> hm_find h' n' q' = Ret (Ok b).
Proof. intros E K V R KK rdef rd Q Q' KQ KQ'. exact (remove_found rdef rd). Qed.
Print Assumptions C48_remove.
(** transform leaves an entry in place if it changes and drops none with the hash
    of it. *)
Theorem C48_transform : forall (E : Env) K V R (KK : Key K) (rdef : R) (rd : R -> R -> R) Q (KQ : Key Q) (cs : list (hcall K V R)) (h : heap K V) vs
    i n st (op : transform_op (K * V) V R) n' r h' (q : Q) b l,
  lawful rdef rd [] [] cs h vs -> nth_error vs i = Some n -> hm_transform rdef rd st op h n = Ret (n', r, h') ->
  hm_find h n q = Ret (Ok b) -> hm_visit h n = Ret l -> (forall e, In e (touched op l) -> hash (cls (fst e)) <> hashk q) ->
  hm_find h' n' q = Ret (Ok b).
Proof. intros E K V R KK rdef rd Q KQ. exact (transform_found rdef rd). Qed.
Print Assumptions C48_transform.
(** And it keeps every part of the structure (a branch, a list, the rest of a
    list, a leaf) whose entries it all leaves as they are. *)
Theorem C48_kept : forall (E : Env) K V R (KK : Key K) (rdef : R) (rd : R -> R -> R) (cs : list (hcall K V R)) (h : heap K V) vs
    i n st (op : transform_op (K * V) V R) n' r h' c l,
  lawful rdef rd [] [] cs h vs -> nth_error vs i = Some n -> hm_transform rdef rd st op h n = Ret (n', r, h') ->
  below h n c -> hm_visit h c = Ret l -> l <> [] -> touched op l = [] -> below h' n' c.
Proof. intros E K V R KK. exact transform_kept. Qed.
Print Assumptions C48_kept.

(** The map [HC 10] holds a list of 2, 1 and 0 and, beside it, 128. *)
Example C48_insert_ex : lawful (E := exE) 0 N.add [] [] ex_h1 ex_hp ex_vs /\ nth_error ex_vs 4 = Some (HC 10%nat) /\
  hm_find ex_hp (HC 10%nat) (Num 128) = Ret (Ok 5%nat) /\ hm_find ex_hp (HC 10%nat) (Num 1) = Ret (Ok 3%nat) /\
  (exists n' a h', hm_insert num_into ex_hp (HC 10%nat) (Num 1) 5 true = Ret (Ok (n', a, Some 3%nat), h') /\
     hashk (Num 128) <> hashk (Num 1) /\ hm_find h' n' (Num 128) = Ret (Ok 5%nat)) /\
  (exists n' a h', hm_insert num_into ex_hp (HC 10%nat) (Num 3) 5 false = Ret (Ok (n', a, None), h') /\
     hashk (Num 1) = hashk (Num 3) /\ hm_find h' n' (Num 1) = Ret (Ok 3%nat)).
Proof.
  split; [exact ex_law1|]. split; [reflexivity|]. split; [vm_compute; reflexivity|]. split; [vm_compute; reflexivity|]. split.
  - do 3 eexists. split; [vm_compute; reflexivity|]. split; [vm_compute; discriminate|vm_compute; reflexivity].
  - do 3 eexists. split; [vm_compute; reflexivity|]. split; vm_compute; reflexivity.
Qed.
Example C48_remove_ex : lawful (E := exE) 0 N.add [] [] ex_h1 ex_hp ex_vs /\ nth_error ex_vs 4 = Some (HC 10%nat) /\
  hm_find ex_hp (HC 10%nat) (Num 2) = Ret (Ok 8%nat) /\
  (exists n' h', hm_remove ex_hp (HC 10%nat) (Num 128) = Ret (Ok (n', 5%nat), h') /\ hashk (Num 2) <> hashk (Num 128) /\
     hm_find h' n' (Num 2) = Ret (Ok 8%nat)).
Proof.
  split; [exact ex_law1|]. split; [reflexivity|]. split; [vm_compute; reflexivity|]. do 2 eexists. split; [vm_compute; reflexivity|].
  split; [vm_compute; discriminate|vm_compute; reflexivity].
Qed.
(** A transform that changes the first entry of the list: 128 stays, and so does
    the rest of the list. *)
Definition ex_up : transform_op (key * N) N N := TGeneric (fun e => if snd e =? 13 then VTransformed 99 1 else VUnchanged 1).
Example C48_transform_ex : lawful (E := exE) 0 N.add [] [] ex_h1 ex_hp ex_vs /\ nth_error ex_vs 4 = Some (HC 10%nat) /\
  hm_find ex_hp (HC 10%nat) (Num 128) = Ret (Ok 5%nat) /\
  (exists l, hm_visit ex_hp (HC 10%nat) = Ret l /\ touched ex_up l = [((2, 0), 13)] /\
     (forall e, In e (touched ex_up l) -> hash (cls (fst e)) <> hashk (Num 128))) /\
  (exists n' h', hm_transform 0 N.add Sequential ex_up ex_hp (HC 10%nat) = Ret (n', 4, h') /\ n' <> HC 10%nat /\
     hm_find h' n' (Num 128) = Ret (Ok 5%nat)).
Proof.
  split; [exact ex_law1|]. split; [reflexivity|]. split; [vm_compute; reflexivity|]. split.
  - eexists. split; [vm_compute; reflexivity|]. split; [vm_compute; reflexivity|]. intros e [<-|[]]. vm_compute. discriminate.
  - do 2 eexists. split; [vm_compute; reflexivity|]. split; [discriminate|vm_compute; reflexivity].
Qed.
Example C48_kept_ex : lawful (E := exE) 0 N.add [] [] ex_h1 ex_hp ex_vs /\ nth_error ex_vs 4 = Some (HC 10%nat) /\
  below ex_hp (HC 10%nat) (HL 3%nat) /\ hm_visit ex_hp (HL 3%nat) = Ret [((1, 0), 11); ((0, 0), 10)] /\ touched ex_up [((1, 0), 11); ((0, 0), 10)] = [] /\
  (exists n' h', hm_transform 0 N.add Sequential ex_up ex_hp (HC 10%nat) = Ret (n', 4, h')).
Proof.
  split; [exact ex_law1|]. split; [reflexivity|]. split.
  - eapply be_C; [reflexivity|left; reflexivity|]. eapply be_C; [reflexivity|left; reflexivity|]. eapply be_L; [reflexivity|]. apply be_self.
  - split; [vm_compute; reflexivity|]. split; [reflexivity|]. do 2 eexists. vm_compute. reflexivity.
Qed.

(** * The joint operations *)
(** An entry of one map stays at its address if the other map has no entry with
    the hash of it and no entry with this hash is changed or dropped. *)
Theorem C48_tt_left : forall (E : Env) K V R (KK : Key K) (rdef : R) (rd : R -> R -> R) Q (KQ : Key Q) (cs : list (hcall K V R)) (h : heap K V) vs
    i j n m st both lop rop n' r h' (q : Q) b l l',
  lawful rdef rd [] [] cs h vs -> nth_error vs i = Some n -> nth_error vs j = Some m -> hm_tt rdef rd st both lop rop h n m = Ret (n', r, h') ->
  hm_visit h n = Ret l -> hm_visit h m = Ret l' -> tame both lop rop l l' -> hm_find h n q = Ret (Ok b) ->
  (forall e, In e (touched lop l ++ l') -> hash (cls (fst e)) <> hashk q) -> hm_find h' n' q = Ret (Ok b).
Proof. intros E K V R KK rdef rd Q KQ. exact (tt_left_found rdef rd). Qed.
Print Assumptions C48_tt_left.
Theorem C48_tt_right : forall (E : Env) K V R (KK : Key K) (rdef : R) (rd : R -> R -> R) Q (KQ : Key Q) (cs : list (hcall K V R)) (h : heap K V) vs
    i j n m st both lop rop n' r h' (q : Q) b l l',
  lawful rdef rd [] [] cs h vs -> nth_error vs i = Some n -> nth_error vs j = Some m -> hm_tt rdef rd st both lop rop h n m = Ret (n', r, h') ->
  hm_visit h n = Ret l -> hm_visit h m = Ret l' -> tame both lop rop l l' -> hm_find h m q = Ret (Ok b) ->
  (forall e, In e (l ++ touched rop l') -> hash (cls (fst e)) <> hashk q) -> hm_find h' n' q = Ret (Ok b).
Proof. intros E K V R KK rdef rd Q KQ. exact (tt_right_found rdef rd). Qed.
Print Assumptions C48_tt_right.
Theorem C48_tm : forall (E : Env) K V R (KK : Key K) (rdef : R) (rd : R -> R -> R) Q (KQ : Key Q) L W (KL : Key L) (cs : list (hcall K V R)) (h : heap K V) vs
    i n (cs' : list (hcall L W R)) hr vs' j m st both lop rop n' r h' (q : Q) b l l',
  lawful rdef rd [] [] cs h vs -> nth_error vs i = Some n -> lawful rdef rd [] [] cs' hr vs' -> nth_error vs' j = Some m ->
  hm_tm rdef rd st both lop rop h n hr m = Ret (n', r, h') ->
  hm_visit h n = Ret l -> hm_visit hr m = Ret l' -> m_keeps (mcall rop) l' -> hm_find h n q = Ret (Ok b) ->
  (forall e, In e (touched lop l) -> hash (cls (fst e)) <> hashk q) -> (forall e, In e l' -> hash (cls (fst e)) <> hashk q) -> hm_find h' n' q = Ret (Ok b).
Proof. intros E K V R KK rdef rd Q KQ L W KL. exact (tm_found rdef rd). Qed.
Print Assumptions C48_tm.
Theorem C48_mt : forall (E : Env) K V R (KK : Key K) (rdef : R) (rd : R -> R -> R) Q (KQ : Key Q) L W (KL : Key L) (cs : list (hcall L W R)) hl vs
    i n (cs' : list (hcall K V R)) (h : heap K V) vs' j m st both lop rop n' r h' (q : Q) b l l',
  lawful rdef rd [] [] cs hl vs -> nth_error vs i = Some n -> lawful rdef rd [] [] cs' h vs' -> nth_error vs' j = Some m ->
  hm_mt rdef rd st both lop rop hl n h m = Ret (n', r, h') ->
  hm_visit hl n = Ret l -> hm_visit h m = Ret l' -> m_keeps (mcall lop) l -> hm_find h m q = Ret (Ok b) ->
  (forall e, In e l -> hash (cls (fst e)) <> hashk q) -> (forall e, In e (touched rop l') -> hash (cls (fst e)) <> hashk q) -> hm_find h' n' q = Ret (Ok b).
Proof. intros E K V R KK rdef rd Q KQ L W KL. exact (mt_found rdef rd). Qed.
Print Assumptions C48_mt.

(** Every list, rest of a list and leaf stays in place, without a contract, if its
    entries are all left as they are and their hash does not occur in the other
    map. *)
Theorem C48_kept_tt_left : forall (E : Env) K V R (KK : Key K) (rdef : R) (rd : R -> R -> R) (cs : list (hcall K V R)) (h : heap K V) vs
    i j n m st both lop rop n' r h' c lc l',
  lawful rdef rd [] [] cs h vs -> nth_error vs i = Some n -> nth_error vs j = Some m -> hm_tt rdef rd st both lop rop h n m = Ret (n', r, h') ->
  below h n c -> (forall a, c <> HC a) -> hm_visit h c = Ret lc -> hm_visit h m = Ret l' -> lc <> [] -> touched lop lc = [] ->
  (forall e e', In e lc -> In e' l' -> hash (cls (fst e)) <> hash (cls (fst e'))) -> below h' n' c.
Proof. intros E K V R KK. exact tt_left_kept. Qed.
Print Assumptions C48_kept_tt_left.
Theorem C48_kept_tt_right : forall (E : Env) K V R (KK : Key K) (rdef : R) (rd : R -> R -> R) (cs : list (hcall K V R)) (h : heap K V) vs
    i j n m st both lop rop n' r h' c lc l,
  lawful rdef rd [] [] cs h vs -> nth_error vs i = Some n -> nth_error vs j = Some m -> hm_tt rdef rd st both lop rop h n m = Ret (n', r, h') ->
  below h m c -> (forall a, c <> HC a) -> hm_visit h c = Ret lc -> hm_visit h n = Ret l -> lc <> [] -> touched rop lc = [] ->
  (forall e e', In e lc -> In e' l -> hash (cls (fst e)) <> hash (cls (fst e'))) -> below h' n' c.
Proof. intros E K V R KK. exact tt_right_kept. Qed.
Print Assumptions C48_kept_tt_right.
Theorem C48_kept_tm : forall (E : Env) K V R (KK : Key K) (rdef : R) (rd : R -> R -> R) L W (KL : Key L) (cs : list (hcall K V R)) (h : heap K V) vs
    i n (cs' : list (hcall L W R)) hr vs' j m st both lop rop n' r h' c lc l',
  lawful rdef rd [] [] cs h vs -> nth_error vs i = Some n -> lawful rdef rd [] [] cs' hr vs' -> nth_error vs' j = Some m ->
  hm_tm rdef rd st both lop rop h n hr m = Ret (n', r, h') ->
  below h n c -> (forall a, c <> HC a) -> hm_visit h c = Ret lc -> hm_visit hr m = Ret l' -> lc <> [] -> touched lop lc = [] ->
  (forall e e', In e lc -> In e' l' -> hash (cls (fst e)) <> hash (cls (fst e'))) -> below h' n' c.
Proof. intros E K V R KK rdef rd L W KL. exact (tm_kept rdef rd). Qed.
Print Assumptions C48_kept_tm.
Theorem C48_kept_mt : forall (E : Env) K V R (KK : Key K) (rdef : R) (rd : R -> R -> R) L W (KL : Key L) (cs : list (hcall L W R)) hl vs
    i n (cs' : list (hcall K V R)) (h : heap K V) vs' j m st both lop rop n' r h' c lc l,
  lawful rdef rd [] [] cs hl vs -> nth_error vs i = Some n -> lawful rdef rd [] [] cs' h vs' -> nth_error vs' j = Some m ->
  hm_mt rdef rd st both lop rop hl n h m = Ret (n', r, h') ->
  below h m c -> (forall a, c <> HC a) -> hm_visit h c = Ret lc -> hm_visit hl n = Ret l -> lc <> [] -> touched rop lc = [] ->
  (forall e e', In e lc -> In e' l -> hash (cls (fst e)) <> hash (cls (fst e'))) -> below h' n' c.
Proof. intros E K V R KK rdef rd L W KL. exact (mt_kept rdef rd). Qed.
Print Assumptions C48_kept_mt.

(** The map [HC 4] holds 1 and 0: the joint operation with it rebuilds the list,
    and 128 stays. *)
Definition ex_sum : joint_op (key * N) N N := JGeneric (fun e e' => BTransformed (snd e + snd e') 1) false.
Example C48_tt_ex : lawful (E := exE) 0 N.add [] [] ex_h1 ex_hp ex_vs /\ nth_error ex_vs 4 = Some (HC 10%nat) /\ nth_error ex_vs 2 = Some (HC 4%nat) /\
  (exists n' h', hm_tt 0 N.add Sequential ex_sum (TUnchanged 0) (TUnchanged 0) ex_hp (HC 10%nat) (HC 4%nat) = Ret (n', 2, h') /\ n' <> HC 10%nat /\
     hm_find h' n' (Num 128) = Ret (Ok 5%nat)) /\
  (exists n' h', hm_tt 0 N.add MiddleIndex ex_sum (TUnchanged 0) (TUnchanged 0) ex_hp (HC 4%nat) (HC 10%nat) = Ret (n', 2, h') /\ n' <> HC 10%nat /\
     hm_find h' n' (Num 128) = Ret (Ok 5%nat)) /\
  exists l l', hm_visit ex_hp (HC 10%nat) = Ret l /\ hm_visit ex_hp (HC 4%nat) = Ret l' /\
    tame (E := exE) ex_sum (TUnchanged 0) (TUnchanged 0) l l' /\ tame (E := exE) ex_sum (TUnchanged 0) (TUnchanged 0) l' l /\
    hm_find ex_hp (HC 10%nat) (Num 128) = Ret (Ok 5%nat) /\ (forall e, In e (touched (V := N) (R := N) (TUnchanged 0) l ++ l') -> hash (cls (fst e)) <> hashk (Num 128)).
Proof.
  split; [exact ex_law1|]. split; [reflexivity|]. split; [reflexivity|]. split.
  { do 2 eexists. split; [vm_compute; reflexivity|]. split; [discriminate|vm_compute; reflexivity]. }
  split. { do 2 eexists. split; [vm_compute; reflexivity|]. split; [discriminate|vm_compute; reflexivity]. }
  do 2 eexists. split; [vm_compute; reflexivity|]. split; [vm_compute; reflexivity|].
  assert (Ht : forall l l', tame (E := exE) ex_sum (TUnchanged 0) (TUnchanged 0) l l').
  { intros l l'. split; intros x _; (split; [intros _ e e' _ H; exact H|]); intros _; (split; [intros e e' e1 _ H; destruct H|intros e' e1 e2 _ _ _ _ _ H; exact H]). }
  split; [apply Ht|]. split; [apply Ht|]. split; [vm_compute; reflexivity|]. intros e He. vm_compute in He.
  destruct He as [<-|[<-|[]]]; vm_compute; discriminate.
Qed.
Example C48_tm_ex : lawful (E := exE) 0 N.add [] [] ex_h1 ex_hp ex_vs /\ nth_error ex_vs 4 = Some (HC 10%nat) /\
  lawful (E := exE) 0 N.add [] [] ex_h9 ex_hp9 ex_vs9 /\ nth_error ex_vs9 1 = Some (HC 2%nat) /\
  (exists n' h', hm_tm 0 N.add Sequential (TGeneric (fun p : (key * N) * (num * N) => VTransformed 9 1)) (TUnchanged 0)
     (MGeneric (fun e : num * N => KTransmuted (num_n (fst e), 7) (snd e) 1)) ex_hp (HC 10%nat) ex_hp9 (HC 2%nat) = Ret (n', 1, h') /\ n' <> HC 10%nat /\
     hm_find h' n' (Num 128) = Ret (Ok 5%nat)) /\
  (exists n' h', hm_mt 0 N.add Sequential (TGeneric (fun p : (num * N) * (key * N) => VTransformed 9 1))
     (MGeneric (fun e : num * N => KTransmuted (num_n (fst e), 7) (snd e) 1)) (TUnchanged 0) ex_hp9 (HC 2%nat) ex_hp (HC 10%nat) = Ret (n', 1, h') /\ n' <> HC 10%nat /\
     hm_find h' n' (Num 128) = Ret (Ok 5%nat)) /\
  exists l l', hm_visit ex_hp (HC 10%nat) = Ret l /\ hm_visit ex_hp9 (HC 2%nat) = Ret l' /\
    m_keeps (E := exE) (mcall (MGeneric (fun e : num * N => KTransmuted (num_n (fst e), 7) (snd e) 1))) l' /\
    hm_find ex_hp (HC 10%nat) (Num 128) = Ret (Ok 5%nat) /\ (forall e, In e l' -> hash (cls (fst e)) <> hashk (Num 128)).
Proof.
  split; [exact ex_law1|]. split; [reflexivity|]. split; [exact ex_law9|]. split; [reflexivity|]. split.
  { do 2 eexists. split; [vm_compute; reflexivity|]. split; [discriminate|vm_compute; reflexivity]. }
  split. { do 2 eexists. split; [vm_compute; reflexivity|]. split; [discriminate|vm_compute; reflexivity]. }
  do 2 eexists. split; [vm_compute; reflexivity|]. split; [vm_compute; reflexivity|]. split.
  { intros e k v r _ H. inversion H. reflexivity. }
  split; [vm_compute; reflexivity|]. intros e He. vm_compute in He. destruct He as [<-|[]]; vm_compute; discriminate.
Qed.
Example C48_kept_tt_ex : lawful (E := exE) 0 N.add [] [] ex_h1 ex_hp ex_vs /\ nth_error ex_vs 4 = Some (HC 10%nat) /\ nth_error ex_vs 2 = Some (HC 4%nat) /\
  below ex_hp (HC 10%nat) (HS 5%nat) /\ hm_visit ex_hp (HS 5%nat) = Ret [((128, 0), 12)] /\
  exists l', hm_visit ex_hp (HC 4%nat) = Ret l' /\
    (forall e e', In e [((128, 0), 12)] -> In e' l' -> hash (cls (fst e)) <> hash (cls (fst e'))).
Proof.
  split; [exact ex_law1|]. split; [reflexivity|]. split; [reflexivity|]. split.
  - eapply be_C; [reflexivity|left; reflexivity|]. eapply be_C; [reflexivity|right; left; reflexivity|]. apply be_self.
  - split; [reflexivity|]. eexists. split; [vm_compute; reflexivity|]. intros e e' [<-|[]] He. destruct He as [<-|[<-|[]]]; vm_compute; discriminate.
Qed.

(** The condition on the hash is needed: a removal from a list moves the entries
    in front of the removed one. *)
Theorem C48_one_hash_refuted : exists (E : Env) K V R (KK : Key K) (rdef : R) (rd : R -> R -> R) (cs : list (hcall K V R)) (h : heap K V) vs i n
    (q q' : K) n' a h' b b',
  lawful rdef rd [] [] cs h vs /\ nth_error vs i = Some n /\ hm_remove h n q = Ret (Ok (n', a), h') /\ cls q' <> cls q /\
  hm_find h n q' = Ret (Ok b) /\ hm_find h' n' q' = Ret (Ok b') /\ b' <> b.
Proof.
  exists exE, key, N, N, _, 0, N.add, ex_h1, ex_hp, ex_vs, 4%nat, (HC 10%nat), (1, 0), (2, 0). do 5 eexists. split; [exact ex_law1|].
  split; [reflexivity|]. split; [vm_compute; reflexivity|]. split; [vm_compute; discriminate|]. split; [vm_compute; reflexivity|].
  split; [vm_compute; reflexivity|discriminate].
Qed.
Print Assumptions C48_one_hash_refuted.

(** Likewise for the joint operations: an entry whose key is not in the other map
    and which the operation leaves as it is moves if the hash is shared. *)
Theorem C48_tt_one_hash_refuted : exists (E : Env) K V R (KK : Key K) (rdef : R) (rd : R -> R -> R) (cs : list (hcall K V R)) (h : heap K V) vs i j n m
    st both lop rop (q : K) n' r h' b b' l l',
  lawful rdef rd [] [] cs h vs /\ nth_error vs i = Some n /\ nth_error vs j = Some m /\ hm_tt rdef rd st both lop rop h n m = Ret (n', r, h') /\
  hm_visit h n = Ret l /\ hm_visit h m = Ret l' /\ tame both lop rop l l' /\ (forall e, In e (touched lop l ++ l') -> cls (fst e) <> cls q) /\
  hm_find h n q = Ret (Ok b) /\ hm_find h' n' q = Ret (Ok b') /\ b' <> b.
Proof.
  exists exE, key, N, N, _, 0, N.add, ex_h1, ex_hp, ex_vs, 4%nat, 2%nat, (HC 10%nat), (HC 4%nat), Sequential, ex_sum, (TUnchanged 0), (TUnchanged 0), (2, 0).
  do 7 eexists. split; [exact ex_law1|].
  split; [reflexivity|]. split; [reflexivity|]. split; [vm_compute; reflexivity|]. split; [vm_compute; reflexivity|]. split; [vm_compute; reflexivity|].
  split. { split; intros x _; (split; [intros _ e e' _ H; exact H|]); intros _; (split; [intros e e' e1 _ H; destruct H|intros e' e1 e2 _ _ _ _ _ H; exact H]). }
  split. { intros e He. destruct He as [<-|[<-|[]]]; vm_compute; discriminate. }
  split; [vm_compute; reflexivity|]. split; [vm_compute; reflexivity|discriminate].
Qed.
Print Assumptions C48_tt_one_hash_refuted.
