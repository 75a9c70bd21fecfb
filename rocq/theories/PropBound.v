(** C47: what the bulk operations allocate. *)
From Coq Require Import NArith Arith List Bool Lia Permutation.
From Verif Require Import Base Words Flag Bia Node Api Spec Trans Transform SpecT Joint JointT Reach ReachP Versions Hist Ex
  Heap SpecH SpecB HeapHist HeapHistP HeapBulk HeapBoundAP PropHeap PropVersions PropBulk.
Import ListNotations.
Open Scope N_scope.

#[local] Existing Instance exE | 100.

(** In all of these [b] is at most the number of levels of branches a hash word
    has room for: [b] chunks of the hash overlap the word.  [rivals] counts the
    entries with the hash of the key. *)

(** transform allocates at most, for each entry it changes or drops, the path
    from the root to it and the list it is in, and one empty root; nothing if it
    changes nothing; and if it is told to drop all of the map, one cell,
    whatever the size. *)
Theorem C47_transform : forall (E : Env) K V (KK : Key K) R (rdef : R) (rd : R -> R -> R) (cs : list (hcall K V R)) (h : heap K V) vs i n st op n' r h',
  lawful rdef rd [] [] cs h vs -> nth_error vs i = Some n -> hm_transform rdef rd st op h n = Ret (n', r, h') ->
  exists l b, hm_visit h n = Ret l /\ N.of_nat b * log_b fw < max_ones hw + log_b fw /\
  (length h' <= length h + 1 + total (fun e => b + rivals (fst e) l) (touched op l))%nat /\
  (touched op l = [] -> l <> [] -> h' = h) /\
  (forall x, op = TRemoved x -> length h' = S (length h)).
Proof. intros E K V KK R. exact transform_bound. Qed.
Print Assumptions C47_transform.
(** One of four entries is changed, in a list of three: four cells. *)
Example C47_transform_ex : lawful (E := exE) 0 N.add [] [] ex_h1 ex_hp ex_vs /\ nth_error ex_vs 4 = Some (HC 10%nat) /\
  let op := TGeneric (fun e => if snd e =? 11 then VTransformed 21 1 else VUnchanged 0) in
  hm_transform 0 N.add Sequential op ex_hp (HC 10%nat) = Ret (HC 14%nat, 1, ex_hp ++ [CellL (1, 0) 21 (XS 1%nat) 2; CellL (2, 0) 13 (XL 11%nat) 3;
      CellC (BIA 3 [HL 12%nat; HS 5%nat] 4); CellC (BIA 1 [HC 13%nat] 4)]) /\
  touched op [(2, 0, 13); (1, 0, 11); (0, 0, 10); (128, 0, 12)] = [(1, 0, 11)] /\
  hm_transform 0 N.add Sequential (TRemoved 3) ex_hp (HC 10%nat) = Ret (HC 11%nat, 3, ex_hp ++ [CellC (BIA 0 [] 0)]).
Proof. split; [exact ex_law1|]. vm_compute. auto. Qed.

(** transmute allocates a new map, not much more than its entries need. *)
Theorem C47_transmute : forall (E : Env) K V R (KK : Key K) (rdef : R) (rd : R -> R -> R) (cs : list (hcall K V R)) (h : heap K V) vs
    i n, lawful rdef rd [] [] cs h vs -> nth_error vs i = Some n ->
  forall S X (op : transmute_op (K * V) S X R) (w : heap S X) n' r w', hm_transmute rdef rd op h n w = Ret (n', r, w') ->
  exists l b, hm_visit h n = Ret l /\ N.of_nat b * log_b fw < max_ones hw + log_b fw /\
  (length w' <= length w + 2 + total (fun e => b + rivals (fst e) l) l)%nat.
Proof. intros E K V R KK. exact transmute_bound. Qed.
Print Assumptions C47_transmute.
Example C47_transmute_ex : lawful (E := exE) 0 N.add [] [] ex_h1 ex_hp ex_vs /\ nth_error ex_vs 3 = Some (HC 7%nat) /\
  exists w', hm_transmute 0 N.add (MGeneric (fun e : key * N => KTransmuted (Num (fst (fst e))) (snd e =? 11) 1)) ex_hp (HC 7%nat) [CellS (Num 3) true] =
    Ret (HC 5%nat, 3, w') /\ length w' = 6%nat.
Proof. split; [exact ex_law1|]. split; [reflexivity|]. eexists. split; vm_compute; reflexivity. Qed.

(** transform_with_transformed allocates in proportion to either of its maps
    and the entries of the other that are changed: with the smaller of the two,
    when the rest of the larger is left as it is. *)
Theorem C47_tt : forall (E : Env) K V (KK : Key K) R (rdef : R) (rd : R -> R -> R) (cs : list (hcall K V R)) (h : heap K V) vs i j n m st
    both lop rop n' r h',
  lawful rdef rd [] [] cs h vs -> nth_error vs i = Some n -> nth_error vs j = Some m -> hm_tt rdef rd st both lop rop h n m = Ret (n', r, h') ->
  exists l l' b, hm_visit h n = Ret l /\ hm_visit h m = Ret l' /\ N.of_nat b * log_b fw < max_ones hw + log_b fw /\
  let price := fun e : K * V => (b + 2 * (rivals (fst e) l + rivals (fst e) l'))%nat in
  (length h' <= length h + 2 + total price (touched lop l) + total price l')%nat /\
  (length h' <= length h + 2 + total price l + total price (touched rop l'))%nat.
Proof. intros E K V KK R. exact tt_bound. Qed.
Print Assumptions C47_tt.
Example C47_tt_ex : lawful (E := exE) 0 N.add [] [] ex_h1 ex_hp ex_vs /\ nth_error ex_vs 4 = Some (HC 10%nat) /\ nth_error ex_vs 2 = Some (HC 4%nat) /\
  exists h', hm_tt 0 N.add Sequential (JGeneric (fun e e' => BTransformed (snd e + snd e') 1) false) (TUnchanged 0) (TUnchanged 0) ex_hp (HC 10%nat) (HC 4%nat) =
    Ret (HC 16%nat, 2, h') /\ length h' = (length ex_hp + 6)%nat /\
  touched (V := N) (TUnchanged 0) [(2, 0, 13); (1, 0, 11); (0, 0, 10); (128, 0, 12)] = [].
Proof. split; [exact ex_law1|]. split; [reflexivity|]. split; [reflexivity|]. eexists. split; [vm_compute; reflexivity|]. split; vm_compute; reflexivity. Qed.

(** transform_with_transmuted: the entries of the right map, and those of the
    left that are changed. *)
Theorem C47_tm : forall (E : Env) K V L W R (KK : Key K) (KL : Key L) (rdef : R) (rd : R -> R -> R) (cs : list (hcall K V R)) (h : heap K V) vs
    i n, lawful rdef rd [] [] cs h vs -> nth_error vs i = Some n ->
  forall (cs' : list (hcall L W R)) (hr : heap L W) vs' j m, lawful rdef rd [] [] cs' hr vs' -> nth_error vs' j = Some m ->
  forall st both lop rop n' r h', hm_tm rdef rd st both lop rop h n hr m = Ret (n', r, h') ->
  exists l l' b, hm_visit h n = Ret l /\ hm_visit hr m = Ret l' /\ N.of_nat b * log_b fw < max_ones hw + log_b fw /\
  (length h' <= length h + 2 + total (fun e => b + 2 * (rivals (fst e) l + rivals (fst e) l')) (touched lop l) +
    total (fun e => b + 2 * (rivals (fst e) l + rivals (fst e) l')) l')%nat.
Proof. intros E K V L W R KK KL. exact tm_bound. Qed.
Print Assumptions C47_tm.
Example C47_tm_ex : lawful (E := exE) 0 N.add [] [] ex_h1 ex_hp ex_vs /\ nth_error ex_vs 4 = Some (HC 10%nat) /\
  lawful (E := exE) 0 N.add [] [] ex_h9 ex_hp9 ex_vs9 /\ nth_error ex_vs9 3 = Some (HC 7%nat) /\
  hm_tm 0 N.add Sequential (TGeneric (fun p : (key * N) * (num * N) => VUnchanged 1)) (TUnchanged 0)
     (MGeneric (fun e : num * N => KTransmuted (num_n (fst e), 7) (snd e) 1)) ex_hp (HC 10%nat) ex_hp9 (HC 7%nat) = Ret (HC 12%nat, 3, ex_hp ++ [CellS (36, 7) 7; CellC (BIA 513 [HC 9%nat; HS 11%nat] 5)]).
Proof. split; [exact ex_law1|]. split; [reflexivity|]. split; [exact ex_law9|]. vm_compute. auto. Qed.

(** transmute_with_transformed: the entries of the left map, and those of the
    right that are changed. *)
Theorem C47_mt : forall (E : Env) K V L W R (KK : Key K) (KL : Key L) (rdef : R) (rd : R -> R -> R) (cs : list (hcall K V R)) (h : heap K V) vs
    i n, lawful rdef rd [] [] cs h vs -> nth_error vs i = Some n ->
  forall (cs' : list (hcall L W R)) (hr : heap L W) vs' j m, lawful rdef rd [] [] cs' hr vs' -> nth_error vs' j = Some m ->
  forall st both lop rop n' r h', hm_mt rdef rd st both lop rop h n hr m = Ret (n', r, h') ->
  exists l l' b, hm_visit h n = Ret l /\ hm_visit hr m = Ret l' /\ N.of_nat b * log_b fw < max_ones hw + log_b fw /\
  (length h' <= length hr + 2 + total (fun e => b + 2 * (rivals (fst e) l + rivals (fst e) l')) l +
    total (fun e => b + 2 * (rivals (fst e) l + rivals (fst e) l')) (touched rop l'))%nat.
Proof. intros E K V L W R KK KL. exact mt_bound. Qed.
Print Assumptions C47_mt.
Example C47_mt_ex : lawful (E := exE) 0 N.add [] [] ex_h9 ex_hp9 ex_vs9 /\ nth_error ex_vs9 3 = Some (HC 7%nat) /\
  lawful (E := exE) 0 N.add [] [] ex_h1 ex_hp ex_vs /\ nth_error ex_vs 4 = Some (HC 10%nat) /\
  exists h', hm_mt 0 N.add MiddleIndex (TGeneric (fun p : (num * N) * (key * N) => VTransformed (snd (fst p)) 1))
     (MGeneric (fun e : num * N => KTransmuted (num_n (fst e), 7) (snd e) 1)) (TUnchanged 0) ex_hp9 (HC 7%nat) ex_hp (HC 10%nat) = Ret (HC 16%nat, 3, h') /\
  length h' = (length ex_hp + 6)%nat.
Proof. split; [exact ex_law9|]. split; [reflexivity|]. split; [exact ex_law1|]. split; [reflexivity|]. eexists. split; vm_compute; reflexivity. Qed.

(** transmute_with_transmuted: all entries of both. *)
Theorem C47_mm : forall (E : Env) K V L W R (KK : Key K) (KL : Key L) (rdef : R) (rd : R -> R -> R) (cs : list (hcall K V R)) (h : heap K V) vs
    i n, lawful rdef rd [] [] cs h vs -> nth_error vs i = Some n ->
  forall (cs' : list (hcall L W R)) (hr : heap L W) vs' j m, lawful rdef rd [] [] cs' hr vs' -> nth_error vs' j = Some m ->
  forall S X both lop rop (w : heap S X) n' r w', hm_mm rdef rd both lop rop h n hr m w = Ret (n', r, w') ->
  exists l l' b, hm_visit h n = Ret l /\ hm_visit hr m = Ret l' /\ N.of_nat b * log_b fw < max_ones hw + log_b fw /\
  (length w' <= length w + 2 + total (fun e => b + 2 * (rivals (fst e) l + rivals (fst e) l')) l +
    total (fun e => b + 2 * (rivals (fst e) l + rivals (fst e) l')) l')%nat.
Proof. intros E K V L W R KK KL. exact mm_bound. Qed.
Print Assumptions C47_mm.
Example C47_mm_ex : lawful (E := exE) 0 N.add [] [] ex_h9 ex_hp9 ex_vs9 /\ nth_error ex_vs9 3 = Some (HC 7%nat) /\
  lawful (E := exE) 0 N.add [] [] ex_h1 ex_hp ex_vs /\ nth_error ex_vs 4 = Some (HC 10%nat) /\
  exists w', hm_mm 0 N.add (MGeneric (fun p : (num * N) * (key * N) => KTransmuted (fst (fst p)) (snd (fst p), snd (snd p)) 1))
     (MRemoved 0) (MGeneric (fun e : key * N => KTransmuted (Num (fst (fst e))) (0, snd e) 1)) ex_hp9 (HC 7%nat) ex_hp (HC 10%nat)
     [CellS (Num 3) (1, 1)] = Ret (HC 6%nat, 4, w') /\ length w' = 7%nat.
Proof. split; [exact ex_law9|]. split; [reflexivity|]. split; [exact ex_law1|]. split; [reflexivity|]. eexists. split; vm_compute; reflexivity. Qed.
