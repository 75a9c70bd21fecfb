(** Property C49: arrays are built without undefined behaviour. *)
From Coq Require Import NArith List Lia.
From Verif Require Import Base Words WordLaws Bia Node Api Built BuiltP Ex Raw RawP PropJointT.
Import ListNotations.
Open Scope N_scope.
#[local] Existing Instance exE | 100.

(** * C49 *)

(** Building an array from a slice: it is refused exactly when the word has not as
    many bits as there are values; otherwise every slot is written, and the bit
    [i] reads the value that has as many before it as there are bits below [i]. *)
Theorem C49_new : forall A w bits (l : list A) extra, bits < 2 ^ max_ones w ->
  match new_raw bits (VVec l) extra with
  | RRet (Ok b) => count_ones bits = lenN l /\ bextra b = extra /\
      forall i, bat b (2 ^ i) = if N.testbit bits i then match nthN l (ones_below bits i) with Some a => Ok a | None => Err BRange end else Err BNotFound
  | RRet (Err _) => count_ones bits <> lenN l
  | _ => False
  end.
Proof. intros A. exact raw_new_reads. Qed.
Print Assumptions C49_new.
(** The three ways to make one array from another, for every array there is: no
    panic, no slot left out, and the other bits read what they read. *)
Theorem C49_inserted : forall A w (b : bia A) i a extra, made w b -> i < max_ones w ->
  match bat b (2 ^ i) with
  | Ok _ => raw_inserted b (2 ^ i) a extra = RRet (Err BFound)
  | Err _ => exists b', raw_inserted b (2 ^ i) a extra = RRet (Ok b') /\ bextra b' = extra /\
      forall j, bat b' (2 ^ j) = if i =? j then Ok a else bat b (2 ^ j)
  end.
Proof. intros A. exact raw_inserted_reads. Qed.
Print Assumptions C49_inserted.
Theorem C49_updated : forall A w (b : bia A) i a extra, made w b ->
  match bat b (2 ^ i) with
  | Err _ => raw_updated b (2 ^ i) a extra = RRet (Err BNotFound)
  | Ok _ => exists b', raw_updated b (2 ^ i) a extra = RRet (Ok b') /\ bextra b' = extra /\
      forall j, bat b' (2 ^ j) = if i =? j then Ok a else bat b (2 ^ j)
  end.
Proof. intros A. exact raw_updated_reads. Qed.
Print Assumptions C49_updated.
Theorem C49_removed : forall A w (b : bia A) i extra, made w b ->
  match bat b (2 ^ i) with
  | Err _ => raw_removed b (2 ^ i) extra = RRet (Err BNotFound)
  | Ok _ => exists b', raw_removed b (2 ^ i) extra = RRet (Ok b') /\ bextra b' = extra /\
      forall j, bat b' (2 ^ j) = if i =? j then Err BNotFound else bat b (2 ^ j)
  end.
Proof. intros A. exact raw_removed_reads. Qed.
Print Assumptions C49_removed.
(** The array functions of the rest of the model (Bia.v) are these, for any
    argument [bit], also one that is not a single bit. *)
Theorem C49_model : forall A w (b : bia A) bit a extra, made w b ->
  raw_inserted b bit a extra = RRet (binserted b bit a extra) /\
  raw_updated b bit a extra = RRet (bupdated b bit a extra) /\
  raw_removed b bit extra = RRet (bremoved b bit extra).
Proof. intros A. exact raw_defined. Qed.
Print Assumptions C49_model.
Theorem C49_model_new : forall A bits (l : list A) extra, new_raw bits (VVec l) extra = RRet (new_bia bits l extra).
Proof. intros A. exact raw_vec. Qed.
Print Assumptions C49_model_new.
(** Every branch of every map a client can build has such an array. *)
Theorem C49_built : forall (E : Env) K V (KK : Key K) (m : trie K V) b, built m -> array_in m b -> made fw b.
Proof. intros E K V KK. exact built_array. Qed.
Print Assumptions C49_built.
(** For an array whose word and values disagree this would not hold: [removed]
    panics. *)
Theorem C49_any_array_refuted : exists (b : bia N) bit extra, raw_removed b bit extra = RPanic.
Proof. exists (BIA 1 [] 0), 1, 0. vm_compute. reflexivity. Qed.
Print Assumptions C49_any_array_refuted.

Example C49_ex :
  let b := BIA 37 [10; 20; 30] 7 in
  made W8 b /\ new_raw 37 (VVec [10; 20; 30]) 7 = RRet (Ok b) /\
  raw_inserted b 8 25 8 = RRet (Ok (BIA 45 [10; 20; 25; 30] 8)) /\
  raw_inserted b 4 25 8 = RRet (Err BFound) /\
  raw_updated b 4 25 8 = RRet (Ok (BIA 37 [10; 25; 30] 8)) /\
  raw_updated b 2 25 8 = RRet (Err BNotFound) /\
  raw_removed b 4 8 = RRet (Ok (BIA 33 [10; 30] 8)) /\
  raw_removed b 12 8 = RRet (Err CountNotEqualToOne) /\
  new_raw 37 (VVec [10; 20]) 7 = RRet (Err CountNotEqualToOne).
Proof.
  cbv zeta. split.
  - apply (made_new W8 37 [10; 20; 30] 7); [vm_compute; reflexivity|]. vm_compute. reflexivity.
  - vm_compute. repeat split.
Qed.
Example C49_built_ex : built (E := exE) ex_t /\ exists b, array_in ex_t b /\ made fw b /\ length (bvalues b) = 3%nat.
Proof.
  split; [exact (reachable_built _ ex_t_reach)|]. destruct ex_t as [b| |] eqn:He; [|vm_compute in He; discriminate..].
  exists b. split; [constructor|]. split.
  - apply (built_array (E := exE) ex_t); [exact (reachable_built _ ex_t_reach)|]. rewrite He. constructor.
  - vm_compute in He. injection He as <-. reflexivity.
Qed.
