(** C15-C20, C42: transform and transmute. *)
From Coq Require Import NArith List Bool Permutation.
From Verif Require Import Base Words Flag Bia Node Api Spec Trans Transform SpecT LoopP Reach MapP TransMapP Ex.
Import ListNotations.
Open Scope N_scope.

(** For the examples only; the theorems bind their own [Env]. *)
#[local] Existing Instance exE | 100.

(** Keep even values, double values that are 3 modulo 4, remove the rest;
    log every call. *)
Definition ex_f (e : key * N) : vres N (list N) :=
  if N.even (snd e) then VUnchanged [snd e]
  else if snd e mod 4 =? 3 then VTransformed (2 * snd e) [snd e; 0]
  else VDropped [snd e; 1].

(** * C15 *)
Theorem C15_transform : forall (E : Env) K V (KK : Key K) R (rdef : R) (rd : R -> R -> R) st (op : transform_op (K * V) V R) (m : trie K V),
  reachable m ->
  exists m' r o, map_transform rdef rd st op m = Ret (m', r, o) /\ reachable m' /\
    map_visit m' = flat_map (fun e => t_entry (tcall op e) e) (map_visit m) /\
    map_size m' = N.of_nat (length (map_visit m')) /\
    (forall Q (KQ : Key Q) (q : Q), map_find m' q = found (fun e => t_entry (tcall op e) e) (map_find m q)).
Proof. intros E K V KK R. exact transform_exact. Qed.
Print Assumptions C15_transform.
Example C15_transform_ex : reachable (E := exE) ex_m /\
  exists m' r, map_transform [] (@app N) MiddleIndex (TGeneric ex_f) ex_m = Ret (m', r, Other) /\
    map_visit m' = [(2, 0, 12); (0, 0, 10); (4 * 2 ^ 60, 0, 30); (4 * 2 ^ 10, 0, 14); (36, 0, 18)] /\
    map_size m' = 5 /\ map_find m' (Num (4 * 2 ^ 5)) = Ret (Err NotFound).
Proof. split; [exact ex_reach|]. do 2 eexists. split; [vm_compute; reflexivity|]. vm_compute. auto. Qed.

(** * C16 *)
Theorem C16_reduction : forall (E : Env) K V (KK : Key K) R (rdef : R) (rd : R -> R -> R) st (f : K * V -> vres V R) (m : trie K V) m' r o,
  reachable m -> monoid rdef rd ->
  map_transform rdef rd st (TGeneric f) m = Ret (m', r, o) ->
  r = fold_right rd rdef (map (fun e => t_red (f e)) (map_visit m)).
Proof. intros E K V KK R. exact transform_reduction. Qed.
Print Assumptions C16_reduction.
(** With lists as the monoid: the reduction of each entry is there once, in
    visit order (for the calls see C51). *)
Theorem C16_calls : forall (E : Env) K V (KK : Key K) st (f : K * V -> vres V (list (K * V))) (m : trie K V) m' r o,
  reachable m -> (forall e, t_red (f e) = [e]) ->
  map_transform [] (@app (K * V)) st (TGeneric f) m = Ret (m', r, o) -> r = map_visit m.
Proof. intros E K V KK. exact transform_calls. Qed.
Print Assumptions C16_calls.
Example C16_reduction_ex : reachable (E := exE) ex_m /\ monoid [] (@app N) /\
  exists m', map_transform [] (@app N) MiddleIndex (TGeneric ex_f) ex_m =
    Ret (m', [17; 1; 12; 10; 15; 0; 14; 13; 1; 18], Other).
Proof.
  split; [exact ex_reach|]. split; [|eexists; vm_compute; reflexivity].
  split; [exact (@app_assoc N)|]. split; [reflexivity|exact (@app_nil_r N)].
Qed.

(** * C17, for transform *)
Theorem C17_strategy_transform : forall (E : Env) K V (KK : Key K) R (rdef : R) (rd : R -> R -> R) (op : transform_op (K * V) V R) (m : trie K V),
  reachable m ->
  exists m' r r' o, map_transform rdef rd Sequential op m = Ret (m', r, o) /\
    map_transform rdef rd MiddleIndex op m = Ret (m', r', o) /\ (monoid rdef rd -> r = r').
Proof. intros E K V KK R. exact transform_strategies. Qed.
Print Assumptions C17_strategy_transform.
(** A reduction that is no monoid tells the strategies apart, the map does not. *)
Example C17_strategy_transform_ex : reachable (E := exE) ex_m /\
  let op := TGeneric (fun e : key * N => VTransformed (snd e) (snd e)) in
  exists m' r r' o, map_transform 1 (fun a b => 2 * a + b) Sequential op ex_m = Ret (m', r, o) /\
    map_transform 1 (fun a b => 2 * a + b) MiddleIndex op ex_m = Ret (m', r', o) /\ r <> r'.
Proof.
  split; [exact ex_reach|]. intros op. do 4 eexists. split; [vm_compute; reflexivity|]. split; [vm_compute; reflexivity|].
  vm_compute. discriminate.
Qed.

(** * C18 *)
(** [Self] is a clone of the receiver's root, which compares equal to it. *)
Theorem C18_unchanged : forall (E : Env) K V (KK : Key K) R (rdef : R) (rd : R -> R -> R) st (f : K * V -> vres V R) (m : trie K V) m' r o,
  reachable m -> map_transform rdef rd st (TGeneric f) m = Ret (m', r, o) ->
  (o = Self <-> forall e, In e (map_visit m) -> exists x, f e = VUnchanged x) /\ (o = Self -> m' = m).
Proof. intros E K V KK R. exact transform_unchanged. Qed.
Print Assumptions C18_unchanged.
Example C18_unchanged_ex : reachable (E := exE) ex_m /\
  map_transform [] (@app N) MiddleIndex (TGeneric (fun e : key * N => VUnchanged [snd e])) ex_m =
    Ret (ex_m, [17; 12; 10; 15; 14; 13; 18], Self).
Proof. split; [exact ex_reach|]. vm_compute. reflexivity. Qed.

(** * C19, for transform and transmute *)
Theorem C19_constants_transform : forall (E : Env) K V (KK : Key K) R (rdef : R) (rd : R -> R -> R) st st' (x x' : R) (m : trie K V),
  reachable m ->
  (exists r o, map_transform rdef rd st (TUnchanged x) m = Ret (m, x, Self) /\
     map_transform rdef rd st' (TGeneric (fun _ => VUnchanged x')) m = Ret (m, r, o)) /\
  (exists r o, map_transform rdef rd st (TRemoved x) m = Ret (map_new, x, Other) /\
     map_transform rdef rd st' (TGeneric (fun _ => VDropped x')) m = Ret (map_new, r, o)).
Proof. intros E K V KK R. exact transform_constants. Qed.
Print Assumptions C19_constants_transform.
Theorem C19_constants_transmute : forall (E : Env) K V (KK : Key K) S X (KS : Key S) R (rdef : R) (rd : R -> R -> R) (x x' : R) (m : trie K V),
  reachable m ->
  exists r, map_transmute rdef rd (MRemoved x) m = Ret (map_new (K := S) (V := X), x) /\
    map_transmute rdef rd (MGeneric (fun _ => KDropped x')) m = Ret (map_new (K := S) (V := X), r).
Proof. intros E K V KK S X KS R rdef rd. exact (transmute_constants rdef rd). Qed.
Print Assumptions C19_constants_transmute.
Example C19_constants_ex : reachable (E := exE) ex_m /\
  map_transform 0 N.add Sequential (TUnchanged 7) ex_m = Ret (ex_m, 7, Self) /\
  map_transform 0 N.add Sequential (TGeneric (fun _ => VUnchanged 7)) ex_m = Ret (ex_m, 49, Self) /\
  map_transform 0 N.add Sequential (TGeneric (fun _ => VDropped 7)) ex_m = Ret (map_new, 49, Other) /\
  map_transmute 0 N.add (MGeneric (fun _ => KDropped 7)) ex_m = Ret (map_new (K := num) (V := bool), 49).
Proof. split; [exact ex_reach|]. vm_compute. auto. Qed.

(** * C20 *)
Theorem C20_transmute : forall (E : Env) K V (KK : Key K) R (rdef : R) (rd : R -> R -> R) S X (KS : Key S) (op : transmute_op (K * V) S X R) (m : trie K V),
  reachable m ->
  (forall e k v r, In e (map_visit m) -> mcall op e = KTransmuted k v r -> cls k = cls (fst e)) ->
  exists m' r, map_transmute rdef rd op m = Ret (m', r) /\ reachable m' /\
    map_visit m' = flat_map (fun e => m_entry (mcall op e)) (map_visit m) /\
    map_size m' = N.of_nat (length (map_visit m')) /\
    (forall Q (KQ : Key Q) (q : Q), map_find m' q = found (fun e => m_entry (mcall op e)) (map_find m q)) /\
    (forall f, op = MGeneric f -> monoid rdef rd -> r = fold_right rd rdef (map (fun e => m_red (f e)) (map_visit m))).
Proof. intros E K V KK R rdef rd S X KS. exact (transmute_exact rdef rd). Qed.
Print Assumptions C20_transmute.
(** Forget the tags, halve even values and drop the others. *)
Definition ex_g (e : key * N) : kres num N N :=
  if N.even (snd e) then KTransmuted (Num (fst (fst e))) (snd e / 2) 1 else KDropped 100.
Example C20_transmute_ex : reachable (E := exE) ex_m /\
  (forall e k v r, In e (map_visit ex_m) -> mcall (MGeneric ex_g) e = KTransmuted k v r -> cls k = cls (fst e)) /\
  exists m', map_transmute 0 N.add (MGeneric ex_g) ex_m = Ret (m', 304) /\
    map_visit m' = [(Num 2, 6); (Num 0, 5); (Num (4 * 2 ^ 10), 7); (Num 36, 9)] /\
    map_find m' ((2, 55) : key) = Ret (Ok (Num 2, 6)).
Proof.
  split; [exact ex_reach|]. split.
  - intros e k v r _. unfold mcall, ex_g. destruct (N.even (snd e)); [|discriminate]. intros [= <- _ _]. reflexivity.
  - eexists. split; [vm_compute; reflexivity|]. vm_compute. auto.
Qed.

(** * C42 *)
(** However it came about, a map without entries is the new map. *)
Theorem C42_empty_is_new : forall (E : Env) K V (KK : Key K) (m : trie K V), reachable m -> map_size m = 0 ->
  m = map_new /\ map_visit m = [] /\ forall Q (KQ : Key Q) (q : Q), map_find m q = Ret (Err NotFound).
Proof. intros E K V KK. exact size_0_new. Qed.
Print Assumptions C42_empty_is_new.
Theorem C42_transform_removes_all : forall (E : Env) K V (KK : Key K) R (rdef : R) (rd : R -> R -> R) st (op : transform_op (K * V) V R) (m : trie K V),
  reachable m -> (forall e, In e (map_visit m) -> exists x, tcall op e = VDropped x) ->
  exists r o, map_transform rdef rd st op m = Ret (map_new, r, o).
Proof. intros E K V KK R. exact transform_all_dropped. Qed.
Print Assumptions C42_transform_removes_all.
Example C42_transform_removes_all_ex : reachable (E := exE) ex_m /\ map_size ex_m = 7 /\
  let op := TGeneric (fun e : key * N => if snd e <? 100 then VDropped 1 else VUnchanged 0) in
  (forall e, In e (map_visit ex_m) -> exists x, tcall op e = VDropped x) /\
  map_transform 0 N.add Sequential op ex_m = Ret (map_new, 7, Other).
Proof.
  split; [exact ex_reach|]. split; [vm_compute; reflexivity|]. intros op. split; [|vm_compute; reflexivity].
  intros e He. vm_compute in He.
  repeat (destruct He as [<-|He]; [exists 1; vm_compute; reflexivity|]). destruct He.
Qed.
