(** C07, C08, C42: histories of calls. *)
From Coq Require Import NArith List Bool Permutation.
From Verif Require Import Base Words Flag Bia Node Api Spec Reach MapP Hist HistP Ex.
Import ListNotations.
Open Scope N_scope.

(** For the examples only; the theorems bind their own [Env]. *)
#[local] Existing Instance exE | 100.

(** * C07 *)
(** Every value returned on the way and every find, size and visit at the end
    is that of the association list; the alternative is the debug panic of
    C11. *)
Theorem C07_histories : forall (E : Env) K V (KK : Key K) (os : list (op K V)),
  (run map_new os = Panic /\ checked = true) \/
  exists m, run map_new os = Ret (m, snd (spec_run [] os)) /\
    (forall Q (KQ : Key Q) (q : Q),
       map_find m q = Ret (match lookup (cls q) (fst (spec_run [] os)) with Some e => Ok e | None => Err NotFound end)) /\
    map_size m = N.of_nat (length (fst (spec_run [] os))) /\
    Permutation (map_visit m) (fst (spec_run [] os)).
Proof. intros E K V KK. exact history_refines. Qed.
Print Assumptions C07_histories.
Example C07_histories_ex : exists xs, run map_new ex_os = Ret (ex_m, xs) /\ xs = snd (spec_run [] ex_os) /\
  xs = [VInserted (0, 0, 10) None; VInserted (1, 0, 11) None; VInserted (2, 0, 12) None;
        VInserted (128, 0, 13) None; VInserted (4096, 0, 14) None; VInserted (2 ^ 62, 0, 15) None;
        VInserted (28, 0, 16) None; VInserted (1, 1, 17) (Some (1, 0, 11)); VInserted (36, 0, 18) None;
        VRemoved (28, 0, 16)].
Proof. destruct ex_run as (xs & H). exists xs. split; [exact H|]. vm_compute in H. injection H as <-. vm_compute. auto. Qed.

(** * C08 *)
Theorem C08_contents_decide : forall (E : Env) K V (KK : Key K) (os os' : list (op K V)) m m' xs xs',
  run map_new os = Ret (m, xs) -> run map_new os' = Ret (m', xs') ->
  (forall c, lookup c (fst (spec_run [] os)) = lookup c (fst (spec_run [] os'))) ->
  (forall Q (KQ : Key Q) (q : Q), map_find m q = map_find m' q) /\
  map_size m = map_size m' /\ Permutation (map_visit m) (map_visit m').
Proof. intros E K V KK. exact history_independent. Qed.
Print Assumptions C08_contents_decide.
(** Two histories with the same contents and different tries. *)
Example C08_contents_decide_ex :
  let os := [OInsert (0, 0) 1 false; OInsert (128, 0) 2 false; ORemove (128, 0); OInsert (1, 0) 3 false] : list (op key N) in
  let os' := [OInsert (1, 0) 3 false; OInsert (0, 0) 1 true] : list (op key N) in
  exists m m' xs xs', run map_new os = Ret (m, xs) /\ run map_new os' = Ret (m', xs') /\ m <> m' /\
    map_visit m <> map_visit m' /\
    forall c, lookup c (fst (spec_run [] os)) = lookup c (fst (spec_run [] os')).
Proof.
  intros os os'. do 4 eexists. split; [vm_compute; reflexivity|]. split; [vm_compute; reflexivity|].
  split; [discriminate|]. split; [vm_compute; discriminate|].
  intros c. change (fst (spec_run [] os)) with [(1, 0, 3); (0, 0, 1)] || idtac.
  unfold lookup. cbn. change (@ceqb exE) with N.eqb. unfold ecls, cls, key_key; cbn.
  destruct c as [|[p|p|]]; reflexivity.
Qed.

(** * C42, for remove *)
Theorem C42_remove_last : forall (E : Env) K V (KK : Key K) Q (KQ : Key Q) (m : trie K V) (q : Q) m' e,
  reachable m -> map_size m = 1 -> map_remove m q = Ret (Ok (m', e)) ->
  m' = map_new /\ map_size m' = 0 /\ map_visit m' = [] /\
  forall Q' (KQ' : Key Q') (q' : Q'), map_find m' q' = Ret (Err NotFound).
Proof. intros E K V KK Q KQ. exact remove_last. Qed.
Print Assumptions C42_remove_last.
Example C42_remove_last_ex : reachable (E := exE) ex_one /\ map_size ex_one = 1 /\ ex_one <> map_new /\
  map_remove ex_one (Num 5) = Ret (Ok (map_new, (5, 1, 50))).
Proof. split; [exact ex_one_reach|]. split; [vm_compute; reflexivity|]. split; [vm_compute; discriminate|]. vm_compute. reflexivity. Qed.
