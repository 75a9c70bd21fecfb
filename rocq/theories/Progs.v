(** The crate's own tests, examples and documented usage, as programs: an
    assertion or [unwrap] that fails is [Panic].  The random numbers of the
    originals are arguments here.  Printing and clocks are left out, and so are
    the parts about the crate [im] and about the standard library alone. *)
From Coq Require Import NArith List Bool.
From Verif Require Import Base Words Flag Bia Node Api Trans Transform Joint JointT Sets Spec.
Import ListNotations.
Open Scope N_scope.

(** [assert!]. *)
Definition ensure (b : bool) : outcome unit := if b then Ret tt else Panic.
(** [Result::unwrap_err] and [is_ok]. *)
Definition unwrap_err {A B} (r : result A B) : outcome B := match r with Ok _ => Panic | Err e => Ret e end.
Definition is_ok {A B} (r : result A B) : bool := match r with Ok _ => true | Err _ => false end.

(** * Loops *)
Section Loops.
Context {E : Env} {K V : Type} {KK : Key K}.

(** examples/map.rs:135-139. *)
Fixpoint fill (m : trie K V) (l : list (K * V)) : outcome (trie K V) :=
  match l with
  | [] => Ret m
  | (k, v) :: l' =>
      let* r := map_insert (fun x => x) m k v false in
      match r with Ok (m', _, _) => fill m' l' | Err _ => fill m l' end
  end.
(** map.rs:296-299, :318-321, :343-348. *)
Fixpoint fill_unwrap (replace : bool) (m : trie K V) (l : list (K * V)) : outcome (trie K V) :=
  match l with
  | [] => Ret m
  | (k, v) :: l' =>
      let* r := map_insert (fun x => x) m k v replace in
      let* (m', _, _) := unwrap_ok r in
      fill_unwrap replace m' l'
  end.
(** examples/map.rs:143-145. *)
Fixpoint search (m : trie K V) (l : list K) : outcome unit :=
  match l with
  | [] => Ret tt
  | k :: l' => let* _ := map_find m k in search m l'
  end.
(** examples/map.rs:156-160. *)
Fixpoint drain (m : trie K V) (l : list K) : outcome (trie K V) :=
  match l with
  | [] => Ret m
  | k :: l' =>
      let* r := map_remove m k in
      match r with Ok (m', _) => drain m' l' | Err _ => drain m l' end
  end.
End Loops.

Section SetLoops.
Context {E : Env} {K : Type} {KK : Key K}.
(** examples/set.rs:135-139, examples/set_xor.rs:71-81. *)
Fixpoint sfill (s : tset K) (l : list K) : outcome (tset K) :=
  match l with
  | [] => Ret s
  | k :: l' =>
      let* r := set_insert (fun x => x) s k false in
      match r with Ok (s', _, _) => sfill s' l' | Err _ => sfill s l' end
  end.
(** set.rs:320-322, :335-337, :354-359. *)
Fixpoint sfill_unwrap (replace : bool) (s : tset K) (l : list K) : outcome (tset K) :=
  match l with
  | [] => Ret s
  | k :: l' =>
      let* r := set_insert (fun x => x) s k replace in
      let* (s', _, _) := unwrap_ok r in
      sfill_unwrap replace s' l'
  end.
(** examples/set.rs:143-145. *)
Fixpoint ssearch (s : tset K) (l : list K) : outcome unit :=
  match l with
  | [] => Ret tt
  | k :: l' => let* _ := set_find s k in ssearch s l'
  end.
(** examples/set.rs:155-159. *)
Fixpoint sdrain (s : tset K) (l : list K) : outcome (tset K) :=
  match l with
  | [] => Ret s
  | k :: l' =>
      let* r := set_remove s k in
      match r with Ok (s', _) => sdrain s' l' | Err _ => sdrain s l' end
  end.
End SetLoops.

(** * The standard library's HashMap and HashSet (a HashMap with unit values) *)
Section Std.
Context {E : Env} {K V : Type} {KK : Key K}.
(** [HashMap::insert]: a key that is there stays, its value is replaced. *)
Definition std_insert (h : list (K * V)) (e : K * V) : list (K * V) :=
  match lookup (ecls e) h with
  | Some e' => (fst e', snd e) :: without (ecls e) h
  | None => e :: h
  end.
(** [HashMap::new] and a loop of [insert]. *)
Definition std_of (l : list (K * V)) : list (K * V) := fold_left std_insert l [].
(** [PartialEq for HashMap]: as many entries, and every entry of the one found in the other. *)
Definition std_eqb (veqb : V -> V -> bool) (h h' : list (K * V)) : bool :=
  Nat.eqb (length h) (length h') &&
  forallb (fun e => match lookup (ecls e) h' with Some e' => veqb (snd e) (snd e') | None => false end) h.
End Std.

(** * The examples *)
Section Examples.
Context {E : Env} {K : Type} {KK : Key K}.

(** examples/map.rs:130-170 [hash_trie_map], with the map that :17-50 [hash_map] makes. *)
Definition example_map (insertions searches removals : list K) : outcome unit :=
  let full := std_of (map (fun k => (k, 0x42)) insertions) in
  let* m := fill map_new (map (fun k => (k, 0x42)) insertions) in
  let* _ := search m searches in
  let* _ := ensure (std_eqb N.eqb (std_of (map_visit m)) full) in
  let* _ := drain m removals in
  Ret tt.

(** A HashSet is a HashMap with unit values. *)
Definition units (l : list K) : list (K * unit) := map (fun k => (k, tt)) l.
Definition unit_eqb (_ _ : unit) : bool := true.

(** examples/set.rs:130-169 [hash_trie_set], with the set that :17-50 [hash_set] makes. *)
Definition example_set (insertions searches removals : list K) : outcome unit :=
  let full := std_of (units insertions) in
  let* s := sfill set_new insertions in
  let* _ := ssearch s searches in
  let* _ := ensure (std_eqb unit_eqb (std_of (units (set_visit s))) full) in
  let* _ := sdrain s removals in
  Ret tt.

(** [slice::contains]. *)
Definition among (k : K) (l : list K) : bool := existsb (fun k' => ceqb (cls k') (cls k)) l.
(** examples/set_xor.rs:20-41 [hash_set]. *)
Definition xored (lefts rights : list K) : list (K * unit) :=
  std_of (units (filter (fun x => negb (among x rights)) lefts ++ filter (fun x => negb (among x lefts)) rights)).
(** examples/set_xor.rs:95-97 and the same in the other three. *)
Definition check_xor (lefts rights : list K) (s : tset K) : outcome unit :=
  ensure (std_eqb unit_eqb (std_of (units (set_visit s))) (xored lefts rights)).

(** examples/set_xor.rs:69-100; [st] is [ParallelismStrategy::default_par()]. *)
Definition xor_tt (st : strategy) (lefts rights : list K) : outcome unit :=
  let* ls := sfill set_new lefts in
  let* rs := sfill set_new rights in
  let* (s, _, _) := set_tt tt (fun _ _ => tt) st (SJRemoved tt) (STUnchanged tt) (STUnchanged tt) ls rs in
  check_xor lefts rights s.
(** :102-133. *)
Definition xor_tm (st : strategy) (lefts rights : list K) : outcome unit :=
  let* ls := sfill set_new lefts in
  let* rs := sfill set_new rights in
  let* (s, _, _) := set_tm tt (fun _ _ => tt) st (STRemoved tt) (STUnchanged tt) (SMGeneric (fun r => SKTransmuted r tt)) ls rs in
  check_xor lefts rights s.
(** :135-166. *)
Definition xor_mt (st : strategy) (lefts rights : list K) : outcome unit :=
  let* ls := sfill set_new lefts in
  let* rs := sfill set_new rights in
  let* (s, _, _) := set_mt tt (fun _ _ => tt) st (STRemoved tt) (SMGeneric (fun l => SKTransmuted l tt)) (STUnchanged tt) ls rs in
  check_xor lefts rights s.
(** :168-198. *)
Definition xor_mm (lefts rights : list K) : outcome unit :=
  let* ls := sfill set_new lefts in
  let* rs := sfill set_new rights in
  let* (s, _) := set_mm tt (fun _ _ => tt) (SMRemoved tt) (SMGeneric (fun l => SKTransmuted l tt)) (SMGeneric (fun r => SKTransmuted r tt)) ls rs in
  check_xor lefts rights s.

(** README.md:10-33; the key given is a reference, [into] clones what it refers to. *)
Definition readme {Q} {KQ : Key Q} (into : Q -> K) (q : Q) : outcome (tset K) :=
  let* r := set_insert into set_new q false in
  let* (s, _, _) := unwrap_ok r in
  let* r := set_insert into s q false in
  let* k := unwrap_err r in
  let* _ := ensure (ceqb (cls k) (cls q)) in
  let* r := set_insert into s q true in
  let* _ := ensure (is_ok r) in
  let* r := set_find s q in
  let* k := unwrap_ok r in
  let* _ := ensure (ceqb (cls k) (cls q)) in
  let* r := set_remove s q in
  let* (s', _) := unwrap_ok r in
  Ret s'.
End Examples.

(** * The tests *)
Section Tests.
(** Numbers that are keys, values and reductions. *)
Context {E : Env} {K : Type} {KK : Key K} (keqb : K -> K -> bool) (zero : K) (add mul : K -> K -> K).

(** set.rs:317-329 [set_transform] and :332-344 [set_transmute]; the sums are of type [R]. *)
Definition test_set_transform {R} (reqb : R -> R -> bool) (rzero : R) (radd : R -> R -> R) (of_key : K -> R) (st : strategy)
  (l : list K) (total : R) : outcome unit :=
  let* s := sfill_unwrap false set_new l in
  let* (removed, _, _) := set_transform tt (fun _ _ => tt) st (STRemoved tt) s in
  let* (_, summed, _) := set_transform rzero radd st (STGeneric (fun k => SDropped (of_key k))) s in
  let* _ := ensure (set_size removed =? 0) in
  ensure (reqb summed total).
Definition test_set_transmute {R} (reqb : R -> R -> bool) (rzero : R) (radd : R -> R -> R) (of_key : K -> R)
  (l : list K) (total : R) : outcome unit :=
  let* s := sfill_unwrap false set_new l in
  let* (removed, _) := set_transmute (S := K) tt (fun _ _ => tt) (SMRemoved tt) s in
  let* (_, summed) := set_transmute (S := K) rzero radd (SMGeneric (fun k => SKDropped (of_key k))) s in
  let* _ := ensure (set_size removed =? 0) in
  ensure (reqb summed total).

(** set.rs:396-399. *)
Definition sum_set (st : strategy) (s : tset K) : outcome K :=
  let* (_, r, _) := set_transform zero add st (STGeneric (fun k => SDropped k)) s in Ret r.
(** set.rs:347-404 [set_joint_transformations]. *)
Definition test_set_joint (st : strategy) (a b : list K) : outcome unit :=
  let* seta := sfill_unwrap true set_new a in
  let* setb := sfill_unwrap true set_new b in
  let* (ff, ff1, _) := set_tt zero add st (SJGeneric (fun l r => SBDropped (mul l r)) false)
    (STGeneric (fun l => SUnchanged l)) (STGeneric (fun r => SUnchanged r)) seta setb in
  let* (fm, fm1, _) := set_tm zero add st (STGeneric (fun p => SDropped (mul (fst p) (snd p))))
    (STGeneric (fun l => SUnchanged l)) (SMGeneric (fun r => SKTransmuted r r)) seta setb in
  let* (mf, mf1, _) := set_mt zero add st (STGeneric (fun p => SDropped (mul (fst p) (snd p))))
    (SMGeneric (fun l => SKTransmuted l l)) (STGeneric (fun r => SUnchanged r)) seta setb in
  let* (mm, mm1) := set_mm (S := K) zero add (SMGeneric (fun p => SKDropped (mul (fst p) (snd p))))
    (SMGeneric (fun l => SKTransmuted l l)) (SMGeneric (fun r => SKTransmuted r r)) seta setb in
  let* _ := ensure (keqb ff1 fm1) in
  let* _ := ensure (keqb ff1 mf1) in
  let* _ := ensure (keqb ff1 mm1) in
  let* ffx := sum_set st ff in
  let* fmx := sum_set st fm in
  let* mfx := sum_set st mf in
  let* mmx := sum_set st mm in
  let* _ := ensure (keqb ffx fmx) in
  let* _ := ensure (keqb ffx mfx) in
  ensure (keqb ffx mmx).

(** What the loops insert: map.rs:297, :319, :344 and :347 ([i] with itself); :298, :320 ([i] with its square). *)
Definition with_self (l : list K) : list (K * K) := map (fun k => (k, k)) l.
(** [sq] is [i * i] with its check for overflow. *)
Fixpoint with_square (sq : K -> outcome K) (l : list K) : outcome (list (K * K)) :=
  match l with
  | [] => Ret []
  | i :: l' => let* x := sq i in let* r := with_square sq l' in Ret ((i, x) :: r)
  end.

(** map.rs:306-310. *)
Fixpoint check_squares (m squared tsquared : trie K K) (l : list K) : outcome unit :=
  match l with
  | [] => Ret tt
  | i :: l' =>
      let* r := map_find m i in
      let* _ := unwrap_ok r in
      let* r := map_find squared i in
      let* e := unwrap_ok r in
      let* _ := ensure (keqb (mul i i) (snd e)) in
      let* r := map_find tsquared i in
      let* e := unwrap_ok r in
      let* _ := ensure (keqb (mul i i) (snd e)) in
      check_squares m squared tsquared l'
  end.
(** map.rs:292-311 [map_transform] and :314-333 [map_transmute].  The two maps
    are filled in one loop there; the products that [check_squares] and the
    closures compute have then been computed before, without overflow. *)
Definition test_map_transform (sq : K -> outcome K) (st : strategy) (l : list K) : outcome unit :=
  let* m := fill_unwrap false map_new (with_self l) in
  let* squares := with_square sq l in
  let* squared := fill_unwrap false map_new squares in
  let* (removed, _, _) := map_transform tt (fun _ _ => tt) st (TRemoved tt) m in
  let* (tsquared, _, _) := map_transform tt (fun _ _ => tt) st (TGeneric (fun e => VTransformed (mul (snd e) (snd e)) tt)) m in
  let* _ := ensure (map_size removed =? 0) in
  check_squares m squared tsquared l.
Definition test_map_transmute (sq : K -> outcome K) (l : list K) : outcome unit :=
  let* m := fill_unwrap false map_new (with_self l) in
  let* squares := with_square sq l in
  let* squared := fill_unwrap false map_new squares in
  let* (removed, _) := map_transmute (S := K) (X := K) tt (fun _ _ => tt) (MRemoved tt) m in
  let* (tsquared, _) := map_transmute tt (fun _ _ => tt) (MGeneric (fun e => KTransmuted (fst e) (mul (snd e) (snd e)) tt)) m in
  let* _ := ensure (map_size removed =? 0) in
  check_squares m squared tsquared l.

(** map.rs:363-366. *)
Definition sum_map (st : strategy) (m : trie K K) : outcome K :=
  let* (_, r, _) := map_transform zero add st (TGeneric (fun e => VDropped (snd e))) m in Ret r.
(** map.rs:336-371 [map_joint_transformations]. *)
Definition test_map_joint (st : strategy) (a b : list K) : outcome unit :=
  let* mapa := fill_unwrap true map_new (with_self a) in
  let* mapb := fill_unwrap true map_new (with_self b) in
  let* (ff, ff1, _) := map_tt zero add st (JGeneric (fun e e' => BDropped (mul (snd e) (snd e'))) false)
    (TGeneric (fun e => VUnchanged (snd e))) (TGeneric (fun e => VUnchanged (snd e))) mapa mapb in
  let* (fm, fm1, _) := map_tm zero add st (TGeneric (fun p => VDropped (mul (snd (fst p)) (snd (snd p)))))
    (TGeneric (fun e => VUnchanged (snd e))) (MGeneric (fun e => KTransmuted (fst e) (snd e) (snd e))) mapa mapb in
  let* (mf, mf1, _) := map_mt zero add st (TGeneric (fun p => VDropped (mul (snd (fst p)) (snd (snd p)))))
    (MGeneric (fun e => KTransmuted (fst e) (snd e) (snd e))) (TGeneric (fun e => VUnchanged (snd e))) mapa mapb in
  let* (mm, mm1) := map_mm (S := K) (X := K) zero add (MGeneric (fun p => KDropped (mul (snd (fst p)) (snd (snd p)))))
    (MGeneric (fun e => KTransmuted (fst e) (snd e) (snd e))) (MGeneric (fun e => KTransmuted (fst e) (snd e) (snd e))) mapa mapb in
  let* _ := ensure (keqb ff1 fm1) in
  let* _ := ensure (keqb ff1 mf1) in
  let* _ := ensure (keqb ff1 mm1) in
  let* ffx := sum_map st ff in
  let* fmx := sum_map st fm in
  let* mfx := sum_map st mf in
  let* mmx := sum_map st mm in
  let* _ := ensure (keqb ffx fmx) in
  let* _ := ensure (keqb ffx mfx) in
  ensure (keqb ffx mmx).
End Tests.
