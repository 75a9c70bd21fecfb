(** C70: laws of bulk operations. *)
From Coq Require Import NArith Arith List Bool Lia Permutation.
From Verif Require Import Base Words Flag Bia Node Api Spec SpecJ SpecS Trans Transform SpecT Joint JointT Reach MapP TransMapP JointMapP JointTMapP Sets SetP
  Hist Ex Fnv Brackets SpecLaws Laws LawsP PropJoint PropSet I32 I32P PropFnvSet.
Import ListNotations.
Open Scope N_scope.

(** For the examples only; the theorems bind their own [Env]. *)
#[local] Existing Instance exE | 100.

(** * Set expressions *)
Theorem C70_set_expressions : forall (E : Env) K (KK : Key K) st (env : nat -> tset K), (forall i, reachable (env i)) ->
  forall x s, xeval st env x = Ret s ->
  reachable s /\ forall Q (KQ : Key Q) (q : Q), contains s q = xholds (fun i => contains (env i) q) x.
Proof. intros E K KK. exact xeval_contains. Qed.
Print Assumptions C70_set_expressions.
(** Every Boolean identity is a law of sets, every Boolean implication an
    inclusion. *)
Theorem C70_set_identities : forall (E : Env) K (KK : Key K) st st' (env : nat -> tset K) x y s t, (forall i, reachable (env i)) ->
  xeval st env x = Ret s -> xeval st' env y = Ret t -> (forall b, xholds b x = xholds b y) ->
  (forall Q (KQ : Key Q) (q : Q), contains s q = contains t q) /\ set_size s = set_size t /\
  Permutation (map cls (set_visit s)) (map cls (set_visit t)).
Proof. intros E K KK. exact set_identities. Qed.
Print Assumptions C70_set_identities.
Theorem C70_set_inclusions : forall (E : Env) K (KK : Key K) st st' (env : nat -> tset K) x y s t, (forall i, reachable (env i)) ->
  xeval st env x = Ret s -> xeval st' env y = Ret t -> (forall b, xholds b x = true -> xholds b y = true) ->
  (forall Q (KQ : Key Q) (q : Q), contains s q = true -> contains t q = true) /\ set_size s <= set_size t.
Proof. intros E K KK. exact set_inclusions. Qed.
Print Assumptions C70_set_inclusions.
(** With the keys of C67 every expression has a value. *)
Theorem C70_set_default : forall (E : Env) K (KK : Key K) size, default_keys size -> (size <= 4)%nat ->
  forall st (env : nat -> tset K) x, (forall i, reachable (env i)) -> exists s, xeval st env x = Ret s.
Proof. intros E K KK size HK Hs. exact (xeval_default HK Hs). Qed.
Print Assumptions C70_set_default.
(** The symmetric difference is the union without the intersection, and lies in
    the union. *)
Definition ex_env (i : nat) : tset key := if Nat.eqb i 0 then ex_s else ex_s2.
Definition ex_x : sexpr := XXor (XSet 0) (XSet 1).
Definition ex_y : sexpr := XDiff (XUnion (XSet 1) (XSet 0)) (XInter (XSet 0) (XSet 1)).
Example C70_sets_ex : (forall i, reachable (E := exE) (ex_env i)) /\ (forall b, xholds b ex_x = xholds b ex_y) /\
  (forall b, xholds b ex_x = true -> xholds b (XUnion (XSet 0) (XSet 1)) = true) /\
  (exists s, xeval Sequential ex_env ex_x = Ret s /\ set_size s = 7 /\ contains s (Num 3) = true /\ contains s (Num 1) = false) /\
  (exists s, xeval MiddleIndex ex_env ex_y = Ret s /\ set_size s = 7) /\
  (exists s, xeval Sequential ex_env (XUnion (XSet 0) (XSet 1)) = Ret s /\ set_size s = 10).
Proof.
  split; [intros i; unfold ex_env; destruct (Nat.eqb i 0); [exact ex_s_reach|exact ex_s2_reach]|].
  split; [intros b; cbn; destruct (b 0%nat), (b 1%nat); reflexivity|].
  split; [intros b; cbn; destruct (b 0%nat), (b 1%nat); discriminate || reflexivity|].
  split; [eexists; split; [vm_compute; reflexivity|vm_compute; auto]|].
  split; eexists; (split; [vm_compute; reflexivity|vm_compute; reflexivity]).
Qed.

(** [i32] keys with the default hasher in a debug build. *)
Example C70_default_ex : @default_keys exI 4 /\ reachable (E := exI) (KK := exK) exS /\ reachable (E := exI) (KK := exK) exT /\
  (let* s := xeval (E := exI) (KK := exK) MiddleIndex (fun i => if Nat.eqb i 0 then exS else exT) (XUnion (XXor (XSet 0) (XSet 1)) (XInter (XSet 0) (XSet 1))) in
   Ret (set_size s)) = Ret 7 /\
  (let* m := merge_all (E := exI) (KK := exK) Sequential (fun _ _ => tt) (BNode (BLeaf exS) (BNode (BLeaf exT) (BLeaf exT))) in
   Ret (map_size m)) = Ret 7.
Proof.
  split; [exact (i32_default true 3 (le_n 3))|]. split; [apply filled_reach|]. split; [apply filled_reach|].
  split; vm_compute; reflexivity.
Qed.

(** * Merging any number of maps *)
Theorem C70_merge_value : forall (E : Env) K V (KK : Key K) (f : V -> V -> V) st (t : btree (trie K V)) m,
  Forall reachable (bleaves t) -> merge_all st f t = Ret m ->
  reachable m /\ ((forall a b c, f a (f b c) = f (f a b) c) ->
    forall Q (KQ : Key Q) (q : Q), got m q = fold_right (fun m o => ounion f (got m q) o) None (bleaves t)).
Proof. intros E K V KK. exact merge_all_got. Qed.
Print Assumptions C70_merge_value.
Theorem C70_merge_brackets : forall (E : Env) K V (KK : Key K) (f : V -> V -> V) st st' (t t' : btree (trie K V)) m m',
  (forall a b c, f a (f b c) = f (f a b) c) -> Forall reachable (bleaves t) -> bleaves t = bleaves t' ->
  merge_all st f t = Ret m -> merge_all st' f t' = Ret m' -> same m m'.
Proof. intros E K V KK. exact merge_all_brackets. Qed.
Print Assumptions C70_merge_brackets.
Theorem C70_merge_order : forall (E : Env) K V (KK : Key K) (f : V -> V -> V) st st' (t t' : btree (trie K V)) m m',
  (forall a b c, f a (f b c) = f (f a b) c) -> (forall a b, f a b = f b a) ->
  Forall reachable (bleaves t) -> Permutation (bleaves t) (bleaves t') ->
  merge_all st f t = Ret m -> merge_all st' f t' = Ret m' ->
  map_size m = map_size m' /\ forall Q (KQ : Key Q) (q : Q), option_map snd (got m q) = option_map snd (got m' q).
Proof. intros E K V KK. exact merge_all_order. Qed.
Print Assumptions C70_merge_order.
Theorem C70_merge_default : forall (E : Env) K V (KK : Key K) (f : V -> V -> V) size, default_keys size -> (size <= 4)%nat ->
  forall st (t : btree (trie K V)), Forall reachable (bleaves t) -> exists m, merge_all st f t = Ret m.
Proof. intros E K V KK f size HK Hs. exact (merge_all_default f HK Hs). Qed.
Print Assumptions C70_merge_default.
(** Two maps with three keys in common, one of them given twice. *)
Definition ex_fst (e : outcome (trie key N * N * origin)) : trie key N := match e with Ret r => fst (fst r) | _ => map_new end.
Definition ex_half : trie key N := ex_fst (map_transform 0 N.add Sequential (TGeneric ex_lop) ex_m).
Example C70_merge_ex :
  (forall a b c, a + (b + c) = a + b + c) /\ (forall a b, a + b = b + a) /\
  reachable (E := exE) ex_m /\ reachable (E := exE) ex_half /\ map_size ex_half = 4 /\
  (exists m m', merge_all Sequential N.add (BNode (BNode (BLeaf ex_half) BDef) (BNode (BLeaf ex_half) (BLeaf ex_half))) = Ret m /\
     merge_all Sequential N.add (BNode (BLeaf ex_half) (BNode (BNode (BLeaf ex_half) (BLeaf ex_half)) BDef)) = Ret m' /\
     map_size m = 4 /\ map_size m' = 4 /\ got m (Num 2) = Some (2, 0, 36) /\ got m' (Num 2) = Some (2, 0, 36)).
Proof.
  split; [intros; apply N.add_assoc|]. split; [intros; apply N.add_comm|]. split; [exact ex_reach|].
  split; [eapply (reach_transform key N key_key N 0 N.add Sequential (TGeneric ex_lop)); [exact ex_reach|vm_compute; reflexivity]|].
  split; [vm_compute; reflexivity|].
  do 2 eexists. split; [vm_compute; reflexivity|]. split; [vm_compute; reflexivity|]. vm_compute. auto.
Qed.

(** * Two operations in a row are one *)
Theorem C70_transform_transform : forall (E : Env) K V (KK : Key K) R R' R'' (rdef : R) rd (rdef' : R') rd' (rdef'' : R'') rd'' st st' st'' op op' op''
    (m m1 m2 m3 : trie K V) r r' r'' o o' o'', reachable m ->
  (forall e, In e (map_visit m) -> t_to (tcall op'' e) e = obind (t_to (tcall op e) e) (fun e1 => t_to (tcall op' e1) e1)) ->
  map_transform rdef rd st op m = Ret (m1, r, o) -> map_transform rdef' rd' st' op' m1 = Ret (m2, r', o') ->
  map_transform rdef'' rd'' st'' op'' m = Ret (m3, r'', o'') ->
  same m2 m3 /\ map_visit m2 = map_visit m3.
Proof. intros E K V KK R R' R''. exact transform_transform. Qed.
Print Assumptions C70_transform_transform.
Theorem C70_transmute_transmute : forall (E : Env) K V S X Z Y (KK : Key K) (KS : Key S) (KZ : Key Z) R R' R''
    (rdef : R) rd (rdef' : R') rd' (rdef'' : R'') rd''
    (op : transmute_op (K * V) S X R) (op' : transmute_op (S * X) Z Y R') (op'' : transmute_op (K * V) Z Y R'')
    (m : trie K V) (m1 : trie S X) (m2 m3 : trie Z Y) r r' r'', reachable m ->
  (forall e k v x, In e (map_visit m) -> mcall op e = KTransmuted k v x -> cls k = cls (fst e)) ->
  (forall e k v x, In e (map_visit m1) -> mcall op' e = KTransmuted k v x -> cls k = cls (fst e)) ->
  (forall e, In e (map_visit m) -> m_to (mcall op'' e) = obind (m_to (mcall op e)) (fun e1 => m_to (mcall op' e1))) ->
  map_transmute rdef rd op m = Ret (m1, r) -> map_transmute rdef' rd' op' m1 = Ret (m2, r') ->
  map_transmute rdef'' rd'' op'' m = Ret (m3, r'') ->
  same m2 m3 /\ map_visit m2 = map_visit m3.
Proof. intros E K V S X Z Y KK KS KZ R R' R''. exact transmute_transmute. Qed.
Print Assumptions C70_transmute_transmute.
Theorem C70_merge_transform : forall (E : Env) K V (KK : Key K) L W (KL : Key L) R R' R''
    (rdef : R) rd (rdef' : R') rd' (rdef'' : R'') rd'' st st' st'' both lop rop op both' lop' rop'
    (m : trie K V) (right : trie L W) m1 m2 m3 r r' r'' o o' o'', reachable m -> reachable right ->
  (forall e k v x, In e (map_visit right) -> mcall rop e = KTransmuted k v x -> cls k = cls (fst e)) ->
  (forall e k v x, In e (map_visit right) -> mcall rop' e = KTransmuted k v x -> cls k = cls (fst e)) ->
  (forall e e', In e (map_visit m) -> In e' (map_visit right) -> cls (fst e) = cls (fst e') ->
     t_to (tcall both' (e, e')) e = obind (t_to (tcall both (e, e')) e) (fun x => t_to (tcall op x) x)) ->
  (forall e, In e (map_visit m) -> t_to (tcall lop' e) e = obind (t_to (tcall lop e) e) (fun x => t_to (tcall op x) x)) ->
  (forall e', In e' (map_visit right) -> m_to (mcall rop' e') = obind (m_to (mcall rop e')) (fun x => t_to (tcall op x) x)) ->
  map_tm rdef rd st both lop rop m right = Ret (m1, r, o) -> map_transform rdef' rd' st' op m1 = Ret (m2, r', o') ->
  map_tm rdef'' rd'' st'' both' lop' rop' m right = Ret (m3, r'', o'') -> same m2 m3.
Proof. intros E K V KK L W KL R R' R''. exact tm_transform. Qed.
Print Assumptions C70_merge_transform.

(** Add one to even values and drop odd ones; then halve the values above 16;
    and both at once. *)
Definition ex_f (e : key * N) : vres N N := if N.even (snd e) then VTransformed (snd e + 1) 1 else VDropped 1.
Definition ex_g (e : key * N) : vres N N := if 16 <? snd e then VTransformed (snd e / 2) 1 else VUnchanged 1.
Definition ex_fg (e : key * N) : vres N N :=
  if N.even (snd e) then (if 16 <? snd e + 1 then VTransformed ((snd e + 1) / 2) 1 else VTransformed (snd e + 1) 1) else VDropped 1.
Definition ex_k (e : key * N) : kres num N N := if N.even (snd e) then KTransmuted (Num (fst (fst e))) (snd e) 1 else KDropped 1.
Definition ex_l (e : num * N) : kres key N N := if 16 <? snd e then KTransmuted (num_n (fst e), 7) (snd e / 2) 1 else KTransmuted (num_n (fst e), 8) (snd e) 1.
Definition ex_kl (e : key * N) : kres key N N :=
  if N.even (snd e) then KTransmuted (fst (fst e), if 16 <? snd e then 7 else 8) (if 16 <? snd e then snd e / 2 else snd e) 1 else KDropped 1.
Definition ex_bothg (p : (key * N) * (num * N)) : vres N N :=
  match ex_both p with
  | VTransformed v r => VTransformed (if 16 <? v then v / 2 else v) r
  | VUnchanged r => if 16 <? snd (fst p) then VTransformed (snd (fst p) / 2) r else VUnchanged r
  | VDropped r => VDropped r
  end.
Definition ex_lopg (e : key * N) : vres N N := if N.even (snd e) then ex_g e else VDropped 1.
Definition ex_ropg (e : num * N) : kres key N N :=
  if N.even (snd e) then KDropped 1 else KTransmuted (num_n (fst e), 9) (if 16 <? snd e then snd e / 2 else snd e) 1.
Example C70_fusion_ex : reachable (E := exE) ex_m /\ reachable (E := exE) ex_r /\
  (forall e, t_to (ex_fg e) e = obind (t_to (ex_f e) e) (fun e1 => t_to (ex_g e1) e1)) /\
  (exists m1 r o m2 r' o' m3 r'' o'', map_transform 0 N.add Sequential (TGeneric ex_f) ex_m = Ret (m1, r, o) /\
     map_transform 0 N.add MiddleIndex (TGeneric ex_g) m1 = Ret (m2, r', o') /\
     map_transform 0 N.add Sequential (TGeneric ex_fg) ex_m = Ret (m3, r'', o'') /\ map_visit m2 = map_visit m3 /\ map_size m3 = 4) /\
  (forall e k v x, ex_k e = KTransmuted k v x -> cls k = cls (fst e)) /\ (forall e k v x, ex_l e = KTransmuted k v x -> cls k = cls (fst e)) /\
  (forall e, m_to (ex_kl e) = obind (m_to (ex_k e)) (fun e1 => m_to (ex_l e1))) /\
  (exists m1 r m2 r' m3 r'', map_transmute 0 N.add (MGeneric ex_k) ex_m = Ret (m1, r) /\
     map_transmute 0 N.add (MGeneric ex_l) m1 = Ret (m2, r') /\
     map_transmute 0 N.add (MGeneric ex_kl) ex_m = Ret (m3, r'') /\ map_visit m2 = map_visit m3 /\ map_size m3 = 4) /\
  (forall e e', t_to (ex_bothg (e, e')) e = obind (t_to (ex_both (e, e')) e) (fun x => t_to (ex_g x) x)) /\
  (forall e, t_to (ex_lopg e) e = obind (t_to (ex_lop e) e) (fun x => t_to (ex_g x) x)) /\
  (forall e', m_to (ex_ropg e') = obind (m_to (ex_rop e')) (fun x => t_to (ex_g x) x)) /\
  (exists m1 r o m2 r' o' m3 r'' o'', map_tm 0 N.add Sequential (TGeneric ex_both) (TGeneric ex_lop) (MGeneric ex_rop) ex_m ex_r = Ret (m1, r, o) /\
     map_transform 0 N.add Sequential (TGeneric ex_g) m1 = Ret (m2, r', o') /\
     map_tm 0 N.add Sequential (TGeneric ex_bothg) (TGeneric ex_lopg) (MGeneric ex_ropg) ex_m ex_r = Ret (m3, r'', o'') /\
     map_size m3 = 7 /\ got m2 (Num 1) = Some (1, 1, 58) /\ got m3 (Num 1) = Some (1, 1, 58)).
Proof.
  split; [exact ex_reach|]. split; [exact ex_r_reach|].
  split.
  { intros e. unfold ex_fg, ex_f. destruct (N.even (snd e)); [|reflexivity]. cbn [t_to obind]. unfold ex_g. cbn [snd].
    destruct (16 <? snd e + 1); reflexivity. }
  split; [do 9 eexists; split; [vm_compute; reflexivity|]; split; [vm_compute; reflexivity|]; split; [vm_compute; reflexivity|]; vm_compute; auto|].
  split; [intros e k v x; unfold ex_k; destruct (N.even (snd e)); [|discriminate]; intros [= <- _ _]; reflexivity|].
  split; [intros e k v x; unfold ex_l; destruct (16 <? snd e); intros [= <- _ _]; reflexivity|].
  split.
  { intros e. unfold ex_kl, ex_k. destruct (N.even (snd e)); [|reflexivity]. cbn [m_to obind]. unfold ex_l. cbn [snd fst num_n].
    destruct (16 <? snd e); reflexivity. }
  split; [do 6 eexists; split; [vm_compute; reflexivity|]; split; [vm_compute; reflexivity|]; split; [vm_compute; reflexivity|]; vm_compute; auto|].
  split.
  { intros e e'. unfold ex_bothg. destruct (ex_both (e, e')) as [r|v r|r]; cbn [t_to obind fst snd]; [| |reflexivity]; unfold ex_g; cbn [snd].
    - destruct (16 <? snd e); reflexivity.
    - destruct (16 <? v); reflexivity. }
  split.
  { intros e. unfold ex_lopg, ex_lop. destruct (N.even (snd e)); reflexivity. }
  split.
  { intros e'. unfold ex_ropg, ex_rop. destruct (N.even (snd e')); [reflexivity|]. cbn [m_to obind]. unfold ex_g. cbn [snd].
    destruct (16 <? snd e'); reflexivity. }
  do 9 eexists. split; [vm_compute; reflexivity|]. split; [vm_compute; reflexivity|]. split; [vm_compute; reflexivity|]. vm_compute. auto.
Qed.
