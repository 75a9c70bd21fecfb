(** C67: default maps and sets (lib.rs:24-28) whose keys have at most four bytes. *)
From Coq Require Import NArith Arith List Bool Lia Init.Byte Strings.Byte.
From Verif Require Import Base Words Flag Bia Node Api Spec Trans Transform SpecT Joint JointT SpecJ Reach ReachP Sets
  MapP JointMapP JointTMapP Hist HistP Cost Fnv FnvP Depth FnvMapP Ex.
Import ListNotations.
Open Scope N_scope.

(** * The examples' keys: u32 under FNV-1a, in a debug build *)
Definition le_byte (n : N) : byte := match Byte.of_N (n mod 256) with Some b => b | None => x00 end.
Definition u32E : Env.
Proof.
  refine {| C := byte * byte * byte * byte;
            ceqb := fun a b => match a, b with (a1, a2, a3, a4), (b1, b2, b3, b4) => Byte.eqb a1 b1 && Byte.eqb a2 b2 && Byte.eqb a3 b3 && Byte.eqb a4 b4 end;
            hash := fun a => match a with (a1, a2, a3, a4) => fnv (map Byte.to_N [a1; a2; a3; a4]) end;
            hw := W64; fw := W32; checked := true; fuel := 3; fuel_ge := le_n 3 |}.
  - intros [[[a1 a2] a3] a4] [[[b1 b2] b3] b4]. rewrite !andb_true_iff. split.
    + intros (((H1 & H2) & H3) & H4). apply Byte.byte_dec_bl in H1, H2, H3, H4. congruence.
    + intros [= -> -> -> ->]. rewrite !Byte.byte_dec_lb by reflexivity. auto.
  - intros [[[a1 a2] a3] a4]. apply fnv_lt.
Defined.
Definition u32_key : @Key u32E N := fun n => (le_byte n, le_byte (n / 256), le_byte (n / 65536), le_byte (n / 16777216)).
Lemma u32_default : @default_keys u32E 4.
Proof.
  constructor; [reflexivity|reflexivity|]. exists (fun a => match a with (a1, a2, a3, a4) => map Byte.to_N [a1; a2; a3; a4] end). split.
  - intros [[[a1 a2] a3] a4]. split; [reflexivity|]. split; [|reflexivity].
    apply Forall_forall. intros b Hb. apply in_map_iff in Hb. destruct Hb as (x & <- & _). pose proof (Byte.to_N_bounded x). lia.
  - intros [[[a1 a2] a3] a4] [[[b1 b2] b3] b4] [= H1 H2 H3 H4].
    assert (Hi : forall x y, Byte.to_N x = Byte.to_N y -> x = y).
    { intros x y H. apply (f_equal Byte.of_N) in H. rewrite !Byte.of_to_N in H. congruence. }
    rewrite (Hi _ _ H1), (Hi _ _ H2), (Hi _ _ H3), (Hi _ _ H4). reflexivity.
Qed.
Definition u32_os : list (op N N) := map (fun n => OInsert (N.of_nat n * 987654321) (N.of_nat n) false) (seq 0 58) ++
  [OInsert 1178726393 58 false; OInsert 112993582 59 false].
Definition u32_m : trie N N := res_of map_new (Hist.run (E := u32E) (KK := u32_key) map_new u32_os).
Definition u32_r : trie N N := res_of map_new (Hist.run (E := u32E) (KK := u32_key) map_new (skipn 40 u32_os ++ [OInsert 7 7 false])).
Lemma u32_reach : reachable (E := u32E) (KK := u32_key) u32_m.
Proof. eapply (run_reachable (E := u32E) (KK := u32_key) u32_os). vm_compute. reflexivity. Qed.
Lemma u32_reach_r : reachable (E := u32E) (KK := u32_key) u32_r.
Proof. eapply (run_reachable (E := u32E) (KK := u32_key) (skipn 40 u32_os ++ [OInsert 7 7 false])). vm_compute. reflexivity. Qed.

(** * C67 *)
(** Equally long keys of at most four bytes hash differently, already in the lowest 40 bits. *)
Theorem C67_hashes_differ : forall l l' : list N,
  length l = length l' -> (length l <= 4)%nat -> Forall (fun b => b < 256) l -> Forall (fun b => b < 256) l' ->
  fnv l mod 2 ^ 40 = fnv l' mod 2 ^ 40 -> l = l'.
Proof. exact fnv_inj. Qed.
Print Assumptions C67_hashes_differ.
(** Two keys whose hashes agree in the lowest 34 bits. *)
Example C67_hashes_differ_ex : let l := bytes_of 4 1178726393 in let l' := bytes_of 4 112993582 in
  length l = length l' /\ (length l <= 4)%nat /\ Forall (fun b => b < 256) l /\ Forall (fun b => b < 256) l' /\
  fnv l mod 2 ^ 34 = fnv l' mod 2 ^ 34 /\ fnv l mod 2 ^ 35 <> fnv l' mod 2 ^ 35 /\ fnv [97] = 0xaf63dc4c8601ec8c.
Proof. cbv zeta. do 4 (split; [vm_compute; repeat constructor|]). vm_compute. repeat split; discriminate. Qed.

Theorem C67_insert : forall (E : Env) size, default_keys size -> (size <= 4)%nat ->
  forall K V (KK : Key K) Q (KQ : Key Q) (into : Q -> K) (m : trie K V) q v replace,
  reachable m -> cls (into q) = cls q -> exists r, map_insert into m q v replace = Ret r.
Proof. intros E size HK Hs K V KK Q KQ. exact (dk_insert HK Hs). Qed.
Print Assumptions C67_insert.
Theorem C67_remove : forall (E : Env) size, default_keys size -> (size <= 4)%nat ->
  forall K V (KK : Key K) Q (KQ : Key Q) (m : trie K V) (q : Q), reachable m -> exists r, map_remove m q = Ret r.
Proof. intros E size HK Hs K V KK Q KQ. exact (dk_remove HK Hs). Qed.
Print Assumptions C67_remove.
(** At most eight branches and one key comparison. *)
Theorem C67_find : forall (E : Env) size, default_keys size -> (size <= 4)%nat ->
  forall K V (KK : Key K) Q (KQ : Key Q) (m : trie K V) (q : Q), reachable m ->
  exists r b c, map_find_cost m q = Ret (r, (b, c)) /\ map_find m q = Ret r /\ b <= 8 /\ c <= 1.
Proof. intros E size HK Hs K V KK Q KQ. exact (dk_find HK Hs). Qed.
Print Assumptions C67_find.
Example C67_map_ex : @default_keys u32E 4 /\ @checked u32E = true /\ reachable (E := u32E) (KK := u32_key) u32_m /\ map_size u32_m = 60 /\
  map_find_cost (E := u32E) (KK := u32_key) (KQ := u32_key) u32_m (2 * 987654321) = Ret (Ok (2 * 987654321, 2), (2, 1)) /\
  map_find_cost (E := u32E) (KK := u32_key) (KQ := u32_key) u32_m 112993582 = Ret (Ok (112993582, 59), (7, 1)) /\
  exists m', map_remove (E := u32E) (KK := u32_key) (KQ := u32_key) u32_m 987654321 = Ret (Ok (m', (987654321, 1))) /\ map_size m' = 59.
Proof.
  split; [exact u32_default|]. split; [reflexivity|]. split; [exact u32_reach|]. split; [vm_compute; reflexivity|].
  split; [vm_compute; reflexivity|]. split; [vm_compute; reflexivity|]. eexists. split; vm_compute; reflexivity.
Qed.

Theorem C67_transform_with_transmuted : forall (E : Env) size, default_keys size -> (size <= 4)%nat ->
  forall K V L W R (KK : Key K) (KL : Key L) (rdef : R) (rd : R -> R -> R) st both lop rop (m : trie K V) (right : trie L W),
  reachable m -> reachable right ->
  (forall e k v x, In e (map_visit right) -> mcall rop e = KTransmuted k v x -> cls k = cls (fst e)) ->
  exists m' r o, map_tm rdef rd st both lop rop m right = Ret (m', r, o) /\ reachable m' /\
    is_merge (fun e e' => t_to (tcall both (e, e')) e) (fun e => t_to (tcall lop e) e) (fun e' => m_to (mcall rop e')) m right m'.
Proof. intros E size HK Hs K V L W R KK KL. exact (dk_tm HK Hs). Qed.
Print Assumptions C67_transform_with_transmuted.
Theorem C67_transmute_with_transformed : forall (E : Env) size, default_keys size -> (size <= 4)%nat ->
  forall K V L W R (KK : Key K) (KL : Key L) (rdef : R) (rd : R -> R -> R) st both lop rop (m : trie K V) (right : trie L W),
  reachable m -> reachable right ->
  (forall e k v x, In e (map_visit m) -> mcall lop e = KTransmuted k v x -> cls k = cls (fst e)) ->
  exists m' r o, map_mt rdef rd st both lop rop m right = Ret (m', r, o) /\ reachable m' /\
    is_merge (fun e e' => t_to (tcall both (e, e')) e') (fun e => m_to (mcall lop e)) (fun e' => t_to (tcall rop e') e') m right m'.
Proof. intros E size HK Hs K V L W R KK KL. exact (dk_mt HK Hs). Qed.
Print Assumptions C67_transmute_with_transformed.
Theorem C67_transmute_with_transmuted : forall (E : Env) size, default_keys size -> (size <= 4)%nat ->
  forall K V L W S X R (KK : Key K) (KL : Key L) (KS : Key S) (rdef : R) (rd : R -> R -> R)
    (both : transmute_op ((K * V) * (L * W)) S X R) lop rop (m : trie K V) (right : trie L W),
  reachable m -> reachable right ->
  (forall e e' k v x, In e (map_visit m) -> In e' (map_visit right) -> cls (fst e) = cls (fst e') ->
     mcall both (e, e') = KTransmuted k v x -> cls k = cls (fst e)) ->
  (forall e k v x, In e (map_visit m) -> mcall lop e = KTransmuted k v x -> cls k = cls (fst e)) ->
  (forall e k v x, In e (map_visit right) -> mcall rop e = KTransmuted k v x -> cls k = cls (fst e)) ->
  exists m' r, map_mm rdef rd both lop rop m right = Ret (m', r) /\ reachable m' /\
    is_merge (fun e e' => m_to (mcall both (e, e'))) (fun e => m_to (mcall lop e)) (fun e' => m_to (mcall rop e')) m right m'.
Proof. intros E size HK Hs K V L W S X R KK KL KS rdef rd. exact (dk_mm HK Hs rdef rd). Qed.
Print Assumptions C67_transmute_with_transmuted.
(** Without the restriction of C21 to operations that are tame on collisions. *)
Theorem C67_transform_with_transformed : forall (E : Env) size, default_keys size -> (size <= 4)%nat ->
  forall K V R (KK : Key K) (rdef : R) (rd : R -> R -> R) st both lop rop (m right : trie K V),
  reachable m -> reachable right ->
  exists m' r o, map_tt rdef rd st both lop rop m right = Ret (m', r, o) /\ reachable m' /\
    (~ one_sided both ->
     exists fB, is_merge fB (fun e => t_to (tcall lop e) e) (fun e' => t_to (tcall rop e') e') m right m' /\
     forall e e', In e (map_visit m) -> In e' (map_visit right) -> cls (fst e) = cls (fst e') -> b_to (jcall both e e') e e' (fB e e')).
Proof. intros E size HK Hs K V R KK rdef rd st. exact (dk_tt HK Hs rdef rd st). Qed.
Print Assumptions C67_transform_with_transformed.
Example C67_joint_ex : @default_keys u32E 4 /\ reachable (E := u32E) (KK := u32_key) u32_m /\ reachable (E := u32E) (KK := u32_key) u32_r /\
  (exists m' r o, map_tm (E := u32E) (KK := u32_key) (KL := u32_key) 0 N.add Sequential (TRemoved 1) (TUnchanged 0) (MGeneric (fun e => KTransmuted (fst e) (snd e) 5)) u32_m u32_r = Ret (m', r, o) /\ map_size m' = 41) /\
  (exists m' r o, map_tt (E := u32E) (KK := u32_key) 0 N.add MiddleIndex (JRemoved 0) (TUnchanged 0) (TUnchanged 0) u32_m u32_r = Ret (m', r, o) /\ map_size m' = 41).
Proof.
  split; [exact u32_default|]. split; [exact u32_reach|]. split; [exact u32_reach_r|].
  split; do 3 eexists; split; vm_compute; reflexivity.
Qed.

(** Any hasher: when different hashes differ before the last slice, no map a client can build
    makes insert or remove panic. *)
Theorem C67_separated : forall (E : Env),
  (forall c c' : C, hash c mod 2 ^ last_off = hash c' mod 2 ^ last_off -> hash c = hash c') ->
  forall K V (KK : Key K) (m : trie K V), reachable m ->
  (forall Q (KQ : Key Q) (into : Q -> K) q v replace, cls (into q) = cls q -> exists r, map_insert into m q v replace = Ret r) /\
  (forall Q (KQ : Key Q) (q : Q), exists r, map_remove m q = Ret r).
Proof. intros E. exact separated_maps. Qed.
Print Assumptions C67_separated.
(** FNV-1a on four bytes: sixty bits before the last slice. *)
Example C67_separated_ex : @last_off u32E = 60 /\ 
  forall c c' : @C u32E, @hash u32E c mod 2 ^ @last_off u32E = @hash u32E c' mod 2 ^ @last_off u32E -> @hash u32E c = @hash u32E c'.
Proof.
  split; [reflexivity|]. intros c c' H. f_equal. apply (dk_low u32_default (le_n 4)). apply (low_bits 60); [lia|exact H].
Qed.

(** * Longer keys *)
(** Keys of type String under the same hasher (README.md:10). *)
Definition strE (n : nat) (Hn : (3 <= n)%nat) : Env.
Proof.
  refine {| C := list N; ceqb := fun a b => if list_eq_dec N.eq_dec a b then true else false; hash := fnv_str;
            hw := W64; fw := W32; checked := false; fuel := n; fuel_ge := Hn |}.
  - intros a b. destruct (list_eq_dec N.eq_dec a b); split; congruence.
  - intros c. apply fnv_lt.
Defined.
Definition str_key n Hn : @Key (strE n Hn) (list N) := fun s => s.
(** "!0IC=VloaY" and the same with one and two zero characters behind. *)
Definition zero_str : list N := [33; 48; 73; 67; 61; 86; 108; 111; 97; 89].
Definition zero_strs : list (list N) := [zero_str; zero_str ++ [0]; zero_str ++ [0; 0]].
Definition str_os : list (op (list N) N) := map (fun s => OInsert s 0 false) zero_strs.
Definition str_m n Hn : trie (list N) N := res_of map_new (Hist.run (E := strE n Hn) (KK := str_key n Hn) map_new str_os).
Theorem C67_strings_refuted : forall n, (3 <= n)%nat -> exists (E : Env) (KK : Key (list N)) (m : trie (list N) N),
  hw = W64 /\ fw = W32 /\ (forall s, hashk s = fnv_str s) /\ (forall s s', cls s = cls s' -> s = s') /\ fuel = n /\
  reachable m /\ (forall s, In s (map fst (map_visit m)) <-> In s zero_strs) /\
  map_tm 0 N.add Sequential (TUnchanged 0) (TUnchanged 0) (MRemoved 0) m m = Diverge /\
  map_mt 0 N.add Sequential (TUnchanged 0) (MRemoved 0) (TUnchanged 0) m m = Diverge /\
  map_mm (S := list N) (X := N) 0 N.add (MRemoved 0) (MRemoved 0) (MRemoved 0) m m = Diverge.
Proof.
  intros n Hn. exists (strE n Hn), (str_key n Hn).
  exists (str_m n Hn). assert (HR : reachable (E := strE n Hn) (KK := str_key n Hn) (str_m n Hn)).
  { eapply (run_reachable (E := strE n Hn) (KK := str_key n Hn) str_os). vm_compute. reflexivity. }
  assert (Hs : (forall s, In s (map fst (map_visit (str_m n Hn))) <-> In s zero_strs) /\
    cnt (E := strE n Hn) (KK := str_key n Hn) (fnv_str zero_str) (map_visit (str_m n Hn)) = 3%nat).
  { assert (Hv : map_visit (str_m n Hn) = map (fun s => (s, 0)) (rev zero_strs)) by (vm_compute; reflexivity).
    rewrite Hv, map_map. cbn [fst]. rewrite map_id. split; [intros s; symmetry; apply in_rev|vm_compute; reflexivity]. }
  generalize dependent (str_m n Hn). intros m HR Hs.
  split; [reflexivity|]. split; [reflexivity|]. split; [reflexivity|]. split; [auto|]. split; [reflexivity|].
  split; [exact HR|]. split; [apply Hs|]. destruct Hs as [_ Hs].
  pose proof (tm_returns (E := strE n Hn) 0 N.add Sequential (TUnchanged 0) (TUnchanged 0) (MRemoved 0) m m HR HR
    ltac:(intros; discriminate)) as [HT HTp].
  pose proof (mt_returns (E := strE n Hn) 0 N.add Sequential (TUnchanged 0) (MRemoved 0) (TUnchanged 0) m m HR HR
    ltac:(intros; discriminate)) as [HU HUp].
  pose proof (mm_returns (E := strE n Hn) (S := list N) (X := N) (KS := str_key n Hn) 0 N.add (MRemoved 0) (MRemoved 0) (MRemoved 0) m m HR HR
    ltac:(intros; discriminate) ltac:(intros; discriminate) ltac:(intros; discriminate)) as [_ [HM _]].
  split; [|split].
  - destruct (map_tm _ _ _ _ _ _ m m) as [[[m' r] o]| |]; [|congruence|reflexivity].
    exfalso. destruct HT as [HT _]. apply HT; [eauto|]. exists (fnv_str zero_str). rewrite Hs. lia.
  - destruct (map_mt _ _ _ _ _ _ m m) as [[[m' r] o]| |]; [|congruence|reflexivity].
    exfalso. destruct HU as [HU _]. apply HU; [eauto|]. exists (fnv_str zero_str). rewrite Hs. lia.
  - apply HM. exists (fnv_str zero_str). rewrite Hs. lia.
Qed.
Print Assumptions C67_strings_refuted.
