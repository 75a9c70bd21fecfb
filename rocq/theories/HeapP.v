(** The operations on the heap do what the tree operations do. *)
From Coq Require Import NArith Arith List Bool Lia ZifyBool ZifyN ZifyNat.
From Verif Require Import Base Words Flag Bia BiaP Node Api Heap SpecH.
Import ListNotations.
Open Scope N_scope.

Lemma refines_bind {A B A' B'} (P : A -> B -> Prop) (P' : A' -> B' -> Prop) o o' f f' :
  refines P o o' -> (forall a b, P a b -> refines P' (f a) (f' b)) -> refines P' (bind o f) (bind o' f').
Proof. intros [a b H| |] Hf; cbn [bind]; [apply Hf, H|constructor|constructor]. Qed.

Lemma refines_same {A A' B'} (P' : A' -> B' -> Prop) (o : outcome A) f f' :
  (forall a, o = Ret a -> refines P' (f a) (f' a)) -> refines P' (bind o f) (bind o f').
Proof. intros Hf. destruct o; cbn [bind]; [apply Hf; reflexivity|constructor|constructor]. Qed.

Lemma refines_weak {A B} (P P' : A -> B -> Prop) o o' : refines P o o' -> (forall a b, P a b -> P' a b) -> refines P' o o'.
Proof. intros [a b H| |] Hw; constructor. apply Hw, H. Qed.

(** * Arrays of related elements *)
Definition brel {A B} (P : A -> B -> Prop) (b : bia A) (b' : bia B) : Prop :=
  bbits b = bbits b' /\ bextra b = bextra b' /\ Forall2 P (bvalues b) (bvalues b').

Inductive rres {A B X} (P : A -> B -> Prop) : result A X -> result B X -> Prop :=
| rr_ok a b : P a b -> rres P (Ok a) (Ok b)
| rr_err e : rres P (Err e) (Err e).

Lemma unwrap_ok_rel {A B X} (P : A -> B -> Prop) (r : result A X) (r' : result B X) : rres P r r' -> refines P (unwrap_ok r) (unwrap_ok r').
Proof. intros [a b H|e]; constructor; exact H. Qed.

Lemma nth_rel {A B} (P : A -> B -> Prop) l l' : Forall2 P l l' -> forall i,
  orel P (nth_error l i) (nth_error l' i).
Proof. induction 1 as [|x y l l' H HF IH]; intros [|i]; cbn; try constructor; auto. Qed.

Lemma len_rel {A B} (P : A -> B -> Prop) l l' : Forall2 P l l' -> lenN l = lenN l'.
Proof. induction 1; [reflexivity|]. unfold lenN in *. cbn [length]. lia. Qed.

Lemma forall2_impl {A B} (P P' : A -> B -> Prop) l l' : (forall x y, P x y -> P' x y) -> Forall2 P l l' -> Forall2 P' l l'.
Proof. induction 2; constructor; auto. Qed.

Lemma firstn_rel {A B} (P : A -> B -> Prop) l l' : Forall2 P l l' -> forall n, Forall2 P (firstn n l) (firstn n l').
Proof. induction 1; intros [|n]; cbn; constructor; auto. Qed.

Lemma skipn_rel {A B} (P : A -> B -> Prop) l l' : Forall2 P l l' -> forall n, Forall2 P (skipn n l) (skipn n l').
Proof. induction 1; intros [|n]; cbn [skipn]; try constructor; auto. Qed.

Lemma bat_rel {A B} (P : A -> B -> Prop) b b' bit : brel P b b' -> rres P (bat b bit) (bat b' bit).
Proof.
  intros (Hb & _ & Hv). unfold bat. rewrite Hb. destruct (bit_index (bbits b') bit) as [i|e]; [|constructor].
  unfold nthN. destruct (nth_rel P _ _ Hv (N.to_nat i)); constructor. assumption.
Qed.

Lemma new_bia_rel {A B} (P : A -> B -> Prop) bits l l' x : Forall2 P l l' -> rres (brel P) (new_bia bits l x) (new_bia bits l' x).
Proof.
  intros H. unfold new_bia. rewrite <- (len_rel P _ _ H).
  destruct (negb _); [constructor|]. destruct (_ <=? _); constructor. repeat split; assumption.
Qed.

Lemma bupdated_rel {A B} (P : A -> B -> Prop) b b' bit v v' x : brel P b b' -> P v v' -> rres (brel P) (bupdated b bit v x) (bupdated b' bit v' x).
Proof.
  intros (Hb & _ & Hv) H. unfold bupdated. rewrite Hb. destruct (bit_index (bbits b') bit) as [i|e]; [|constructor].
  apply new_bia_rel. apply Forall2_app; [apply firstn_rel|constructor; [|apply skipn_rel]]; assumption.
Qed.

Lemma binserted_rel {A B} (P : A -> B -> Prop) b b' bit v v' x : brel P b b' -> P v v' -> rres (brel P) (binserted b bit v x) (binserted b' bit v' x).
Proof.
  intros (Hb & _ & Hv) H. unfold binserted. rewrite Hb. destruct (bit_insert (bbits b') bit) as [bs|e]; [|constructor].
  destruct (bit_index bs bit) as [i|e]; [|constructor].
  apply new_bia_rel. apply Forall2_app; [apply firstn_rel|constructor; [|apply skipn_rel]]; assumption.
Qed.

Lemma bremoved_rel {A B} (P : A -> B -> Prop) b b' bit x : brel P b b' -> rres (brel P) (bremoved b bit x) (bremoved b' bit x).
Proof.
  intros (Hb & _ & Hv). unfold bremoved. rewrite Hb. destruct (bit_remove (bbits b') bit) as [bs|e]; [|constructor].
  destruct (bit_index (bbits b') bit) as [i|e]; [|constructor].
  apply new_bia_rel. apply Forall2_app; [apply firstn_rel|apply skipn_rel]; assumption.
Qed.

(** Where the elements of a new array come from. *)
Lemma in_firstn {A} (l : list A) n x : In x (firstn n l) -> In x l.
Proof. revert n; induction l as [|a l IH]; intros [|n]; cbn; firstorder. Qed.
Lemma in_skipn {A} (l : list A) n x : In x (skipn n l) -> In x l.
Proof. revert n; induction l as [|a l IH]; intros [|n]; cbn [skipn In]; firstorder. Qed.

Lemma new_bia_values {A} bits (l : list A) x b : new_bia bits l x = Ok b -> b = BIA bits l x.
Proof. unfold new_bia. destruct (negb _); [discriminate|]. destruct (_ <=? _); congruence. Qed.

Lemma bupdated_in {A} (b b2 : bia A) bit v x c : bupdated b bit v x = Ok b2 -> In c (bvalues b2) -> c = v \/ In c (bvalues b).
Proof.
  unfold bupdated. destruct (bit_index (bbits b) bit); [|discriminate]. intros H%new_bia_values. subst b2. cbn [bvalues].
  unfold values_update. intros [H|[->|H]]%in_app_or; [right; eapply in_firstn, H|auto|right; eapply in_skipn, H].
Qed.

Lemma binserted_in {A} (b b2 : bia A) bit v x c : binserted b bit v x = Ok b2 -> In c (bvalues b2) -> c = v \/ In c (bvalues b).
Proof.
  unfold binserted. destruct (bit_insert (bbits b) bit); [|discriminate]. destruct (bit_index a bit); [|discriminate].
  intros H%new_bia_values. subst b2. cbn [bvalues].
  unfold values_insert. intros [H|[->|H]]%in_app_or; [right; eapply in_firstn, H|auto|right; eapply in_skipn, H].
Qed.

Lemma bremoved_in {A} (b b2 : bia A) bit x c : bremoved b bit x = Ok b2 -> In c (bvalues b2) -> In c (bvalues b).
Proof.
  unfold bremoved. destruct (bit_remove (bbits b) bit); [|discriminate]. destruct (bit_index (bbits b) bit); [|discriminate].
  intros H%new_bia_values. subst b2. cbn [bvalues].
  unfold values_remove. intros [H|H]%in_app_or; [eapply in_firstn, H|eapply in_skipn, H].
Qed.

Lemma bat_in {A} (b : bia A) bit a : bat b bit = Ok a -> In a (bvalues b).
Proof.
  unfold bat. destruct (bit_index (bbits b) bit); [|discriminate].
  destruct (nthN (bvalues b) a0) eqn:Hn; [|discriminate]. intros [= <-]. eapply nth_error_In, Hn.
Qed.

(** The slot just written. *)
Lemma nth_mid {A} (l : list A) n v r : (n <= length l)%nat -> nth_error (firstn n l ++ v :: r) n = Some v.
Proof.
  intros H. rewrite nth_error_app2; rewrite firstn_length_le by exact H; [|lia].
  rewrite Nat.sub_diag. reflexivity.
Qed.

Lemma bupdated_has {A} (b b2 : bia A) bit v x : bupdated b bit v x = Ok b2 -> In v (bvalues b2).
Proof.
  unfold bupdated. destruct (bit_index (bbits b) bit); [|discriminate]. intros H%new_bia_values. subst b2. cbn [bvalues].
  apply in_or_app. right. left. reflexivity.
Qed.

Lemma binserted_has {A} (b b2 : bia A) bit v x : binserted b bit v x = Ok b2 -> In v (bvalues b2).
Proof.
  unfold binserted. destruct (bit_insert (bbits b) bit); [|discriminate]. destruct (bit_index a bit); [|discriminate].
  intros H%new_bia_values. subst b2. cbn [bvalues]. apply in_or_app. right. left. reflexivity.
Qed.

Section Rep.
Context {K V : Type} {NZ : Noise K V}.
Notation heap := (heap K V).
Implicit Types (h : heap).

Lemma ext_refl h : ext h h.
Proof. exists []. symmetry. apply app_nil_r. Qed.
Lemma ext_trans h1 h2 h3 : ext h1 h2 -> ext h2 h3 -> ext h1 h3.
Proof. intros (a & ->) (b & ->). exists (a ++ b). symmetry. apply app_assoc. Qed.
Lemma ext_alloc h (c : cell K V) : ext h (h ++ [c]).
Proof. exists [c]. reflexivity. Qed.
Lemma ext_others h : ext h (others h).
Proof. unfold others. destruct noise as [f|]; [exists (f h); reflexivity|apply ext_refl]. Qed.
Lemma ext_others_alloc h (c : cell K V) : ext h (others h ++ [c]).
Proof. eapply ext_trans; [apply ext_others|apply ext_alloc]. Qed.
Lemma ext_len h h' : ext h h' -> (length h <= length h')%nat.
Proof. intros (n & ->). rewrite app_length. lia. Qed.
Lemma nth_ext h h' a c : nth_error h a = Some c -> ext h h' -> nth_error h' a = Some c.
Proof.
  intros H (n & ->). rewrite nth_error_app1; [exact H|]. apply nth_error_Some. congruence.
Qed.
Lemma nth_ext_inv h h' a c : (a < length h)%nat -> nth_error h' a = Some c -> ext h h' -> nth_error h a = Some c.
Proof. intros H H1 (n & ->). rewrite nth_error_app1 in H1 by exact H. exact H1. Qed.
Lemma nth_new h (c : cell K V) : nth_error (h ++ [c]) (length h) = Some c.
Proof. rewrite nth_error_app2, Nat.sub_diag by lia. reflexivity. Qed.
Lemma nth_len h a (c : cell K V) : nth_error h a = Some c -> (a < length h)%nat.
Proof. intros H. apply nth_error_Some. congruence. Qed.

Lemma entry_ext h h' a e : entry_at h a = Some e -> ext h h' -> entry_at h' a = Some e.
Proof.
  unfold entry_at. intros H He. destruct (nth_error h a) as [c|] eqn:Hn; [|discriminate].
  rewrite (nth_ext _ _ _ _ Hn He). exact H.
Qed.

Lemma rep_C_inv h a t : rep h (HC a) t -> exists bits hs ts x, t = MC (BIA bits ts x) /\
  nth_error h a = Some (CellC (BIA bits hs x)) /\ Forall2 (rep h) hs ts /\ Forall (fun c => (addr_of c < a)%nat) hs.
Proof. intros H. inversion H; subst. eauto 10. Qed.
Lemma rep_L_inv h a t : rep h (HL a) t -> exists l, t = ML l /\ rep_l h a l.
Proof. intros H. inversion H; subst. eauto. Qed.
Lemma rep_S_inv h a t : rep h (HS a) t -> exists s, t = MS s /\ rep_s h a s.
Proof. intros H. inversion H; subst. eauto. Qed.

Lemma rep_s_lt h a s : rep_s h a s -> (a < length h)%nat.
Proof. intros []. eapply nth_len; eassumption. Qed.
Lemma rep_l_lt h a l : rep_l h a l -> (a < length h)%nat.
Proof. intros []; eapply nth_len; eassumption. Qed.
Lemma rep_lt h n t : rep h n t -> (addr_of n < length h)%nat.
Proof. intros []; cbn; [eapply nth_len; eassumption|eapply rep_l_lt; eassumption|eapply rep_s_lt; eassumption]. Qed.

Lemma rep_s_ext h h' a s : rep_s h a s -> ext h h' -> rep_s h' a s.
Proof. intros [] He. constructor. eapply nth_ext; eassumption. Qed.
Lemma rep_l_ext h h' a l : rep_l h a l -> ext h h' -> rep_l h' a l.
Proof.
  induction 1; intros He.
  - eapply rep_LL; [eapply nth_ext; eassumption|assumption|auto].
  - eapply rep_LS; [eapply nth_ext; eassumption|assumption|eapply rep_s_ext; eassumption].
Qed.

Lemma forall2_lt {A B} (P P' : A -> B -> Prop) (G : A -> Prop) l l' :
  Forall2 P l l' -> Forall G l -> (forall x y, G x -> P x y -> P' x y) -> Forall2 P' l l'.
Proof. induction 1; intros HF Hi; constructor; inversion HF; subst; auto. Qed.

Lemma rep_ext_aux h h' (He : ext h h') m : forall n t, (addr_of n < m)%nat -> rep h n t -> rep h' n t.
Proof.
  induction m as [|m IH]; intros n t Hm H; [lia|]. destruct H as [a bits hs ts x Hn HF Hlt|a l H|a s H].
  - eapply rep_MC; [eapply nth_ext; eassumption| |exact Hlt].
    eapply (forall2_lt _ _ _ _ _ HF Hlt). intros c t Hc. apply IH. cbn [addr_of] in Hm. lia.
  - apply rep_ML. eapply rep_l_ext; eassumption.
  - apply rep_MS. eapply rep_s_ext; eassumption.
Qed.
Lemma rep_ext h h' n t : rep h n t -> ext h h' -> rep h' n t.
Proof. intros H He. eapply rep_ext_aux; [exact He|apply Nat.lt_succ_diag_r|exact H]. Qed.

Lemma brel_ext h h' b b' : brel (rep h) b b' -> ext h h' -> brel (rep h') b b'.
Proof.
  intros (Hb & Hx & Hv) He. split; [exact Hb|]. split; [exact Hx|].
  eapply forall2_impl; [|exact Hv]. intros. eapply rep_ext; eassumption.
Qed.

Lemma rep_s_fun h a s s' : rep_s h a s -> rep_s h a s' -> s = s'.
Proof. intros [a' k v H0] H. inversion H. congruence. Qed.
Lemma rep_l_fun h a l : rep_l h a l -> forall l', rep_l h a l' -> l = l'.
Proof.
  induction 1; intros l' H'; inversion H'; subst; try congruence.
  - assert (b0 = b) by congruence. subst b0. f_equal; try congruence. apply IHrep_l. assumption.
  - assert (b0 = b) by congruence. subst b0. f_equal; try congruence. eapply rep_s_fun; eassumption.
Qed.
Lemma rep_fun_aux h m : forall n t t', (addr_of n < m)%nat -> rep h n t -> rep h n t' -> t = t'.
Proof.
  induction m as [|m IH]; intros n t t' Hm H H'; [lia|].
  destruct H as [a bits hs ts x Hn HF Hlt|a l H|a s H].
  - apply rep_C_inv in H'. destruct H' as (bits' & hs' & ts' & x' & -> & Hn' & HF' & _).
    assert (Heq : BIA bits' hs' x' = BIA bits hs x) by congruence. injection Heq as -> -> ->.
    f_equal. f_equal. cbn [addr_of] in Hm. clear Hn Hn'.
    revert ts' HF'. induction HF as [|c t hs ts Hc HF IHF]; intros ts' HF'; inversion HF' as [|c' t' hs' ts2 Hc' HF2]; subst; [reflexivity|].
    inversion Hlt; subst. f_equal; [eapply IH; [|eassumption..]; lia|auto].
  - apply rep_L_inv in H'. destruct H' as (l' & -> & H'). f_equal. eapply rep_l_fun; eassumption.
  - apply rep_S_inv in H'. destruct H' as (l' & -> & H'). f_equal. eapply rep_s_fun; eassumption.
Qed.
Lemma rep_fun h n t t' : rep h n t -> rep h n t' -> t = t'.
Proof. apply (rep_fun_aux h (S (addr_of n))). lia. Qed.

(** ** Allocating *)
Lemma rep_alloc_C h b b' : brel (rep h) b b' -> rep (h ++ [CellC b]) (HC (length h)) (MC b').
Proof.
  destruct b as [bits hs x], b' as [bits' ts x']. intros (Hb & Hx & Hv). cbn in *. subst bits' x'.
  eapply rep_MC; [apply nth_new| |].
  - eapply forall2_impl; [|exact Hv]. intros c t Hc. eapply rep_ext; [exact Hc|apply ext_alloc].
  - clear -Hv. induction Hv; constructor; [eapply rep_lt; eassumption|assumption].
Qed.

Lemma rep_alloc_S h k v : rep_s (h ++ [CellS k v]) (length h) (SN k v).
Proof. constructor. apply nth_new. Qed.

(** The next field of a list node. *)
Definition rep_next h (x : hnext) (t : lnext K V) : Prop :=
  match x, t with
  | XL a, NL l => rep_l h a l
  | XS a, NS s => rep_s h a s
  | _, _ => False
  end.

Lemma rep_next_node h x t : rep_next h x t -> rep h (hnext_node x) (next_mnode t).
Proof. destruct x, t; cbn; intros H; try contradiction; constructor; exact H. Qed.

Lemma rep_next_ext h h' x t : rep_next h x t -> ext h h' -> rep_next h' x t.
Proof.
  destruct x, t; cbn; intros H He; try contradiction; [eapply rep_l_ext|eapply rep_s_ext]; eassumption.
Qed.

Lemma hl_new_ok h k v x t : rep_next h x t -> exists z,
  hl_new h k v x = Ret (length (others h), others h ++ [CellL k v x z]) /\
  rep_l (others h ++ [CellL k v x z]) (length (others h)) (l_new k v t).
Proof.
  intros H. pose proof (rep_next_ext _ _ _ _ H (ext_others h)) as H'.
  destruct x as [b|b], t as [l|s]; try contradiction; cbn in H, H'.
  - exists (1 + l_size l). unfold hl_new, get_l.
    assert (Hz : exists e, nth_error h b = Some (CellL (fst (fst e)) (snd (fst e)) (snd e) (l_size l))).
    { inversion H; subst; [exists ((k0, v0), XL b0)|exists ((k0, v0), XS b0)]; assumption. }
    destruct Hz as (e & Hz). rewrite Hz. cbn [bind]. split; [reflexivity|].
    cbn [l_new]. eapply rep_LL; [apply nth_new|eapply rep_l_lt; eassumption|eapply rep_l_ext; [eassumption|apply ext_alloc]].
  - exists (1 + 1). unfold hl_new. cbn [bind]. split; [reflexivity|].
    cbn [l_new]. eapply rep_LS; [apply nth_new|eapply rep_s_lt; eassumption|eapply rep_s_ext; [eassumption|apply ext_alloc]].
Qed.

(** ** Membership *)
Lemma inside_ext h h' n x : inside h n x -> ext h h' -> inside h' n x.
Proof.
  induction 1; intros He.
  - apply in_self.
  - eapply in_C; [eapply nth_ext; eassumption|eassumption|auto].
  - eapply in_L; [eapply nth_ext; eassumption|auto].
Qed.

Lemma in_forall2 {A B} (P : A -> B -> Prop) l l' x : Forall2 P l l' -> In x l -> exists y, In y l' /\ P x y.
Proof.
  induction 1; cbn; [contradiction|]. intros [->|Hi]; [eauto|].
  destruct (IHForall2 Hi) as (z & Hz & Hp). eauto.
Qed.

Lemma inside_old_aux h h' (He : ext h h') n x : inside h' n x -> forall t, rep h n t -> inside h n x /\ (x <= addr_of n)%nat.
Proof.
  induction 1 as [n|a c child x Hn Hi H IH|a k v next z x Hn H IH]; intros t Ht.
  - split; [apply in_self|lia].
  - pose proof (rep_lt _ _ _ Ht) as Hlt. cbn in Hlt. pose proof (nth_ext_inv _ _ _ _ Hlt Hn He) as Hn'.
    apply rep_C_inv in Ht. destruct Ht as (bits & hs & ts & z & -> & Hn2 & HF & Hlt2).
    assert (c = BIA bits hs z) by congruence. subst c. cbn [bvalues] in Hi.
    destruct (in_forall2 _ _ _ _ HF Hi) as (t & _ & Hc). destruct (IH _ Hc) as (H5 & H6).
    split; [eapply in_C; eassumption|]. rewrite Forall_forall in Hlt2. specialize (Hlt2 _ Hi). cbn. lia.
  - pose proof (rep_lt _ _ _ Ht) as Hlt. cbn in Hlt. pose proof (nth_ext_inv _ _ _ _ Hlt Hn He) as Hn'.
    inversion Ht as [|a0 l Hl|]; subst. inversion Hl; subst.
    + assert (next = XL b) by congruence. subst next. destruct (IH (ML l0)) as (H5 & H6); [constructor; assumption|].
      split; [eapply in_L; eassumption|]. cbn in *. lia.
    + assert (next = XS b) by congruence. subst next. destruct (IH (MS s)) as (H5 & H6); [constructor; assumption|].
      split; [eapply in_L; eassumption|]. cbn in *. lia.
Qed.
Lemma inside_old h h' n t x : rep h n t -> ext h h' -> inside h' n x -> inside h n x.
Proof. intros Ht He Hx. apply (proj1 (inside_old_aux _ _ He _ _ Hx _ Ht)). Qed.
Lemma inside_le h n t x : rep h n t -> inside h n x -> (x <= addr_of n)%nat.
Proof. intros Ht Hx. apply (proj2 (inside_old_aux _ _ (ext_refl h) _ _ Hx _ Ht)). Qed.

(** Under a new branch there is the branch itself and what its children show. *)
Lemma inside_new_C h b x : inside (h ++ [CellC b]) (HC (length h)) x ->
  x = length h \/ exists c, In c (bvalues b) /\ inside (h ++ [CellC b]) c x.
Proof.
  intros H. inversion H; subst; [left; reflexivity|].
  rewrite nth_new in H1. injection H1 as <-. right. eauto.
Qed.
Lemma inside_new_L h k v nx z x : inside (h ++ [CellL k v nx z]) (HL (length h)) x ->
  x = length h \/ inside (h ++ [CellL k v nx z]) (hnext_node nx) x.
Proof.
  intros H. inversion H; subst; [left; reflexivity|].
  rewrite nth_new in H1. injection H1 as <- <- <- <-. right. assumption.
Qed.

End Rep.
