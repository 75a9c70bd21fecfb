(** The public bulk operations against loops of single calls. *)
From Coq Require Import NArith Arith List Bool Lia Permutation.
From Verif Require Import Base Words Flag Bia BiaP Node Spec SpecP SpecJ SpecS Inv Api ApiP Reach ReachP MapP Trans Transform Joint JointT
  TransMapP JoinP JointMapP JointTMapP Sets SetP SpecLoops Loops LoopsP.
Import ListNotations.

Section Ext.
Context {E : Env} {K V L W S X : Type} {KK : Key K} {KL : Key L} {KS : Key S}.
Lemma merged_ext (fB gB : K * V -> L * W -> option (S * X)) fL gL fR gR ln lr :
  (forall e e', fB e e' = gB e e') -> (forall e, fL e = gL e) -> (forall e', fR e' = gR e') ->
  merged_entries fB fL fR ln lr = merged_entries gB gL gR ln lr.
Proof.
  intros HB HL HRr. unfold merged_entries, merge. f_equal; apply flat_map_ext; intros e.
  - destruct (lookup (ecls e) lr); rewrite ?HB, ?HL; reflexivity.
  - rewrite HRr. reflexivity.
Qed.
Lemma is_merge_ext (fB gB : K * V -> L * W -> option (S * X)) fL gL fR gR (m : trie K V) (right : trie L W) m' :
  (forall e e', fB e e' = gB e e') -> (forall e, fL e = gL e) -> (forall e', fR e' = gR e') ->
  is_merge fB fL fR m right m' -> is_merge gB gL gR m right m'.
Proof.
  intros HB HL HRr [H1 H2 H3 H4]. rewrite (merged_ext fB gB fL gL fR gR) in H3, H4 by assumption. split; try assumption.
  intros Q KQ q. rewrite H2. unfold jfound.
  destruct (map_find m q) as [[e|x]| |], (map_find right q) as [[e'|x']| |]; rewrite ?HB, ?HL, ?HRr; reflexivity.
Qed.
End Ext.

Lemma t_to_val {K V R} (o : vres V R) (e : K * V) : t_to o e = option_map (pair (fst e)) (t_val o (snd e)).
Proof. destruct o, e; reflexivity. Qed.

Section Maps.
Context {E : Env} {K V R : Type} {KK : Key K} (rdef : R) (rd : R -> R -> R).

Theorem transform_loops st op (m : trie K V) m' r o : reachable m -> map_transform rdef rd st op m = Ret (m', r, o) ->
  agrees (loop_map (fun e => t_to (tcall op e) e) m) m' /\ agrees (loop_change (fun e => t_val (tcall op e) (snd e)) m) m'.
Proof.
  intros HR H. destruct (transform_exact rdef rd st op m HR) as (m1 & r1 & o1 & H1 & HR1 & HV & _).
  rewrite H in H1. injection H1 as <- <- <-. split.
  - apply loop_map_ok; try assumption. rewrite HV. apply flat_map_ext. intros e. destruct (tcall op e); reflexivity.
  - apply loop_change_ok; try assumption. rewrite HV. apply flat_map_ext. intros e. unfold kept. destruct e, (tcall op _); reflexivity.
Qed.

Theorem transmute_loops {S X} {KS : Key S} (op : transmute_op (K * V) S X R) (m : trie K V) m' r : reachable m ->
  (forall e k v x, In e (map_visit m) -> mcall op e = KTransmuted k v x -> cls k = cls (fst e)) ->
  map_transmute rdef rd op m = Ret (m', r) -> agrees (loop_map (fun e => m_to (mcall op e)) m) m'.
Proof.
  intros HR HK H. destruct (transmute_exact rdef rd op m HR HK) as (m1 & r1 & H1 & HR1 & HV & _).
  rewrite H in H1. injection H1 as <- <-. apply loop_map_ok; try assumption. rewrite HV. apply flat_map_ext.
  intros e. destruct (mcall op e); reflexivity.
Qed.

Theorem tt_loop st both lop rop (m right : trie K V) m' r o : reachable m -> reachable right ->
  tame both lop rop (map_visit m) (map_visit right) -> ~ one_sided both ->
  map_tt rdef rd st both lop rop m right = Ret (m', r, o) ->
  exists fB, (forall e e', In e (map_visit m) -> In e' (map_visit right) -> cls (fst e) = cls (fst e') ->
      b_to (jcall both e e') e e' (fB e e')) /\
    agrees (loop_merge fB (fun e => t_to (tcall lop e) e) (fun e' => t_to (tcall rop e') e') m right) m'.
Proof.
  intros HR HRr HD Hn H. destruct (tt_exact rdef rd st both lop rop m right m' r o HR HRr HD Hn H) as [(fB & HM & HB) _].
  exists fB. split; [exact HB|]. apply loop_merge_ok; assumption.
Qed.

Context {L W : Type} {KL : Key L}.

Theorem tm_loops st both lop rop (m : trie K V) (right : trie L W) m' r o : reachable m -> reachable right ->
  (forall e k v x, In e (map_visit right) -> mcall rop e = KTransmuted k v x -> cls k = cls (fst e)) ->
  map_tm rdef rd st both lop rop m right = Ret (m', r, o) ->
  agrees (loop_merge (fun e e' => t_to (tcall both (e, e')) e) (fun e => t_to (tcall lop e) e) (fun e' => m_to (mcall rop e')) m right) m' /\
  agrees (loop_absorb (fun e e' => t_val (tcall both (e, e')) (snd e)) (fun e => t_val (tcall lop e) (snd e)) (fun e' => m_to (mcall rop e')) m right) m'.
Proof.
  intros HR HRr HK H. destruct (tm_exact rdef rd st both lop rop m right m' r o HR HRr HK H) as [HM _]. split.
  - apply loop_merge_ok; assumption.
  - apply loop_absorb_ok; try assumption. eapply is_merge_ext; [..|exact HM]; cbv beta; intros; [apply t_to_val..|reflexivity].
Qed.

Theorem mt_loop st both lop rop (m : trie K V) (right : trie L W) m' r o : reachable m -> reachable right ->
  (forall e k v x, In e (map_visit m) -> mcall lop e = KTransmuted k v x -> cls k = cls (fst e)) ->
  map_mt rdef rd st both lop rop m right = Ret (m', r, o) ->
  agrees (loop_merge (fun e e' => t_to (tcall both (e, e')) e') (fun e => m_to (mcall lop e)) (fun e' => t_to (tcall rop e') e') m right) m'.
Proof.
  intros HR HRr HK H. destruct (mt_exact rdef rd st both lop rop m right m' r o HR HRr HK H) as [HM _].
  apply loop_merge_ok; assumption.
Qed.

Context {S X : Type} {KS : Key S}.
Theorem mm_loop (both : transmute_op ((K * V) * (L * W)) S X R) lop rop (m : trie K V) (right : trie L W) m' r :
  reachable m -> reachable right ->
  (forall e e' k v x, In e (map_visit m) -> In e' (map_visit right) -> cls (fst e) = cls (fst e') ->
     mcall both (e, e') = KTransmuted k v x -> cls k = cls (fst e)) ->
  (forall e k v x, In e (map_visit m) -> mcall lop e = KTransmuted k v x -> cls k = cls (fst e)) ->
  (forall e k v x, In e (map_visit right) -> mcall rop e = KTransmuted k v x -> cls k = cls (fst e)) ->
  map_mm rdef rd both lop rop m right = Ret (m', r) ->
  agrees (loop_merge (fun e e' => m_to (mcall both (e, e'))) (fun e => m_to (mcall lop e)) (fun e' => m_to (mcall rop e')) m right) m'.
Proof.
  intros HR HRr HB HL' HK H. apply loop_merge_ok; try assumption.
  exact (mm_exact rdef rd both lop rop m right m' r HR HRr HB HL' HK H).
Qed.
End Maps.

(** The loop needs no bulk operation to be right: it returns also where the
    bulk operations hang. *)
Section Total.
Context {E : Env} {K V L W S X : Type} {KK : Key K} {KL : Key L} {KS : Key S}.
Theorem loop_merge_total (fB : K * V -> L * W -> option (S * X)) fL fR (m : trie K V) (right : trie L W) :
  reachable m -> reachable right ->
  (forall e e' x, In e (map_visit m) -> In e' (map_visit right) -> cls (fst e) = cls (fst e') -> fB e e' = Some x -> cls (fst x) = cls (fst e)) ->
  (forall e x, In e (map_visit m) -> fL e = Some x -> cls (fst x) = cls (fst e)) ->
  (forall e' x, In e' (map_visit right) -> fR e' = Some x -> cls (fst x) = cls (fst e')) ->
  (loop_merge fB fL fR m right = Panic /\ checked = true) \/
  exists a, loop_merge fB fL fR m right = Ret a /\ is_merge fB fL fR m right a.
Proof.
  intros HR HRr HB HL HK. pose proof (reachable_mwf _ HR) as HW. pose proof (reachable_mwf _ HRr) as HWr.
  pose proof (mwf_uniq _ HW) as HU. pose proof (mwf_uniq _ HWr) as HUr.
  assert (HKp : keeping (fun e e' => opt (fB e e')) (fun e => opt (fL e)) (fun e' => opt (fR e')) (map_visit m) (map_visit right)).
  { intros c. unfold made.
    destruct (lookup c (map_visit m)) as [e|] eqn:H1; [apply lookup_in in H1; destruct H1 as [H1 H1']|];
    (destruct (lookup c (map_visit right)) as [e'|] eqn:H2; [apply lookup_in in H2; destruct H2 as [H2 H2']|]); unfold ecls in *.
    - destruct (fB e e') as [x|] eqn:Hx; cbn [opt]; [right; exists x; split; [reflexivity|]|left; reflexivity].
      rewrite <- H1'. apply (HB e e'); congruence || assumption.
    - destruct (fL e) as [x|] eqn:Hx; cbn [opt]; [right; exists x; split; [reflexivity|]|left; reflexivity].
      rewrite <- H1'. apply HL; assumption.
    - destruct (fR e') as [x|] eqn:Hx; cbn [opt]; [right; exists x; split; [reflexivity|]|left; reflexivity].
      rewrite <- H2'. apply HK; assumption.
    - left. reflexivity. }
  rewrite (loop_merge_puts m right HR HRr).
  assert (HUm : uniq (merged_entries fB fL fR (map_visit m) (map_visit right))) by (apply merge_uniq; assumption).
  destruct (puts_new _ HUm) as [H|(a & Ha & HRa & HP)]; [left; exact H|]. right. exists a. split; [exact Ha|].
  pose proof (reachable_mwf _ HRa) as HWa. split; [assumption| |assumption|].
  - intros Q KQ q. rewrite !map_find_ok by assumption. rewrite (lookup_perm _ _ _ (mwf_uniq _ HWa) HP).
    pose proof (fun x (H : In x _) => merge_in _ _ _ _ _ x HU HUr HKp H) as Hin.
    destruct (lookup (cls q) (merged_entries fB fL fR (map_visit m) (map_visit right))) as [x|] eqn:Hx.
    + apply lookup_in in Hx. destruct Hx as [Hx Hc]. specialize (Hin x Hx). rewrite Hc in Hin.
      unfold made in Hin. unfold jfound.
      destruct (lookup (cls q) (map_visit m)) as [e|], (lookup (cls q) (map_visit right)) as [e'|]; cbn [find_res]; try discriminate;
        [destruct (fB e e')|destruct (fL e)|destruct (fR e')]; cbn [opt] in Hin; congruence.
    + unfold jfound. pose proof (proj1 (lookup_none _ _) Hx) as Hno.
      specialize (HKp (cls q)).
      assert (Hmade : forall x, made (fun e e' => opt (fB e e')) (fun e => opt (fL e)) (fun e' => opt (fR e'))
        (lookup (cls q) (map_visit m)) (lookup (cls q) (map_visit right)) = [x] -> False).
      { intros x He. destruct HKp as [He'|(y & He' & Hy)]; [congruence|]. rewrite He in He'. injection He' as <-.
        apply (Hno x); [|exact Hy]. apply (merge_made _ _ _ _ _ (cls q)). rewrite He. left. reflexivity. }
      unfold made in Hmade.
      destruct (lookup (cls q) (map_visit m)) as [e|], (lookup (cls q) (map_visit right)) as [e'|]; cbn [find_res]; try reflexivity;
        [destruct (fB e e') as [x|]|destruct (fL e) as [x|]|destruct (fR e') as [x|]]; cbn [opt] in Hmade; try reflexivity; destruct (Hmade x eq_refl).
  - rewrite (mwf_size a HWa). unfold lenN. rewrite (Permutation_length HP). reflexivity.
Qed.
End Total.

(** * Sets *)
Section Sets.
Context {E : Env} {K L S : Type} {KK : Key K} {KL : Key L} {KS : Key S}.

Lemma agrees_sagrees o s' : agrees o s' -> sagrees o s'.
Proof.
  intros [H|(a & H & HR & Hf & Hs & HP)]; [left; assumption|]. right. exists a. split; [assumption|]. split; [assumption|].
  split; [|split].
  - intros Q KQ q. unfold set_find. rewrite Hf. reflexivity.
  - exact Hs.
  - apply Permutation_map. exact HP.
Qed.

Definition ue {A} (k : A) : A * unit := (k, tt).
Lemma sput_put (a : tset S) o : sput a o = put a (option_map ue o).
Proof.
  destruct o as [k|]; [|reflexivity]. cbn [sput option_map ue put]. unfold set_insert.
  destruct (map_insert (fun k => k) a k tt false) as [[[[a' [k' u]] p]|[k' u]]| |]; reflexivity.
Qed.
Lemma each_each {A M} (l : list A) (a : M) f g : (forall a x, f a x = g a x) -> each l a f = each l a g.
Proof. intros H. apply each_ext. auto. Qed.

Lemma units_perm (l : list (S * unit)) t : Permutation (map fst l) t -> Permutation l (map ue t).
Proof.
  intros H. apply (Permutation_map ue) in H. rewrite map_map in H.
  rewrite (map_ext _ (fun x => x)) in H by (intros [x []]; reflexivity). rewrite map_id in H. exact H.
Qed.

Lemma sloop_map_loop (f : K -> option S) (s : tset K) : sloop_map f s = loop_map (fun e => option_map ue (f (fst e))) s.
Proof. unfold sloop_map, loop_map, set_visit. rewrite each_map. apply each_each. intros a e. apply sput_put. Qed.
Lemma sloop_merge_loop (fB : K -> L -> option S) fL fR (s : tset K) (right : tset L) : sloop_merge fB fL fR s right =
  loop_merge (fun e e' => option_map ue (fB (fst e) (fst e'))) (fun e => option_map ue (fL (fst e))) (fun e' => option_map ue (fR (fst e'))) s right.
Proof.
  unfold sloop_merge, loop_merge, loop_right, set_visit. rewrite each_map.
  rewrite (each_each _ _ _ (fun a e => let* r := map_find right (fst e) in
    put a (match r with Ok e' => option_map ue (fB (fst e) (fst e')) | Err _ => option_map ue (fL (fst e)) end))).
  - destruct (each _ _ _) as [b| |]; cbn [bind]; [|reflexivity..]. rewrite each_map. apply each_each. intros a e.
    unfold set_find. destruct (map_find s (fst e)) as [[[k u]|x]| |]; cbn [bind]; try reflexivity. apply sput_put.
  - intros a e. unfold set_find. destruct (map_find right (fst e)) as [[[k u]|x]| |]; cbn [bind]; try reflexivity; apply sput_put.
Qed.

Lemma merged_smerge (fB : K -> L -> option S) fL fR (ln : list (K * unit)) (lr : list (L * unit)) :
  merged_entries (fun e e' => option_map ue (fB (fst e) (fst e'))) (fun e => option_map ue (fL (fst e))) (fun e' => option_map ue (fR (fst e'))) ln lr =
  map ue (smerge fB fL fR (map fst ln) (map fst lr)).
Proof.
  assert (Hm : forall A (KA : Key A) (l : list (A * unit)) c, member c (map fst l) = option_map fst (lookup c l)).
  { intros A KA l c. induction l as [|[k u] l IH]; [reflexivity|]. unfold member, lookup in *. cbn [map find fst].
    unfold ecls at 1. cbn [fst]. destruct (ceqb (cls k) c); [reflexivity|exact IH]. }
  unfold merged_entries, merge, smerge. rewrite map_app. f_equal.
  - induction ln as [|e ln IH]; [reflexivity|]. cbn [map flat_map]. rewrite IH, map_app. f_equal. unfold ecls.
    rewrite Hm. destruct (lookup (cls (fst e)) lr) as [e'|]; cbn [option_map];
      [destruct (fB (fst e) (fst e'))|destruct (fL (fst e))]; reflexivity.
  - induction lr as [|e lr IH]; [reflexivity|]. cbn [filter map flat_map]. unfold unmatched at 1. rewrite map_app, <- IH, Hm. unfold ecls.
    destruct (lookup (cls (fst e)) ln); cbn [option_map flat_map app olist map]; [reflexivity|].
    destruct (fR (fst e)); reflexivity.
Qed.

Theorem sloop_merge_ok (fB : K -> L -> option S) fL fR (s : tset K) (right : tset L) s' : reachable s -> reachable right ->
  is_smerge fB fL fR s right s' -> sagrees (sloop_merge fB fL fR s right) s'.
Proof.
  intros HR HRr HM. rewrite sloop_merge_loop. apply agrees_sagrees. rewrite (loop_merge_puts s right HR HRr).
  rewrite merged_smerge. pose proof (ism_visit _ _ _ _ _ _ HM) as HP. apply units_perm in HP.
  apply gives_agrees; [apply HM|]. eapply gives_perm; [symmetry; exact HP|]. apply puts_new. eapply uniq_perm; [exact HP|].
  apply mwf_uniq, reachable_mwf, HM.
Qed.

Theorem sloop_map_ok (f : K -> option S) (s : tset K) s' : reachable s' ->
  set_visit s' = flat_map (fun k => olist (f k)) (set_visit s) -> sagrees (sloop_map f s) s'.
Proof.
  intros HR HV. rewrite sloop_map_loop. apply agrees_sagrees, loop_map_ok; [assumption|].
  assert (HP : map_visit s' = map ue (set_visit s')).
  { unfold set_visit. rewrite map_map. rewrite (map_ext _ (fun x => x)) by (intros [x []]; reflexivity). symmetry. apply map_id. }
  rewrite HP, HV. unfold set_visit. generalize (map_visit s) as l. induction l as [|e l IH]; [reflexivity|].
  cbn [map flat_map]. rewrite map_app, IH. f_equal. destruct (f (fst e)); reflexivity.
Qed.
End Sets.

Section SetFilter.
Context {E : Env} {K R : Type} {KK : Key K} (rdef : R) (rd : R -> R -> R).

Theorem set_transform_loops st op (s : tset K) s' r o : reachable s -> set_transform rdef rd st op s = Ret (s', r, o) ->
  sagrees (sloop_map (fun k => s_to (stcall op k) k) s) s' /\
  sagrees (sloop_filter (fun k => match s_to (stcall op k) k with Some _ => true | None => false end) s) s'.
Proof.
  intros HR H. destruct (set_transform_exact rdef rd st op s HR) as (s1 & r1 & o1 & H1 & HR1 & HV & _).
  rewrite H in H1. injection H1 as <- <- <-. split; [apply sloop_map_ok; assumption|].
  apply agrees_sagrees. apply gives_agrees; [assumption|].
  assert (Hl : forall l (a : tset K) p, reachable a -> Permutation (map_visit a) (p ++ l) ->
    gives (each (map fst l) a (fun a k => if match s_to (stcall op k) k with Some _ => true | None => false end then Ret a
      else let* r := set_remove a k in let* t := unwrap_ok r in Ret (fst t)))
      (p ++ flat_map (fun e => if match s_to (stcall op (fst e)) (fst e) with Some _ => true | None => false end then [e] else []) l)).
  { induction l as [|e l IH]; intros a p HRa HP; cbn [map each flat_map].
    - right. exists a. auto.
    - destruct (match s_to _ _ with Some _ => true | None => false end).
      + cbn [bind]. rewrite app_assoc. apply IH; [assumption|]. rewrite <- app_assoc. exact HP.
      + cbn [app]. assert (HC := change_ok a e None (p ++ l) HRa). cbn [change] in HC.
        apply (gives_bind _ (p ++ l)); [|intros; apply IH; assumption].
        eapply gives_perm; [reflexivity|]. unfold set_remove.
        specialize (HC (Permutation_trans HP (Permutation_sym (Permutation_middle _ _ _)))).
        destruct (map_remove a (fst e)) as [[[a' [k u]]|x]| |]; exact HC. }
  specialize (Hl (map_visit s) s [] HR (Permutation_refl _)). cbn [app] in Hl. unfold sloop_filter, set_visit.
  eapply gives_perm; [|exact Hl].
  assert (HP : map_visit s' = map ue (set_visit s')).
  { unfold set_visit. rewrite map_map. rewrite (map_ext _ (fun x => x)) by (intros [x []]; reflexivity). symmetry. apply map_id. }
  rewrite HP, HV. unfold set_visit. generalize (map_visit s) as l. induction l as [|e l IH]; [reflexivity|].
  cbn [map flat_map]. rewrite map_app. apply Permutation_app; [|exact IH]. destruct e as [k []]. cbn [fst].
  destruct (stcall op k); reflexivity.
Qed.

Theorem set_transmute_loop {S} {KS : Key S} (op : stransmute_op K S R) (s : tset K) s' r : reachable s ->
  (forall k k' x, In k (set_visit s) -> smcall op k = SKTransmuted k' x -> cls k' = cls k) ->
  set_transmute rdef rd op s = Ret (s', r) -> sagrees (sloop_map (fun k => sk_to (smcall op k)) s) s'.
Proof.
  intros HR HK H. destruct (set_transmute_exact rdef rd op s HR HK) as (s1 & r1 & H1 & HR1 & HV & _).
  rewrite H in H1. injection H1 as <- <-. apply sloop_map_ok; assumption.
Qed.

Theorem set_tt_loop st (both : sjoint_op K R) lop rop (s right : tset K) s' r o : reachable s -> reachable right ->
  tame (joint_of both) (transform_of lop) (transform_of rop) (map_visit s) (map_visit right) ->
  set_tt rdef rd st both lop rop s right = Ret (s', r, o) ->
  exists fB, (forall k k', In k (set_visit s) -> In k' (set_visit right) -> cls k = cls k' -> sb_about both k k' (fB k k')) /\
    sagrees (sloop_merge fB (fun k => s_to (stcall lop k) k) (fun k => s_to (stcall rop k) k) s right) s'.
Proof.
  intros HR HRr HD H. destruct (set_tt_exact rdef rd st both lop rop s right s' r o HR HRr HD H) as [(fB & HM & HB) _].
  exists fB. split; [exact HB|]. apply sloop_merge_ok; assumption.
Qed.

Context {L : Type} {KL : Key L}.
Theorem set_tm_loop st both lop rop (s : tset K) (right : tset L) s' r o : reachable s -> reachable right ->
  (forall l k x, In l (set_visit right) -> smcall rop l = SKTransmuted k x -> cls k = cls l) ->
  set_tm rdef rd st both lop rop s right = Ret (s', r, o) ->
  sagrees (sloop_merge (fun k l => s_to (stcall both (k, l)) k) (fun k => s_to (stcall lop k) k) (fun l => sk_to (smcall rop l)) s right) s'.
Proof.
  intros HR HRr HK H. destruct (set_tm_exact rdef rd st both lop rop s right s' r o HR HRr HK H) as [HM _].
  apply sloop_merge_ok; assumption.
Qed.
Theorem set_mt_loop st both lop rop (s : tset K) (right : tset L) s' r o : reachable s -> reachable right ->
  (forall k l x, In k (set_visit s) -> smcall lop k = SKTransmuted l x -> cls l = cls k) ->
  set_mt rdef rd st both lop rop s right = Ret (s', r, o) ->
  sagrees (sloop_merge (fun k l => s_to (stcall both (k, l)) l) (fun k => sk_to (smcall lop k)) (fun l => s_to (stcall rop l) l) s right) s'.
Proof.
  intros HR HRr HK H. destruct (set_mt_exact rdef rd st both lop rop s right s' r o HR HRr HK H) as [HM _].
  apply sloop_merge_ok; assumption.
Qed.
Theorem set_mm_loop {S} {KS : Key S} (both : stransmute_op (K * L) S R) lop rop (s : tset K) (right : tset L) s' r :
  reachable s -> reachable right ->
  (forall k l z x, In k (set_visit s) -> In l (set_visit right) -> cls k = cls l -> smcall both (k, l) = SKTransmuted z x -> cls z = cls k) ->
  (forall k z x, In k (set_visit s) -> smcall lop k = SKTransmuted z x -> cls z = cls k) ->
  (forall l z x, In l (set_visit right) -> smcall rop l = SKTransmuted z x -> cls z = cls l) ->
  set_mm rdef rd both lop rop s right = Ret (s', r) ->
  sagrees (sloop_merge (fun k l => sk_to (smcall both (k, l))) (fun k => sk_to (smcall lop k)) (fun l => sk_to (smcall rop l)) s right) s'.
Proof.
  intros HR HRr HB HL HK H. apply sloop_merge_ok; try assumption.
  exact (set_mm_exact rdef rd both lop rop s right s' r HR HRr HB HL HK H).
Qed.
End SetFilter.

Section Transfute.
Context {E : Env} {K V W R : Type} {KK : Key K} (rdef : R) (rd : R -> R -> R).
Theorem tf_loops st both lop rop (m : trie K V) (right : trie K W) m' r o : reachable m -> reachable right ->
  map_tf rdef rd st both lop rop m right = Ret (m', r, o) ->
  agrees (loop_merge (fun e e' => t_to (tcall both (e, e')) e) (fun e => t_to (tcall lop e) e) (fun e' => f_to (smcall rop e') (fst e')) m right) m' /\
  agrees (loop_absorb (fun e e' => t_val (tcall both (e, e')) (snd e)) (fun e => t_val (tcall lop e) (snd e))
    (fun e' => f_to (smcall rop e') (fst e')) m right) m'.
Proof.
  intros HR HRr H. destruct (tf_exact rdef rd st both lop rop m right m' r o HR HRr H) as [HM _]. split.
  - apply loop_merge_ok; assumption.
  - apply loop_absorb_ok; try assumption. eapply is_merge_ext; [..|exact HM]; cbv beta; intros; [apply t_to_val..|reflexivity].
Qed.
Theorem ft_loop st both lop rop (m : trie K V) (right : trie K W) m' r o : reachable m -> reachable right ->
  map_ft rdef rd st both lop rop m right = Ret (m', r, o) ->
  agrees (loop_merge (fun e e' => t_to (tcall both (e, e')) e') (fun e => f_to (smcall lop e) (fst e)) (fun e' => t_to (tcall rop e') e') m right) m'.
Proof.
  intros HR HRr H. destruct (ft_exact rdef rd st both lop rop m right m' r o HR HRr H) as [HM _].
  apply loop_merge_ok; assumption.
Qed.
End Transfute.
