(** * ParamFacts: every function of the model respects every relation that the arithmetic respects *)
From Verif Require Import Base ModelIndex ModelTensor ModelOps ModelJvp ModelGraph ModelNN ModelMain SpecParam.

(** ** Outcomes *)

Lemma ro_bind X Y X' Y' (P : X -> Y -> Prop) (Q : X' -> Y' -> Prop) m m' f f' :
  rel_outcome P m m' -> (forall x y, P x y -> rel_outcome Q (f x) (f' y)) -> rel_outcome Q (bind m f) (bind m' f').
Proof. destruct m, m'; cbn [rel_outcome bind]; intros H H'; try tauto; auto. Qed.
Lemma ro_refl X (m : outcome X) : rel_outcome eq m m.
Proof. destruct m; cbn; auto. Qed.
Lemma ro_same X Y (Q : X -> Y -> Prop) Z (m : outcome Z) f f' : (forall x, rel_outcome Q (f x) (f' x)) -> rel_outcome Q (bind m f) (bind m f').
Proof. intros H. apply ro_bind with (P := eq); [apply ro_refl|]. intros x y <-. apply H. Qed.
Lemma ro_mono X Y (P Q : X -> Y -> Prop) m m' : (forall x y, P x y -> Q x y) -> rel_outcome P m m' -> rel_outcome Q m m'.
Proof. destruct m, m'; cbn; auto. Qed.

Lemma ro_foldM X Y I J (P : X -> Y -> Prop) (K : I -> J -> Prop) f f' : forall l l' a a', Forall2 K l l' -> P a a' ->
  (forall x y i j, P x y -> K i j -> rel_outcome P (f x i) (f' y j)) -> rel_outcome P (foldM f l a) (foldM f' l' a').
Proof.
  intros l l' a a' F. revert a a'. induction F as [|i j l l' Hij _ IH]; intros a a' Ha H; cbn [foldM]; [exact Ha|].
  eapply ro_bind; [apply H; eauto|]. intros x y Hxy. apply IH; auto.
Qed.
Lemma F2_refl X (l : list X) : Forall2 eq l l.
Proof. induction l; constructor; auto. Qed.
Lemma ro_foldM_same X Y I (P : X -> Y -> Prop) f f' (l : list I) a a' : P a a' ->
  (forall x y i, P x y -> rel_outcome P (f x i) (f' y i)) -> rel_outcome P (foldM f l a) (foldM f' l a').
Proof. intros Ha H. apply ro_foldM with (K := eq); [apply F2_refl|exact Ha|]. intros x y i j Hxy <-. auto. Qed.

Lemma ro_mapM X Y I J (P : X -> Y -> Prop) (K : I -> J -> Prop) f f' : forall l l', Forall2 K l l' ->
  (forall i j, K i j -> rel_outcome P (f i) (f' j)) -> rel_outcome (Forall2 P) (mapM f l) (mapM f' l').
Proof.
  intros l l' F H. induction F as [|i j l l' Hij _ IH]; cbn [mapM]; [constructor|].
  eapply ro_bind; [apply H; exact Hij|]. intros x y Hxy. eapply ro_bind; [exact IH|]. intros u v Huv. constructor; auto.
Qed.
Lemma ro_mapM_same X Y I (P : X -> Y -> Prop) f f' (l : list I) :
  (forall i, rel_outcome P (f i) (f' i)) -> rel_outcome (Forall2 P) (mapM f l) (mapM f' l).
Proof. intros H. apply ro_mapM with (K := eq); [apply F2_refl|]. intros i j <-. auto. Qed.

Definition rel_next {I J St : Type} (K : I -> J -> Prop) (u : option I * St) (v : option J * St) : Prop := rel_opt K (fst u) (fst v) /\ snd u = snd v.
Lemma ro_iter_fold St U V X Y (K : U -> V -> Prop) (P : X -> Y -> Prop) next next' body body' :
  (forall s : St, rel_outcome (rel_next K) (next s) (next' s)) ->
  (forall a b i j, P a b -> K i j -> rel_outcome P (body a i) (body' b j)) ->
  forall f s a b, P a b -> rel_outcome P (iter_fold next body f s a) (iter_fold next' body' f s b).
Proof.
  intros HN HB. induction f as [|f IH]; intros s a b Hab; cbn [iter_fold]; [exact I|].
  eapply ro_bind; [apply HN|]. intros [o s1] [o' s2] [Ho Hs]. cbn [fst snd] in *. subst s2.
  destruct o as [i|], o' as [j|]; cbn [rel_opt] in Ho; try (exfalso; assumption); [|exact Hab].
  eapply ro_bind; [apply HB; eauto|]. intros x y Hxy. apply IH. exact Hxy.
Qed.

(** ** Lists *)

Lemma F2_length X Y (P : X -> Y -> Prop) l l' : Forall2 P l l' -> length l = length l'.
Proof. induction 1; cbn [length]; congruence. Qed.

Section Lists.
Context {X Y : Type} (P : X -> Y -> Prop).
Lemma F2_vindex l l' i : Forall2 P l l' -> rel_outcome P (vindex l i) (vindex l' i).
Proof.
  intros F. unfold vindex. revert i. induction F as [|x y l l' H _ IH]; intros [|i]; cbn [nth_error]; try exact eq_refl; [exact H|apply IH].
Qed.
Lemma F2_vset l l' i x y : Forall2 P l l' -> P x y -> rel_outcome (Forall2 P) (vset l i x) (vset l' i y).
Proof.
  intros F H. unfold vset. rewrite (F2_length _ _ _ _ _ F). destruct (i <? length l'); [|exact eq_refl]. cbn [rel_outcome].
  revert i. induction F as [|a b l l' Hab F IH]; intros [|i]; cbn [list_set]; constructor; auto.
Qed.
Lemma F2_repeat x y n : P x y -> Forall2 P (repeat x n) (repeat y n).
Proof. intros H. induction n; cbn; constructor; auto. Qed.
Lemma F2_snoc l l' x y : Forall2 P l l' -> P x y -> Forall2 P (l ++ [x]) (l' ++ [y]).
Proof. intros F H. apply Forall2_app; auto. Qed.
Lemma F2_concat ls ls' : Forall2 (Forall2 P) ls ls' -> Forall2 P (concat ls) (concat ls').
Proof. induction 1; cbn [concat]; [constructor|]. apply Forall2_app; auto. Qed.
Lemma F2_rev l l' : Forall2 P l l' -> Forall2 P (rev l) (rev l').
Proof. induction 1; cbn [rev]; [constructor|]. apply F2_snoc; auto. Qed.
Lemma F2_skipn l l' : Forall2 P l l' -> forall n, Forall2 P (skipn n l) (skipn n l').
Proof. induction 1; intros [|n]; cbn; auto. Qed.
Lemma F2_firstn l l' : Forall2 P l l' -> forall n, Forall2 P (firstn n l) (firstn n l').
Proof. induction 1; intros [|n]; cbn; auto. Qed.
Lemma F2_rchunks w l l' : Forall2 P l l' -> Forall2 (Forall2 P) (rchunks w l) (rchunks w l').
Proof.
  intros F. unfold rchunks. rewrite (F2_length _ _ _ _ _ F). generalize (length l') as f. intros f. revert l l' F.
  induction f as [|f IH]; intros l l' F; cbn [rchunks_aux]; [constructor|]. destruct F as [|x y l l' H F]; [constructor|].
  assert (F' : Forall2 P (x :: l) (y :: l')) by (constructor; auto). rewrite (F2_length _ _ _ _ _ F').
  constructor; [apply F2_skipn; exact F'|]. apply IH. apply F2_firstn. exact F'.
Qed.
End Lists.
Lemma F2_map X Y X' Y' (P : X -> Y -> Prop) (Q : X' -> Y' -> Prop) f g l l' : Forall2 P l l' -> (forall x y, P x y -> Q (f x) (g y)) -> Forall2 Q (map f l) (map g l').
Proof. induction 1; cbn; constructor; auto. Qed.
Lemma F2_combine X Y X' Y' (P : X -> Y -> Prop) (Q : X' -> Y' -> Prop) l l' : Forall2 P l l' -> forall m m', Forall2 Q m m' ->
  Forall2 (fun a b => P (fst a) (fst b) /\ Q (snd a) (snd b)) (combine l m) (combine l' m').
Proof. induction 1; intros m m' F; cbn [combine]; [constructor|]. destruct F; constructor; auto. Qed.
Lemma F2_eq X (l l' : list X) : Forall2 eq l l' -> l = l'.
Proof. induction 1; congruence. Qed.

(** A step whose two sides are the same *)
Ltac same := first [apply ro_same; intros ? | eapply ro_bind; [apply ro_refl|intros ? ? <-]].

Section Param.
Context {A B : Type} (R : A -> B -> Prop) {NA : Num A} {NB : Num B} (HR : respects_ring R).
Notation RR := (rel_raw R).

(** ** ModelTensor *)

Definition rel_view (v : view A) (w : view B) : Prop := RR (v_tensor v) (v_tensor w) /\ v_shape v = v_shape w /\ v_offset v = v_offset w.
Definition rel_like (l : tlike A) (m : tlike B) : Prop :=
  match l, m with LRaw t, LRaw u => RR t u | LView v, LView w => rel_view v w | _, _ => False end.
Definition rel_result {X Y : Type} (P : X -> Y -> Prop) (r : result X) (r' : result Y) : Prop :=
  match r, r' with Ok x, Ok y => P x y | Err e, Err e' => e = e' | _, _ => False end.

Lemma p_unwrap X Y (P : X -> Y -> Prop) r r' : rel_result P r r' -> rel_outcome P (unwrap r) (unwrap r').
Proof. destruct r, r'; cbn; try tauto; auto. Qed.

Lemma p_new a b s : Forall2 R a b -> rel_outcome RR (raw_new a s) (raw_new b s).
Proof.
  intros F. unfold raw_new. rewrite (F2_length _ _ _ _ _ F). same. split; [reflexivity|exact F].
Qed.
Lemma p_filler s x y : R x y -> RR (raw_filler s x) (raw_filler s y).
Proof. intros H. unfold raw_filler. destruct s; split; try reflexivity; cbn [array]; [constructor; auto|]. apply F2_repeat. exact H. Qed.
Lemma p_scalar x y : R x y -> RR (raw_scalar x) (raw_scalar y).
Proof. intros H. split; [reflexivity|]. cbn. constructor; auto. Qed.
Lemma p_is_scalar t u : RR t u -> is_scalar t = is_scalar u.
Proof. intros [H F]. unfold is_scalar. rewrite H, (F2_length _ _ _ _ _ F). reflexivity. Qed.

Lemma p_from_list ts us : Forall2 RR ts us -> rel_outcome RR (raw_from_list ts) (raw_from_list us).
Proof.
  intros F. unfold raw_from_list.
  assert (E : map shape ts = map shape us) by (induction F as [|t u ts us H _ IH]; [reflexivity|]; cbn [map]; f_equal; [apply H|exact IH]).
  rewrite E. same. same. split; [reflexivity|]. cbn [array]. apply F2_concat. eapply F2_map; [exact F|]. intros t u H. apply H.
Qed.

Scheme rel_nest_mut := Induction for rel_nest Sort Prop with rel_nests_mut := Induction for rel_nests Sort Prop.
Lemma p_from n m : rel_nest R n m -> rel_outcome RR (raw_from n) (raw_from m).
Proof.
  intros H. refine (rel_nest_mut A B R (fun n m _ => rel_outcome RR (raw_from n) (raw_from m))
    (fun l l' _ => rel_outcome (Forall2 RR)
      ((fix go (l : list (nest A)) : outcome (list (raw A)) := match l with [] => Ret [] | a :: r => let* t := raw_from a in let* ts := go r in Ret (t :: ts) end) l)
      ((fix go (l : list (nest B)) : outcome (list (raw B)) := match l with [] => Ret [] | a :: r => let* t := raw_from a in let* ts := go r in Ret (t :: ts) end) l')) _ _ _ _ n m H).
  - intros x y Hxy. cbn. apply p_scalar. exact Hxy.
  - intros l l' Hl IH. cbn [raw_from]. eapply ro_bind; [exact IH|]. intros ts us F. apply p_from_list. exact F.
  - constructor.
  - intros n' m' l l' Hn IHn Hl IHl. eapply ro_bind; [exact IHn|]. intros t u Ht. eapply ro_bind; [exact IHl|]. intros ts us F. constructor; auto.
Qed.

Lemma p_get t u i : RR t u -> rel_outcome (rel_result R) (raw_get t i) (raw_get u i).
Proof.
  intros [E F]. unfold raw_get. rewrite E. same. destruct x as [g|e]; [|exact eq_refl].
  eapply ro_bind; [apply F2_vindex; exact F|]. intros a b H. exact H.
Qed.
Lemma p_get_with_offset t u i o : RR t u -> rel_outcome (rel_result R) (raw_get_with_offset t i o) (raw_get_with_offset u i o).
Proof.
  intros [E F]. unfold raw_get_with_offset. rewrite E. same. destruct x as [g|e]; [|exact eq_refl].
  eapply ro_bind; [apply F2_vindex; exact F|]. intros a b H. exact H.
Qed.
Lemma p_set t u i x y : RR t u -> R x y -> rel_outcome (rel_result RR) (raw_set t i x) (raw_set u i y).
Proof.
  intros [E F] H. unfold raw_set. rewrite E. same. destruct x0 as [g|e]; [|exact eq_refl].
  eapply ro_bind; [apply F2_vset; [exact F|exact H]|]. intros a b Hab. split; [reflexivity|exact Hab].
Qed.
Lemma p_at t u i : RR t u -> rel_outcome R (raw_at t i) (raw_at u i).
Proof. intros H. unfold raw_at. eapply ro_bind; [apply p_get; exact H|]. intros r r'. apply p_unwrap. Qed.

Lemma p_view_new t u o : RR t u -> rel_outcome rel_view (view_new t o) (view_new u o).
Proof. intros H. pose proof H as [E _]. unfold view_new. rewrite E. same. same. split; [exact H|auto]. Qed.

Lemma p_shape l m : rel_like l m -> tl_shape l = tl_shape m.
Proof. destruct l, m; cbn; try tauto; [intros [H _]; exact H|intros (_ & H & _); exact H]. Qed.
Lemma p_tl_get l m i : rel_like l m -> rel_outcome (rel_result R) (tl_get l i) (tl_get m i).
Proof.
  destruct l as [t|v], m as [u|w]; cbn [rel_like tl_get]; try tauto; [apply p_get|].
  intros ([E F] & _ & Eo). unfold view_get. rewrite E, Eo. same. same. eapply ro_bind; [apply F2_vindex; exact F|]. intros a b H. exact H.
Qed.
Lemma p_get_unwrap l m i : rel_like l m -> rel_outcome R (tl_get_unwrap l i) (tl_get_unwrap m i).
Proof. intros H. unfold tl_get_unwrap. eapply ro_bind; [apply p_tl_get; exact H|]. intros r r'. apply p_unwrap. Qed.
Lemma p_tensor l m : rel_like l m -> RR (tl_tensor l) (tl_tensor m).
Proof. destruct l, m; cbn; try tauto. intros [H _]. exact H. Qed.
Lemma p_first l m : rel_like l m -> rel_outcome R (tl_get_first_elem l) (tl_get_first_elem m).
Proof. intros H. unfold tl_get_first_elem. rewrite (p_shape _ _ H). apply p_get_unwrap. exact H. Qed.

Lemma p_next l m s : rel_like l m -> rel_outcome (rel_next R) (elem_iter_next l s) (elem_iter_next m s).
Proof.
  intros H. unfold elem_iter_next. rewrite (p_shape _ _ H). destruct (ei_first s).
  - eapply ro_bind; [apply p_get_unwrap; exact H|]. intros x y Hxy. split; [exact Hxy|reflexivity].
  - same. destruct x as [index' more]. destruct more; [|split; [exact I|reflexivity]].
    eapply ro_bind; [apply p_get_unwrap; exact H|]. intros x y Hxy. split; [exact Hxy|reflexivity].
Qed.
Lemma p_iter_new l m : rel_like l m -> elem_iter_new l = elem_iter_new m.
Proof. intros H. unfold elem_iter_new. rewrite (p_shape _ _ H). reflexivity. Qed.
Lemma p_elements l m : rel_like l m -> rel_outcome (Forall2 R) (elements l) (elements m).
Proof.
  intros H. unfold elements. rewrite (p_shape _ _ H), (p_iter_new _ _ H). apply ro_iter_fold with (K := R); [intros s; apply p_next; exact H| |constructor].
  intros a b i j Hab Hij. apply F2_snoc; auto.
Qed.
Lemma p_to_tensor l m : rel_like l m -> rel_outcome RR (tl_to_tensor l) (tl_to_tensor m).
Proof.
  intros H. pose proof (p_shape _ _ H) as E. destruct l as [t|v], m as [u|w]; cbn [rel_like] in H; try (exfalso; assumption); cbn [tl_to_tensor tl_shape] in *; [exact H|].
  eapply ro_bind; [apply (p_elements (LView v) (LView w)); exact H|]. intros a b F. rewrite E. apply p_new. exact F.
Qed.
Lemma p_fold a b x y : Forall2 R a b -> R x y -> R (fold_left n_add a x) (fold_left n_add b y).
Proof. intros F. revert x y. induction F as [|c d a b H _ IH]; intros x y Hxy; cbn [fold_left]; [exact Hxy|]. apply IH. apply (rr_add R HR); auto. Qed.
Lemma p_sum l m : rel_like l m -> rel_outcome RR (tl_sum l) (tl_sum m).
Proof.
  intros H. pose proof (p_shape _ _ H) as E. pose proof (p_iter_new _ _ H) as EI. destruct l as [t|v], m as [u|w]; cbn [rel_like] in H; try (exfalso; assumption); cbn [tl_sum tl_shape] in *.
  - apply p_scalar. apply p_fold; [apply H|apply (rr_zero R HR)].
  - rewrite EI, E. eapply ro_bind; [apply (ro_iter_fold _ _ _ _ _ R R)|].
    + intros s. apply p_next. exact H.
    + intros a b i j Hab Hij. apply (rr_add R HR); auto.
    + apply (rr_zero R HR).
    + intros x y Hxy. apply p_scalar. exact Hxy.
Qed.

(** ** ModelOps *)

Lemma p_binop l m l' m' op op' : rel_like l m -> rel_like l' m' -> (forall a b x y, R a x -> R b y -> R (op a b) (op' x y)) ->
  rel_outcome RR (generic_binop_raw l l' op) (generic_binop_raw m m' op').
Proof.
  intros H H' Hop. unfold generic_binop_raw. rewrite (p_shape _ _ H), (p_shape _ _ H'). same.
  apply ro_iter_fold with (K := eq).
  - intros s. apply ro_mono with (P := eq); [|apply ro_refl]. intros [o s1] _ <-. split; [|reflexivity]. destruct o; cbn; auto.
  - intros t u i _ Htu <-. eapply ro_bind; [apply p_get_unwrap; exact H|]. intros a x0 Ha. eapply ro_bind; [apply p_get_unwrap; exact H'|]. intros b y Hb.
    eapply ro_bind; [apply p_set; [exact Htu|apply Hop; eauto]|]. intros r r'. apply p_unwrap.
  - apply p_filler. apply (rr_zero R HR).
Qed.
Lemma p_add l m l' m' : rel_like l m -> rel_like l' m' -> rel_outcome RR (add_raw l l') (add_raw m m').
Proof. intros H H'. apply p_binop; auto. intros. apply (rr_add R HR); auto. Qed.

Lemma p_unary l m op op' : rel_like l m -> (forall a x, R a x -> R (op a) (op' x)) -> rel_outcome RR (generic_unary_op l op) (generic_unary_op m op').
Proof.
  intros H Hop. unfold generic_unary_op. rewrite (p_shape _ _ H). eapply ro_bind; [apply p_to_tensor; exact H|]. intros t u [E F].
  rewrite E, (F2_length _ _ _ _ _ F). eapply ro_bind; [|intros a b Fa; apply p_new; exact Fa].
  generalize (repeat 0 (length (tl_shape m))) as idx. generalize (tl_shape m) as s. intros s idx.
  assert (F0 : Forall2 R (@nil A) (@nil B)) by constructor. revert F0. generalize (@nil A) as acc, (@nil B) as acc'.
  revert idx. induction (length (array u)) as [|n IH]; intros idx acc acc' F0; cbn [unary_loop]; [exact F0|].
  eapply ro_bind; [apply p_get_unwrap; exact H|]. intros a x Hax. same. destruct x0 as [idx' ?]. apply IH. apply F2_snoc; auto.
Qed.

Lemma p_zip_next l m l' m' s : rel_like l m -> rel_like l' m' ->
  rel_outcome (rel_next (fun a b => R (fst a) (fst b) /\ R (snd a) (snd b))) (zip_next l l' s) (zip_next m m' s).
Proof.
  intros H H'. unfold zip_next. eapply ro_bind; [apply p_next; exact H|]. intros [x s1] [y s1'] [Hxy E]. cbn [fst snd] in *. subst s1'.
  destruct x as [a|], y as [b|]; cbn [rel_opt] in Hxy; try (exfalso; assumption); [|split; [exact I|reflexivity]].
  eapply ro_bind; [apply p_next; exact H'|]. intros [x s2] [y s2'] [Hxy' E]. cbn [fst snd] in *. subst s2'.
  destruct x as [a'|], y as [b'|]; cbn [rel_opt] in Hxy'; try (exfalso; assumption); [|split; [exact I|reflexivity]]. split; [cbn; auto|reflexivity].
Qed.
Lemma p_elementwise l m l' m' : rel_like l m -> rel_like l' m' -> rel_outcome RR (element_wise_multiplication l l') (element_wise_multiplication m m').
Proof.
  intros H H'. unfold element_wise_multiplication, same_shape. rewrite (p_shape _ _ H), (p_shape _ _ H'), (p_iter_new _ _ H), (p_iter_new _ _ H').
  same. eapply ro_bind; [|intros a b F; apply p_new; exact F].
  apply ro_iter_fold with (K := fun a b => R (fst a) (fst b) /\ R (snd a) (snd b)); [intros s; apply p_zip_next; auto| |constructor].
  intros a b [i i'] [j j'] Hab [H1 H2]. apply F2_snoc; [exact Hab|]. apply (rr_mul R HR); auto.
Qed.
Lemma p_mul t u l m : RR t u -> rel_like l m -> rel_outcome RR (mul_raw t l) (mul_raw u m).
Proof.
  intros H Hl. pose proof H as [E F]. unfold mul_raw. rewrite E, (p_shape _ _ Hl). pose proof (p_tensor _ _ Hl) as [_ Ft]. destruct (shape u) as [|d s].
  - eapply ro_bind; [apply F2_vindex; exact F|]. intros a b Hab. unfold left_scalar_multiplication. split; [apply p_shape; exact Hl|]. cbn [array].
    eapply F2_map; [exact Ft|]. intros x y Hxy. apply (rr_mul R HR); auto.
  - destruct (tl_shape m).
    + eapply ro_bind; [apply p_first; exact Hl|]. intros a b Hab. unfold right_scalar_multiplication. split; [apply H|]. cbn [array tl_tensor].
      eapply F2_map; [exact F|]. intros x y Hxy. apply (rr_mul R HR); auto.
    + apply p_elementwise; auto.
Qed.
Lemma p_dot l m l' m' : rel_like l m -> rel_like l' m' -> rel_outcome RR (dot_raw l l') (dot_raw m m').
Proof.
  intros H H'. pose proof (p_tensor _ _ H) as [_ F]. pose proof (p_tensor _ _ H') as [_ F']. unfold dot_raw, same_shape.
  rewrite (p_shape _ _ H), (p_shape _ _ H'), (F2_length _ _ _ _ _ F). same. eapply ro_bind; [apply ro_foldM_same with (P := R)|].
  - apply (rr_zero R HR).
  - intros a b i Hab. eapply ro_bind; [apply F2_vindex; exact F|]. intros p q Hpq. eapply ro_bind; [apply F2_vindex; exact F'|]. intros p' q' Hpq'.
    apply (rr_add R HR); [exact Hab|]. apply (rr_mul R HR); auto.
  - intros a b Hab. split; [reflexivity|]. cbn [array]. constructor; auto.
Qed.
Lemma p_bmm_cell l m l' m' li j : rel_like l m -> rel_like l' m' -> rel_outcome R (bmm_cell l l' li j) (bmm_cell m m' li j).
Proof.
  intros H H'. unfold bmm_cell. rewrite (p_shape _ _ H'). same. same. apply ro_foldM_same; [apply (rr_zero R HR)|].
  intros a b k Hab. same. same. eapply ro_bind; [apply p_get_unwrap; exact H|]. intros p q Hpq. eapply ro_bind; [apply p_get_unwrap; exact H'|]. intros p' q' Hpq'.
  apply (rr_add R HR); [exact Hab|]. apply (rr_mul R HR); auto.
Qed.
Lemma p_bmm_rows l m l' m' b n k : rel_like l m -> rel_like l' m' -> rel_outcome (Forall2 R) (bmm_rows l l' b n k) (bmm_rows m m' b n k).
Proof.
  intros H H'. unfold bmm_rows. rewrite (p_shape _ _ H).
  eapply ro_bind; [apply ro_foldM_same with (P := fun u v => Forall2 R (fst u) (fst v) /\ snd u = snd v)|].
  - split; [constructor|reflexivity].
  - intros [arr li] [arr' li'] bi [F E]. cbn [fst snd] in *. subst li'. same.
    apply ro_foldM_same with (P := fun u v => Forall2 R (fst u) (fst v) /\ snd u = snd v); [split; auto|].
    intros [arr1 li1] [arr1' li1'] i [F1 E1]. cbn [fst snd] in *. subst li1'. same.
    eapply ro_bind; [apply ro_mapM_same; intros j; apply p_bmm_cell; auto|]. intros row row' Fr. split; [|reflexivity]. cbn [fst]. apply Forall2_app; auto.
  - intros [arr li] [arr' li'] [F _]. exact F.
Qed.
Lemma p_bmm l m l' m' : rel_like l m -> rel_like l' m' -> rel_outcome RR (bmm_raw l l') (bmm_raw m m').
Proof.
  intros H H'. unfold bmm_raw. rewrite (p_shape _ _ H), (p_shape _ _ H'). do 8 same.
  destruct (length (tl_shape m) =? 2); (eapply ro_bind; [apply p_bmm_rows; auto|]; intros arr arr' F; split; [reflexivity|exact F]).
Qed.

(** ** ModelJvp *)

Lemma p_jdb d d' js bs is dim g g' : RR d d' -> RR g g' -> forall f idx oidx arr arr', Forall2 R arr arr' ->
  rel_outcome (Forall2 R) (jdb_loop f d g js bs is dim idx oidx arr) (jdb_loop f d' g' js bs is dim idx oidx arr').
Proof.
  intros Hd Hg. pose proof Hd as [Ed _]. induction f as [|f IH]; intros idx oidx arr arr' F; cbn [jdb_loop]; [exact I|]. rewrite Ed. same. same.
  eapply ro_bind; [apply ro_foldM_same with (P := Forall2 R); [exact F|]|].
  - intros u v i Huv. unfold jdb_body. do 4 same. eapply ro_bind; [apply p_at; exact Hg|]. intros p q Hpq. eapply ro_bind; [apply p_at; exact Hd|]. intros p' q' Hpq'.
    eapply ro_bind; [apply F2_vindex; exact Huv|]. intros o o' Ho. apply F2_vset; [exact Huv|]. apply (rr_add R HR); [exact Ho|]. apply (rr_mul R HR); auto.
  - intros u v Huv. same. destruct x1 as [idx' more]. destruct more; [|exact Huv]. same. destruct x1 as [oidx' ok]. same. apply IH. exact Huv.
Qed.
Lemma p_diagonal d d' js bs is g g' : RR d d' -> RR g g' ->
  rel_outcome RR (jvp_from_diagonal_broadcast d js bs is g) (jvp_from_diagonal_broadcast d' js bs is g').
Proof.
  intros Hd Hg. pose proof Hd as [Ed Fd]. pose proof Hg as [Eg _]. unfold jvp_from_diagonal_broadcast. rewrite Ed, Eg, (F2_length _ _ _ _ _ Fd). do 5 same.
  eapply ro_bind; [apply p_jdb; auto; apply F2_repeat, (rr_zero R HR)|]. intros u v Huv. apply p_new. exact Huv.
Qed.

Lemma p_unary_jvp t u g g' d d' : RR t u -> RR g g' -> (forall a x, R a x -> R (d a) (d' x)) ->
  rel_outcome (Forall2 RR) (generic_unary_jvp t g d) (generic_unary_jvp u g' d').
Proof.
  intros Ht Hg Hd. pose proof Ht as [Et Ft]. pose proof Hg as [Eg _]. unfold generic_unary_jvp. rewrite Et, Eg, (F2_length _ _ _ _ _ Ft).
  eapply ro_bind with (P := Forall2 R).
  - generalize (repeat 0 (length (shape u))) as idx. generalize (index_fuel (shape u)) as f. intros f idx.
    assert (F0 : Forall2 R (@nil A) (@nil B)) by constructor. revert F0. generalize (@nil A) as acc, (@nil B) as acc'. revert idx.
    induction f as [|f IH]; intros idx acc acc' F0; cbn [unary_diag_loop]; [exact I|].
    eapply ro_bind; [apply p_at; exact Ht|]. intros a x Hax. rewrite Et. same. destruct x0 as [idx' more].
    destruct more; [apply IH|]; apply F2_snoc; auto.
  - intros a b F. eapply ro_bind; [apply p_new; exact F|]. intros dg dg' Hdg. eapply ro_bind; [apply p_diagonal; auto|].
    intros j j' Hj. constructor; [exact Hj|constructor].
Qed.
Lemma p_binop_jvp t u t' u' g g' d d' : RR t u -> RR t' u' -> RR g g' -> (forall a x b y, R a x -> R b y -> R (d a b) (d' x y)) ->
  rel_outcome (Forall2 RR) (generic_binop_jvp t t' g d) (generic_binop_jvp u u' g' d').
Proof.
  intros Ht Ht' Hg Hd. pose proof Ht as [Et Ft]. pose proof Ht' as [Et' Ft']. pose proof Hg as [Eg _]. unfold generic_binop_jvp.
  rewrite Et, Et', Eg, (F2_length _ _ _ _ _ Ft), (F2_length _ _ _ _ _ Ft'). same. eapply ro_bind with (P := Forall2 R).
  - set (bs := max_shape (shape u) (shape u')). generalize (repeat 0 (length bs)) as idx. generalize (index_fuel bs) as f. intros f idx.
    assert (F0 : Forall2 R (@nil A) (@nil B)) by constructor. revert F0. generalize (@nil A) as acc, (@nil B) as acc'. revert idx.
    induction f as [|f IH]; intros idx acc acc' F0; cbn [binop_diag_loop]; [exact I|].
    eapply ro_bind; [apply p_at; exact Ht|]. intros a x' Hax. eapply ro_bind; [apply p_at; exact Ht'|]. intros b y Hby. same. destruct x0 as [idx' more].
    destruct more; [apply IH|]; apply F2_snoc; auto.
  - intros a b F. eapply ro_bind; [apply p_new; exact F|]. intros dg dg' Hdg. eapply ro_bind; [apply p_diagonal; auto|]. intros j j' Hj.
    eapply ro_bind; [apply p_diagonal; auto|]. intros k k' Hk. constructor; [exact Hj|]. constructor; [exact Hk|constructor].
Qed.

Lemma p_one_one ts us gs hs : Forall2 RR ts us -> Forall2 RR gs hs ->
  rel_outcome (fun a b => RR (fst a) (fst b) /\ RR (snd a) (snd b)) (one_one ts gs) (one_one us hs).
Proof.
  intros F G. unfold one_one. destruct F as [|t u ts us Ht F]; [exact eq_refl|]. destruct F; [|exact eq_refl].
  destruct G as [|g h gs hs Hg G]; [exact eq_refl|]. destruct G; [|exact eq_refl]. cbn. auto.
Qed.
Lemma p_two_one ts us gs hs : Forall2 RR ts us -> Forall2 RR gs hs ->
  rel_outcome (fun a b => RR (fst (fst a)) (fst (fst b)) /\ RR (snd (fst a)) (snd (fst b)) /\ RR (snd a) (snd b)) (two_one ts gs) (two_one us hs).
Proof.
  intros F G. unfold two_one. destruct F as [|t u ts us Ht F]; [exact eq_refl|]. destruct F as [|t' u' ts us Ht' F]; [exact eq_refl|]. destruct F; [|exact eq_refl].
  destruct G as [|g h gs hs Hg G]; [exact eq_refl|]. destruct G; [|exact eq_refl]. cbn. auto.
Qed.

Lemma p_full t u t' u' : RR t u -> RR t' u' -> rel_outcome RR (jvp_from_full_jacobians t t') (jvp_from_full_jacobians u u').
Proof.
  intros H H'. unfold jvp_from_full_jacobians. rewrite (p_is_scalar _ _ H), (p_is_scalar _ _ H'). destruct H as [E F], H' as [E' F']. rewrite E, E'.
  destruct (_ || _); [same; apply p_mul; [split; auto|split; auto]|apply p_bmm; split; auto].
Qed.
Lemma p_tanh_derivative t u : respects_tanh R -> RR t u -> rel_outcome RR (tanh_derivative t) (tanh_derivative u).
Proof.
  intros HT [E F]. unfold tanh_derivative. rewrite E. eapply ro_bind; [apply ro_mapM_same|].
  - intros [i j]. destruct (i =? j); [|apply (rr_zero R HR)]. eapply ro_bind; [apply F2_vindex; exact F|]. intros x y Hxy. apply (HT x y Hxy).
  - intros a b Fa. apply p_new. exact Fa.
Qed.

Definition rel_pair (m : nat * A) (m' : nat * B) : Prop := fst m = fst m' /\ R (snd m) (snd m').
Lemma p_deliver ss ss' m m' : Forall2 (Forall2 R) ss ss' -> rel_pair m m' -> rel_outcome (Forall2 (Forall2 R)) (deliver ss m) (deliver ss' m').
Proof.
  intros F [E Hm]. destruct m as [g v], m' as [g' v']. cbn [fst snd] in *. subst g'. unfold deliver. cbn [fst]. rewrite (F2_length _ _ _ _ _ F). same.
  eapply ro_bind; [apply F2_vindex; exact F|]. intros s s' Hs. eapply ro_bind; [|intros r r' Hr; apply F2_vset; [exact F|exact Hr]].
  unfold receive. destruct (g <? x * width); [exact eq_refl|]. rewrite (F2_length _ _ _ _ _ Hs). same.
  eapply ro_bind; [apply F2_vindex; exact Hs|]. intros o o' Ho. apply F2_vset; [exact Hs|]. apply (rr_add R HR); auto.
Qed.
Lemma p_bmm_task a a' b b' j j' os ljs los ros i k jj : RR a a' -> RR b b' -> RR j j' ->
  rel_outcome (Forall2 (fun m m' => rel_pair (fst m) (fst m') /\ rel_pair (snd m) (snd m')))
    (bmm_task a b j os ljs los ros i k jj) (bmm_task a' b' j' os ljs los ros i k jj).
Proof.
  intros Ha Hb Hj. pose proof Ha as [Ea _]. pose proof Hb as [Eb _]. pose proof Hj as [Ej _]. unfold bmm_task. rewrite Ea, Eb, Ej. do 13 same.
  apply ro_mapM_same. intros ii. same. same. eapply ro_bind; [apply p_at; exact Hj|]. intros p q Hpq. eapply ro_bind; [apply p_at; exact Hb|]. intros p' q' Hpq'.
  same. same. eapply ro_bind; [apply p_at; exact Ha|]. intros p2 q2 Hpq2. split; split; cbn [fst snd]; auto; apply (rr_mul R HR); auto.
Qed.
Lemma p_bmm_jvp ts us gs hs : Forall2 RR ts us -> Forall2 RR gs hs -> rel_outcome (Forall2 RR) (bmm_jvp ts gs) (bmm_jvp us hs).
Proof.
  intros F G. unfold bmm_jvp. eapply ro_bind; [apply p_two_one; eauto|]. intros [[a b] j] [[a' b'] j'] (Ha & Hb & Hj). cbn [fst snd] in *.
  pose proof Ha as [Ea _]. pose proof Hb as [Eb _]. pose proof Hj as [Ej _]. rewrite Ea, Eb, Ej. do 6 same.
  eapply ro_bind; [apply ro_mapM_same; intros [[i k] jj]; apply p_bmm_task; eauto|]. intros tk tk' Ft. apply F2_concat in Ft.
  eapply ro_bind; [apply ro_foldM with (P := Forall2 (Forall2 R)) (K := rel_pair); [| |intros; apply p_deliver; auto]|].
  { eapply F2_map; [exact Ft|]. intros u v [H _]. exact H. }
  { apply F2_rchunks. apply F2_repeat. apply (rr_zero R HR). }
  intros ls ls' Fl. eapply ro_bind; [apply ro_foldM with (P := Forall2 (Forall2 R)) (K := rel_pair); [| |intros; apply p_deliver; auto]|].
  { eapply F2_map; [exact Ft|]. intros u v [_ H]. exact H. }
  { apply F2_rchunks. apply F2_repeat. apply (rr_zero R HR). }
  intros rs rs' Fr. eapply ro_bind; [apply p_new; apply F2_concat, F2_rev; exact Fl|]. intros l l' Hl.
  eapply ro_bind; [apply p_new; apply F2_concat, F2_rev; exact Fr|]. intros r r' Hr. constructor; [exact Hl|]. constructor; [exact Hr|constructor].
Qed.

Lemma p_jvp k ts us gs hs : respects R k -> Forall2 RR ts us -> Forall2 RR gs hs -> rel_outcome (Forall2 RR) (jvp k ts gs) (jvp k us hs).
Proof.
  intros HK F G. destruct k; cbn [jvp].
  - unfold add_jvp. eapply ro_bind; [apply p_two_one; eauto|]. intros [[a b] j] [[a' b'] j'] (Ha & Hb & Hj). apply p_binop_jvp; auto. intros. apply (rr_one R HR).
  - unfold neg_jvp. eapply ro_bind; [apply F2_vindex; exact F|]. intros t u Ht. eapply ro_bind; [apply F2_vindex; exact G|]. intros g h Hg.
    apply p_unary_jvp; auto. intros. apply HK. apply (rr_one R HR).
  - unfold abs_jvp. eapply ro_bind; [apply p_one_one; eauto|]. intros [t g] [u h] [Ht Hg]. cbn [fst snd] in *. pose proof Hg as [Eg _]. rewrite Eg. same.
    apply p_unary_jvp; auto. intros a x0 Hax. apply (HK a x0 Hax).
  - unfold relu_jvp. eapply ro_bind; [apply p_one_one; eauto|]. intros [t g] [u h] [Ht Hg]. apply p_unary_jvp; auto. intros a x Hax. apply (HK a x Hax).
  - unfold tanh_jvp. eapply ro_bind; [apply p_one_one; eauto|]. intros [t g] [u h] [Ht Hg]. cbn [fst snd] in *.
    eapply ro_bind; [apply p_tanh_derivative; eauto|]. intros d d' Hd. eapply ro_bind; [apply p_full; eauto|]. intros n n' Hn. constructor; [exact Hn|constructor].
  - unfold ones. eapply ro_bind; [apply p_one_one; eauto|]. intros [t g] [u h] [[Et _] [Eg _]]. cbn [fst snd] in *. rewrite Et, Eg.
    constructor; [|constructor]. apply p_filler. apply (rr_one R HR).
  - apply p_bmm_jvp; auto.
  - unfold dot_jvp. eapply ro_bind; [apply p_two_one; eauto|]. intros [[a b] j] [[a' b'] j'] (Ha & Hb & Hj). cbn [fst snd] in *.
    eapply ro_bind; [apply p_full; eauto|]. intros n n' Hn. eapply ro_bind; [apply p_full; eauto|]. intros q q' Hq.
    constructor; [exact Hn|]. constructor; [exact Hq|constructor].
Qed.

(** ** ModelGraph *)

Definition fn_ok (nd : node A) : Prop := match n_fn nd with Some (k, _) => respects R k | None => True end.
Definition rel_grads (g : nat -> option (raw A)) (g' : nat -> option (raw B)) : Prop := forall i, rel_opt RR (g i) (g' i).
Definition hrel (h : heap A) (k : heap B) : Prop := rel_heap R h k /\ Forall fn_ok (nodes h).

Lemma p_update g g' i t u : rel_grads g g' -> RR t u -> rel_outcome rel_grads (update_grad g i t) (update_grad g' i u).
Proof.
  intros H Ht. pose proof (H i) as Hi. unfold update_grad. destruct (g i) as [o|], (g' i) as [o'|]; cbn [rel_opt] in Hi; try (exfalso; assumption).
  - eapply ro_bind; [apply (p_add (LRaw o) (LRaw o') (LRaw t) (LRaw u)); auto|]. intros s s' Hs j. unfold upd. destruct (j =? i); [exact Hs|apply H].
  - intros j. unfold upd. destruct (j =? i); [exact Ht|apply H].
Qed.

Lemma p_compute ns ns' : Forall2 (rel_node R) ns ns' -> Forall fn_ok ns -> forall f k ins outer outer' g g', respects R k -> Forall2 RR outer outer' -> rel_grads g g' ->
  rel_outcome rel_grads (compute_jvp f ns k ins outer g) (compute_jvp f ns' k ins outer' g').
Proof.
  intros F HO. induction f as [|f IH]; intros k ins outer outer' g g' HK Fo Hg; cbn [compute_jvp]; [exact I|].
  assert (F2 : Forall2 (fun n m => rel_node R n m /\ fn_ok n) ns ns').
  { clear IH. induction F; [constructor|]. inversion HO; subst. constructor; auto. }
  eapply ro_bind; [apply ro_mapM_same; intros i; apply F2_vindex; exact F2|]. intros nds nds' Fn.
  eapply ro_bind; [apply p_jvp; [exact HK| |exact Fo]|].
  - eapply F2_map; [exact Fn|]. intros n m [[H _] _]. exact H.
  - intros gs gs' Fg. eapply ro_foldM with (P := rel_grads)
      (K := fun a b => RR (fst a) (fst b) /\ (fst (snd a) = fst (snd b) /\ (rel_node R (snd (snd a)) (snd (snd b)) /\ fn_ok (snd (snd a))))).
    + apply (F2_combine _ _ _ _ RR (fun a b => fst a = fst b /\ (rel_node R (snd a) (snd b) /\ fn_ok (snd a)))); [exact Fg|].
      apply (F2_combine _ _ _ _ eq (fun n m => rel_node R n m /\ fn_ok n)); [apply F2_refl|exact Fn].
    + exact Hg.
    + intros q q' [x [i nd]] [y [j nd']] Hq (Hx & E & (Hv & Ef) & HO'). cbn [fst snd] in *. subst j. pose proof Hx as [_ Fx]. pose proof Hv as [Ev Fv].
      rewrite (F2_length _ _ _ _ _ Fx), (F2_length _ _ _ _ _ Fv), Ev, <- Ef. same. eapply ro_bind; [apply p_new; exact Fx|]. intros sg sg' Hs.
      eapply ro_bind; [apply p_update; eauto|]. intros q1 q2 Hq1. unfold fn_ok in HO'. destruct (n_fn nd) as [[k' ins']|]; [|exact Hq1].
      apply IH; auto.
Qed.

Lemma p_hget h k i : hrel h k -> rel_outcome (fun n m => rel_node R n m /\ fn_ok n) (hget h i) (hget k i).
Proof.
  intros [[F _] HO]. unfold hget. apply F2_vindex. revert HO. induction F; intros HO; [constructor|]. inversion HO; subst. constructor; auto.
Qed.
Lemma p_backward h k i : hrel h k -> rel_outcome hrel (backward h i) (backward k i).
Proof.
  intros H. unfold backward. eapply ro_bind; [apply p_hget; exact H|]. intros nd nd' [[[Ev Fv] Ef] HO]. rewrite (F2_length _ _ _ _ _ Fv), <- Ef. same.
  unfold fn_ok in HO. destruct (n_fn nd) as [[k' ins]|]; [|exact eq_refl]. cbn [unwrap_opt bind]. destruct H as [[Fn Hg] HF]. rewrite (F2_length _ _ _ _ _ Fn).
  eapply ro_bind; [apply p_compute; [exact Fn|exact HF|exact HO| |exact Hg]|].
  - constructor; [apply p_scalar, (rr_one R HR)|constructor].
  - intros g g' Hgg. split; [split; [exact Fn|exact Hgg]|exact HF].
Qed.

Definition rel_made (a : heap A * nat) (b : heap B * nat) : Prop := hrel (fst a) (fst b) /\ snd a = snd b.
Lemma p_alloc h k t u fn o o' : hrel h k -> RR t u -> fn_ok (mkNode t fn) -> rel_opt RR o o' -> rel_made (alloc h t fn o) (alloc k u fn o').
Proof.
  intros [[F Hg] HO] Ht Hf Ho. unfold alloc. rewrite (F2_length _ _ _ _ _ F). split; [|reflexivity]. cbn [fst]. split; [split|]; cbn [nodes grads].
  - apply Forall2_app; [exact F|]. constructor; [|constructor]. split; [exact Ht|reflexivity].
  - intros i. unfold upd. destruct (i =? _); [exact Ho|apply Hg].
  - apply Forall_app. split; [exact HO|]. constructor; [exact Hf|constructor].
Qed.

Ltac getnode H := eapply ro_bind; [apply p_hget; exact H|]; intros ? ? [[? ?] ?].
Ltac made := apply p_alloc; [assumption|assumption|exact I|exact I].

Lemma p_op_neg h k i : respects_neg R -> hrel h k -> rel_outcome rel_made (op_neg h i) (op_neg k i).
Proof.
  intros HN H. unfold op_neg, neg_raw. getnode H. eapply ro_bind; [apply p_unary; [|exact HN]; assumption|]. intros t u Ht.
  apply p_alloc; [assumption|assumption|exact HN|exact I].
Qed.
Lemma p_op_add h k i j : hrel h k -> rel_outcome rel_made (op_add h i j) (op_add k i j).
Proof. intros H. unfold op_add. getnode H. getnode H. eapply ro_bind; [apply p_add; assumption|]. intros t u Ht. made. Qed.

Lemma p_exec s t c d : env s = env t -> hrel (hp s) (hp t) -> rel_cmd R c d -> (forall k, In k (needs c) -> respects R k) ->
  rel_outcome (fun s t => env s = env t /\ hrel (hp s) (hp t)) (exec s c) (exec t d).
Proof.
  intros E H C HN.
  assert (P : forall m m', rel_outcome rel_made m m' -> rel_outcome (fun s t => env s = env t /\ hrel (hp s) (hp t)) (push s m) (push t m')).
  { intros m m' Hm. unfold push. eapply ro_bind; [exact Hm|]. intros [h i] [k j] [Hh Ei]. cbn [fst snd] in *. subst j. split; cbn [env hp]; [congruence|exact Hh]. }
  destruct C; cbn [exec needs] in *; rewrite ?E; try (same; try same; apply P).
  - apply P. unfold op_new. eapply ro_bind; [apply p_new; eauto|]. intros p q Hpq. made.
  - apply P. apply p_alloc; [assumption|apply p_filler; assumption|exact I|exact I].
  - apply P. apply p_alloc; [assumption|apply p_scalar; assumption|exact I|exact I].
  - apply P. unfold op_from. eapply ro_bind; [apply p_from; eauto|]. intros p q Hpq. made.
  - apply p_op_add. exact H.
  - unfold op_sub. eapply ro_bind; [apply p_op_neg; [apply (HN KNeg); left; reflexivity|exact H]|]. intros [h1 i1] [k1 j1] [Hh Ei]. cbn [fst snd] in *. subst j1. apply p_op_add. exact Hh.
  - apply p_op_neg; [apply (HN KNeg); left; reflexivity|exact H].
  - unfold op_mul. getnode H. getnode H. eapply ro_bind; [apply p_mul; assumption|]. intros p q Hpq. made.
  - unfold op_abs, abs_raw. getnode H. assert (HA : respects_abs R) by (apply (HN KAbs); left; reflexivity).
    eapply ro_bind; [apply p_unary; [|intros a xx Hax; apply (HA a xx Hax)]; assumption|]. intros p q Hpq. apply p_alloc; [assumption|assumption|exact HA|exact I].
  - unfold op_relu, relu_raw. getnode H. assert (HA : respects_relu R) by (apply (HN KRelu); left; reflexivity).
    eapply ro_bind; [apply p_unary; [|intros a xx Hax; apply (HA a xx Hax)]; assumption|]. intros p q Hpq. apply p_alloc; [assumption|assumption|exact HA|exact I].
  - unfold op_tanh, tanh_raw. getnode H. assert (HA : respects_tanh R) by (apply (HN KTanh); left; reflexivity).
    eapply ro_bind; [apply p_unary; [|intros a xx Hax; apply (HA a xx Hax)]; assumption|]. intros p q Hpq. apply p_alloc; [assumption|assumption|exact HA|exact I].
  - unfold op_sum. getnode H. eapply ro_bind; [apply p_sum; assumption|]. intros p q Hpq. apply p_alloc; [assumption|assumption|exact I|].
    cbn [rel_opt]. match goal with Q : rel_raw R _ _ |- RR (raw_filler (shape (n_val ?a)) _) (raw_filler (shape (n_val ?b)) _) =>
      let G := fresh in assert (G : shape (n_val a) = shape (n_val b)) by (match goal with K : rel_raw R (n_val a) (n_val b) |- _ => apply K end); rewrite G end.
    apply p_filler. apply (rr_one R HR).
  - unfold op_bmm. getnode H. getnode H. eapply ro_bind; [apply p_bmm; assumption|]. intros p q Hpq. made.
  - unfold op_dot. getnode H. getnode H. eapply ro_bind; [apply p_dot; assumption|]. intros p q Hpq. made.
  - exact eq_refl.
  - unfold op_deep_clone, tl_deep_clone. getnode H. eapply ro_bind; [apply p_to_tensor; assumption|]. intros p q Hpq. made.
  - unfold op_grad. destruct H as [[HF Hg] HO]. pose proof (Hg x0) as Hx. destruct (grads (hp s) x0), (grads (hp t) x0); cbn [rel_opt] in Hx; try (exfalso; assumption); [|exact eq_refl].
    cbn [unwrap_opt bind]. apply p_alloc; [split; [split|]; assumption|assumption|exact I|exact I].
  - unfold op_view_to_tensor. getnode H. eapply ro_bind; [apply p_view_new; eauto|]. intros v w Hv.
    eapply ro_bind; [apply (p_to_tensor (LView v) (LView w)); exact Hv|]. intros p q Hpq. made.
  - unfold op_view_sum. getnode H. eapply ro_bind; [apply p_view_new; eauto|]. intros v w Hv.
    eapply ro_bind; [apply (p_sum (LView v) (LView w)); exact Hv|]. intros p q Hpq. made.
  - unfold op_mul_view. getnode H. getnode H. eapply ro_bind; [apply p_view_new; eauto|]. intros v w Hv.
    eapply ro_bind; [apply (p_mul _ _ (LView v) (LView w)); [assumption|exact Hv]|]. intros p q Hpq. made.
  - unfold op_bmm_view. getnode H. getnode H. eapply ro_bind; [apply p_view_new; eauto|]. intros v w Hv.
    eapply ro_bind; [apply (p_bmm (LRaw _) (LRaw _) (LView v) (LView w)); [assumption|exact Hv]|]. intros p q Hpq.
    eapply ro_bind; [apply (p_to_tensor (LView v) (LView w)); exact Hv|]. intros p' q' Hpq'.
    assert (M : rel_made (alloc (hp s) p' None None) (alloc (hp t) q' None None)) by made.
    destruct (alloc (hp s) p' None None) as [h1 i1], (alloc (hp t) q' None None) as [k1 j1]. destruct M as [M1 M2]. cbn [fst snd] in *. subst j1. made.
  - same. same. unfold op_update_grad. eapply ro_bind with (P := hrel); [|intros h1 k1 Hh; split; [reflexivity|exact Hh]].
    getnode H. destruct H as [[HF Hg] HO]. eapply ro_bind; [apply p_update; [exact Hg|assumption]|]. intros g g' Hgg. split; [split|]; assumption.
  - same. split; [reflexivity|]. cbn [hp]. unfold zero_grad. destruct H as [[HF Hg] HO]. split; [split|]; cbn [nodes grads]; try assumption.
    intros i. unfold upd. destruct (i =? _); [exact I|apply Hg].
  - same. eapply ro_bind; [apply p_backward; exact H|]. intros h1 k1 Hh. split; [reflexivity|exact Hh].
Qed.

(** ** Programs *)

Lemma p_run p q s t : Forall2 (rel_cmd R) p q -> (forall c k, In c p -> In k (needs c) -> respects R k) ->
  env s = env t -> hrel (hp s) (hp t) -> rel_outcome (fun s t => env s = env t /\ hrel (hp s) (hp t)) (run p s) (run q t).
Proof.
  intros F. revert s t. unfold run. induction F as [|c d p q H F IH]; intros s t HN E HH; cbn [foldM]; [split; auto|].
  eapply ro_bind; [apply p_exec; eauto; intros k Hk; eapply HN; [left; reflexivity|exact Hk]|]. intros s1 t1 [E1 H1]. apply IH; auto.
  intros c' k Hc Hk. eapply HN; [right; exact Hc|exact Hk].
Qed.

Lemma parametric p q : Forall2 (rel_cmd R) p q -> (forall c k, In c p -> In k (needs c) -> respects R k) ->
  rel_outcome (rel_state R) (run p init_state) (run q init_state).
Proof.
  intros F HN. apply ro_mono with (P := fun s t => env s = env t /\ hrel (hp s) (hp t)).
  - intros s t [E [H _]]. split; auto.
  - apply p_run; auto. split; [split; [constructor|intros i; exact I]|constructor].
Qed.

(** ** ModelNN, ModelMain *)

Definition rel_act (f : act A) (g : act B) : Prop := forall h k i, hrel h k -> rel_outcome rel_made (f h i) (g k i).
Definition rel_linear (l : linear A) (m : linear B) : Prop :=
  weights l = weights m /\ bias l = bias m /\ rel_act (activation l) (activation m).
Definition rel_net (a : heap A * mlp A) (b : heap B * mlp B) : Prop := hrel (fst a) (fst b) /\ Forall2 rel_linear (snd a) (snd b).

Lemma p_op_bmm h k i j : hrel h k -> rel_outcome rel_made (op_bmm h i j) (op_bmm k i j).
Proof. intros H. unfold op_bmm. getnode H. getnode H. eapply ro_bind; [apply p_bmm; assumption|]. intros p q Hpq. made. Qed.
Lemma p_op_sub h k i j : respects_neg R -> hrel h k -> rel_outcome rel_made (op_sub h i j) (op_sub k i j).
Proof.
  intros HN H. unfold op_sub. eapply ro_bind; [apply p_op_neg; [exact HN|exact H]|]. intros [h1 i1] [k1 j1] [Hh Ei].
  cbn [fst snd] in *. subst j1. apply p_op_add. exact Hh.
Qed.
Lemma p_op_unary_abs h k i : respects_abs R -> hrel h k -> rel_outcome rel_made (op_abs h i) (op_abs k i).
Proof.
  intros HA H. unfold op_abs, abs_raw. getnode H. eapply ro_bind; [apply p_unary; [|intros a xx Hax; apply (HA a xx Hax)]; assumption|].
  intros p q Hpq. apply p_alloc; [assumption|assumption|exact HA|exact I].
Qed.
Lemma p_op_relu : respects_relu R -> rel_act op_relu op_relu.
Proof.
  intros HA h k i H. unfold op_relu, relu_raw. getnode H. eapply ro_bind; [apply p_unary; [|intros a xx Hax; apply (HA a xx Hax)]; assumption|].
  intros p q Hpq. apply p_alloc; [assumption|assumption|exact HA|exact I].
Qed.
Lemma p_op_tanh : respects_tanh R -> rel_act op_tanh op_tanh.
Proof.
  intros HA h k i H. unfold op_tanh, tanh_raw. getnode H. eapply ro_bind; [apply p_unary; [|intros a xx Hax; apply (HA a xx Hax)]; assumption|].
  intros p q Hpq. apply p_alloc; [assumption|assumption|exact HA|exact I].
Qed.
Lemma p_op_sum h k i : hrel h k -> rel_outcome rel_made (op_sum h i) (op_sum k i).
Proof.
  intros H. unfold op_sum. eapply ro_bind; [apply p_hget; exact H|]. intros n m [[Hv Ef] HO]. eapply ro_bind; [apply p_sum; exact Hv|]. intros p q Hpq.
  apply p_alloc; [assumption|assumption|exact I|]. destruct Hv as [Ev _]. rewrite Ev. apply p_filler. apply (rr_one R HR).
Qed.
Lemma p_op_new h k a b s : hrel h k -> Forall2 R a b -> rel_outcome rel_made (op_new h a s) (op_new k b s).
Proof. intros H F. unfold op_new. eapply ro_bind; [apply p_new; eauto|]. intros p q Hpq. made. Qed.

Lemma p_linear_forward l m h k i : rel_linear l m -> hrel h k -> rel_outcome rel_made (linear_forward l h i) (linear_forward m k i).
Proof.
  intros (Ew & Eb & Ha) H. unfold linear_forward. rewrite Ew, Eb. eapply ro_bind; [apply p_op_bmm; exact H|]. intros [h1 i1] [k1 j1] [H1 E1].
  cbn [fst snd] in *. subst j1. eapply ro_bind; [apply p_op_add; exact H1|]. intros [h2 i2] [k2 j2] [H2 E2]. cbn [fst snd] in *. subst j2. apply Ha. exact H2.
Qed.
Lemma p_mlp_forward l m h k i : Forall2 rel_linear l m -> hrel h k -> rel_outcome rel_made (mlp_forward l h i) (mlp_forward m k i).
Proof.
  intros F H. unfold mlp_forward. apply ro_foldM with (P := rel_made) (K := rel_linear); [exact F|split; [exact H|reflexivity]|].
  intros [h1 i1] [k1 j1] a b [H1 E1] Hab. cbn [fst snd] in *. subst j1. apply p_linear_forward; auto.
Qed.
Lemma p_params l m : Forall2 rel_linear l m -> mlp_params l = mlp_params m.
Proof.
  unfold mlp_params. induction 1 as [|a b l m (Ew & Eb & _) _ IH]; [reflexivity|]. cbn [flat_map]. unfold linear_params at 1 3. rewrite Ew, Eb, IH. reflexivity.
Qed.
Lemma p_update_params l m ps : Forall2 rel_linear l m -> rel_outcome (Forall2 rel_linear) (mlp_update_params l ps) (mlp_update_params m ps).
Proof.
  intros F. unfold mlp_update_params. apply F2_rev in F. revert F. generalize (rev l) as rl, (rev m) as rm, (rev ps) as rp.
  assert (F0 : Forall2 rel_linear [] []) by constructor. revert F0. generalize (@nil (linear A)) as acc, (@nil (linear B)) as acc'.
  intros acc acc' F0 rl rm rp F. revert acc acc' F0 rp. induction F as [|a b rl rm (Ew & Eb & Ha) _ IH]; intros acc acc' F0 rp; cbn [mlp_update_loop]; [exact F0|].
  destruct rp as [|b1 [|w1 rp]]; try exact eq_refl. cbn [linear_update_params vremove vindex nth_error bind firstn skipn app].
  apply IH. constructor; [|exact F0]. repeat split. exact Ha.
Qed.
Lemma p_sgd ps : respects_neg R -> forall st st' h k, RR st st' -> hrel h k ->
  rel_outcome (fun a b => hrel (fst a) (fst b) /\ snd a = snd b) (sgd_new_params st h ps) (sgd_new_params st' k ps).
Proof.
  intros HN st st' h k Hs H. unfold sgd_new_params. apply ro_foldM_same; [split; auto|].
  intros [h1 acc] [k1 acc'] i [H1 E1]. cbn [fst snd] in *. subst acc'.
  eapply ro_bind with (P := rel_made); [|intros [h2 i2] [k2 j2] [H2 E2]; cbn [fst snd] in *; subst j2; split; [exact H2|reflexivity]].
  unfold sgd_param. pose proof H1 as [[_ Hg] _]. specialize (Hg i). destruct (grads h1 i), (grads k1 i); cbn [rel_opt] in Hg; try (exfalso; assumption); [|exact eq_refl].
  cbn [unwrap_opt bind]. eapply ro_bind; [apply (p_mul _ _ (LRaw _) (LRaw _)); [exact Hs|exact Hg]|]. intros p q Hpq.
  assert (M : rel_made (alloc h1 p None None) (alloc k1 q None None)) by made.
  destruct (alloc h1 p None None) as [h2 i2], (alloc k1 q None None) as [k2 j2]. destruct M as [M1 M2]. cbn [fst snd] in *. subst j2.
  eapply ro_bind; [apply p_op_sub; [exact HN|exact M1]|]. intros [h3 i3] [k3 j3] [[[F3 G3] O3] E3]. cbn [fst snd] in *. subst j3. split; [|reflexivity].
  cbn [fst]. unfold zero_grad. split; [split|]; cbn [nodes grads]; try assumption. intros j. unfold upd. destruct (j =? i3); [exact I|apply G3].
Qed.
Lemma p_train_step l m st st' h k x y : respects_neg R -> respects_abs R -> Forall2 rel_linear l m -> RR st st' -> hrel h k ->
  rel_outcome rel_net (train_step l st h x y) (train_step m st' k x y).
Proof.
  intros HN HA F Hs H. unfold train_step. eapply ro_bind; [apply p_mlp_forward; eauto|]. intros [h1 i1] [k1 j1] [H1 E1]. cbn [fst snd] in *. subst j1.
  eapply ro_bind; [apply p_op_sub; eauto|]. intros [h2 i2] [k2 j2] [H2 E2]. cbn [fst snd] in *. subst j2.
  eapply ro_bind; [apply p_op_unary_abs; eauto|]. intros [h3 i3] [k3 j3] [H3 E3]. cbn [fst snd] in *. subst j3.
  eapply ro_bind; [apply p_op_sum; eauto|]. intros [h4 i4] [k4 j4] [H4 E4]. cbn [fst snd] in *. subst j4.
  eapply ro_bind; [apply p_backward; eauto|]. intros h5 k5 H5. unfold sgd_step_mlp. rewrite (p_params _ _ F).
  eapply ro_bind; [apply p_sgd; eauto|]. intros [h6 ps] [k6 ps'] [H6 E6]. cbn [fst snd] in *. subst ps'.
  eapply ro_bind; [apply p_update_params; exact F|]. intros l' m' F'. split; assumption.
Qed.

Definition rel_setup (a : heap A * mlp A * nat * nat) (b : heap B * mlp B * nat * nat) : Prop :=
  hrel (fst (fst (fst a))) (fst (fst (fst b))) /\ Forall2 rel_linear (snd (fst (fst a))) (snd (fst (fst b))) /\
  snd (fst a) = snd (fst b) /\ snd a = snd b.
Lemma p_setup inp hid out one one' w1 w1' b1 b1' w2 w2' b2 b2' w3 w3' b3 b3' input input' :
  respects_relu R -> respects_tanh R -> R one one' ->
  Forall2 R w1 w1' -> Forall2 R b1 b1' -> Forall2 R w2 w2' -> Forall2 R b2 b2' -> Forall2 R w3 w3' -> Forall2 R b3 b3' -> Forall2 R input input' ->
  rel_outcome rel_setup (main_setup inp hid out one w1 b1 w2 b2 w3 b3 input) (main_setup inp hid out one' w1' b1' w2' b2' w3' b3' input').
Proof.
  intros HL HT H1 Fw1 Fb1 Fw2 Fb2 Fw3 Fb3 Fi.
  unfold main_setup, main_net. set (e := mkHeap [] (fun _ : nat => None : option (raw A))). set (e' := mkHeap [] (fun _ : nat => None : option (raw B))).
  assert (H0 : hrel e e') by (split; [split; [constructor|intros i; exact I]|constructor]).
  eapply ro_bind with (P := rel_net).
  - eapply ro_bind; [apply p_op_new; [exact H0|exact Fw1]|]. intros [ha ia] [ka ja] [Ha Ea]. cbn [fst snd] in *. subst ja.
    eapply ro_bind; [apply p_op_new; [exact Ha|exact Fb1]|]. intros [hb ib] [kb jb] [Hb Eb]. cbn [fst snd] in *. subst jb.
    eapply ro_bind; [apply p_op_new; [exact Hb|exact Fw2]|]. intros [hc ic] [kc jc] [Hc Ec]. cbn [fst snd] in *. subst jc.
    eapply ro_bind; [apply p_op_new; [exact Hc|exact Fb2]|]. intros [hd id] [kd jd] [Hd Ed]. cbn [fst snd] in *. subst jd.
    eapply ro_bind; [apply p_op_new; [exact Hd|exact Fw3]|]. intros [he ie] [ke je] [He Ee]. cbn [fst snd] in *. subst je.
    eapply ro_bind; [apply p_op_new; [exact He|exact Fb3]|]. intros [hf jf] [kf jf'] [Hf Ef]. cbn [fst snd] in *. subst jf'.
    split; [exact Hf|]. cbn [snd]. repeat constructor; cbn [weights bias activation relu_layer tanh_layer linear_new]; auto using p_op_relu, p_op_tanh.
  - intros [h l] [k m] [Hh F]. cbn [fst snd] in *. eapply ro_bind; [apply p_op_new; [exact Hh|exact Fi]|]. intros [hx x] [kx x'] [Hx Ex]. cbn [fst snd] in *. subst x'.
    unfold op_filler. eapply ro_bind with (P := rel_made); [apply p_alloc; [exact Hx|apply p_filler; exact H1|exact I|exact I]|].
    intros [hy y] [ky y'] [Hy Ey]. cbn [fst snd] in *. subst y'. unfold rel_setup. cbn. auto.
Qed.
Lemma p_zero_grads h k x y : hrel h k -> hrel (zero_grad (zero_grad h y) x) (zero_grad (zero_grad k y) x).
Proof.
  intros [[F G] O]. split; [split|]; cbn [nodes grads zero_grad]; try assumption.
  intros i. unfold zero_grad, upd. cbn [grads]. destruct (i =? x); [exact I|]. destruct (i =? y); [exact I|]. apply G.
Qed.
Lemma p_main inp hid out rounds one one' st st' w1 w1' b1 b1' w2 w2' b2 b2' w3 w3' b3 b3' input input' :
  respects_neg R -> respects_abs R -> respects_relu R -> respects_tanh R -> R one one' -> R st st' ->
  Forall2 R w1 w1' -> Forall2 R b1 b1' -> Forall2 R w2 w2' -> Forall2 R b2 b2' -> Forall2 R w3 w3' -> Forall2 R b3 b3' -> Forall2 R input input' ->
  rel_outcome rel_net (main_program inp hid out rounds one st w1 b1 w2 b2 w3 b3 input)
                      (main_program inp hid out rounds one' st' w1' b1' w2' b2' w3' b3' input').
Proof.
  intros HN HA HL HT H1 Hs Fw1 Fb1 Fw2 Fb2 Fw3 Fb3 Fi. unfold main_program.
  eapply ro_bind; [apply p_setup; eassumption|].
  intros [[[h l] x] y] [[[k m] x'] y'] (Hh & F & Ex & Ey). cbn [fst snd] in *. subst x' y'.
  apply ro_foldM_same with (P := rel_net); [split; assumption|]. intros [h1 l1] [k1 m1] u [Hh1 F1]. cbn [fst snd] in *. unfold main_round.
  eapply ro_bind; [apply p_train_step; [exact HN|exact HA|exact F1|apply p_scalar; exact Hs|exact Hh1]|].
  intros [h2 l2] [k2 m2] [H2 FL]. cbn [fst snd] in *. split; [|exact FL]. apply p_zero_grads. exact H2.
Qed.

End Param.
