(** * UsizeSmall: tensors that are small enough never make a [usize] overflow *)
From Verif Require Import Base ModelIndex ModelTensor ModelOps ModelJvp ModelGraph ModelUsize Spec SpecDual SpecGraph Lists IndexFacts TensorFacts JvpFacts GraphFacts ProgFacts UsizeFacts.

(** Whatever the first computation returns, the second returns too *)
Definition pres {A} (o o' : outcome A) : Prop := forall y, o = Ret y -> o' = Ret y.
Lemma p_refl A (o : outcome A) : pres o o.
Proof. intros y H. exact H. Qed.
Lemma p_eq A (o o' : outcome A) : o' = o -> pres o o'.
Proof. intros -> y H. exact H. Qed.
Lemma p_bind A B (m m' : outcome A) (f f' : A -> outcome B) : pres m m' -> (forall a, m = Ret a -> pres (f a) (f' a)) -> pres (bind m f) (bind m' f').
Proof. intros H1 H2 y E. apply bind_Ret_inv in E as (a & E1 & E2). rewrite (H1 _ E1). cbn [bind]. apply (H2 a E1). exact E2. Qed.
Lemma p_foldM A B (P : A -> Prop) (f f' : A -> B -> outcome A) l : (forall a b, In b l -> P a -> pres (f a b) (f' a b)) -> (forall a b a', In b l -> P a -> f a b = Ret a' -> P a') ->
  forall a, P a -> pres (foldM f l a) (foldM f' l a).
Proof.
  induction l as [|b l IH]; intros H1 H2 a Ha; cbn [foldM]; [apply p_refl|]. apply p_bind; [apply H1; [left; reflexivity|exact Ha]|]. intros a' E.
  apply IH; [intros x y Hy Hx; apply H1; [right; exact Hy|exact Hx]|intros x y z Hy Hx; apply H2; [right; exact Hy|exact Hx]|]. apply (H2 a b); [left; reflexivity|exact Ha|exact E].
Qed.
Lemma p_foldM0 A B (f f' : A -> B -> outcome A) l : (forall a b, In b l -> pres (f a b) (f' a b)) -> forall a, pres (foldM f l a) (foldM f' l a).
Proof. intros H a. apply (p_foldM _ _ (fun _ => True)); auto. Qed.
Lemma p_mapM A B (f f' : A -> outcome B) l : (forall a, In a l -> pres (f a) (f' a)) -> pres (mapM f l) (mapM f' l).
Proof.
  induction l as [|b l IH]; intros H; cbn [mapM]; [apply p_refl|]. apply p_bind; [apply H; left; reflexivity|]. intros a _. apply p_bind; [|intros; apply p_refl].
  apply IH. intros x Hx. apply H. right. exact Hx.
Qed.
Lemma p_iter_fold St I A (PS : St -> Prop) (PA : A -> Prop) next next' (body body' : A -> I -> outcome A) :
  (forall s : St, PS s -> pres (next s) (next' s)) -> (forall s o s', PS s -> next s = Ret (o, s') -> PS s') ->
  (forall a i, PA a -> pres (body a i) (body' a i)) -> (forall a i a', PA a -> body a i = Ret a' -> PA a') ->
  forall fuel s acc, PS s -> PA acc -> pres (iter_fold next body fuel s acc) (iter_fold next' body' fuel s acc).
Proof.
  intros H1 H2 H3 H4. induction fuel as [|f IH]; intros s acc Hs Ha; cbn [iter_fold]; [apply p_refl|]. apply p_bind; [auto|]. intros [o s'] E. destruct o as [x|]; [|apply p_refl].
  apply p_bind; [auto|]. intros acc' E'. apply IH; [apply (H2 s (Some x)); auto|apply (H4 acc x); auto].
Qed.

Section Small.
Context {U : usize_ops}.
Variable M : nat.
Hypothesis X_add : forall a b, a + b < M -> u_add a b = Ret (a + b).
Hypothesis X_mul : forall a b, a * b < M -> u_mul a b = Ret (a * b).
Hypothesis X_sub : forall a b, b <= a -> u_sub a b = Ret (a - b).

Definition ok (s : list nat) : Prop := positive s /\ size s < M.
Lemma dim_le s d : positive s -> In d s -> d <= size s.
Proof.
  intros H. induction H as [|x s Hx Hs IH]; intros Hd; [destruct Hd|]. cbn [size fold_right]. change (fold_right Nat.mul 1 s) with (size s).
  pose proof (proj1 (size_pos s) Hs). destruct Hd as [-> | Hd]; [nia|]. specialize (IH Hd). nia.
Qed.
Lemma ok_dims s : ok s -> Forall (fun d => d < M) s.
Proof. intros [H1 H2]. apply Forall_forall. intros d Hd. pose proof (dim_le s d H1 Hd). lia. Qed.

Lemma s_product_le s s' : Forall2 le s s' -> ok s' -> u_product s = Ret (product s).
Proof.
  intros H [H1 H2]. unfold u_product, product.
  assert (G : forall a, a * size s' < M -> foldM u_mul s a = Ret (fold_left Nat.mul s a)); [|apply G; lia].
  clear H2. induction H as [|d d' s s' Hd Hs IH]; intros a Ha; cbn [foldM fold_left]; [reflexivity|]. inversion H1 as [|x y Hx Hy]; subst. cbn [size fold_right] in Ha. change (fold_right Nat.mul 1 s') with (size s') in Ha.
  pose proof (proj1 (size_pos s') Hy) as Hp. assert (a * d' <= a * (d' * size s')) by nia. assert (a * d <= a * d') by nia. rewrite X_mul by lia. cbn [bind]. apply IH; [exact Hy|]. nia.
Qed.
Lemma s_product s : ok s -> u_product s = Ret (product s).
Proof. intros H. apply (s_product_le s s); [|exact H]. clear H. induction s; constructor; auto. Qed.

(** The loop of [global_index]: where it ends well, nothing overflows *)
Lemma s_gi_ok rank off : forall pairs pos g m r, positive (map fst pairs) -> g < m -> m * size (map fst pairs) < M ->
  gi_loop rank off pairs pos g m = Ret (Ok r) -> u_gi_loop rank off pairs pos g m = Ret (Ok r).
Proof.
  induction pairs as [|[dim idx] rest IH]; intros pos g m r Hp Hg Hm E; cbn [gi_loop u_gi_loop] in *; [exact E|]. cbn [map fst size fold_right] in Hp, Hm. change (fold_right Nat.mul 1 (map fst rest)) with (size (map fst rest)) in Hm.
  inversion Hp as [|x y Hx Hy]; subst. pose proof (proj1 (size_pos _) Hy) as Hr. destruct (Nat.eqb_spec dim 1) as [-> | Hd]; [apply IH; auto; nia|].
  assert (Hmd : m * dim <= m * (dim * size (map fst rest))) by nia.
  destruct off as [o|].
  - destruct (vindex o (rank - pos - 1)) as [q| |]; cbn [bind] in *; try discriminate.
    destruct (sr_end q <? sr_start q) eqn:E1; [discriminate|]. apply Nat.ltb_ge in E1. rewrite X_sub by exact E1. cbn [bind] in *.
    destruct (sr_end q - sr_start q <=? idx) eqn:E2; [discriminate|]. destruct (dim <=? sr_start q + idx) eqn:E3; [discriminate|]. apply Nat.leb_gt in E3.
    assert ((sr_start q + idx) * m + m <= m * dim) by nia. rewrite X_add by nia. cbn [bind]. rewrite E2, (proj2 (Nat.leb_gt _ _) E3). rewrite X_mul by nia. cbn [bind]. rewrite X_add by nia. cbn [bind]. rewrite X_mul by nia. cbn [bind].
    apply IH; auto; nia.
  - cbn [bind] in *. destruct (dim <=? idx) eqn:E3; [discriminate|]. apply Nat.leb_gt in E3. assert (idx * m + m <= m * dim) by nia. rewrite X_mul by nia. cbn [bind]. rewrite X_add by nia. cbn [bind]. rewrite X_mul by nia. cbn [bind].
    apply IH; auto; nia.
Qed.
Lemma s_gi_none rank : forall pairs pos g m, positive (map fst pairs) -> g < m -> m * size (map fst pairs) < M ->
  u_gi_loop rank None pairs pos g m = gi_loop rank None pairs pos g m.
Proof.
  induction pairs as [|[dim idx] rest IH]; intros pos g m Hp Hg Hm; cbn [gi_loop u_gi_loop]; [reflexivity|]. cbn [map fst size fold_right] in Hp, Hm. change (fold_right Nat.mul 1 (map fst rest)) with (size (map fst rest)) in Hm.
  inversion Hp as [|x y Hx Hy]; subst. pose proof (proj1 (size_pos _) Hy) as Hr. destruct (Nat.eqb_spec dim 1) as [-> | Hd]; [apply IH; auto; nia|].
  assert (Hmd : m * dim <= m * (dim * size (map fst rest))) by nia. cbn [bind]. destruct (dim <=? idx) eqn:E3; [reflexivity|]. apply Nat.leb_gt in E3. assert (idx * m + m <= m * dim) by nia.
  rewrite X_mul by nia. cbn [bind]. rewrite X_add by nia. cbn [bind]. rewrite X_mul by nia. cbn [bind]. apply IH; auto; nia.
Qed.
Lemma fst_combine A B (a : list A) : forall b : list B, map fst (combine a b) = firstn (length b) a.
Proof. induction a as [|x a IH]; intros [|y b]; cbn; try reflexivity. now rewrite IH. Qed.
Lemma size_firstn s n : positive s -> positive (firstn n s) /\ size (firstn n s) <= size s.
Proof.
  intros H. rewrite <- (firstn_skipn n s) in H. apply positive_app in H as [H1 H2]. split; [exact H1|]. pose proof (proj1 (size_pos _) H2) as Hp.
  rewrite <- (firstn_skipn n s) at 2. rewrite size_app. nia.
Qed.
Lemma ok_pairs s (i : list nat) : ok s -> positive (map fst (combine (rev s) (rev i))) /\ 1 * size (map fst (combine (rev s) (rev i))) < M.
Proof.
  intros [H1 H2]. rewrite fst_combine. destruct (size_firstn (rev s) (length (rev i)) (positive_rev s H1)) as [G1 G2]. split; [exact G1|]. rewrite size_rev in G2. lia.
Qed.
Lemma s_global_index i s : ok s -> u_global_index i s None = global_index i s None.
Proof. intros H. unfold u_global_index, global_index. destruct (_ && _); [reflexivity|]. destruct (ok_pairs s i H) as [H1 H2]. apply s_gi_none; auto. Qed.
Lemma s_global_index_ok i s o r : ok s -> global_index i s o = Ret (Ok r) -> u_global_index i s o = Ret (Ok r).
Proof. intros H. unfold u_global_index, global_index. destruct (_ && _); [discriminate|]. destruct (ok_pairs s i H) as [H1 H2]. apply s_gi_ok; auto. Qed.

Definition small (s : list nat) : Prop := Forall (fun d => d < M) s.
Lemma s_inc_loop s : small s -> forall n i, pres (inc_loop n i s) (u_inc_loop n i s).
Proof.
  intros H. induction n as [|n IH]; intros i; cbn [inc_loop u_inc_loop]; [apply p_refl|]. apply p_bind; [apply p_refl|]. intros v _. apply p_bind; [apply p_refl|]. intros dim Ed.
  assert (Hd : dim < M). { unfold vindex in Ed. destruct (nth_error s n) eqn:En; [|discriminate]. injection Ed as ->. apply nth_error_In in En. exact (proj1 (Forall_forall _ _) H dim En). }
  intros y E. destruct (Nat.eqb_spec dim 0) as [-> | Hz]; [discriminate|]. rewrite X_sub by lia. cbn [bind]. destruct (Nat.ltb_spec v (dim - 1)) as [Hv | Hv]; [|exact (IH _ _ E)].
  rewrite X_add by lia. cbn [bind]. exact E.
Qed.
Lemma s_increment i s : small s -> pres (increment_index i s) (u_increment_index i s).
Proof. intros H. apply s_inc_loop. exact H. Qed.
Lemma s_index_next s : small (ii_dims s) -> pres (index_iter_next s) (u_index_iter_next s).
Proof. intros H. unfold index_iter_next, u_index_iter_next. destruct (ii_first s); [apply p_refl|]. apply p_bind; [apply s_increment; exact H|]. intros [i []] _; apply p_refl. Qed.
Lemma index_next_dims s o s' : index_iter_next s = Ret (o, s') -> ii_dims s' = ii_dims s.
Proof.
  unfold index_iter_next. destruct (ii_first s); [intros [= <- <-]; reflexivity|]. intros E. apply bind_Ret_inv in E as ([i []] & _ & E); injection E as <- <-; reflexivity.
Qed.

Context {T : Type} {NT : Num T}.
Implicit Types (a : list T) (t : raw T) (l : tlike T).
(** A tensor of which nothing overflows, a view of one *)
Definition tok (l : tlike T) : Prop :=
  match l with LRaw t => ok (shape t) | LView v => ok (shape (v_tensor v)) /\ Forall2 le (v_shape v) (shape (v_tensor v)) end.
Lemma le_small s s' : Forall2 le s s' -> small s' -> small s.
Proof. intros H. induction H; intros G; [constructor|]. inversion G; subst. constructor; [lia|]. apply IHForall2. assumption. Qed.
Lemma tok_small l : tok l -> small (tl_shape l).
Proof. destruct l as [t|v]; cbn; [apply ok_dims|]. intros [H1 H2]. apply (le_small _ _ H2). apply ok_dims. exact H1. Qed.
Lemma s_raw_new_le a s s' : Forall2 le s s' -> ok s' -> u_raw_new a s = raw_new a s.
Proof. intros H1 H2. unfold u_raw_new, raw_new. rewrite (s_product_le s s' H1 H2). reflexivity. Qed.
Lemma s_raw_new a s : ok s -> u_raw_new a s = raw_new a s.
Proof. intros H. unfold u_raw_new, raw_new. rewrite (s_product s H). reflexivity. Qed.
Lemma s_raw_filler s (x : T) : ok s -> u_raw_filler s x = Ret (raw_filler s x).
Proof. intros H. unfold u_raw_filler, raw_filler. rewrite (s_product s H). destruct s; reflexivity. Qed.
Lemma s_raw_get t i : ok (shape t) -> u_raw_get t i = raw_get t i.
Proof. intros H. unfold u_raw_get, raw_get. rewrite s_global_index by exact H. reflexivity. Qed.
Lemma s_raw_set t i x : ok (shape t) -> u_raw_set t i x = raw_set t i x.
Proof. intros H. unfold u_raw_set, raw_set. rewrite s_global_index by exact H. reflexivity. Qed.
Lemma s_raw_at t i : ok (shape t) -> u_raw_at t i = raw_at t i.
Proof. intros H. unfold u_raw_at, raw_at. rewrite s_raw_get by exact H. reflexivity. Qed.
Lemma s_get l i : tok l -> pres (tl_get_unwrap l i) (u_tl_get_unwrap l i).
Proof.
  intros H. unfold tl_get_unwrap, u_tl_get_unwrap, tl_get, u_tl_get. destruct l as [t|v]; [rewrite s_raw_get by exact H; apply p_refl|]. destruct H as [H _].
  apply p_bind; [|intros; apply p_refl]. unfold view_get, u_view_get. intros y E. apply bind_Ret_inv in E as (r & E1 & E). destruct r as [g|e]; [|discriminate].
  rewrite (s_global_index_ok _ _ _ _ H E1). exact E.
Qed.
Lemma s_view_new t o : pres (view_new t o) (u_view_new t o).
Proof.
  unfold view_new, u_view_new. apply p_bind; [apply p_refl|]. intros _ _. apply p_bind; [|intros; apply p_refl]. apply p_mapM. intros [r d] _. apply p_bind; [apply p_refl|]. intros _ _ y E.
  destruct (Nat.ltb_spec (sr_end r) (sr_start r)) as [Hr | Hr]; [discriminate|]. rewrite X_sub by exact Hr. exact E.
Qed.
Lemma view_tok t o v : ok (shape t) -> view_new t o = Ret v -> tok (LView v).
Proof.
  intros H E. unfold view_new in E. apply bind_Ret_inv in E as (u & E1 & E). unfold assert in E1. destruct (length o =? length (shape t)) eqn:El; [|discriminate]. apply Nat.eqb_eq in El.
  apply bind_Ret_inv in E as (s & E2 & E). injection E as <-. cbn. split; [exact H|]. clear H E1 u. revert s E2 El. generalize (shape t) as d. induction o as [|r o IH]; intros [|x d] s E El; cbn in El; try discriminate.
  - injection E as <-. constructor.
  - cbn [combine mapM] in E. apply bind_Ret_inv in E as (y & E1 & E). apply bind_Ret_inv in E as (ys & E2 & E). injection E as <-. constructor; [|apply IH; [exact E2|lia]].
    unfold assert in E1. destruct (Nat.leb_spec (sr_end r) x); [|discriminate]. cbn [bind] in E1. destruct (sr_end r <? sr_start r); [discriminate|]. injection E1 as <-. lia.
Qed.
Lemma s_elem_next l s : tok l -> pres (elem_iter_next l s) (u_elem_iter_next l s).
Proof.
  intros H. unfold elem_iter_next, u_elem_iter_next. destruct (ei_first s).
  - apply p_bind; [apply s_get; exact H|]. intros; apply p_refl.
  - apply p_bind; [apply s_increment, tok_small; exact H|]. intros [i []] _; [|apply p_refl]. apply p_bind; [apply s_get; exact H|]. intros; apply p_refl.
Qed.
Lemma s_iter St I A (next next' : St -> outcome (option I * St)) (body body' : A -> I -> outcome A) : (forall s : St, pres (next s) (next' s)) -> (forall (c : A) i, pres (body c i) (body' c i)) ->
  forall fuel s acc, pres (iter_fold next body fuel s acc) (iter_fold next' body' fuel s acc).
Proof. intros H1 H2 fuel s acc. apply (p_iter_fold _ _ _ (fun _ => True) (fun _ => True)); auto. Qed.
Lemma s_elements l : tok l -> pres (elements l) (u_elements l).
Proof. intros H. apply s_iter; [intros s; apply s_elem_next; exact H|intros; apply p_refl]. Qed.
Lemma s_to_tensor l : tok l -> pres (tl_to_tensor l) (u_tl_to_tensor l).
Proof.
  intros H. destruct l as [t|v]; [apply p_refl|]. cbn [tl_to_tensor u_tl_to_tensor]. rewrite (s_product_le _ _ (proj2 H) (proj1 H)). cbn [bind]. apply p_bind; [apply s_elements; exact H|]. intros a _. destruct H as [H1 H2]. rewrite (s_raw_new_le a _ _ H2 H1). apply p_refl.
Qed.
Lemma s_sum l : tok l -> pres (tl_sum l) (u_tl_sum l).
Proof.
  intros H. destruct l as [t|v]; [apply p_refl|]. cbn [tl_sum u_tl_sum]. apply p_bind; [|intros; apply p_refl]. apply s_iter; [intros s; apply (s_elem_next (LView v)); exact H|intros; apply p_refl].
Qed.

Lemma s_binop l r op : tok l -> tok r -> ok (max_shape (tl_shape l) (tl_shape r)) -> pres (generic_binop_raw l r op) (u_generic_binop_raw l r op).
Proof.
  intros Hl Hr Hm. unfold generic_binop_raw, u_generic_binop_raw. cbv zeta. apply p_bind; [apply p_refl|]. intros _ _. rewrite s_raw_filler by exact Hm. cbn [bind].
  set (ms := max_shape (tl_shape l) (tl_shape r)) in *.
  apply (p_iter_fold _ _ _ (fun s => ii_dims s = ms) (fun t => shape t = ms)).
  - intros s ->%eq_sym. apply s_index_next. apply ok_dims. exact Hm.
  - intros s o s' E1 E2. rewrite (index_next_dims _ _ _ E2). exact E1.
  - intros t i Ht. apply p_bind; [apply s_get; exact Hl|]. intros x _. apply p_bind; [apply s_get; exact Hr|]. intros y _. rewrite s_raw_set by (rewrite Ht; exact Hm). apply p_refl.
  - intros t i t' Ht E. apply bind_Ret_inv in E as (x & _ & E). apply bind_Ret_inv in E as (y & _ & E). apply bind_Ret_inv in E as (res & E1 & E). destruct res as [t2|]; [|discriminate]. injection E as <-.
    destruct (raw_set_form _ _ _ _ E1) as [-> _]. exact Ht.
  - reflexivity.
  - destruct ms; reflexivity.
Qed.
Lemma s_unary_loop l s op : tok l -> small s -> forall n i acc, pres (unary_loop l s op n i acc) (u_unary_loop l s op n i acc).
Proof.
  intros H1 H2. induction n as [|n IH]; intros i acc; cbn [unary_loop u_unary_loop]; [apply p_refl|]. apply p_bind; [apply s_get; exact H1|]. intros x _. apply p_bind; [apply s_increment; exact H2|]. intros [i' b] _. apply IH.
Qed.
Lemma s_unary t op : ok (shape t) -> pres (generic_unary_op (LRaw t) op) (u_generic_unary_op (LRaw t) op).
Proof.
  intros H. unfold generic_unary_op, u_generic_unary_op. cbn [tl_to_tensor u_tl_to_tensor bind tl_shape]. apply p_bind; [apply s_unary_loop; [exact H|apply ok_dims; exact H]|]. intros a _. rewrite s_raw_new by exact H. apply p_refl.
Qed.
Lemma s_ewm l r : tok l -> tok r -> pres (element_wise_multiplication l r) (u_element_wise_multiplication l r).
Proof.
  intros Hl Hr. unfold element_wise_multiplication, u_element_wise_multiplication. apply p_bind; [apply p_refl|]. intros _ _. apply p_bind.
  - apply s_iter; [|intros ? []; apply p_refl]. intros [s1 s2]. unfold zip_next, u_zip_next. cbn [fst snd]. apply p_bind; [apply s_elem_next; exact Hl|]. intros [[x|] s1'] _; [|apply p_refl].
    apply p_bind; [apply s_elem_next; exact Hr|]. intros [[y|] s2'] _; apply p_refl.
  - intros a _. destruct l as [t|v]; cbn [tl_shape]; [rewrite s_raw_new by exact Hl; apply p_refl|]. destruct Hl as [H1 H2]. rewrite (s_raw_new_le a _ _ H2 H1). apply p_refl.
Qed.
Lemma s_tl_product l : tok l -> u_product (tl_shape l) = Ret (product (tl_shape l)).
Proof. destruct l as [t|v]; cbn [tok tl_shape]; [apply s_product|]. intros [H1 H2]. apply (s_product_le _ _ H2 H1). Qed.
Lemma s_mul t l : ok (shape t) -> tok l -> pres (mul_raw t l) (u_mul_raw t l).
Proof.
  intros Ht Hl. unfold mul_raw, u_mul_raw. pose proof (s_product _ Ht) as Ep. destruct (shape t) eqn:Es; [rewrite (s_tl_product _ Hl); apply p_refl|]. destruct (tl_shape l) eqn:El.
  - apply p_bind; [unfold tl_get_first_elem, u_tl_get_first_elem; apply s_get; exact Hl|]. intros x _. rewrite Ep. apply p_refl.
  - apply s_ewm; [cbn [tok]; rewrite Es; exact Ht|exact Hl].
Qed.
Lemma s_bmm_rows l r b n m : tok l -> tok r -> pres (bmm_rows l r b n m) (u_bmm_rows l r b n m).
Proof.
  intros Hl Hr. unfold bmm_rows, u_bmm_rows. cbv zeta. apply p_bind; [|intros; apply p_refl]. apply p_foldM0. intros [arr li] bi _. apply p_bind; [apply p_refl|]. intros li' _. apply p_foldM0. intros [arr' li2] i _.
  apply p_bind; [apply p_refl|]. intros li3 _. apply p_bind; [|intros; apply p_refl]. apply p_mapM. intros j _. unfold bmm_cell, u_bmm_cell. apply p_bind; [apply p_refl|]. intros ri _. apply p_bind; [apply p_refl|]. intros kd _.
  apply p_foldM0. intros v k _. apply p_bind; [apply p_refl|]. intros x _. apply p_bind; [apply p_refl|]. intros y _. apply p_bind; [apply s_get; exact Hl|]. intros e _. apply p_bind; [apply s_get; exact Hr|]. intros; apply p_refl.
Qed.
Lemma s_bmm l r : tok l -> tok r -> (forall y, bmm_raw l r = Ret y -> ok (shape y)) -> pres (bmm_raw l r) (u_bmm_raw l r).
Proof.
  intros Hl Hr Hy y E. specialize (Hy y E). revert E. unfold bmm_raw, u_bmm_raw. cbv zeta. intros E.
  apply bind_Ret_inv in E as (u1 & -> & E). cbn [bind]. apply bind_Ret_inv in E as (u2 & -> & E). cbn [bind]. apply bind_Ret_inv in E as (li & -> & E). cbn [bind]. apply bind_Ret_inv in E as (ri & -> & E). cbn [bind].
  apply bind_Ret_inv in E as (u3 & -> & E). cbn [bind]. apply bind_Ret_inv in E as (l0 & -> & E). cbn [bind]. apply bind_Ret_inv in E as (l1 & -> & E). cbn [bind]. apply bind_Ret_inv in E as (r1 & -> & E). cbn [bind].
  apply bind_Ret_inv in E as (arr & E1 & E).
  assert (Hn : ok (if length (tl_shape l) =? 2 then [1; l0; r1] else [l0; l1; r1])).
  { destruct (length (tl_shape l) =? 2); injection E as <-; [|exact Hy]. destruct Hy as [H1 H2]. split; [constructor; [lia|exact H1]|]. cbn in H2 |- *. lia. }
  rewrite (s_product _ Hn). cbn [bind]. rewrite Nat.eqb_refl. cbn [bind].
  destruct (length (tl_shape l) =? 2); rewrite (s_bmm_rows _ _ _ _ _ Hl Hr _ E1); exact E.
Qed.

(** ** The rules of the backward pass, for tensors of at most [B] elements *)
Variable B : nat.
Hypothesis HB : B * B < M.
Definition fit (s : list nat) : Prop := positive s /\ size s <= B.
Lemma fit_ok s : fit s -> ok s.
Proof. intros [H1 H2]. split; [exact H1|]. pose proof (proj1 (size_pos s) H1). nia. Qed.
Lemma fit_dim s n d : fit s -> vindex s n = Ret d -> 0 < d <= B.
Proof.
  intros [H1 H2] E. unfold vindex in E. destruct (nth_error s n) eqn:En; [|discriminate]. injection E as ->. apply nth_error_In in En. pose proof (dim_le s d H1 En). pose proof (proj1 (Forall_forall _ _) H1 d En). cbn in H0. lia.
Qed.
Lemma fit_dims2 s x y : fit s -> vindex s 0 = Ret x -> vindex s 1 = Ret y -> 0 < x /\ 0 < y /\ x * y <= B.
Proof.
  intros [H1 H2] E1 E2. destruct s as [|a [|b s]]; cbn in E1, E2; try discriminate. injection E1 as ->. injection E2 as ->. inversion H1 as [|? ? Ha Hs]; subst. inversion Hs as [|? ? Hb Hr]; subst.
  cbn [size fold_right] in H2. change (fold_right Nat.mul 1 s) with (size s) in H2. pose proof (proj1 (size_pos s) Hr). split; [exact Ha|]. split; [exact Hb|]. nia.
Qed.
Lemma ok2 x y : 0 < x -> 0 < y -> x * y < M -> ok [x; y].
Proof. intros H1 H2 H3. split; [repeat constructor; assumption|]. cbn. lia. Qed.
Lemma s_jdb_loop d g js bs is n0 : ok (shape d) -> ok (shape g) -> ok js -> small bs -> ok is ->
  forall f i o arr, pres (jdb_loop f d g js bs is n0 i o arr) (u_jdb_loop f d g js bs is n0 i o arr).
Proof.
  intros Hd Hg Hj Hb Hi. induction f as [|f IH]; intros i o arr; cbn [jdb_loop u_jdb_loop]; [apply p_refl|]. rewrite s_global_index by exact Hd. apply p_bind; [apply p_refl|]. intros r _. apply p_bind; [apply p_refl|]. intros j1 _.
  apply p_bind.
  - apply p_foldM0. intros a b _. unfold jdb_body, u_jdb_body. rewrite s_global_index by exact Hi. apply p_bind; [apply p_refl|]. intros r1 _. apply p_bind; [apply p_refl|]. intros oi _. rewrite s_global_index by exact Hj.
    apply p_bind; [apply p_refl|]. intros r2 _. apply p_bind; [apply p_refl|]. intros oj _. rewrite !s_raw_at by assumption. apply p_refl.
  - intros arr' _. apply p_bind; [apply s_increment, ok_dims; exact Hd|]. intros [i' []] _; [|apply p_refl]. apply p_bind; [apply s_increment; exact Hb|]. intros [o' b] _. apply p_bind; [apply p_refl|]. intros _ _. apply IH.
Qed.
Lemma s_jdb d js bs is g : ok (shape d) -> ok (shape g) -> (forall x y : nat, js = [x; y] -> ok js) -> length js = 2 -> small bs -> ok is ->
  pres (jvp_from_diagonal_broadcast d (Some js) bs is g) (u_jvp_from_diagonal_broadcast d (Some js) bs is g).
Proof.
  intros Hd Hg Hj Hl Hb Hi. destruct js as [|a [|b [|]]]; try discriminate Hl. specialize (Hj a b eq_refl). unfold jvp_from_diagonal_broadcast, u_jvp_from_diagonal_broadcast. cbv zeta.
  apply p_bind; [destruct u_debug; [apply p_refl|]; intros [] _; reflexivity|]. intros _ _. apply p_bind; [apply p_refl|]. intros d0 _. cbn [vindex nth_error bind]. apply p_bind; [apply p_refl|]. intros _ _.
  destruct Hj as [Hp Hs]. rewrite X_mul by (cbn in Hs; lia). cbn [bind]. apply p_bind; [apply s_jdb_loop; auto; split; assumption|]. intros arr _. rewrite s_raw_new by (split; assumption). apply p_refl.
Qed.
Lemma fit_head s : fit s -> 0 < match s with [] => 1 | d :: _ => d end <= B.
Proof. intros H. destruct s as [|d s]; [destruct H as [_ H]; cbn in H; lia|]. apply (fit_dim (d :: s) 0); [exact H|reflexivity]. Qed.
Lemma fit_len t : fit (shape t) -> wf t -> 0 < length (array t) <= B.
Proof. intros [H1 H2] Hw. unfold wf in Hw. rewrite Hw. split; [apply size_pos; exact H1|exact H2]. Qed.
Lemma le_M n : n <= B -> 0 < n -> n < M.
Proof. intros. nia. Qed.
Lemma s_diag_loop t dv : ok (shape t) -> forall f i acc, pres (unary_diag_loop f t dv i acc) (u_unary_diag_loop f t dv i acc).
Proof.
  intros H. induction f as [|f IH]; intros i acc; cbn [unary_diag_loop u_unary_diag_loop]; [apply p_refl|]. rewrite s_raw_at by exact H. apply p_bind; [apply p_refl|]. intros v _.
  apply p_bind; [apply s_increment, ok_dims; exact H|]. intros [i' []] _; [apply IH|apply p_refl].
Qed.
Lemma s_unary_jvp t g dv : fit (shape t) -> wf t -> fit (shape g) -> pres (generic_unary_jvp t g dv) (u_generic_unary_jvp t g dv).
Proof.
  intros Ht Hw Hg. unfold generic_unary_jvp, u_generic_unary_jvp. cbv zeta. pose proof (fit_len t Ht Hw) as Hl. pose proof (fit_head _ Hg) as Hh. pose proof (le_M _ (proj2 Hl) (proj1 Hl)) as HM.
  apply p_bind; [apply s_diag_loop, fit_ok; exact Ht|]. intros a _. assert (Hd : ok [1; length (array t)]) by (apply ok2; lia). rewrite s_raw_new by exact Hd. apply p_bind; [apply p_refl|]. intros dg Ed.
  apply p_bind; [|intros; apply p_refl]. apply s_jdb; [|apply fit_ok; exact Hg| |reflexivity|apply ok_dims, fit_ok; exact Ht|apply fit_ok; exact Ht].
  - unfold raw_new in Ed. apply bind_Ret_inv in Ed as (u & _ & Ed). injection Ed as <-. exact Hd.
  - intros _ _ _. apply ok2; [lia|lia|nia].
Qed.
Lemma s_bdiag_loop t t' dv bs : ok (shape t) -> ok (shape t') -> small bs -> forall f i acc, pres (binop_diag_loop f t t' dv bs i acc) (u_binop_diag_loop f t t' dv bs i acc).
Proof.
  intros H H' Hb. induction f as [|f IH]; intros i acc; cbn [binop_diag_loop u_binop_diag_loop]; [apply p_refl|]. rewrite !s_raw_at by assumption. apply p_bind; [apply p_refl|]. intros v _. apply p_bind; [apply p_refl|]. intros w _.
  apply p_bind; [apply s_increment; exact Hb|]. intros [i' []] _; [apply IH|apply p_refl].
Qed.
Lemma s_binop_jvp t t' g dv : fit (shape t) -> wf t -> fit (shape t') -> wf t' -> fit (shape g) -> fit (max_shape (shape t) (shape t')) -> pres (generic_binop_jvp t t' g dv) (u_generic_binop_jvp t t' g dv).
Proof.
  intros Ht Hw Ht' Hw' Hg Hm. unfold generic_binop_jvp, u_generic_binop_jvp. cbv zeta. pose proof (fit_len t Ht Hw) as Hl. pose proof (fit_len t' Ht' Hw') as Hl'. pose proof (fit_head _ Hg) as Hh.
  rewrite s_product by (apply fit_ok; exact Hm). cbn [bind]. apply p_bind; [apply p_refl|]. intros _ _. apply p_bind; [apply s_bdiag_loop; [apply fit_ok; exact Ht|apply fit_ok; exact Ht'|apply ok_dims, fit_ok; exact Hm]|]. intros a _.
  assert (Hd : ok [1; product (max_shape (shape t) (shape t'))]). { rewrite product_size. destruct (fit_ok _ Hm) as [H1 H2]. apply ok2; [lia|apply size_pos; exact H1|lia]. }
  rewrite s_raw_new by exact Hd. apply p_bind; [apply p_refl|]. intros dg Ed. assert (Hdg : ok (shape dg)). { unfold raw_new in Ed. apply bind_Ret_inv in Ed as (u & _ & Ed). injection Ed as <-. exact Hd. }
  apply p_bind; [|intros lj _; apply p_bind; [|intros; apply p_refl]]; (apply s_jdb; [exact Hdg|apply fit_ok; exact Hg| |reflexivity|apply ok_dims, fit_ok; exact Hm|apply fit_ok; assumption]); intros _ _ _; (apply ok2; [lia|lia|nia]).
Qed.
Lemma bmm_shape l r y : bmm_raw l r = Ret y -> exists l0 l1 r1 : nat, vindex (tl_shape l) 0 = Ret l0 /\ vindex (tl_shape l) 1 = Ret l1 /\ vindex (tl_shape r) 1 = Ret r1 /\
  shape y = if length (tl_shape l) =? 2 then [l0; r1] else [l0; l1; r1].
Proof.
  unfold bmm_raw. cbv zeta. intros E. apply bind_Ret_inv in E as (u1 & _ & E). apply bind_Ret_inv in E as (u2 & _ & E). apply bind_Ret_inv in E as (li & _ & E). apply bind_Ret_inv in E as (ri & _ & E).
  apply bind_Ret_inv in E as (u3 & _ & E). apply bind_Ret_inv in E as (l0 & -> & E). apply bind_Ret_inv in E as (l1 & -> & E). apply bind_Ret_inv in E as (r1 & -> & E). apply bind_Ret_inv in E as (arr & _ & E).
  exists l0, l1, r1. do 3 (split; [reflexivity|]). destruct (length (tl_shape l) =? 2); injection E as <-; reflexivity.
Qed.
Lemma s_one t : ok (shape t) -> u_one t = Ret (is_scalar t || (product (shape t) =? 1)).
Proof. intros H. unfold u_one. destruct (is_scalar t); [reflexivity|]. rewrite s_product by exact H. reflexivity. Qed.
Lemma s_full t t' : fit (shape t) -> ok (shape t') -> (forall n, vindex (shape t') 1 = Ret n -> 0 < n <= B) -> pres (jvp_from_full_jacobians t t') (u_jvp_from_full_jacobians t t').
Proof.
  intros Ht Ht' Hn. unfold jvp_from_full_jacobians, u_jvp_from_full_jacobians. cbv zeta. pose proof (fit_ok _ Ht) as Ho. rewrite (s_one t') by exact Ht'. rewrite (s_one t) by exact Ho. cbn [bind].
  destruct (is_scalar t' || (product (shape t') =? 1)); cbn [orb bind].
  - apply p_bind; [apply p_refl|]. intros _ _. apply s_mul; assumption.
  - destruct (is_scalar t || (product (shape t) =? 1)); cbn [bind].
    + apply p_bind; [apply p_refl|]. intros _ _. apply s_mul; assumption.
    + apply s_bmm; [exact Ho|exact Ht'|]. intros y E. apply bmm_shape in E as (l0 & l1 & r1 & E0 & E1 & E2 & ->). cbn [tl_shape] in *. specialize (Hn r1 E2). destruct (fit_dims2 _ _ _ Ht E0 E1) as (P0 & P1 & P2).
      destruct (length (shape t) =? 2); [apply ok2; [lia|lia|]; nia|]. split; [repeat constructor; lia|]. cbn. rewrite Nat.mul_1_r. rewrite Nat.mul_assoc. nia.
Qed.
Lemma s_ones ts gs : Forall (fun t => fit (shape t)) ts -> Forall (fun t => fit (shape t)) gs -> pres (ones ts gs) (u_ones ts gs).
Proof.
  intros H1 H2. unfold ones, u_ones. apply p_bind; [apply p_refl|]. intros [t g] E. unfold one_one in E. destruct ts as [|t1 [|]]; try discriminate. destruct gs as [|g1 [|]]; try discriminate. injection E as <- <-.
  inversion H1 as [|? ? Ht _]; subst. inversion H2 as [|? ? Hg _]; subst. rewrite !s_product by (apply fit_ok; assumption). cbn [bind]. rewrite s_raw_filler; [apply p_refl|]. rewrite !product_size.
  destruct Ht as [P1 Q1], Hg as [P2 Q2]. apply ok2; [apply size_pos; exact P2|apply size_pos; exact P1|nia].
Qed.
Lemma s_tanh_derivative t : fit (shape t) -> pres (tanh_derivative t) (u_tanh_derivative t).
Proof.
  intros H. unfold tanh_derivative, u_tanh_derivative. cbv zeta. rewrite s_product by (apply fit_ok; exact H). cbn [bind]. destruct H as [H1 H2]. pose proof (proj1 (size_pos _) H1). rewrite product_size in *.
  rewrite X_mul by nia. cbn [bind]. apply p_bind; [apply p_refl|]. intros a _. rewrite s_raw_new; [apply p_refl|]. apply ok2; [lia|lia|nia].
Qed.
Lemma rchunks_count A (l : list A) : (length (rchunks width l) - 1) * width <= length l /\ (l <> [] -> (length (rchunks width l) - 1) * width < length l).
Proof.
  remember (length l) as n eqn:Hn. revert l Hn. induction n as [n IH] using lt_wf_ind. intros l Hn. destruct l as [|x l]; [cbn in *; subst; split; [cbn; lia|congruence]|].
  assert (Hw : width = 32) by reflexivity. assert (G : (length (rchunks width (x :: l)) - 1) * width < n); [|split; [lia|intros _; exact G]].
  rewrite rchunks_cons by (try congruence; rewrite Hw; lia). cbn [length]. rewrite Nat.sub_0_r || idtac.
  set (k := firstn (S (length l) - width) (x :: l)). assert (Hk : length k = n - width) by (unfold k; rewrite firstn_length; cbn [length] in *; lia).
  destruct (IH (length k)) with (l := k) as [I1 I2]; [rewrite Hk; rewrite Hn, Hw; cbn [length]; lia|reflexivity|].
  clearbody k; destruct k as [|y k]; [cbn; rewrite Hn; cbn [length]; lia|]. specialize (I2 ltac:(congruence)). rewrite Hk in I2.
  replace (S (length (rchunks width (y :: k))) - 1) with (length (rchunks width (y :: k))) by lia.
  destruct (length (rchunks width (y :: k))) as [|c]; [rewrite Hn; cbn [length]; lia|]. replace (S c - 1) with c in I2 by lia. rewrite Nat.mul_succ_l. cbn [length] in Hk. lia.
Qed.
Lemma s_deliver n segs m : length segs = n -> (n - 1) * width < M -> pres (deliver segs m) (u_deliver segs m).
Proof.
  intros <- Hn. unfold deliver, u_deliver. apply p_bind; [apply p_refl|]. intros c Ec. apply p_bind; [apply p_refl|]. intros sl _. apply p_bind; [|intros; apply p_refl].
  assert (Hc : c < length segs). { unfold writer_channel in Ec. cbv zeta in Ec. destruct (Nat.ltb_spec (Nat.shiftr (fst m) bit_width) (length segs)) as [Hc | Hc]; [|discriminate]. apply Ret_inj in Ec. rewrite <- Ec. exact Hc. }
  clear Ec. unfold receive, u_receive. destruct m as [gi x]. assert (Hcw : c * width <= (length segs - 1) * width) by (apply Nat.mul_le_mono_r; lia). rewrite X_mul by (eapply Nat.le_lt_trans; [exact Hcw|exact Hn]). cbn [bind]. intros y E.
  destruct (Nat.ltb_spec gi (c * width)) as [Hg | Hg]; [discriminate|]. rewrite X_sub by exact Hg. exact E.
Qed.
Lemma deliver_len segs (m : nat * T) segs' : deliver segs m = Ret segs' -> length segs' = length segs.
Proof.
  unfold deliver. intros E. apply bind_Ret_inv in E as (c & _ & E). apply bind_Ret_inv in E as (sl & _ & E). apply bind_Ret_inv in E as (sl' & _ & E). apply vset_inv in E as [-> _]. apply list_set_length.
Qed.
Lemma s_deliver_all ms (arr : list T) : length arr < M -> pres (foldM deliver ms (split_new arr)) (foldM u_deliver ms (split_new arr)).
Proof.
  intros H. apply (p_foldM _ _ (fun segs => length segs = length (split_new arr))).
  - intros segs m _ Hs. apply (s_deliver (length (split_new arr))); [exact Hs|]. pose proof (proj1 (rchunks_count T arr)). unfold split_new. lia.
  - intros segs m segs' _ Hs E. rewrite (deliver_len _ _ _ E). exact Hs.
  - reflexivity.
Qed.
Lemma s_bmm_jvp ts gs : Forall (fun t => fit (shape t)) ts -> Forall (fun t => fit (shape t)) gs -> pres (bmm_jvp ts gs) (u_bmm_jvp ts gs).
Proof.
  intros H1 H2. unfold bmm_jvp, u_bmm_jvp. apply p_bind; [apply p_refl|]. intros [[a b] jac] E. unfold two_one in E. destruct ts as [|t1 [|t2 [|]]]; try discriminate. destruct gs as [|g1 [|]]; try discriminate. injection E as <- <- <-.
  inversion H1 as [|? ? Ha H1']; subst. inversion H1' as [|? ? Hb _]; subst. inversion H2 as [|? ? Hg _]; subst. clear H1 H1' H2.
  apply p_bind; [apply p_refl|]. intros a1 Ea1. apply p_bind; [apply p_refl|]. intros b0 Eb0. apply p_bind; [apply p_refl|]. intros _ _. apply p_bind; [apply p_refl|]. intros a0 Ea0. apply p_bind; [apply p_refl|]. intros b1 Eb1. cbv zeta.
  destruct (fit_dims2 _ _ _ Ha Ea0 Ea1) as (A0 & A1 & A2). destruct (fit_dims2 _ _ _ Hb Eb0 Eb1) as (B0 & B1 & B2).
  assert (C : a0 * b1 < M) by (assert (a0 <= B) by nia; assert (b1 <= B) by nia; nia). assert (D1 : a0 * a1 < M) by nia. assert (D2 : b0 * b1 < M) by nia.
  rewrite !X_mul by assumption. cbn [bind]. apply p_bind; [apply p_refl|]. intros j0 Ej0. pose proof (fit_dim _ _ _ Hg Ej0) as Hj.
  assert (F1 : j0 * (a0 * a1) < M) by nia. assert (F2 : j0 * (b0 * b1) < M) by nia. rewrite (X_mul j0 (a0 * a1)) by exact F1. cbn [bind]. rewrite (X_mul j0 (b0 * b1)) by exact F2. cbn [bind].
  assert (O1 : ok [j0; a0 * a1]) by (apply ok2; nia). assert (O2 : ok [j0; b0 * b1]) by (apply ok2; nia).
  apply p_bind.
  - apply p_mapM. intros [[i k] j] _. unfold bmm_task, u_bmm_task. rewrite (s_global_index [i; j] [a0; b1]) by (apply ok2; assumption). rewrite !(s_global_index _ (shape t1)) by (apply fit_ok; exact Ha). rewrite !(s_global_index _ (shape t2)) by (apply fit_ok; exact Hb).
    do 6 (apply p_bind; [apply p_refl|]; intros ? _). do 7 (apply p_bind; [apply p_refl|]; intros ? _). apply p_mapM. intros q _.
    rewrite (s_global_index _ _ O1), (s_global_index _ _ O2). rewrite !s_raw_at by (apply fit_ok; assumption). apply p_refl.
  - intros tasks _. apply p_bind; [apply s_deliver_all; rewrite repeat_length; exact F1|]. intros ls _. apply p_bind; [apply s_deliver_all; rewrite repeat_length; exact F2|]. intros rs _.
    rewrite (s_raw_new _ _ O1), (s_raw_new _ _ O2). apply p_refl.
Qed.
Lemma s_jvp k ts gs : Forall (fun t => fit (shape t) /\ wf t) ts -> Forall (fun t => fit (shape t)) gs -> (forall l r : raw T, k = KAdd -> ts = [l; r] -> fit (max_shape (shape l) (shape r))) -> pres (jvp k ts gs) (u_jvp k ts gs).
Proof.
  intros H1 H2 Hk. assert (H1' : Forall (fun t => fit (shape t)) ts) by (eapply Forall_impl; [|exact H1]; intros t [H _]; exact H).
  assert (V1 : forall n t, vindex ts n = Ret t -> fit (shape t) /\ wf t). { intros n t E. unfold vindex in E. destruct (nth_error ts n) eqn:En; [|discriminate]. injection E as ->. apply nth_error_In in En. exact (proj1 (Forall_forall _ _) H1 t En). }
  assert (V2 : forall n t, vindex gs n = Ret t -> fit (shape t)). { intros n t E. unfold vindex in E. destruct (nth_error gs n) eqn:En; [|discriminate]. injection E as ->. apply nth_error_In in En. exact (proj1 (Forall_forall _ _) H2 t En). }
  assert (W1 : forall t g, one_one ts gs = Ret (t, g) -> fit (shape t) /\ wf t /\ fit (shape g)).
  { intros t g E. unfold one_one in E. destruct ts as [|t1 [|]]; try discriminate. destruct gs as [|g1 [|]]; try discriminate. injection E as <- <-. inversion H1 as [|? ? [P Q] _]; inversion H2; subst. auto. }
  assert (W2 : forall t t' g, two_one ts gs = Ret (t, t', g) -> ts = [t; t'] /\ fit (shape t) /\ wf t /\ fit (shape t') /\ wf t' /\ fit (shape g)).
  { intros t t' g E. unfold two_one in E. destruct ts as [|t1 [|t2 [|]]]; try discriminate. destruct gs as [|g1 [|]]; try discriminate. injection E as <- <- <-. inversion H1 as [|? ? [P Q] H3]; subst. inversion H3 as [|? ? [P' Q'] _]; subst. inversion H2; subst. auto 7. }
  assert (D : forall s n d, fit s -> vindex s n = Ret d -> 0 < d <= B) by (intros; eapply fit_dim; eauto).
  destruct k; cbn [jvp u_jvp].
  - unfold add_jvp. apply p_bind; [apply p_refl|]. intros [[l r] g] E. destruct (W2 _ _ _ E) as (-> & P1 & P2 & P3 & P4 & P5). apply s_binop_jvp; auto.
  - unfold neg_jvp. apply p_bind; [apply p_refl|]. intros t Et. apply p_bind; [apply p_refl|]. intros g Eg. destruct (V1 _ _ Et). apply s_unary_jvp; eauto.
  - unfold abs_jvp. apply p_bind; [apply p_refl|]. intros [t g] E. destruct (W1 _ _ E) as (P1 & P2 & P3). apply p_bind; [apply p_refl|]. intros _ _. apply s_unary_jvp; auto.
  - unfold relu_jvp. apply p_bind; [apply p_refl|]. intros [t g] E. destruct (W1 _ _ E) as (P1 & P2 & P3). apply s_unary_jvp; auto.
  - unfold tanh_jvp. apply p_bind; [apply p_refl|]. intros [t g] E. destruct (W1 _ _ E) as (P1 & P2 & P3). apply p_bind; [apply s_tanh_derivative; exact P1|]. intros jc Ej. apply p_bind; [|intros; apply p_refl].
    unfold tanh_derivative in Ej. cbv zeta in Ej. apply bind_Ret_inv in Ej as (a & _ & Ej). unfold raw_new in Ej. apply bind_Ret_inv in Ej as (u & _ & Ej). injection Ej as <-. destruct P1 as [Q1 Q2]. pose proof (proj1 (size_pos _) Q1).
    apply s_full; [exact P3| |]; cbn [shape]; rewrite product_size; [apply ok2; [lia|lia|nia]|]. intros n En. injection En as <-. lia.
  - apply s_ones; assumption.
  - apply s_bmm_jvp; assumption.
  - unfold dot_jvp. apply p_bind; [apply p_refl|]. intros [[l r] g] E. destruct (W2 _ _ _ E) as (-> & P1 & P2 & P3 & P4 & P5).
    apply p_bind; [apply s_full; [exact P5|apply fit_ok; exact P3|intros n; apply D; exact P3]|]. intros lj _. apply p_bind; [apply s_full; [exact P5|apply fit_ok; exact P1|intros n; apply D; exact P1]|]. intros; apply p_refl.
Qed.

(** ** Whole programs *)
Lemma raw_new_wf a s t : raw_new a s = Ret t -> wf t /\ shape t = s /\ array t = a.
Proof.
  unfold raw_new. intros E. apply bind_Ret_inv in E as (u & E1 & E). injection E as <-. unfold assert in E1. destruct (Nat.eqb_spec (product s) (length a)) as [H | H]; [|discriminate]. rewrite product_size in H.
  split; [unfold wf; cbn; lia|]. split; reflexivity.
Qed.
Lemma jdb_wf d js bs is g t : jvp_from_diagonal_broadcast d js bs is g = Ret t -> wf t.
Proof.
  unfold jvp_from_diagonal_broadcast. cbv zeta. intros E. apply bind_Ret_inv in E as (u1 & _ & E). apply bind_Ret_inv in E as (u2 & _ & E). apply bind_Ret_inv in E as (u3 & _ & E). apply bind_Ret_inv in E as (u4 & _ & E).
  apply bind_Ret_inv in E as (u5 & _ & E). apply bind_Ret_inv in E as (u6 & _ & E). apply raw_new_wf in E. apply E.
Qed.
Lemma unary_jvp_wf t g dv gs : generic_unary_jvp t g dv = Ret gs -> Forall wf gs.
Proof.
  unfold generic_unary_jvp. cbv zeta. intros E. apply bind_Ret_inv in E as (u1 & _ & E). apply bind_Ret_inv in E as (u2 & _ & E). apply bind_Ret_inv in E as (j & Ej & E). injection E as <-. repeat constructor. apply (jdb_wf _ _ _ _ _ _ Ej).
Qed.
Lemma full_wf t t' y : wf t -> wf t' -> jvp_from_full_jacobians t t' = Ret y -> wf y.
Proof.
  intros H H'. unfold jvp_from_full_jacobians. cbv zeta. destruct (_ || _).
  - intros E. apply bind_Ret_inv in E as (u & _ & E). apply (mul_form _ _ _ H H' E).
  - apply bmm_form.
Qed.
Lemma jvp_wf k ts gs ys : Forall wf ts -> Forall wf gs -> jvp k ts gs = Ret ys -> Forall wf ys.
Proof.
  intros H1 H2.
  assert (W1 : forall t g, one_one ts gs = Ret (t, g) -> wf t /\ wf g).
  { intros t g E. unfold one_one in E. destruct ts as [|t1 [|]]; try discriminate. destruct gs as [|g1 [|]]; try discriminate. injection E as <- <-. inversion H1; inversion H2; subst. auto. }
  assert (W2 : forall t t' g, two_one ts gs = Ret (t, t', g) -> wf t /\ wf t' /\ wf g).
  { intros t t' g E. unfold two_one in E. destruct ts as [|t1 [|t2 [|]]]; try discriminate. destruct gs as [|g1 [|]]; try discriminate. injection E as <- <- <-. inversion H1 as [|? ? ? H3]; inversion H3; inversion H2; subst. auto. }
  destruct k; cbn [jvp].
  - unfold add_jvp. intros E. apply bind_Ret_inv in E as ([[l r] g] & _ & E). unfold generic_binop_jvp in E. cbv zeta in E. apply bind_Ret_inv in E as (u1 & _ & E). apply bind_Ret_inv in E as (u2 & _ & E). apply bind_Ret_inv in E as (u3 & _ & E).
    apply bind_Ret_inv in E as (lj & El & E). apply bind_Ret_inv in E as (rj & Er & E). injection E as <-. repeat constructor; eapply jdb_wf; eauto.
  - unfold neg_jvp. intros E. apply bind_Ret_inv in E as (t & _ & E). apply bind_Ret_inv in E as (g & _ & E). apply (unary_jvp_wf _ _ _ _ E).
  - unfold abs_jvp. intros E. apply bind_Ret_inv in E as ([t g] & _ & E). apply bind_Ret_inv in E as (u & _ & E). apply (unary_jvp_wf _ _ _ _ E).
  - unfold relu_jvp. intros E. apply bind_Ret_inv in E as ([t g] & _ & E). apply (unary_jvp_wf _ _ _ _ E).
  - unfold tanh_jvp. intros E. apply bind_Ret_inv in E as ([t g] & Et & E). apply bind_Ret_inv in E as (j & Ej & E). apply bind_Ret_inv in E as (y & Ey & E). injection E as <-. destruct (W1 _ _ Et) as [Ht Hg]. repeat constructor.
    apply (full_wf g j); auto. unfold tanh_derivative in Ej. cbv zeta in Ej. apply bind_Ret_inv in Ej as (u & _ & Ej). apply raw_new_wf in Ej. apply Ej.
  - unfold ones. intros E. apply bind_Ret_inv in E as ([t g] & Et & E). injection E as <-. repeat constructor. unfold wf. cbn [raw_filler array shape]. rewrite repeat_length, product_size. reflexivity.
  - unfold bmm_jvp. intros E. apply bind_Ret_inv in E as ([[l r] g] & _ & E). apply bind_Ret_inv in E as (u1 & _ & E). apply bind_Ret_inv in E as (u2 & _ & E). apply bind_Ret_inv in E as (u3 & _ & E). apply bind_Ret_inv in E as (u4 & _ & E).
    apply bind_Ret_inv in E as (u5 & _ & E). cbv zeta in E. apply bind_Ret_inv in E as (u6 & _ & E). apply bind_Ret_inv in E as (u7 & _ & E). apply bind_Ret_inv in E as (u8 & _ & E). apply bind_Ret_inv in E as (u9 & _ & E).
    apply bind_Ret_inv in E as (y1 & E1 & E). apply bind_Ret_inv in E as (y2 & E2 & E). injection E as <-. apply raw_new_wf in E1. apply raw_new_wf in E2. repeat constructor; [apply E1|apply E2].
  - unfold dot_jvp. intros E. apply bind_Ret_inv in E as ([[l r] g] & Et & E). apply bind_Ret_inv in E as (y1 & E1 & E). apply bind_Ret_inv in E as (y2 & E2 & E). injection E as <-. destruct (W2 _ _ _ Et) as (Q1 & Q2 & Q3).
    repeat constructor; [apply (full_wf g r)|apply (full_wf g l)]; auto.
Qed.

Definition all_fit (ns : list (node T)) : Prop := Forall (fun nd => fit (shape (n_val nd))) ns.
(** What is stored as a gradient is small, and adding to it leaves its shape alone *)
Definition gr_fit (ns : list (node T)) (gr : nat -> option (raw T)) : Prop := forall n g, gr n = Some g ->
  fit (shape g) /\ (shape g = shape (vof ns n) \/ shape (vof ns n) = []).
Lemma vof_fit ns n : all_fit ns -> n < length ns -> fit (shape (vof ns n)).
Proof. intros H Hn. unfold vof. destruct (nth_error ns n) as [nd|] eqn:E; [|apply nth_error_None in E; lia]. apply nth_error_In in E. exact (proj1 (Forall_forall _ _) H nd E). Qed.
Lemma gr_fit_update ns gr i g gr' : fit (shape g) -> shape g = shape (vof ns i) -> gr_fit ns gr -> update_grad gr i g = Ret gr' -> gr_fit ns gr'.
Proof.
  intros Hf Hs H E. apply update_grad_inv in E as [E1 E2]. intros n x Ex. destruct (Nat.eq_dec n i) as [-> | Hn]; [|rewrite E1 in Ex by exact Hn; apply H; exact Ex].
  destruct E2 as [[_ E2] | (o & s & Eo & Es & E2)]; rewrite E2 in Ex; injection Ex as <-; [split; [exact Hf|left; exact Hs]|].
  apply binop_form in Es as [_ Es]. cbn [tl_shape] in Es. destruct (H i o Eo) as [H1 [H2 | H2]].
  - rewrite Hs, <- H2, max_shape_self in Es. rewrite Es. split; [exact H1|left; exact H2].
  - rewrite Hs, H2, max_shape_nil_r in Es. rewrite Es. split; [exact H1|right; exact H2].
Qed.
Lemma s_update ns gr i g : fit (shape g) -> shape g = shape (vof ns i) -> gr_fit ns gr -> pres (update_grad gr i g) (u_update_grad gr i g).
Proof.
  intros Hf Hs H. unfold update_grad, u_update_grad. destruct (gr i) as [o|] eqn:Eo; [|apply p_refl]. apply p_bind; [|intros; apply p_refl]. destruct (H i o Eo) as [H1 H2]. unfold add_raw, u_add_raw. apply s_binop; try (apply fit_ok; assumption).
  cbn [tl_shape]. apply fit_ok. destruct H2 as [H2 | H2]; [rewrite Hs, <- H2, max_shape_self; exact H1|rewrite Hs, H2, max_shape_nil_r; exact H1].
Qed.
Lemma compute_gr_fit ns fuel k ins outer gr gr' : recorded ns -> all_fit ns -> gr_fit ns gr -> compute_jvp fuel ns k ins outer gr = Ret gr' -> gr_fit ns gr'.
Proof.
  intros HR HF HG E. destruct (compute_jvp_traced ns fuel k ins outer) as (us & st & Hu & Ht). rewrite Ht in E. apply bind_Ret_inv in E as (gr2 & E1 & E). apply bind_Ret_inv in E as (u & _ & E). apply Ret_inj in E. subst gr2.
  intros n. revert n. apply (upd_all_keep (fun n o => forall g, o = Some g -> fit (shape g) /\ (shape g = shape (vof ns n) \/ shape (vof ns n) = [])) us gr gr'); [|exact HG|exact E1].
  intros i g Hi gra grb Eu Ha. pose proof (proj1 (Forall_forall _ _) Hu (i, g) Hi) as (_ & _ & Q & Q'). cbn [fst snd] in Q, Q'.
  pose proof (vof_fit ns i HF Q') as Hvf.
  apply update_grad_inv in Eu as [_ E2]. intros x Ex. destruct E2 as [[_ E2] | (o & s & Eo & Es & E2)]; rewrite E2 in Ex; injection Ex as <-; [rewrite Q; split; [exact Hvf|left; reflexivity]|].
  apply binop_form in Es as [_ Es]. cbn [tl_shape] in Es. destruct (Ha o Eo) as [H1 [H2 | H2]].
  - rewrite Q, <- H2, max_shape_self in Es. rewrite Es. split; [exact H1|left; exact H2].
  - rewrite Q, H2, max_shape_nil_r in Es. rewrite Es. split; [exact H1|right; exact H2].
Qed.
Lemma mapM_nodes ns ins (nds : list (node T)) : mapM (vindex ns) ins = Ret nds -> map n_val nds = map (vof ns) ins /\ Forall (fun nd => In nd ns) nds /\
  forall (g : raw T * (nat * node T)) gs, In g (combine gs (combine ins nds)) -> nth_error ns (fst (snd g)) = Some (snd (snd g)).
Proof.
  revert nds. induction ins as [|i ins IH]; intros nds E; cbn [mapM] in E.
  - injection E as <-. split; [reflexivity|]. split; [constructor|]. intros g gs Hg. destruct gs; destruct Hg.
  - apply bind_Ret_inv in E as (nd & E1 & E). apply bind_Ret_inv in E as (nds' & E2 & E). injection E as <-. apply vindex_ret in E1. destruct (IH _ E2) as (I1 & I2 & I3).
    split; [cbn [map]; unfold vof at 1; rewrite E1, I1; reflexivity|]. split; [constructor; [apply nth_error_In in E1; exact E1|exact I2]|].
    intros g gs Hg. destruct gs as [|g0 gs]; [destruct Hg|]. destruct Hg as [<- | Hg]; [exact E1|]. apply (I3 g gs Hg).
Qed.
Lemma s_compute ns : recorded ns -> all_fit ns -> forall fuel n k ins outer gr, fn_of ns n = Some (k, ins) -> Forall (fun g => fit (shape g) /\ wf g) outer -> gr_fit ns gr ->
  pres (compute_jvp fuel ns k ins outer gr) (u_compute_jvp fuel ns k ins outer gr).
Proof.
  intros HR HF. induction fuel as [|f IH]; intros n k ins outer gr Hn Ho HG; cbn [compute_jvp u_compute_jvp]; [apply p_refl|]. apply p_bind; [apply p_refl|]. intros nds En. destruct (mapM_nodes _ _ _ En) as (M1 & M2 & M3).
  assert (Hts : Forall (fun t => fit (shape t) /\ wf t) (map n_val nds)).
  { apply Forall_forall. intros t Ht. apply in_map_iff in Ht as (nd & <- & Hnd). pose proof (proj1 (Forall_forall _ _) M2 nd Hnd) as Hin. split; [exact (proj1 (Forall_forall _ _) HF nd Hin)|].
    apply In_nth_error in Hin as (m & Em). apply (HR m nd Em). }
  unfold fn_of in Hn. destruct (nth_error ns n) as [nd0|] eqn:E0; [|discriminate]. destruct (HR n nd0 E0) as [_ Hfn]. destruct (Hfn k ins Hn) as [_ Hfwd].
  apply p_bind.
  - apply s_jvp; [exact Hts|eapply Forall_impl; [|exact Ho]; intros g [H _]; exact H|]. intros l r -> Hl. rewrite M1 in Hl. rewrite Hl in Hfwd. cbn [fwd] in Hfwd. apply binop_form in Hfwd as [_ Hs]. cbn [tl_shape] in Hs. rewrite <- Hs.
    apply nth_error_In in E0. exact (proj1 (Forall_forall _ _) HF nd0 E0).
  - intros gs Eg. assert (Hgs : Forall wf gs). { apply (jvp_wf k (map n_val nds) outer); [| |exact Eg]; eapply Forall_impl; [|exact Hts| |exact Ho]; intros t [_ H]; exact H. }
    apply (p_foldM _ _ (gr_fit ns)); [| |exact HG].
    + intros gr1 [g [i nd]] Hin H1. pose proof (M3 _ _ Hin) as Ei. cbn [fst snd] in Ei. assert (Hfi : fit (shape (n_val nd))) by (apply nth_error_In in Ei; exact (proj1 (Forall_forall _ _) HF nd Ei)).
      apply p_bind; [apply p_refl|]. intros u Eu. rewrite s_raw_new by (apply fit_ok; exact Hfi). apply p_bind; [apply p_refl|]. intros sg Es. destruct (raw_new_wf _ _ _ Es) as (S1 & S2 & S3).
      assert (Hv : shape sg = shape (vof ns i)) by (unfold vof; rewrite Ei; exact S2).
      assert (Hsg : fit (shape sg)) by (rewrite S2; exact Hfi). apply p_bind; [apply (s_update ns); assumption|]. intros gr2 E2. pose proof (gr_fit_update ns _ _ _ _ Hsg Hv H1 E2) as H2.
      destruct (n_fn nd) as [[k' ins']|] eqn:Ef; [|apply p_refl]. apply (IH i); [unfold fn_of; rewrite Ei; exact Ef| |exact H2]. repeat constructor.
      * unfold assert in Eu. destruct (Nat.eqb_spec (length (array g)) (length (array (n_val nd)))) as [Hl | Hl]; [|discriminate]. apply in_combine_l in Hin. pose proof (proj1 (Forall_forall _ _) Hgs g Hin) as Wg. unfold wf in Wg.
        destruct (HR i nd Ei) as [Wn _]. unfold wf in Wn. destruct Hfi as [F1 F2]. apply size_pos. apply size_pos in F1. lia.
      * unfold assert in Eu. destruct (Nat.eqb_spec (length (array g)) (length (array (n_val nd)))) as [Hl | Hl]; [|discriminate]. apply in_combine_l in Hin. pose proof (proj1 (Forall_forall _ _) Hgs g Hin) as Wg. unfold wf in Wg.
        destruct (HR i nd Ei) as [Wn _]. unfold wf in Wn. destruct Hfi as [F1 F2]. lia.
      * apply in_combine_l in Hin. exact (proj1 (Forall_forall _ _) Hgs g Hin).
    + intros gr1 [g [i nd]] gr2 Hin H1 E. pose proof (M3 _ _ Hin) as Ei. cbn [fst snd] in Ei. assert (Hfi : fit (shape (n_val nd))) by (apply nth_error_In in Ei; exact (proj1 (Forall_forall _ _) HF nd Ei)).
      apply bind_Ret_inv in E as (u & _ & E). apply bind_Ret_inv in E as (sg & Es & E). destruct (raw_new_wf _ _ _ Es) as (S1 & S2 & S3). apply bind_Ret_inv in E as (gr3 & E3 & E).
      assert (H3 : gr_fit ns gr3). { apply (gr_fit_update ns gr1 i sg); [rewrite S2; exact Hfi|unfold vof; rewrite Ei; exact S2|exact H1|exact E3]. }
      destruct (n_fn nd) as [[k' ins']|]; [|apply Ret_inj in E; subst; exact H3]. apply (compute_gr_fit ns f k' ins' [g] gr3); assumption.
Qed.
Lemma gr_fit_of (h : heap T) : heap_inv h -> shapes_ok h -> all_fit (nodes h) -> gr_fit (nodes h) (grads h).
Proof.
  intros [HR HG] HS HF n g Eg. destruct (HG n g Eg) as [_ Hn]. destruct (HS n g Eg) as [-> | (i & Ef & Hi & ->)]; [split; [apply vof_fit; auto|left; reflexivity]|]. split; [apply vof_fit; auto; lia|right].
  unfold fn_of in Ef. unfold vof. destruct (nth_error (nodes h) n) as [nd|] eqn:E; [|discriminate]. destruct (HR n nd E) as [_ H]. destruct (H _ _ Ef) as [_ Hf]. apply fwd_sum_shape in Hf. exact Hf.
Qed.
Lemma s_backward (h : heap T) i : heap_inv h -> shapes_ok h -> all_fit (nodes h) -> pres (backward h i) (u_backward h i).
Proof.
  intros HI HS HF. unfold backward, u_backward. apply p_bind; [apply p_refl|]. intros nd En. apply p_bind; [apply p_refl|]. intros _ _. apply p_bind; [apply p_refl|]. intros [k ins] Ef. apply p_bind; [|intros; apply p_refl].
  destruct (hget_inv _ _ _ En) as (E1 & E2 & _). apply (s_compute (nodes h) (proj1 HI) HF) with (n := i).
  - unfold fn_of. rewrite E1. destruct (n_fn nd); [|discriminate]. injection Ef as ->. reflexivity.
  - repeat constructor. cbn. destruct (vof_fit (nodes h) i HF E2) as [P Q]. apply size_pos in P. lia.
  - apply gr_fit_of; assumption.
Qed.
Lemma all_fit_alloc (h : heap T) t fn g h' i : alloc h t fn g = (h', i) -> all_fit (nodes h') -> fit (shape t) /\ all_fit (nodes h).
Proof. unfold alloc. intros [= <- <-]. cbn [nodes]. intros H. apply Forall_app in H as [H1 H2]. inversion H2; subst. auto. Qed.
Lemma s_exec (s s' : state T) c : inv s -> shapes_ok (hp s) -> tidy c -> (forall x y o, c = CMulView x y o -> exists v, var_value s x = Ret v /\ shape v <> []) -> all_fit (nodes (hp s')) -> exec s c = Ret s' -> u_exec s c = Ret s'.
Proof.
  intros HI HS HT HM HF E. destruct (exec_inv s s' c HI HM E) as [_ [ext HX]]. assert (HF0 : all_fit (nodes (hp s))). { rewrite HX in HF. apply Forall_app in HF. apply HF. }
  assert (HG : forall i nd, hget (hp s) i = Ret nd -> ok (shape (n_val nd))). { intros i nd En. apply fit_ok. destruct (hget_inv _ _ _ En) as (E1 & E2 & <-). apply vof_fit; assumption. }
  destruct c as [a sh|sh x|x|n|x y|x y|x|x y|x|x|x|x|x y|x y|x y|x|x|x o|x o|x y o|x y o|x y|x|x]; cbn [exec u_exec] in *.
  all: unfold push, op_new, op_filler, op_add, op_sub, op_neg, op_mul, op_abs, op_relu, op_tanh, op_sum, op_bmm, op_dot, op_view_to_tensor, op_view_sum, op_mul_view, op_bmm_view, u_op1, u_op2, u_fwd, neg_raw, abs_raw, relu_raw, tanh_raw in *.
  - apply bind_Ret_inv in E as ([h' i] & E1 & E). apply Ret_inj in E. subst s'. cbn [hp] in HF. apply bind_Ret_inv in E1 as (t & E1 & E2). apply Ret_inj in E2. destruct (all_fit_alloc _ _ _ _ _ _ E2 HF) as [Ft _]. destruct (raw_new_wf _ _ _ E1) as (_ & Hs & _).
    rewrite Hs in Ft. rewrite s_raw_new by (apply fit_ok; exact Ft). rewrite E1. cbn [bind]. rewrite E2. reflexivity.
  - apply bind_Ret_inv in E as ([h' i] & E1 & E). apply Ret_inj in E. subst s'. cbn [hp] in HF. apply Ret_inj in E1. destruct (all_fit_alloc _ _ _ _ _ _ E1 HF) as [Ft _].
    rewrite s_raw_filler by (apply fit_ok; destruct sh; exact Ft). cbn [bind]. rewrite E1. reflexivity.
  - exact E.
  - exact E.
  - (* add *) apply bind_Ret_inv in E as (i & Ei & E). apply bind_Ret_inv in E as (j & Ej & E). rewrite Ei, Ej. cbn [bind].
    apply bind_Ret_inv in E as ([h' q] & E1 & E). apply Ret_inj in E. subst s'. cbn [hp] in HF. apply bind_Ret_inv in E1 as (u & Eu & E1). apply bind_Ret_inv in E1 as (w & Ew & E1). apply bind_Ret_inv in E1 as (t & Et & E1). apply Ret_inj in E1.
    destruct (all_fit_alloc _ _ _ _ _ _ E1 HF) as [Ft _]. rewrite Eu, Ew. cbn [bind]. destruct (binop_form _ _ _ _ Et) as [_ Hs]. rewrite Hs in Ft. unfold u_add_raw. rewrite (s_binop (LRaw (n_val u)) (LRaw (n_val w)) n_add (HG _ _ Eu) (HG _ _ Ew) (fit_ok _ Ft) _ Et).
    cbn [bind]. rewrite E1. reflexivity.
  - (* sub *) apply bind_Ret_inv in E as (i & Ei & E). apply bind_Ret_inv in E as (j & Ej & E). rewrite Ei, Ej. cbn [bind].
    apply bind_Ret_inv in E as ([h' q] & E1 & E). apply Ret_inj in E. subst s'. cbn [hp] in HF. apply bind_Ret_inv in E1 as ([h1 q1] & E0 & E1). apply bind_Ret_inv in E0 as (nd0 & En0 & E0). apply bind_Ret_inv in E0 as (t0 & Et0 & E0). apply Ret_inj in E0.
    apply bind_Ret_inv in E1 as (u & Eu & E1). apply bind_Ret_inv in E1 as (w & Ew & E1). apply bind_Ret_inv in E1 as (t & Et & E1). apply Ret_inj in E1.
    destruct (all_fit_alloc _ _ _ _ _ _ E1 HF) as [Ft F1]. rewrite En0. cbn [bind]. rewrite (s_unary _ _ (HG _ _ En0) _ Et0). cbn [bind]. rewrite E0. rewrite Eu. cbn [bind]. rewrite Ew. cbn [bind].
    assert (HG1 : forall i nd, hget h1 i = Ret nd -> ok (shape (n_val nd))). { intros i' nd En. apply fit_ok. destruct (hget_inv _ _ _ En) as (G1 & G2 & <-). apply vof_fit; assumption. }
    destruct (binop_form _ _ _ _ Et) as [_ Hs]. rewrite Hs in Ft. unfold u_add_raw. rewrite (s_binop (LRaw (n_val u)) (LRaw (n_val w)) n_add (HG1 _ _ Eu) (HG1 _ _ Ew) (fit_ok _ Ft) _ Et). cbn [bind]. rewrite E1. reflexivity.
  - (* neg *) revert E. apply p_bind; [apply p_refl|]. intros i _. apply p_bind; [|intros; apply p_refl]. apply p_bind; [apply p_refl|]. intros nd En. apply p_bind; [|intros; apply p_refl]. apply s_unary. apply (HG _ _ En).
  - (* mul *) revert E. apply p_bind; [apply p_refl|]. intros i _. apply p_bind; [apply p_refl|]. intros j _. apply p_bind; [|intros; apply p_refl]. apply p_bind; [apply p_refl|]. intros nd En. apply p_bind; [apply p_refl|]. intros nd' En'.
    apply p_bind; [|intros; apply p_refl]. apply s_mul; [apply (HG _ _ En)|apply (HG _ _ En')].
  - revert E. apply p_bind; [apply p_refl|]. intros i _. apply p_bind; [|intros; apply p_refl]. apply p_bind; [apply p_refl|]. intros nd En. apply p_bind; [|intros; apply p_refl]. apply s_unary. apply (HG _ _ En).
  - revert E. apply p_bind; [apply p_refl|]. intros i _. apply p_bind; [|intros; apply p_refl]. apply p_bind; [apply p_refl|]. intros nd En. apply p_bind; [|intros; apply p_refl]. apply s_unary. apply (HG _ _ En).
  - revert E. apply p_bind; [apply p_refl|]. intros i _. apply p_bind; [|intros; apply p_refl]. apply p_bind; [apply p_refl|]. intros nd En. apply p_bind; [|intros; apply p_refl]. apply s_unary. apply (HG _ _ En).
  - (* sum *) revert E. apply p_bind; [apply p_refl|]. intros i _. apply p_bind; [|intros; apply p_refl]. apply p_bind; [apply p_refl|]. intros nd En. apply p_bind; [apply (s_sum (LRaw (n_val nd))); apply (HG _ _ En)|]. intros t _.
    rewrite s_raw_filler by apply (HG _ _ En). apply p_refl.
  - (* bmm *) apply bind_Ret_inv in E as (i & Ei & E). apply bind_Ret_inv in E as (j & Ej & E). rewrite Ei, Ej. cbn [bind].
    apply bind_Ret_inv in E as ([h' q] & E1 & E). apply Ret_inj in E. subst s'. cbn [hp] in HF. apply bind_Ret_inv in E1 as (u & Eu & E1). apply bind_Ret_inv in E1 as (w & Ew & E1). apply bind_Ret_inv in E1 as (t & Et & E1). apply Ret_inj in E1.
    destruct (all_fit_alloc _ _ _ _ _ _ E1 HF) as [Ft _]. rewrite Eu, Ew. cbn [bind]. rewrite (s_bmm (LRaw (n_val u)) (LRaw (n_val w)) (HG _ _ Eu) (HG _ _ Ew)) with (y := t); [cbn [bind]; rewrite E1; reflexivity| |exact Et].
    intros z Ez. rewrite Et in Ez. apply Ret_inj in Ez. subst z. apply fit_ok. exact Ft.
  - exact E.
  - exact E.
  - exact E.
  - exact E.
  - (* view.to_tensor *) revert E. apply p_bind; [apply p_refl|]. intros i _. apply p_bind; [|intros; apply p_refl]. apply p_bind; [apply p_refl|]. intros nd En. apply p_bind; [apply s_view_new|]. intros v Ev.
    apply p_bind; [|intros; apply p_refl]. apply s_to_tensor. apply (view_tok _ _ _ (HG _ _ En) Ev).
  - revert E. apply p_bind; [apply p_refl|]. intros i _. apply p_bind; [|intros; apply p_refl]. apply p_bind; [apply p_refl|]. intros nd En. apply p_bind; [apply s_view_new|]. intros v Ev.
    apply p_bind; [|intros; apply p_refl]. apply s_sum. apply (view_tok _ _ _ (HG _ _ En) Ev).
  - revert E. apply p_bind; [apply p_refl|]. intros i _. apply p_bind; [apply p_refl|]. intros j _. apply p_bind; [|intros; apply p_refl]. apply p_bind; [apply p_refl|]. intros nd En. apply p_bind; [apply p_refl|]. intros nd' En'.
    apply p_bind; [apply s_view_new|]. intros v Ev. apply p_bind; [|intros; apply p_refl]. apply s_mul; [apply (HG _ _ En)|]. apply (view_tok _ _ _ (HG _ _ En') Ev).
  - (* bmm of a view *) apply bind_Ret_inv in E as (i & Ei & E). apply bind_Ret_inv in E as (j & Ej & E). rewrite Ei, Ej. cbn [bind].
    apply bind_Ret_inv in E as ([h' q] & E1 & E). apply Ret_inj in E. subst s'. cbn [hp] in HF. apply bind_Ret_inv in E1 as (u & Eu & E1). apply bind_Ret_inv in E1 as (w & Ew & E1). apply bind_Ret_inv in E1 as (v & Ev & E1). apply bind_Ret_inv in E1 as (t & Et & E1).
    apply bind_Ret_inv in E1 as (r & Er & E1). destruct (alloc (hp s) r None None) as [h1 ir] eqn:Ea. apply Ret_inj in E1. destruct (all_fit_alloc _ _ _ _ _ _ E1 HF) as [Ft _]. pose proof (view_tok _ _ _ (HG _ _ Ew) Ev) as Hv.
    rewrite Eu, Ew. cbn [bind]. rewrite (s_view_new _ _ _ Ev). cbn [bind]. rewrite (s_bmm (LRaw (n_val u)) (LView v) (HG _ _ Eu) Hv) with (y := t).
    + cbn [bind]. rewrite (s_to_tensor _ Hv _ Er). cbn [bind]. rewrite Ea. cbn [bind]. rewrite E1. reflexivity.
    + intros z Ez. rewrite Et in Ez. apply Ret_inj in Ez. subst z. apply fit_ok. exact Ft.
    + exact Et.
  - destruct (HT x y eq_refl).
  - exact E.
  - revert E. apply p_bind; [apply p_refl|]. intros i _. apply p_bind; [|intros; apply p_refl]. apply s_backward; [apply HI|exact HS|exact HF0].
Qed.
Lemma run_extends p : Forall tidy p -> Forall (fun c => forall x y o, c <> CMulView x y o) p -> forall s s' : state T, reach tidy s -> run p s = Ret s' -> extends (hp s) (hp s').
Proof.
  unfold run. induction p as [|c p IH]; intros H1 H2 s s' R E; cbn [foldM] in E; [apply Ret_inj in E; subst; apply extends_refl|]. inversion H1 as [|? ? Ht H1']; inversion H2 as [|? ? Hv H2']; subst. apply bind_Ret_inv in E as (s1 & E1 & E).
  assert (HM : forall x y o, c = CMulView x y o -> exists v, var_value s x = Ret v /\ shape v <> []) by (intros x y o Hc; destruct (Hv x y o Hc)).
  apply (extends_trans _ (hp s1)); [apply (exec_inv s s1 c (reach_inv _ _ R) HM E1)|]. apply IH; auto. eapply reach_step; eauto.
Qed.
Lemma s_run p : Forall tidy p -> Forall (fun c => forall x y o, c <> CMulView x y o) p -> forall s s' : state T, reach tidy s -> all_fit (nodes (hp s')) -> run p s = Ret s' -> u_run p s = Ret s'.
Proof.
  unfold run, u_run. induction p as [|c p IH]; intros H1 H2 s s' R HF E; cbn [foldM] in *; [exact E|]. inversion H1 as [|? ? Ht H1']; inversion H2 as [|? ? Hv H2']; subst. apply bind_Ret_inv in E as (s1 & E1 & E).
  assert (HM : forall x y o, c = CMulView x y o -> exists v, var_value s x = Ret v /\ shape v <> []) by (intros x y o Hc; destruct (Hv x y o Hc)).
  assert (R1 : reach tidy s1) by (eapply reach_step; eauto).
  assert (F1 : all_fit (nodes (hp s1))). { destruct (run_extends p H1' H2' s1 s' R1 E) as [ext X]. rewrite X in HF. apply Forall_app in HF. apply HF. }
  rewrite (s_exec s s1 c (reach_inv _ _ R) (shapes_reach _ R) Ht HM F1 E1). cbn [bind]. apply IH; auto.
Qed.
End Small.
