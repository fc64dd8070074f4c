(** * TensorFacts: tensors and views as functions from indices to elements *)
From Verif Require Import Base ModelIndex ModelTensor ModelOps Spec Lists IndexFacts.

Lemma shape_eqb_spec a b : reflect (a = b) (shape_eqb a b).
Proof.
  revert b; induction a as [|x a IH]; intros [|y b]; simpl; try (constructor; congruence).
  destruct (Nat.eqb_spec x y); simpl; [|constructor; congruence].
  destruct (IH b); constructor; congruence.
Qed.

Lemma shape_eqb_refl a : shape_eqb a a = true.
Proof. destruct (shape_eqb_spec a a); auto. Qed.

(** ** Broadcasting of shapes *)

Lemma max_shape_rev l r :
  rev (max_shape l r) =
  map (fun p => match p with Both a b => Nat.max a b | Left a => a | Right b => b end)
      (zip_longest (rev l) (rev r)).
Proof. unfold max_shape. rewrite <- map_rev, rev_involutive. reflexivity. Qed.

Definition zmax (l r : list nat) : list nat :=
  map (fun p => match p with Both a b => Nat.max a b | Left a => a | Right b => b end)
      (zip_longest l r).

Lemma zmax_nil_l r : zmax [] r = r.
Proof.
  unfold zmax. destruct r as [|b r]; simpl; auto. f_equal.
  induction r; simpl; auto. f_equal; auto.
Qed.
Lemma zmax_nil_r l : zmax l [] = l.
Proof. unfold zmax. induction l; simpl; auto. f_equal; auto. Qed.
Lemma zmax_cons a l b r : zmax (a :: l) (b :: r) = Nat.max a b :: zmax l r.
Proof. reflexivity. Qed.

Lemma bcast_rev_zmax l r o :
  Forall (fun d => 0 < d) l -> Forall (fun d => 0 < d) r -> bcast_rev l r o -> o = zmax l r.
Proof.
  intros Hl Hr H. induction H; rewrite ?zmax_nil_l, ?zmax_nil_r, ?zmax_cons; auto;
    inversion Hl; inversion Hr; subst; f_equal; auto; lia.
Qed.

Lemma bcast_max_shape l r o : positive l -> positive r -> bcast l r o -> o = max_shape l r.
Proof.
  intros Hl Hr H. rewrite <- (rev_involutive o), <- (rev_involutive (max_shape l r)), max_shape_rev.
  f_equal. apply bcast_rev_zmax; try apply Forall_rev; auto.
Qed.

Lemma broadcastable_rev l r :
  Forall (fun d => 0 < d) l -> Forall (fun d => 0 < d) r ->
  forallb (fun '(d1, d2) => (d1 =? d2) || ((d1 =? 1) || (d2 =? 1))) (combine l r) = true ->
  bcast_rev l r (zmax l r).
Proof.
  revert r; induction l as [|a l IH]; intros r Hl Hr H.
  - rewrite zmax_nil_l. constructor.
  - destruct r as [|b r]; [rewrite zmax_nil_r; constructor|].
    simpl in H. apply andb_true_iff in H as [H1 H2].
    inversion Hl; inversion Hr; subst. rewrite zmax_cons.
    specialize (IH r ltac:(auto) ltac:(auto) H2).
    destruct (Nat.eqb_spec a b) as [->|Hab]; [rewrite Nat.max_id; constructor; auto|].
    destruct (Nat.eqb_spec a 1) as [->|Ha]; [replace (Nat.max 1 b) with b by lia; constructor; auto|].
    destruct (Nat.eqb_spec b 1) as [->|Hb]; [replace (Nat.max a 1) with a by lia; constructor; auto|].
    discriminate.
Qed.

Lemma broadcastable_bcast l r :
  positive l -> positive r -> broadcastable l r = true -> bcast l r (max_shape l r).
Proof.
  intros Hl Hr H. unfold bcast. rewrite max_shape_rev. apply broadcastable_rev; try apply Forall_rev; auto.
Qed.

Lemma bcast_broadcastable l r o : bcast l r o -> broadcastable l r = true.
Proof.
  unfold bcast, broadcastable. generalize (rev l) (rev r) (rev o). clear.
  induction 1; simpl.
  - destruct l; reflexivity.
  - reflexivity.
  - rewrite Nat.eqb_refl. simpl. auto.
  - rewrite orb_true_r. simpl. auto.
  - rewrite !orb_true_r. simpl. auto.
Qed.

Lemma bcast_positive l r o : positive l -> positive r -> bcast l r o -> positive o.
Proof.
  unfold bcast. intros Hl Hr H. apply Forall_rev in Hl, Hr.
  assert (positive (rev o)) as Ho.
  { revert Hl Hr H. generalize (rev l) (rev r) (rev o). clear. intros l r o Hl Hr H.
    unfold positive. induction H; auto; inversion Hl; inversion Hr; subst; constructor; auto;
      apply IHbcast_rev; auto. }
  apply Forall_rev in Ho. rewrite rev_involutive in Ho. exact Ho.
Qed.

Lemma bcast_sym l r o : bcast l r o -> bcast r l o.
Proof. unfold bcast. induction 1; constructor; auto. Qed.

Lemma bcast_self s : bcast s s s.
Proof. unfold bcast. induction (rev s); constructor; auto. Qed.

Lemma zmax_self s : zmax s s = s.
Proof. induction s; auto. rewrite zmax_cons, Nat.max_id. f_equal; auto. Qed.

Lemma max_shape_self s : max_shape s s = s.
Proof.
  rewrite <- (rev_involutive (max_shape s s)), max_shape_rev. fold (zmax (rev s) (rev s)).
  rewrite zmax_self, rev_involutive. reflexivity.
Qed.

Lemma broadcastable_self s : broadcastable s s = true.
Proof. eapply bcast_broadcastable. apply bcast_self. Qed.

(** ** Clamping *)

Lemma combine_skipn_short (A B : Type) (l : list A) (i : list B) n :
  length l = length (skipn n i) -> length (combine l (skipn n i)) = length l.
Proof. intros. rewrite combine_length. lia. Qed.

Definition clamp_rev (rs ri : list nat) : list nat :=
  map (fun '(d, x) => if d =? 1 then 0 else x) (combine rs (firstn (length rs) ri)).

Lemma clamp_rev_spec s idx :
  length s <= length idx -> rev (clamp s idx) = clamp_rev (rev s) (rev idx).
Proof.
  intros H. unfold clamp, clamp_rev. rewrite <- map_rev. f_equal.
  rewrite rev_length, firstn_rev.
  assert (Hl : length s = length (skipn (length idx - length s) idx)) by (rewrite skipn_length; lia).
  revert Hl. generalize (skipn (length idx - length s) idx). clear H.
  induction s as [|d s IH]; intros [|x i] Hl; simpl in *; try discriminate; auto.
  rewrite IH by lia. rewrite combine_app by (rewrite !rev_length; lia). reflexivity.
Qed.

Lemma bcast_rev_clamp l r o i :
  bcast_rev l r o -> Forall2 (fun d x => x < d) o i ->
  resolves_rev l i (clamp_rev l i) /\ resolves_rev r i (clamp_rev r i) /\
  length l <= length i /\ length r <= length i.
Proof.
  assert (Hnil : forall i, resolves_rev [] i (clamp_rev [] i)) by (intros; constructor).
  assert (Hself : forall s i, Forall2 (fun d x => x < d) s i -> resolves_rev s i (clamp_rev s i)).
  { induction 1 as [|d x s i' Hx Hi IH]; [constructor|]. unfold clamp_rev in *. simpl.
    destruct (Nat.eqb_spec d 1) as [->|Hd]; constructor; auto. }
  intros H; revert i; induction H; intros i Hi.
  - repeat split; auto. apply Forall2_length' in Hi; lia. simpl; lia.
  - repeat split; auto. simpl; lia. apply Forall2_length' in Hi; lia.
  - inversion Hi as [|? x ? i' Hx Hi']; subst. destruct (IHbcast_rev _ Hi') as (H1 & H2 & H3 & H4).
    unfold clamp_rev in *. simpl.
    repeat split; try (simpl; lia); destruct (Nat.eqb_spec d 1) as [->|Hd]; constructor; auto.
  - inversion Hi as [|? x ? i' Hx Hi']; subst. destruct (IHbcast_rev _ Hi') as (H1 & H2 & H3 & H4).
    unfold clamp_rev in *. simpl.
    repeat split; try (simpl; lia); [constructor; auto|destruct (Nat.eqb_spec d 1) as [->|Hd]; constructor; auto].
  - inversion Hi as [|? x ? i' Hx Hi']; subst. destruct (IHbcast_rev _ Hi') as (H1 & H2 & H3 & H4).
    unfold clamp_rev in *. simpl.
    repeat split; try (simpl; lia); [destruct (Nat.eqb_spec d 1) as [->|Hd]; constructor; auto|constructor; auto].
Qed.

Lemma bcast_clamp l r o i :
  bcast l r o -> in_range o i ->
  resolves l i (clamp l i) /\ resolves r i (clamp r i).
Proof.
  intros H Hi. apply Forall2_rev in Hi.
  destruct (bcast_rev_clamp _ _ _ _ H Hi) as (H1 & H2 & H3 & H4).
  rewrite !rev_length in H3, H4. unfold resolves. rewrite !clamp_rev_spec by auto. auto.
Qed.

Lemma clamp_self s i : in_range s i -> clamp s i = i.
Proof.
  intros H. unfold clamp. rewrite (in_range_length _ _ H), Nat.sub_diag. simpl.
  induction H as [|d x s i Hx Hi IH]; simpl; auto.
  destruct (Nat.eqb_spec d 1); f_equal; auto; lia.
Qed.

Lemma clamp_in_range l r o i : bcast l r o -> in_range o i -> in_range l (clamp l i).
Proof. intros H Hi. destruct (bcast_clamp _ _ _ _ H Hi) as [H1 _]. eapply resolves_in_range; eauto. Qed.

Section TensorFacts.
Context {T : Type} {NT : Num T}.
Implicit Types t a b : raw T.

(** ** Tensors as functions *)

Lemma tabulate_wf s (f : list nat -> T) : wf (tabulate s f).
Proof. unfold wf, tabulate; simpl. rewrite map_length, all_indices_length. reflexivity. Qed.

Lemma tval_tabulate s (f : list nat -> T) i : in_range s i -> tval (tabulate s f) i = f i.
Proof.
  intros H. unfold tval, tabulate; simpl. pose proof (rm_lt _ _ H).
  rewrite nth_map' with (d' := []) by (rewrite all_indices_length; auto).
  rewrite nth_all_indices by auto. rewrite unravel_rm; auto.
Qed.

Lemma array_tabulate t : wf t -> array t = map (tval t) (all_indices (shape t)).
Proof.
  intros H. apply nth_ext_len with (d := n_zero).
  - rewrite map_length, all_indices_length. exact H.
  - intros i Hi. rewrite H in Hi.
    rewrite nth_map' with (d' := []) by (rewrite all_indices_length; auto).
    rewrite nth_all_indices by auto. unfold tval. rewrite rm_unravel; auto.
Qed.

Lemma tabulate_eta t : wf t -> tabulate (shape t) (tval t) = t.
Proof. intros H. unfold tabulate. rewrite <- array_tabulate by auto. destruct t; reflexivity. Qed.

Lemma tabulate_ext s (f g : list nat -> T) :
  (forall i, in_range s i -> f i = g i) -> tabulate s f = tabulate s g.
Proof.
  intros H. unfold tabulate. f_equal. apply map_ext_in. intros i Hi. apply H. apply in_all_indices; auto.
Qed.

Lemma raw_ext a b :
  wf a -> wf b -> shape a = shape b -> (forall i, in_range (shape a) i -> tval a i = tval b i) -> a = b.
Proof.
  intros Ha Hb Hs H. rewrite <- (tabulate_eta a), <- (tabulate_eta b), <- Hs by auto.
  apply tabulate_ext; auto.
Qed.

Lemma raw_new_ok (x : list T) s : length x = size s -> raw_new x s = Ret (mkRaw x s).
Proof. intros H. unfold raw_new. rewrite product_size, H, Nat.eqb_refl. reflexivity. Qed.

Lemma raw_new_inv (x : list T) s t : raw_new x s = Ret t -> t = mkRaw x s /\ length x = size s.
Proof.
  unfold raw_new. intros H. apply bind_Ret_inv in H as (u & H1 & H2). apply assert_inv in H1.
  apply Nat.eqb_eq in H1. rewrite product_size in H1. injection H2 as <-. auto.
Qed.

Lemma raw_new_tab s (f : list nat -> T) : raw_new (map f (all_indices s)) s = Ret (tabulate s f).
Proof. apply raw_new_ok. rewrite map_length, all_indices_length. reflexivity. Qed.

Lemma raw_filler_tab s (x : T) : raw_filler s x = tabulate s (fun _ => x).
Proof.
  unfold raw_filler, tabulate.
  assert (E : forall l : list (list nat), map (fun _ => x) l = repeat x (length l)).
  { induction l; simpl; auto. f_equal; auto. }
  rewrite E, all_indices_length. destruct s; auto. rewrite product_size. reflexivity.
Qed.

(** ** get *)

Lemma raw_get_resolves t idx i :
  wf t -> positive (shape t) -> resolves (shape t) idx i -> raw_get t idx = Ret (Ok (tval t i)).
Proof.
  intros Hw Hp Hr. unfold raw_get. rewrite (global_index_resolves _ _ _ Hp Hr). cbn [bind].
  rewrite vindex_lt with (d := n_zero); [reflexivity|].
  rewrite Hw. apply rm_lt. eapply resolves_in_range; eauto.
Qed.

Lemma raw_get_err t idx :
  positive (shape t) -> (forall i, ~ resolves (shape t) idx i) ->
  exists e, raw_get t idx = Ret (Err e).
Proof.
  intros Hp Hn. unfold raw_get. destruct (global_index_none idx (shape t) Hp) as [(i & Hi & _)|(_ & e & E)].
  - exfalso; eapply Hn; eauto.
  - rewrite E. exists e. reflexivity.
Qed.

Lemma raw_get_in_range t i : wf t -> in_range (shape t) i -> raw_get t i = Ret (Ok (tval t i)).
Proof.
  intros Hw Hi. apply raw_get_resolves; auto; [eapply in_range_positive; eauto|apply resolves_self; auto].
Qed.

Lemma raw_at_in_range t i : wf t -> in_range (shape t) i -> raw_at t i = Ret (tval t i).
Proof. intros. unfold raw_at. rewrite raw_get_in_range; auto. Qed.

Lemma raw_at_resolves t idx i :
  wf t -> positive (shape t) -> resolves (shape t) idx i -> raw_at t idx = Ret (tval t i).
Proof. intros. unfold raw_at. rewrite (raw_get_resolves t idx i) by auto. reflexivity. Qed.

Lemma raw_set_in_range t i x :
  wf t -> in_range (shape t) i ->
  raw_set t i x = Ret (Ok (mkRaw (list_set (array t) (rm (shape t) i) x) (shape t))).
Proof.
  intros Hw Hi. unfold raw_set. rewrite global_index_in_range by auto. cbn [bind].
  unfold vset. pose proof (rm_lt _ _ Hi). rewrite Hw.
  destruct (Nat.ltb_spec (rm (shape t) i) (size (shape t))); [reflexivity|lia].
Qed.

(** ** Tensor-likes *)

(** Raw tensors and views as [TensorView::new] makes them *)
Definition tl_wf0 (l : tlike T) : Prop :=
  match l with
  | LRaw t => wf t
  | LView v => wf (v_tensor v) /\ window_ok (shape (v_tensor v)) (v_offset v) /\
               v_shape v = window_shape (v_offset v)
  end.

(** ... without zero dimensions *)
Definition tl_wf (l : tlike T) : Prop := tl_wf0 l /\ positive (tl_shape l).

Definition tl_val (l : tlike T) (i : list nat) : T :=
  match l with
  | LRaw t => tval t i
  | LView v => tval (v_tensor v) (shift (v_offset v) i)
  end.

Lemma tl_wf_positive l : tl_wf l -> positive (tl_shape l).
Proof. intros [_ H]; exact H. Qed.

Lemma tl_wf_wf0 l : tl_wf l -> tl_wf0 l.
Proof. intros [H _]; exact H. Qed.
Hint Resolve tl_wf_wf0 : core.

Lemma view_get_in_range v i :
  wf (v_tensor v) -> window_ok (shape (v_tensor v)) (v_offset v) ->
  in_range (window_shape (v_offset v)) i ->
  view_get v i = Ret (Ok (tval (v_tensor v) (shift (v_offset v) i))).
Proof.
  intros Hw Ho Hi. unfold view_get. rewrite global_index_window by auto. cbn [bind unwrap].
  rewrite vindex_lt with (d := n_zero); [reflexivity|].
  rewrite Hw. apply rm_lt. apply shift_in_range; auto.
Qed.

Lemma view_at_in_range v i :
  wf (v_tensor v) -> window_ok (shape (v_tensor v)) (v_offset v) ->
  in_range (window_shape (v_offset v)) i ->
  view_at v i = Ret (tval (v_tensor v) (shift (v_offset v) i)).
Proof.
  intros Hw Ho Hi. unfold view_at, raw_get_with_offset. rewrite global_index_window by auto.
  cbn [bind unwrap].
  rewrite vindex_lt with (d := n_zero); [reflexivity|].
  rewrite Hw. apply rm_lt. apply shift_in_range; auto.
Qed.

Lemma tl_get_in_range l i : tl_wf0 l -> in_range (tl_shape l) i -> tl_get l i = Ret (Ok (tl_val l i)).
Proof.
  destruct l as [t|v]; simpl.
  - intros Hw Hi. apply raw_get_in_range; auto.
  - intros (Hw & Ho & Hs) Hi. rewrite Hs in Hi. apply view_get_in_range; auto.
Qed.

Lemma tl_get_unwrap_in_range l i :
  tl_wf0 l -> in_range (tl_shape l) i -> tl_get_unwrap l i = Ret (tl_val l i).
Proof. intros. unfold tl_get_unwrap. rewrite tl_get_in_range; auto. Qed.

(** ** Loops over elements *)

Lemma iter_fold_elem_aux A (l : tlike T) (body : A -> T -> outcome A) :
  tl_wf l ->
  forall n g fuel acc, g + S n = size (tl_shape l) -> n < fuel ->
  iter_fold (elem_iter_next l) body fuel (mkEI (unravel (tl_shape l) g) false) acc =
  foldM body (map (tl_val l) (map (unravel (tl_shape l)) (seq (S g) n))) acc.
Proof.
  intros Hw. pose proof (tl_wf_positive _ Hw) as Hp.
  induction n as [|n IH]; intros g fuel acc Hg Hf;
    destruct fuel as [|fuel]; try lia; simpl.
  - unfold elem_iter_next; simpl. rewrite increment_unravel by (auto; lia).
    destruct (Nat.ltb_spec (S g) (size (tl_shape l))); [lia|]. reflexivity.
  - unfold elem_iter_next at 1; simpl. rewrite increment_unravel by (auto; lia).
    destruct (Nat.ltb_spec (S g) (size (tl_shape l))); [|lia]. simpl.
    rewrite tl_get_unwrap_in_range by (auto; apply unravel_in_range; lia). cbn [bind].
    destruct (body acc (tl_val l (unravel (tl_shape l) (S g)))); simpl; auto.
    apply IH; lia.
Qed.

Lemma iter_fold_elem A (l : tlike T) (body : A -> T -> outcome A) acc :
  tl_wf l ->
  iter_fold (elem_iter_next l) body (index_fuel (tl_shape l)) (elem_iter_new l) acc =
  foldM body (map (tl_val l) (all_indices (tl_shape l))) acc.
Proof.
  intros Hw. pose proof (tl_wf_positive _ Hw) as Hp.
  pose proof (proj1 (size_pos _) Hp) as Hs.
  unfold index_fuel. rewrite product_max1 by auto.
  unfold elem_iter_new. rewrite <- unravel_0. rewrite all_indices_unravel.
  destruct (size (tl_shape l)) as [|n] eqn:E; [lia|].
  simpl. unfold elem_iter_next at 1. cbn [ei_first ei_index]. rewrite tl_get_unwrap_in_range by (auto; apply unravel_in_range; lia). cbn [bind].
  destruct (body acc (tl_val l (unravel (tl_shape l) 0))); simpl; auto.
  rewrite <- (iter_fold_elem_aux A l body Hw n 0 (S n)); auto; lia.
Qed.

Lemma elements_ok (l : tlike T) :
  tl_wf l -> elements l = Ret (map (tl_val l) (all_indices (tl_shape l))).
Proof.
  intros Hw. unfold elements. rewrite iter_fold_elem by auto.
  rewrite foldM_pure with (g := fun acc x => acc ++ [x]) by auto.
  rewrite fold_left_snoc with (f := fun x => x), map_id. reflexivity.
Qed.

Lemma zip_fold_aux A (l r : tlike T) (body : A -> T * T -> outcome A) s :
  tl_wf l -> tl_wf r -> tl_shape l = s -> tl_shape r = s ->
  forall n g fuel acc, g + S n = size s -> n < fuel ->
  iter_fold (zip_next l r) body fuel (mkEI (unravel s g) false, mkEI (unravel s g) false) acc =
  foldM body (map (fun i => (tl_val l i, tl_val r i)) (map (unravel s) (seq (S g) n))) acc.
Proof.
  intros Hl Hr El Er. pose proof (tl_wf_positive _ Hl) as Hp. rewrite El in Hp.
  induction n as [|n IH]; intros g fuel acc Hg Hf;
    destruct fuel as [|fuel]; try lia; simpl.
  - unfold zip_next, elem_iter_next; simpl. rewrite El, increment_unravel by (auto; lia).
    destruct (Nat.ltb_spec (S g) (size s)); [lia|]. reflexivity.
  - unfold zip_next at 1, elem_iter_next; simpl. rewrite El, Er, increment_unravel by (auto; lia).
    destruct (Nat.ltb_spec (S g) (size s)); [|lia]. simpl.
    rewrite !tl_get_unwrap_in_range by (auto; rewrite ?El, ?Er; apply unravel_in_range; lia).
    cbn [bind].
    destruct (body acc (tl_val l (unravel s (S g)), tl_val r (unravel s (S g)))); simpl; auto.
    apply IH; lia.
Qed.

Lemma zip_fold A (l r : tlike T) (body : A -> T * T -> outcome A) acc :
  tl_wf l -> tl_wf r -> tl_shape l = tl_shape r ->
  iter_fold (zip_next l r) body (index_fuel (tl_shape l)) (elem_iter_new l, elem_iter_new r) acc =
  foldM body (map (fun i => (tl_val l i, tl_val r i)) (all_indices (tl_shape l))) acc.
Proof.
  intros Hl Hr E. pose proof (tl_wf_positive _ Hl) as Hp.
  pose proof (proj1 (size_pos _) Hp) as Hs.
  unfold index_fuel. rewrite product_max1 by auto.
  unfold elem_iter_new. rewrite <- E, <- unravel_0. rewrite all_indices_unravel.
  destruct (size (tl_shape l)) as [|n] eqn:En; [lia|].
  simpl. unfold zip_next at 1, elem_iter_next; simpl.
  rewrite !tl_get_unwrap_in_range by (auto; rewrite <- ?E; apply unravel_in_range; lia). cbn [bind].
  destruct (body acc (tl_val l (unravel (tl_shape l) 0), tl_val r (unravel (tl_shape l) 0))); simpl; auto.
  rewrite <- (zip_fold_aux A l r body (tl_shape l) Hl Hr) with (g := 0) (fuel := S n); auto; lia.
Qed.

Lemma tl_to_tensor_ok (l : tlike T) :
  tl_wf l -> tl_to_tensor l = Ret (tabulate (tl_shape l) (tl_val l)).
Proof.
  destruct l as [t|v]; intros Hw.
  - simpl. f_equal. symmetry. apply tabulate_eta. apply (proj1 Hw).
  - unfold tl_to_tensor. rewrite elements_ok by auto. cbn [bind tl_shape]. apply raw_new_tab.
Qed.

Lemma tl_sum_ok (l : tlike T) :
  tl_wf l -> tl_sum l = Ret (raw_scalar (lsum (map (tl_val l) (all_indices (tl_shape l))))).
Proof.
  destruct l as [t|v]; intros Hw.
  - destruct Hw as [Hw _]. unfold tl_sum. rewrite (array_tabulate t) by auto. reflexivity.
  - unfold tl_sum. rewrite (iter_fold_elem _ (LView v)) by auto.
    rewrite foldM_pure with (g := n_add) by auto. reflexivity.
Qed.

(** ** view_new *)

Lemma view_new_ok t o :
  window_ok (shape t) o -> valid_ranges o -> view_new t o = Ret (mkView t (window_shape o) o).
Proof.
  intros Hw Hv. unfold view_new.
  rewrite (Forall2_length' _ _ _ _ _ Hw), Nat.eqb_refl. cbn [assert bind].
  assert (E : mapM (fun '(r, dim) =>
                    assert (sr_end r <=? dim) ;;
                    (if sr_end r <? sr_start r then Panic PArith
                    else Ret (sr_end r - sr_start r)))
                 (combine o (shape t)) = Ret (window_shape o)).
  { unfold window_ok in Hw. induction Hw as [|d r s o Hd Hw IH]; auto.
    inversion Hv; subst. cbn [combine mapM].
    destruct (Nat.leb_spec (sr_end r) d); [|lia]. cbn [assert bind].
    destruct (Nat.ltb_spec (sr_end r) (sr_start r)); [lia|]. cbn [bind].
    rewrite IH by auto. reflexivity. }
  rewrite E. reflexivity.
Qed.

Lemma view_new_inv t o v :
  view_new t o = Ret v -> window_ok (shape t) o /\ valid_ranges o /\ v = mkView t (window_shape o) o.
Proof.
  unfold view_new. intros H. apply bind_Ret_inv in H as (u & H1 & H2). apply assert_inv in H1.
  apply Nat.eqb_eq in H1. apply bind_Ret_inv in H2 as (sh & H2 & H3).
  assert (window_ok (shape t) o /\ valid_ranges o /\ sh = window_shape o) as (Ha & Hb & Hc).
  { clear H3. revert H1 H2. generalize (shape t) as s. clear. intros s.
    revert o sh. induction s as [|d s IH]; intros [|r o] sh Hl H; simpl in *; try discriminate.
    - injection H as <-. repeat split; constructor.
    - apply bind_Ret_inv in H as (x & Hx & H).
      apply bind_Ret_inv in Hx as (u & Hu & Hx). apply assert_inv in Hu. apply Nat.leb_le in Hu.
      destruct (Nat.ltb_spec (sr_end r) (sr_start r)); [discriminate|]. injection Hx as <-.
      apply bind_Ret_inv in H as (sh' & H & E). injection E as <-.
      destruct (IH o sh') as (Ha & Hb & Hc); [lia|auto|]. subst.
      repeat split; try constructor; auto. }
  injection H3 as <-. subst. auto.
Qed.

Lemma view_tl_wf t o v :
  wf t -> view_new t o = Ret v -> positive (v_shape v) -> tl_wf (LView v).
Proof.
  intros Hw H Hp. apply view_new_inv in H as (Ho & Hv & ->). split; simpl in *; auto.
Qed.

(** Out-of-window access *)
Lemma view_get_bad v idx :
  wf (v_tensor v) -> positive (shape (v_tensor v)) ->
  length (shape (v_tensor v)) = length (v_offset v) -> valid_ranges (v_offset v) ->
  (exists i, wresolves (shape (v_tensor v)) (v_offset v) idx i /\
             view_get v idx = Ret (Ok (tval (v_tensor v) i))) \/
  ((forall i, ~ wresolves (shape (v_tensor v)) (v_offset v) idx i) /\
   view_get v idx = Panic PUnwrap).
Proof.
  intros Hw Hp Hl Hv. unfold view_get.
  destruct (global_index_some idx _ _ Hp Hl Hv) as [(i & Hi & E)|(Hn & e & E)]; rewrite E; cbn [bind unwrap].
  - left. exists i. split; auto. rewrite vindex_lt with (d := n_zero); [reflexivity|].
    rewrite Hw. apply rm_lt. eapply wresolves_in_range; eauto.
  - right. auto.
Qed.

(** ** Equality *)

Lemma vec_eqb_Forall2 (a b : list T) : vec_eqb a b = true <-> Forall2 (fun x y => n_eq x y = true) a b.
Proof.
  revert b; induction a as [|x a IH]; intros [|y b]; simpl; split; intros H;
    try discriminate; try constructor; try (inversion H; fail).
  - apply andb_true_iff in H; tauto.
  - apply IH. apply andb_true_iff in H; tauto.
  - inversion H as [|? ? ? ? E1 E2]; subst. rewrite E1. simpl. apply IH; auto.
Qed.

Lemma raw_eq_spec a b :
  raw_eq a b = true <-> shape a = shape b /\ Forall2 (fun x y => n_eq x y = true) (array a) (array b).
Proof.
  unfold raw_eq. rewrite <- vec_eqb_Forall2.
  destruct (shape_eqb_spec (shape a) (shape b)); simpl.
  - destruct (vec_eqb (array a) (array b)); simpl; split; auto; intros H; try tauto; try discriminate.
    all: destruct H; discriminate.
  - split; [discriminate|tauto].
Qed.

Lemma view_eq_ok v (l : tlike T) :
  tl_wf (LView v) -> tl_wf l ->
  exists b : bool, view_eq v l = Ret b /\
    (b = true <-> v_shape v = tl_shape l /\
       forall i, in_range (v_shape v) i -> n_eq (tl_val (LView v) i) (tl_val l i) = true).
Proof.
  intros Hv Hl. unfold view_eq.
  destruct (shape_eqb_spec (tl_shape l) (v_shape v)) as [E|E]; simpl negb; cbv iota.
  - rewrite iter_all_index with (t := fun i => n_eq (tl_val (LView v) i) (tl_val l i)).
    + eexists; split; [reflexivity|]. rewrite forallb_forall. split.
      * intros H. split; auto. intros i Hi. apply H. apply in_all_indices; auto.
      * intros [_ H] i Hi. apply H. apply in_all_indices; auto.
    + apply (tl_wf_positive (LView v)); auto.
    + intros i Hi. pose proof (tl_get_in_range (LView v) i (proj1 Hv) Hi) as E1. simpl in E1. rewrite E1.
      rewrite (tl_get_in_range l i) by (auto; rewrite E; auto). reflexivity.
  - exists false. split; auto. split; [discriminate|]. intros [H _]. congruence.
Qed.

End TensorFacts.
#[global] Hint Resolve tl_wf_wf0 : core.
