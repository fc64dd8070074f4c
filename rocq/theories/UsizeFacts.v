(** * UsizeFacts: programs over different kinds of [usize] *)
From Verif Require Import Base ModelIndex ModelTensor ModelOps ModelJvp ModelGraph ModelUsize Spec SpecGraph Lists.

(** ** Related arithmetic gives related programs *)
Section Rel.
Variable R : forall A, outcome A -> outcome A -> Prop.
Hypothesis R_refl : forall A (o : outcome A), R A o o.
Hypothesis R_bind : forall A B (m m' : outcome A) (f f' : A -> outcome B), R A m m' -> (forall a, R B (f a) (f' a)) -> R B (bind m f) (bind m' f').
Variables U V : usize_ops.
Hypothesis R_add : forall a b, R nat (@u_add U a b) (@u_add V a b).
Hypothesis R_mul : forall a b, R nat (@u_mul U a b) (@u_mul V a b).
Hypothesis R_sub : forall a b, R nat (@u_sub U a b) (@u_sub V a b).
Hypothesis R_debug : forall b, R unit (if @u_debug U then assert b else Ret tt) (if @u_debug V then assert b else Ret tt).

Lemma R_foldM A B (f f' : A -> B -> outcome A) l : (forall a b, R A (f a b) (f' a b)) -> forall a, R A (foldM f l a) (foldM f' l a).
Proof. intros H. induction l as [|b l IH]; intros a; cbn [foldM]; [apply R_refl|]. apply R_bind; auto. Qed.
Lemma R_mapM A B (f f' : A -> outcome B) l : (forall a, R B (f a) (f' a)) -> R (list B) (mapM f l) (mapM f' l).
Proof. intros H. induction l as [|b l IH]; cbn [mapM]; [apply R_refl|]. apply R_bind; [auto|]. intros a. apply R_bind; auto. Qed.
Lemma R_iter_fold St I A next next' (body body' : A -> I -> outcome A) : (forall s : St, R _ (next s) (next' s)) -> (forall a i, R A (body a i) (body' a i)) ->
  forall fuel s acc, R A (iter_fold next body fuel s acc) (iter_fold next' body' fuel s acc).
Proof.
  intros H1 H2. induction fuel as [|f IH]; intros s acc; cbn [iter_fold]; [apply R_refl|]. apply R_bind; auto. intros [o s']. destruct o; [|apply R_refl].
  apply R_bind; auto.
Qed.

Ltac rel1 := match goal with
  | |- R _ (foldM _ _ _) (foldM _ _ _) => apply R_foldM; intros
  | |- R _ (mapM _ _) (mapM _ _) => apply R_mapM; intros
  | |- R _ (iter_fold _ _ _ _ _) (iter_fold _ _ _ _ _) => apply R_iter_fold; intros
  | |- R _ (bind _ _) (bind _ _) => apply R_bind; [|intros]
  | p : (_ * _)%type |- _ => destruct p; cbv beta iota
  | |- R _ ?x ?y => constr_eq x y; apply R_refl
  | |- R _ (if @u_debug U then _ else _) _ => apply R_debug
  | |- R _ (match ?x with _ => _ end) (match ?y with _ => _ end) => constr_eq x y; destruct x
  end.
Ltac rel := repeat (cbv beta zeta; rel1).

Ltac fin tac := first [apply R_add | apply R_mul | apply R_sub | tac () | match goal with IH : forall _, _ |- _ => lazymatch type of IH with forall (A : Type), _ => fail | _ => solve [apply IH] end end | idtac].
Lemma r_product s : R _ (@u_product U s) (@u_product V s).
Proof. unfold u_product. rel. apply R_mul. Qed.
Lemma r_gi_loop rank off : forall pairs pos g m, R _ (@u_gi_loop U rank off pairs pos g m) (@u_gi_loop V rank off pairs pos g m).
Proof.
  induction pairs as [|[dim idx] rest IH]; intros pos g m; cbn [u_gi_loop]; [apply R_refl|].
  destruct (dim =? 1); [apply IH|]. apply R_bind.
  - destruct off; rel; fin ltac:(fun _ => fail).
  - intros [sd si]. rel; fin ltac:(fun _ => fail).
Qed.
Lemma r_global_index i s o : R _ (@u_global_index U i s o) (@u_global_index V i s o).
Proof. unfold u_global_index. rel. apply r_gi_loop. Qed.
Lemma r_inc_loop s : forall n i, R _ (@u_inc_loop U n i s) (@u_inc_loop V n i s).
Proof. induction n as [|n IH]; intros i; cbn [u_inc_loop]; rel; fin ltac:(fun _ => fail). Qed.
Lemma r_increment i s : R _ (@u_increment_index U i s) (@u_increment_index V i s).
Proof. apply r_inc_loop. Qed.
Lemma r_index_next s : R _ (@u_index_iter_next U s) (@u_index_iter_next V s).
Proof. unfold u_index_iter_next. rel. apply r_increment. Qed.

Context {T : Type} {NT : Num T}.
Implicit Types (a : list T) (t : raw T) (l : tlike T).
Lemma r_raw_new a s : R _ (@u_raw_new U T a s) (@u_raw_new V T a s).
Proof. unfold u_raw_new. rel. apply r_product. Qed.
Lemma r_raw_filler s (x : T) : R _ (@u_raw_filler U T s x) (@u_raw_filler V T s x).
Proof. unfold u_raw_filler. rel. apply r_product. Qed.
Lemma r_raw_get t i : R _ (@u_raw_get U T t i) (@u_raw_get V T t i).
Proof. unfold u_raw_get. rel. apply r_global_index. Qed.
Lemma r_raw_set t i x : R _ (@u_raw_set U T t i x) (@u_raw_set V T t i x).
Proof. unfold u_raw_set. rel. apply r_global_index. Qed.
Lemma r_raw_at t i : R _ (@u_raw_at U T t i) (@u_raw_at V T t i).
Proof. unfold u_raw_at. rel. apply r_raw_get. Qed.
Lemma r_view_new t o : R _ (@u_view_new U T t o) (@u_view_new V T t o).
Proof. unfold u_view_new. rel. apply R_sub. Qed.
Lemma r_view_get (v : view T) i : R _ (@u_view_get U T v i) (@u_view_get V T v i).
Proof. unfold u_view_get. rel. apply r_global_index. Qed.
Lemma r_tl_get l i : R _ (@u_tl_get U T l i) (@u_tl_get V T l i).
Proof. unfold u_tl_get. rel; [apply r_raw_get|apply r_view_get]. Qed.
Lemma r_tl_get_unwrap l i : R _ (@u_tl_get_unwrap U T l i) (@u_tl_get_unwrap V T l i).
Proof. unfold u_tl_get_unwrap. rel. apply r_tl_get. Qed.
Lemma r_elem_next l s : R _ (@u_elem_iter_next U T l s) (@u_elem_iter_next V T l s).
Proof. unfold u_elem_iter_next. rel; try apply r_tl_get_unwrap. apply r_increment. Qed.
Lemma r_to_tensor l : R _ (@u_tl_to_tensor U T l) (@u_tl_to_tensor V T l).
Proof. unfold u_tl_to_tensor, u_elements. rel; [apply r_product|apply r_elem_next|apply r_raw_new]. Qed.
Lemma r_sum l : R _ (@u_tl_sum U T NT l) (@u_tl_sum V T NT l).
Proof. unfold u_tl_sum. rel. apply r_elem_next. Qed.
Lemma r_add_raw l l' : R _ (@u_add_raw U T NT l l') (@u_add_raw V T NT l l').
Proof.
  unfold u_add_raw, u_generic_binop_raw. rel; [apply r_raw_filler|apply r_index_next|apply r_tl_get_unwrap|apply r_tl_get_unwrap|apply r_raw_set].
Qed.
Lemma r_unary_loop l s op : forall n i acc, R _ (@u_unary_loop U T l s op n i acc) (@u_unary_loop V T l s op n i acc).
Proof. induction n as [|n IH]; intros i acc; cbn [u_unary_loop]; rel; [apply r_tl_get_unwrap|apply r_increment|apply IH]. Qed.
Lemma r_unary l op : R _ (@u_generic_unary_op U T l op) (@u_generic_unary_op V T l op).
Proof. unfold u_generic_unary_op. rel; [apply r_to_tensor|apply r_unary_loop|apply r_raw_new]. Qed.
Lemma r_ewm l l' : R _ (@u_element_wise_multiplication U T NT l l') (@u_element_wise_multiplication V T NT l l').
Proof. unfold u_element_wise_multiplication. rel; [|apply r_raw_new]. unfold u_zip_next. rel; apply r_elem_next. Qed.
Lemma r_mul_raw t l : R _ (@u_mul_raw U T NT t l) (@u_mul_raw V T NT t l).
Proof. unfold u_mul_raw, u_tl_get_first_elem. rel; [apply r_product|apply r_tl_get_unwrap|apply r_product|apply r_ewm]. Qed.
Lemma r_bmm_raw l l' : R _ (@u_bmm_raw U T NT l l') (@u_bmm_raw V T NT l l').
Proof.
  assert (H : forall b n m, R _ (@u_bmm_rows U T NT l l' b n m) (@u_bmm_rows V T NT l l' b n m)).
  { intros b n m. unfold u_bmm_rows, u_bmm_cell. rel; apply r_tl_get_unwrap. }
  unfold u_bmm_raw. rel; fin ltac:(fun _ => first [apply r_product]).
Qed.
Lemma r_jdb_loop d g js bs is n0 : forall f i o arr, R _ (@u_jdb_loop U T NT f d g js bs is n0 i o arr) (@u_jdb_loop V T NT f d g js bs is n0 i o arr).
Proof.
  induction f as [|f IH]; intros i o arr; cbn [u_jdb_loop]; rel; fin ltac:(fun _ => first [apply r_global_index | apply r_increment]).
  unfold u_jdb_body. rel; fin ltac:(fun _ => first [apply r_global_index | apply r_raw_at]).
Qed.
Lemma r_jdb d js bs is g : R _ (@u_jvp_from_diagonal_broadcast U T NT d js bs is g) (@u_jvp_from_diagonal_broadcast V T NT d js bs is g).
Proof. unfold u_jvp_from_diagonal_broadcast. rel; fin ltac:(fun _ => first [apply r_jdb_loop | apply r_raw_new]). Qed.
Lemma r_unary_jvp t g d : R _ (@u_generic_unary_jvp U T NT t g d) (@u_generic_unary_jvp V T NT t g d).
Proof.
  assert (H : forall f i acc, R _ (@u_unary_diag_loop U T f t d i acc) (@u_unary_diag_loop V T f t d i acc)).
  { induction f as [|f IH]; intros i acc; cbn [u_unary_diag_loop]; rel; fin ltac:(fun _ => first [apply r_raw_at | apply r_increment]). }
  unfold u_generic_unary_jvp. rel; fin ltac:(fun _ => first [apply r_raw_new | apply r_jdb]).
Qed.
Lemma r_binop_jvp t t' g d : R _ (@u_generic_binop_jvp U T NT t t' g d) (@u_generic_binop_jvp V T NT t t' g d).
Proof.
  assert (H : forall bs f i acc, R _ (@u_binop_diag_loop U T f t t' d bs i acc) (@u_binop_diag_loop V T f t t' d bs i acc)).
  { intros bs. induction f as [|f IH]; intros i acc; cbn [u_binop_diag_loop]; rel; fin ltac:(fun _ => first [apply r_raw_at | apply r_increment]). }
  unfold u_generic_binop_jvp. rel; fin ltac:(fun _ => first [apply r_product | apply r_raw_new | apply r_jdb]).
Qed.
Lemma r_one t : R _ (@u_one U T t) (@u_one V T t).
Proof. unfold u_one. rel. apply r_product. Qed.
Lemma r_full t t' : R _ (@u_jvp_from_full_jacobians U T NT t t') (@u_jvp_from_full_jacobians V T NT t t').
Proof. unfold u_jvp_from_full_jacobians. rel; fin ltac:(fun _ => first [apply r_one | apply r_mul_raw | apply r_bmm_raw]). Qed.
Lemma r_bmm_jvp ts gs : R _ (@u_bmm_jvp U T NT ts gs) (@u_bmm_jvp V T NT ts gs).
Proof.
  unfold u_bmm_jvp. rel; fin ltac:(fun _ => first [apply r_raw_new]).
  - unfold u_bmm_task. rel; fin ltac:(fun _ => first [apply r_global_index | apply r_raw_at]).
  - unfold u_deliver, u_receive. rel; fin ltac:(fun _ => fail).
  - unfold u_deliver, u_receive. rel; fin ltac:(fun _ => fail).
Qed.
Lemma r_jvp k ts gs : R _ (@u_jvp U T NT k ts gs) (@u_jvp V T NT k ts gs).
Proof.
  unfold u_jvp, u_ones, u_tanh_derivative. destruct k; rel; fin ltac:(fun _ => first [apply r_binop_jvp | apply r_unary_jvp | apply r_full | apply r_product | apply r_raw_filler | apply r_bmm_jvp | apply r_raw_new]).
Qed.
Lemma r_update gr i t : R _ (@u_update_grad U T NT gr i t) (@u_update_grad V T NT gr i t).
Proof. unfold u_update_grad. rel. apply r_add_raw. Qed.
Lemma r_compute ns : forall f k ins o gr, R _ (@u_compute_jvp U T NT f ns k ins o gr) (@u_compute_jvp V T NT f ns k ins o gr).
Proof. induction f as [|f IH]; intros k ins o gr; cbn [u_compute_jvp]; rel; fin ltac:(fun _ => first [apply r_jvp | apply r_raw_new | apply r_update]). Qed.
Lemma r_backward h i : R _ (@u_backward U T NT h i) (@u_backward V T NT h i).
Proof. unfold u_backward. rel. apply r_compute. Qed.
Lemma r_fwd k vs : R _ (@u_fwd U T NT k vs) (@u_fwd V T NT k vs).
Proof. unfold u_fwd. rel; fin ltac:(fun _ => first [apply r_add_raw | apply r_unary | apply r_sum | apply r_bmm_raw]). Qed.
Lemma r_exec s c : R _ (@u_exec U T NT s c) (@u_exec V T NT s c).
Proof.
  unfold u_exec, push, u_op1, u_op2. destruct c; rel;
    fin ltac:(fun _ => first [apply r_raw_new | apply r_raw_filler | apply r_fwd | apply r_mul_raw | apply r_sum | apply r_view_new | apply r_to_tensor | apply r_bmm_raw | apply r_update | apply r_backward]).
Qed.
Lemma r_run p s : R _ (@u_run U T NT p s) (@u_run V T NT p s).
Proof. unfold u_run. rel. apply r_exec. Qed.
End Rel.

(** ** With unbounded arithmetic it is the model *)
Lemma foldM_ext A B (f f' : A -> B -> outcome A) l : (forall a b, f a b = f' a b) -> forall a, foldM f l a = foldM f' l a.
Proof. intros H. induction l as [|b l IH]; intros a; cbn [foldM]; [reflexivity|]. rewrite H. destruct (f' a b); cbn [bind]; auto. Qed.
Lemma mapM_ext A B (f f' : A -> outcome B) l : (forall a, f a = f' a) -> mapM f l = mapM f' l.
Proof. intros H. induction l as [|b l IH]; cbn [mapM]; [reflexivity|]. rewrite H, IH. reflexivity. Qed.
Lemma iter_fold_ext St I A next next' (body body' : A -> I -> outcome A) : (forall s : St, next s = next' s) -> (forall a i, body a i = body' a i) ->
  forall fuel s acc, iter_fold next body fuel s acc = iter_fold next' body' fuel s acc.
Proof.
  intros H1 H2. induction fuel as [|f IH]; intros s acc; cbn [iter_fold]; [reflexivity|]. rewrite H1. destruct (next' s) as [[[x|] s']| |]; cbn [bind]; auto.
  rewrite H2. destruct (body' acc x); cbn [bind]; auto.
Qed.
Lemma bind_ext A B (m : outcome A) (f f' : A -> outcome B) : (forall a, f a = f' a) -> bind m f = bind m f'.
Proof. intros H. destruct m; cbn [bind]; auto. Qed.

#[local] Existing Instance unbounded.
Lemma n_product s : u_product s = Ret (product s).
Proof. unfold u_product, product. generalize 1. induction s as [|d s IH]; intros a; cbn [foldM fold_left]; [reflexivity|]. cbn. apply IH. Qed.
Lemma n_gi_loop rank off : forall pairs pos g m, u_gi_loop rank off pairs pos g m = gi_loop rank off pairs pos g m.
Proof.
  induction pairs as [|[dim idx] rest IH]; intros pos g m; cbn [u_gi_loop gi_loop]; [reflexivity|]. destruct (dim =? 1); [apply IH|].
  destruct off as [o|].
  - destruct (vindex o (rank - pos - 1)) as [r| |]; cbn [bind]; try reflexivity. cbn [u_sub u_add unbounded].
    rewrite Nat.ltb_antisym. destruct (sr_start r <=? sr_end r); cbn [negb bind]; [|reflexivity]. destruct (_ <=? _); [reflexivity|]. destruct (_ <=? _); [reflexivity|]. apply IH.
  - cbn [bind]. destruct (_ <=? _); [reflexivity|]. cbn [u_mul u_add unbounded bind]. apply IH.
Qed.
Lemma n_global_index i s o : u_global_index i s o = global_index i s o.
Proof. unfold u_global_index, global_index. rewrite n_gi_loop. reflexivity. Qed.
Lemma n_inc_loop s : forall n i, u_inc_loop n i s = inc_loop n i s.
Proof.
  induction n as [|n IH]; intros i; cbn [u_inc_loop inc_loop]; [reflexivity|]. destruct (vindex i n); cbn [bind]; try reflexivity. destruct (vindex s n) as [d| |]; cbn [bind]; try reflexivity.
  destruct d as [|d]; [reflexivity|]. cbn [u_sub u_add unbounded]. cbn [Nat.leb bind Nat.eqb]. rewrite IH. reflexivity.
Qed.
Lemma n_increment i s : u_increment_index i s = increment_index i s.
Proof. apply n_inc_loop. Qed.
Lemma n_index_next s : u_index_iter_next s = index_iter_next s.
Proof. unfold u_index_iter_next, index_iter_next. rewrite n_increment. reflexivity. Qed.

Section Same.
Context {T : Type} {NT : Num T}.
Implicit Types (a : list T) (t : raw T) (l : tlike T).
Lemma n_raw_new a s : u_raw_new a s = raw_new a s.
Proof. unfold u_raw_new. rewrite n_product. reflexivity. Qed.
Lemma n_raw_filler s (x : T) : u_raw_filler s x = Ret (raw_filler s x).
Proof. unfold u_raw_filler, raw_filler. destruct s; [reflexivity|]. rewrite n_product. reflexivity. Qed.
Lemma n_raw_get t i : u_raw_get t i = raw_get t i.
Proof. unfold u_raw_get, raw_get. rewrite n_global_index. reflexivity. Qed.
Lemma n_raw_set t i x : u_raw_set t i x = raw_set t i x.
Proof. unfold u_raw_set, raw_set. rewrite n_global_index. reflexivity. Qed.
Lemma n_raw_at t i : u_raw_at t i = raw_at t i.
Proof. unfold u_raw_at, raw_at. rewrite n_raw_get. reflexivity. Qed.
Lemma n_view_new t o : u_view_new t o = view_new t o.
Proof.
  unfold u_view_new, view_new. apply bind_ext. intros []. f_equal. apply mapM_ext. intros [r d]. apply bind_ext. intros []. cbn [u_sub unbounded].
  rewrite Nat.ltb_antisym. destruct (sr_start r <=? sr_end r); reflexivity.
Qed.
Lemma n_view_get (v : view T) i : u_view_get v i = view_get v i.
Proof. unfold u_view_get, view_get. rewrite n_global_index. reflexivity. Qed.
Lemma n_tl_get l i : u_tl_get l i = tl_get l i.
Proof. destruct l; [apply n_raw_get|apply n_view_get]. Qed.
Lemma n_tl_get_unwrap l i : u_tl_get_unwrap l i = tl_get_unwrap l i.
Proof. unfold u_tl_get_unwrap, tl_get_unwrap. rewrite n_tl_get. reflexivity. Qed.
Lemma n_elem_next l s : u_elem_iter_next l s = elem_iter_next l s.
Proof. unfold u_elem_iter_next, elem_iter_next. rewrite n_tl_get_unwrap, n_increment. destruct (ei_first s); [reflexivity|]. apply bind_ext. intros [i []]; [|reflexivity]. rewrite n_tl_get_unwrap. reflexivity. Qed.
Lemma n_to_tensor l : u_tl_to_tensor l = tl_to_tensor l.
Proof.
  unfold u_tl_to_tensor, tl_to_tensor, u_elements, elements. destruct l; [reflexivity|]. rewrite n_product. cbn [bind].
  rewrite (iter_fold_ext _ _ _ _ (elem_iter_next (LView v)) _ (fun acc x => Ret (acc ++ [x]))); [|apply n_elem_next|reflexivity]. apply bind_ext. intros a. apply n_raw_new.
Qed.
Lemma n_sum l : u_tl_sum l = tl_sum l.
Proof.
  unfold u_tl_sum, tl_sum. destruct l; [reflexivity|].
  rewrite (iter_fold_ext _ _ _ _ (elem_iter_next (LView v)) _ (fun acc x => Ret (n_add acc x))); [|apply n_elem_next|reflexivity]. reflexivity.
Qed.
Lemma n_add_raw l l' : u_add_raw l l' = add_raw l l'.
Proof.
  unfold u_add_raw, u_generic_binop_raw, add_raw, generic_binop_raw. apply bind_ext. intros []. cbv zeta. rewrite n_raw_filler. cbn [bind].
  apply iter_fold_ext; [apply n_index_next|]. intros r i. rewrite !n_tl_get_unwrap. apply bind_ext. intros x. apply bind_ext. intros y. rewrite n_raw_set. reflexivity.
Qed.
Lemma n_unary_loop l s op : forall n i acc, u_unary_loop l s op n i acc = unary_loop l s op n i acc.
Proof.
  induction n as [|n IH]; intros i acc; cbn [u_unary_loop unary_loop]; [reflexivity|]. rewrite n_tl_get_unwrap, n_increment. apply bind_ext. intros x. apply bind_ext. intros [i' b]. apply IH.
Qed.
Lemma n_unary l op : u_generic_unary_op l op = generic_unary_op l op.
Proof.
  unfold u_generic_unary_op, generic_unary_op. rewrite n_to_tensor. apply bind_ext. intros t. cbv zeta. rewrite n_unary_loop. apply bind_ext. intros a. apply n_raw_new.
Qed.
Lemma n_ewm l l' : u_element_wise_multiplication l l' = element_wise_multiplication l l'.
Proof.
  unfold u_element_wise_multiplication, element_wise_multiplication. apply bind_ext. intros [].
  rewrite (iter_fold_ext _ _ _ _ (zip_next l l') _ (fun acc '(x, y) => Ret (acc ++ [n_mul x y]))); [apply bind_ext; intros a; apply n_raw_new| |reflexivity].
  intros s. unfold u_zip_next, zip_next. rewrite n_elem_next. apply bind_ext. intros [[x|] s1]; [|reflexivity]. rewrite n_elem_next. reflexivity.
Qed.
Lemma n_mul_raw t l : u_mul_raw t l = mul_raw t l.
Proof.
  unfold u_mul_raw, mul_raw, u_tl_get_first_elem, tl_get_first_elem. destruct (shape t); [rewrite n_product; reflexivity|]. destruct (tl_shape l); [rewrite n_tl_get_unwrap, n_product; reflexivity|apply n_ewm].
Qed.
Lemma n_bmm_rows l l' b n m : u_bmm_rows l l' b n m = bmm_rows l l' b n m.
Proof.
  unfold u_bmm_rows, bmm_rows. f_equal. apply foldM_ext. intros [arr li] bi. apply bind_ext. intros li'. apply foldM_ext. intros [arr' li2] i. apply bind_ext. intros li3.
  rewrite (mapM_ext _ _ _ (bmm_cell l l' li3)); [reflexivity|]. intros j. unfold u_bmm_cell, bmm_cell. apply bind_ext. intros ri. apply bind_ext. intros kd.
  apply foldM_ext. intros v k. apply bind_ext. intros x. apply bind_ext. intros y. rewrite !n_tl_get_unwrap. reflexivity.
Qed.
Lemma n_bmm_raw l l' : u_bmm_raw l l' = bmm_raw l l'.
Proof.
  unfold u_bmm_raw, bmm_raw. cbv zeta. do 8 (apply bind_ext; intros ?). rewrite n_product. cbn [bind]. rewrite Nat.eqb_refl. cbn [bind]. rewrite !n_bmm_rows. reflexivity.
Qed.
Lemma n_jdb_loop d g js bs is n0 : forall f i o arr, u_jdb_loop f d g js bs is n0 i o arr = jdb_loop f d g js bs is n0 i o arr.
Proof.
  induction f as [|f IH]; intros i o arr; cbn [u_jdb_loop jdb_loop]; [reflexivity|]. rewrite n_global_index. apply bind_ext. intros r. apply bind_ext. intros j1.
  rewrite (foldM_ext _ _ _ (jdb_body d g js is i o j1)).
  - apply bind_ext. intros arr'. rewrite n_increment. apply bind_ext. intros [i' []]; [|reflexivity]. rewrite n_increment. apply bind_ext. intros [o' ok]. apply bind_ext. intros []. apply IH.
  - intros a b. unfold u_jdb_body, jdb_body. rewrite n_global_index. apply bind_ext. intros r1. apply bind_ext. intros oi. rewrite n_global_index. rewrite !n_raw_at. reflexivity.
Qed.
Lemma n_jdb d js bs is g : u_jvp_from_diagonal_broadcast d js bs is g = jvp_from_diagonal_broadcast d js bs is g.
Proof.
  unfold u_jvp_from_diagonal_broadcast, jvp_from_diagonal_broadcast. cbn [u_debug unbounded]. apply bind_ext. intros []. apply bind_ext. intros d0. cbv zeta.
  apply bind_ext. intros j0. apply bind_ext. intros []. apply bind_ext. intros j1. cbn [u_mul unbounded bind]. rewrite n_jdb_loop. apply bind_ext. intros arr. apply n_raw_new.
Qed.
Lemma n_unary_diag t d : forall f i acc, u_unary_diag_loop f t d i acc = unary_diag_loop f t d i acc.
Proof.
  induction f as [|f IH]; intros i acc; cbn [u_unary_diag_loop unary_diag_loop]; [reflexivity|]. rewrite n_raw_at, n_increment. apply bind_ext. intros v. apply bind_ext. intros [i' []]; auto.
Qed.
Lemma n_unary_jvp t g d : u_generic_unary_jvp t g d = generic_unary_jvp t g d.
Proof.
  unfold u_generic_unary_jvp, generic_unary_jvp. cbv zeta. rewrite n_unary_diag. apply bind_ext. intros a. rewrite n_raw_new. apply bind_ext. intros di. rewrite n_jdb. reflexivity.
Qed.
Lemma n_binop_diag t t' d bs : forall f i acc, u_binop_diag_loop f t t' d bs i acc = binop_diag_loop f t t' d bs i acc.
Proof.
  induction f as [|f IH]; intros i acc; cbn [u_binop_diag_loop binop_diag_loop]; [reflexivity|]. rewrite !n_raw_at, n_increment. apply bind_ext. intros v. apply bind_ext. intros w.
  apply bind_ext. intros [i' []]; auto.
Qed.
Lemma n_binop_jvp t t' g d : u_generic_binop_jvp t t' g d = generic_binop_jvp t t' g d.
Proof.
  unfold u_generic_binop_jvp, generic_binop_jvp. cbv zeta. rewrite n_product. cbn [bind]. apply bind_ext. intros []. rewrite n_binop_diag. apply bind_ext. intros a.
  rewrite n_raw_new. apply bind_ext. intros di. rewrite !n_jdb. reflexivity.
Qed.
Lemma n_one t : u_one t = Ret (is_scalar t || (product (shape t) =? 1)).
Proof. unfold u_one. rewrite n_product. destruct (is_scalar t); reflexivity. Qed.
Lemma n_full t t' : u_jvp_from_full_jacobians t t' = jvp_from_full_jacobians t t'.
Proof.
  unfold u_jvp_from_full_jacobians, jvp_from_full_jacobians. rewrite !n_one. cbn [bind]. rewrite n_mul_raw, n_bmm_raw.
  destruct (is_scalar t' || (product (shape t') =? 1)); cbn [bind orb]; [reflexivity|]. destruct (is_scalar t || (product (shape t) =? 1)); reflexivity.
Qed.
Lemma n_ones ts gs : u_ones ts gs = ones ts gs.
Proof. unfold u_ones, ones. apply bind_ext. intros [t g]. rewrite !n_product. cbn [bind]. rewrite n_raw_filler. reflexivity. Qed.
Lemma n_tanh_derivative t : u_tanh_derivative t = tanh_derivative t.
Proof. unfold u_tanh_derivative, tanh_derivative. rewrite n_product. cbn [bind u_mul unbounded]. apply bind_ext. intros a. apply n_raw_new. Qed.
Lemma n_deliver segs m : u_deliver segs m = deliver segs m.
Proof.
  unfold u_deliver, deliver. apply bind_ext. intros c. apply bind_ext. intros sl. f_equal. unfold u_receive, receive. destruct m as [gi v]. cbn [u_mul u_sub unbounded bind].
  rewrite Nat.ltb_antisym. destruct (c * width <=? gi); reflexivity.
Qed.
Lemma n_bmm_jvp ts gs : u_bmm_jvp ts gs = bmm_jvp ts gs.
Proof.
  unfold u_bmm_jvp, bmm_jvp. apply bind_ext. intros [[a b] jac]. do 5 (apply bind_ext; intros ?). cbv zeta. cbn [u_mul unbounded bind]. apply bind_ext; intros j0.
  rewrite (mapM_ext _ _ _ (fun '(i, k, j) => bmm_task a b jac [a3; a4] [a3 * a4; a3 * a0] [j0; a3 * a0] [j0; a1 * a4] i k j)).
  - apply bind_ext. intros tasks. rewrite (foldM_ext _ _ _ deliver) by apply n_deliver. apply bind_ext. intros ls.
    rewrite (foldM_ext _ _ _ deliver) by apply n_deliver. apply bind_ext. intros rs. rewrite !n_raw_new. reflexivity.
  - intros [[i k] j]. unfold u_bmm_task, bmm_task. rewrite !n_global_index. apply bind_ext. intros r. apply bind_ext. intros x0. apply bind_ext. intros r'. apply bind_ext. intros x1. apply bind_ext. intros r''. apply bind_ext. intros x2.
    do 7 (apply bind_ext; intros ?). apply mapM_ext. intros ij. rewrite !n_global_index, !n_raw_at. reflexivity.
Qed.
Lemma n_jvp k ts gs : u_jvp k ts gs = jvp k ts gs.
Proof.
  unfold u_jvp, jvp. destruct k.
  - unfold add_jvp. apply bind_ext. intros [[l r] g]. apply n_binop_jvp.
  - unfold neg_jvp. apply bind_ext. intros t. apply bind_ext. intros g. apply n_unary_jvp.
  - unfold abs_jvp. apply bind_ext. intros [t g]. apply bind_ext. intros []. apply n_unary_jvp.
  - unfold relu_jvp. apply bind_ext. intros [t g]. apply n_unary_jvp.
  - unfold tanh_jvp. apply bind_ext. intros [t g]. rewrite n_tanh_derivative. apply bind_ext. intros j. rewrite n_full. reflexivity.
  - apply n_ones.
  - apply n_bmm_jvp.
  - unfold dot_jvp. apply bind_ext. intros [[l r] g]. rewrite !n_full. reflexivity.
Qed.
Lemma n_update gr i t : u_update_grad gr i t = update_grad gr i t.
Proof. unfold u_update_grad, update_grad. destruct (gr i); [|reflexivity]. rewrite n_add_raw. reflexivity. Qed.
Lemma n_compute ns : forall f k ins o gr, u_compute_jvp f ns k ins o gr = compute_jvp f ns k ins o gr.
Proof.
  induction f as [|f IH]; intros k ins o gr; cbn [u_compute_jvp compute_jvp]; [reflexivity|]. apply bind_ext. intros vs. rewrite n_jvp. apply bind_ext. intros gs.
  apply foldM_ext. intros gr' [g [i nd]]. apply bind_ext. intros []. rewrite n_raw_new. apply bind_ext. intros sg. rewrite n_update. apply bind_ext. intros gr2. destruct (n_fn nd) as [[k' ins']|]; auto.
Qed.
Lemma n_backward h i : u_backward h i = backward h i.
Proof. unfold u_backward, backward. apply bind_ext. intros nd. apply bind_ext. intros []. apply bind_ext. intros [k ins]. rewrite n_compute. reflexivity. Qed.
Lemma n_exec s c : u_exec s c = exec s c.
Proof.
  unfold u_exec, exec, op_new, op_filler, u_op1, u_op2, u_fwd, op_add, op_neg, op_sub, op_mul, op_abs, op_relu, op_tanh, op_sum, op_bmm, op_dot, op_view_to_tensor, op_view_sum, op_mul_view,
    op_bmm_view, op_update_grad, neg_raw, abs_raw, relu_raw, tanh_raw.
  destruct c; try reflexivity; repeat (apply bind_ext; intros ?); rewrite ?n_raw_new, ?n_raw_filler, ?n_backward; try reflexivity; try (unfold push; repeat (apply bind_ext; intros ?); fail).
  all: try (f_equal; repeat (apply bind_ext; intros ?); rewrite ?n_unary, ?n_mul_raw, ?n_sum, ?n_raw_filler, ?n_bmm_raw, ?n_view_new, ?n_update; try reflexivity).
  all: try (apply bind_ext; intros ?).
  all: rewrite ?n_to_tensor, ?n_sum, ?n_mul_raw, ?n_bmm_raw; try reflexivity.
  - rewrite n_add_raw. reflexivity.
  - unfold op_neg, op_add, neg_raw. destruct (hget (hp s) a0) as [b| |]; cbn [bind]; try reflexivity. rewrite n_unary. destruct (generic_unary_op _ _) as [t| |]; cbn [bind]; try reflexivity. unfold alloc. apply bind_ext. intros a1. apply bind_ext. intros a2. rewrite n_add_raw. reflexivity.
  - destruct (hget (hp s) a0); cbn [bind]; try reflexivity. rewrite n_update. destruct (update_grad _ _ _); reflexivity.
Qed.
Lemma n_run p s : u_run p s = run p s.
Proof. apply foldM_ext. apply n_exec. Qed.
End Same.
