(** * FuelFacts: the fuel of the model's loops always suffices *)
From Verif Require Import Base ModelIndex ModelTensor ModelOps ModelJvp ModelGraph ModelNN Spec Lists IndexFacts.

(** ** The monad *)

Lemma nf_ret A (a : A) : Ret a <> NoFuel.
Proof. discriminate. Qed.
Lemma nf_panic A p : @Panic A p <> NoFuel.
Proof. discriminate. Qed.
Lemma nf_bind A B (m : outcome A) (f : A -> outcome B) :
  m <> NoFuel -> (forall a, m = Ret a -> f a <> NoFuel) -> bind m f <> NoFuel.
Proof. destruct m; intros H1 H2; cbn; try congruence. apply H2. reflexivity. Qed.
Lemma nf_assert b : assert b <> NoFuel.
Proof. destruct b; discriminate. Qed.
Lemma nf_unwrap A (r : result A) : unwrap r <> NoFuel.
Proof. destruct r; discriminate. Qed.
Lemma nf_unwrap_opt A (r : option A) : unwrap_opt r <> NoFuel.
Proof. destruct r; discriminate. Qed.
Lemma nf_vindex A (v : list A) i : vindex v i <> NoFuel.
Proof. unfold vindex. destruct (nth_error v i); discriminate. Qed.
Lemma nf_vset A (v : list A) i x : vset v i x <> NoFuel.
Proof. unfold vset. destruct (i <? length v); discriminate. Qed.
Lemma nf_foldM A B (f : A -> B -> outcome A) l : (forall a b, In b l -> f a b <> NoFuel) -> forall a, foldM f l a <> NoFuel.
Proof.
  induction l as [|b l IH]; intros H a; cbn [foldM]; [discriminate|].
  apply nf_bind; [apply H; left; auto|]. intros a' _. apply IH. intros; apply H; right; auto.
Qed.
Lemma nf_mapM A B (f : A -> outcome B) l : (forall a, In a l -> f a <> NoFuel) -> mapM f l <> NoFuel.
Proof.
  induction l as [|b l IH]; intros H; cbn [mapM]; [discriminate|].
  apply nf_bind; [apply H; left; auto|]. intros a' _. apply nf_bind; [apply IH; intros; apply H; right; auto|]. discriminate.
Qed.

Lemma nf_iter_fold St I A (next : St -> outcome (option I * St)) (body : A -> I -> outcome A) (M : St -> nat -> Prop) :
  (forall s, next s <> NoFuel) -> (forall a x, body a x <> NoFuel) ->
  (forall s k x s', M s k -> next s = Ret (Some x, s') -> exists k', k = S k' /\ M s' k') ->
  forall fuel s k acc, M s k -> k < fuel -> iter_fold next body fuel s acc <> NoFuel.
Proof.
  intros Hn Hb Hs. induction fuel as [|fuel IH]; intros s k acc HM Hk; [lia|]. cbn [iter_fold].
  apply nf_bind; [apply Hn|]. intros [[x|] s'] E; [|discriminate].
  destruct (Hs _ _ _ _ HM E) as (k' & -> & HM'). apply nf_bind; [apply Hb|]. intros acc' _. apply (IH s' k'); auto. lia.
Qed.

Lemma nf_iter_all St I (next : St -> outcome (option I * St)) (test : I -> outcome bool) (M : St -> nat -> Prop) :
  (forall s, next s <> NoFuel) -> (forall x, test x <> NoFuel) ->
  (forall s k x s', M s k -> next s = Ret (Some x, s') -> exists k', k = S k' /\ M s' k') ->
  forall fuel s k, M s k -> k < fuel -> iter_all next test fuel s <> NoFuel.
Proof.
  intros Hn Hb Hs. induction fuel as [|fuel IH]; intros s k HM Hk; [lia|]. cbn [iter_all].
  apply nf_bind; [apply Hn|]. intros [[x|] s'] E; [|discriminate].
  destruct (Hs _ _ _ _ HM E) as (k' & -> & HM'). apply nf_bind; [apply Hb|]. intros [|] _; [|discriminate]. apply (IH s' k'); auto. lia.
Qed.

(** ** Indices *)

Lemma nf_gi_loop rank o : forall pairs pos g m, gi_loop rank o pairs pos g m <> NoFuel.
Proof.
  induction pairs as [|[dim x] pairs IH]; intros pos g m; cbn [gi_loop]; [discriminate|].
  destruct (dim =? 1); [apply IH|]. apply nf_bind.
  - destruct o; [|discriminate]. apply nf_bind; [apply nf_vindex|]. intros r _. destruct (sr_end r <? sr_start r); discriminate.
  - intros [a b] _. destruct (a <=? x); [discriminate|]. destruct (dim <=? b); [discriminate|]. apply IH.
Qed.
Lemma nf_global_index i s o : global_index i s o <> NoFuel.
Proof. unfold global_index. destruct (_ && _); [discriminate|apply nf_gi_loop]. Qed.

Lemma nf_inc_loop : forall n i s, inc_loop n i s <> NoFuel.
Proof.
  induction n as [|n IH]; intros i s; cbn [inc_loop]; [discriminate|].
  apply nf_bind; [apply nf_vindex|]. intros v _. apply nf_bind; [apply nf_vindex|]. intros d _.
  destruct (d =? 0); [discriminate|]. destruct (v <? d - 1); [discriminate|apply IH].
Qed.
Lemma nf_increment i s : increment_index i s <> NoFuel.
Proof. apply nf_inc_loop. Qed.

(** Zero dimensions counted as 1 *)
Definition pos1 (s : list nat) : list nat := map (Nat.max 1) s.

Lemma pos1_positive s : positive (pos1 s).
Proof. unfold pos1, positive. rewrite Forall_map. apply Forall_forall. intros; lia. Qed.
Lemma pos1_length s : length (pos1 s) = length s.
Proof. apply map_length. Qed.
Lemma index_fuel_pos1 s : index_fuel s = S (size (pos1 s)).
Proof. unfold index_fuel. rewrite product_size. reflexivity. Qed.

Lemma inc_loop_pos1 : forall n i s r, inc_loop n i s = Ret r -> inc_loop n i (pos1 s) = Ret r.
Proof.
  induction n as [|n IH]; intros i s r; cbn [inc_loop]; [auto|].
  unfold pos1, vindex in *. rewrite nth_error_map. destruct (nth_error i n) as [v|]; cbn [bind]; [|discriminate].
  destruct (nth_error s n) as [d|]; cbn [bind option_map]; [|discriminate].
  destruct (Nat.eqb_spec d 0) as [->|Hd]; [discriminate|]. replace (Nat.max 1 d) with d by lia.
  destruct (Nat.eqb_spec d 0); [lia|]. destruct (v <? d - 1); auto.
Qed.

(** A successful increment moves on by one *)
Lemma inc_next s g i' :
  g < size (pos1 s) -> increment_index (unravel (pos1 s) g) s = Ret (i', true) ->
  S g < size (pos1 s) /\ i' = unravel (pos1 s) (S g).
Proof.
  intros Hg E. apply inc_loop_pos1 in E.
  pose proof (increment_unravel (pos1 s) g (pos1_positive s) Hg) as E'. unfold increment_index in E'. rewrite E in E'.
  destruct (Nat.ltb_spec (S g) (size (pos1 s))); [|discriminate]. injection E' as ->. auto.
Qed.

Lemma start_pos1 s : repeat 0 (length s) = unravel (pos1 s) 0.
Proof. rewrite unravel_0, pos1_length. reflexivity. Qed.

Lemma size_pos1 s : 0 < size (pos1 s).
Proof. apply size_pos, pos1_positive. Qed.

Definition ii_left (s : list nat) (st : index_iter) (k : nat) : Prop :=
  ii_dims st = s /\
  ((ii_first st = true /\ ii_index st = unravel (pos1 s) 0 /\ k = size (pos1 s)) \/
   (ii_first st = false /\ exists g, g < size (pos1 s) /\ ii_index st = unravel (pos1 s) g /\ k = size (pos1 s) - S g)).

Lemma nf_index_next st : index_iter_next st <> NoFuel.
Proof.
  unfold index_iter_next. destruct (ii_first st); [discriminate|]. apply nf_bind; [apply nf_increment|].
  intros [i [|]] _; discriminate.
Qed.

Lemma ii_step s st k x st' : ii_left s st k -> index_iter_next st = Ret (Some x, st') -> exists k', k = S k' /\ ii_left s st' k'.
Proof.
  pose proof (size_pos1 s) as Hpos.
  intros [Hd [(Hf & Hi & ->)|(Hf & g & Hg & Hi & ->)]]; unfold index_iter_next; rewrite Hf.
  - intros E. injection E as <- <-. exists (size (pos1 s) - 1). split; [lia|]. split; [exact Hd|]. right. split; [reflexivity|].
    exists 0. split; [lia|]. split; [exact Hi|]. lia.
  - rewrite Hi, Hd. destruct (increment_index (unravel (pos1 s) g) s) as [[i' [|]]| |] eqn:E; cbn [bind]; try discriminate.
    intros E'. injection E' as <- <-. destruct (inc_next s g i' Hg E) as [H1 ->].
    exists (size (pos1 s) - S (S g)). split; [lia|]. split; [reflexivity|]. right. split; [reflexivity|]. exists (S g). split; [lia|]. auto.
Qed.

Lemma ii_start s : ii_left s (index_iter_new s) (size (pos1 s)).
Proof. split; [reflexivity|]. left. split; [reflexivity|]. split; [apply start_pos1|reflexivity]. Qed.

Lemma nf_index_fold A (body : A -> list nat -> outcome A) s acc :
  (forall a x, body a x <> NoFuel) -> iter_fold index_iter_next body (index_fuel s) (index_iter_new s) acc <> NoFuel.
Proof.
  intros Hb. apply (nf_iter_fold _ _ _ index_iter_next body (ii_left s) nf_index_next Hb (ii_step s) _ _ (size (pos1 s))).
  - apply ii_start.
  - rewrite index_fuel_pos1. lia.
Qed.

Lemma nf_index_all (test : list nat -> outcome bool) s :
  (forall x, test x <> NoFuel) -> iter_all index_iter_next test (index_fuel s) (index_iter_new s) <> NoFuel.
Proof.
  intros Hb. apply (nf_iter_all _ _ index_iter_next test (ii_left s) nf_index_next Hb (ii_step s) _ _ (size (pos1 s))).
  - apply ii_start.
  - rewrite index_fuel_pos1. lia.
Qed.

(** ** Tensors *)
Section Tensors.
Context {T : Type} {NT : Num T}.

Lemma nf_raw_new (a : list T) s : raw_new a s <> NoFuel.
Proof. apply nf_bind; [apply nf_assert|]. discriminate. Qed.
Lemma nf_raw_get (t : raw T) i : raw_get t i <> NoFuel.
Proof.
  apply nf_bind; [apply nf_global_index|]. intros [g|e] _; [|discriminate]. apply nf_bind; [apply nf_vindex|]. discriminate.
Qed.
Lemma nf_raw_at (t : raw T) i : raw_at t i <> NoFuel.
Proof. apply nf_bind; [apply nf_raw_get|]. intros; apply nf_unwrap. Qed.
Lemma nf_raw_set (t : raw T) i x : raw_set t i x <> NoFuel.
Proof.
  apply nf_bind; [apply nf_global_index|]. intros [g|e] _; [|discriminate]. apply nf_bind; [apply nf_vset|]. discriminate.
Qed.
Lemma nf_view_get (v : view T) i : view_get v i <> NoFuel.
Proof.
  apply nf_bind; [apply nf_global_index|]. intros r _. apply nf_bind; [apply nf_unwrap|]. intros g _.
  apply nf_bind; [apply nf_vindex|]. discriminate.
Qed.
Lemma nf_tl_get (l : tlike T) i : tl_get l i <> NoFuel.
Proof. destruct l; [apply nf_raw_get|apply nf_view_get]. Qed.
Lemma nf_tl_get_unwrap (l : tlike T) i : tl_get_unwrap l i <> NoFuel.
Proof. apply nf_bind; [apply nf_tl_get|]. intros; apply nf_unwrap. Qed.
Lemma nf_view_new (t : raw T) o : view_new t o <> NoFuel.
Proof.
  apply nf_bind; [apply nf_assert|]. intros _ _. apply nf_bind; [|discriminate]. apply nf_mapM. intros [r d] _.
  apply nf_bind; [apply nf_assert|]. intros _ _. destruct (_ <? _); discriminate.
Qed.

Lemma nf_raw_from_list (ts : list (raw T)) : raw_from_list ts <> NoFuel.
Proof. apply nf_bind; [apply nf_assert|]. intros _ _. apply nf_bind; [apply nf_vindex|]. discriminate. Qed.

Lemma nf_elem_next (l : tlike T) st : elem_iter_next l st <> NoFuel.
Proof.
  unfold elem_iter_next. destruct (ei_first st).
  - apply nf_bind; [apply nf_tl_get_unwrap|]. discriminate.
  - apply nf_bind; [apply nf_increment|]. intros [i [|]] _; [|discriminate]. apply nf_bind; [apply nf_tl_get_unwrap|]. discriminate.
Qed.

Definition ei_left (s : list nat) (st : elem_iter) (k : nat) : Prop :=
  (ei_first st = true /\ ei_index st = unravel (pos1 s) 0 /\ k = size (pos1 s)) \/
  (ei_first st = false /\ exists g, g < size (pos1 s) /\ ei_index st = unravel (pos1 s) g /\ k = size (pos1 s) - S g).

Lemma ei_step (l : tlike T) st k x st' :
  ei_left (tl_shape l) st k -> elem_iter_next l st = Ret (Some x, st') -> exists k', k = S k' /\ ei_left (tl_shape l) st' k'.
Proof.
  set (s := tl_shape l). pose proof (size_pos1 s) as Hpos.
  intros [(Hf & Hi & ->)|(Hf & g & Hg & Hi & ->)]; unfold elem_iter_next; rewrite Hf.
  - destruct (tl_get_unwrap l (ei_index st)); cbn [bind]; try discriminate. intros E. injection E as <- <-.
    exists (size (pos1 s) - 1). split; [lia|]. right. split; [reflexivity|]. exists 0. split; [lia|]. split; [exact Hi|]. lia.
  - rewrite Hi. fold s. destruct (increment_index (unravel (pos1 s) g) s) as [[i' [|]]| |] eqn:E; cbn [bind]; try discriminate.
    destruct (tl_get_unwrap l i'); cbn [bind]; try discriminate.
    intros E'. injection E' as <- <-. destruct (inc_next s g i' Hg E) as [H1 ->].
    exists (size (pos1 s) - S (S g)). split; [lia|]. right. split; [reflexivity|]. exists (S g). split; [lia|]. auto.
Qed.

Lemma ei_start (l : tlike T) : ei_left (tl_shape l) (elem_iter_new l) (size (pos1 (tl_shape l))).
Proof. left. split; [reflexivity|]. split; [apply start_pos1|reflexivity]. Qed.

Lemma nf_elem_fold A (l : tlike T) (body : A -> T -> outcome A) acc :
  (forall a x, body a x <> NoFuel) -> iter_fold (elem_iter_next l) body (index_fuel (tl_shape l)) (elem_iter_new l) acc <> NoFuel.
Proof.
  intros Hb. apply (nf_iter_fold _ _ _ (elem_iter_next l) body (ei_left (tl_shape l)) (nf_elem_next l) Hb (ei_step l) _ _ (size (pos1 (tl_shape l)))).
  - apply ei_start.
  - rewrite index_fuel_pos1. lia.
Qed.

Lemma nf_tl_to_tensor (l : tlike T) : tl_to_tensor l <> NoFuel.
Proof.
  destruct l as [t|v]; cbn [tl_to_tensor]; [discriminate|]. apply nf_bind; [|intros; apply nf_raw_new].
  apply (nf_elem_fold _ (LView v)). discriminate.
Qed.
Lemma nf_tl_sum (l : tlike T) : tl_sum l <> NoFuel.
Proof.
  destruct l as [t|v]; cbn [tl_sum]; [discriminate|]. apply nf_bind; [|discriminate].
  apply (nf_elem_fold _ (LView v)). discriminate.
Qed.

(** ** Forward operations *)

Lemma nf_binop (l r : tlike T) op : generic_binop_raw l r op <> NoFuel.
Proof.
  apply nf_bind; [apply nf_assert|]. intros _ _. apply nf_index_fold. intros a x.
  apply nf_bind; [apply nf_tl_get_unwrap|]. intros y _. apply nf_bind; [apply nf_tl_get_unwrap|]. intros z _.
  apply nf_bind; [apply nf_raw_set|]. intros; apply nf_unwrap.
Qed.
Lemma nf_add (l r : tlike T) : add_raw l r <> NoFuel.
Proof. apply nf_binop. Qed.

Lemma nf_unary_loop (l : tlike T) s op : forall n i acc, unary_loop l s op n i acc <> NoFuel.
Proof.
  induction n as [|n IH]; intros i acc; cbn [unary_loop]; [discriminate|].
  apply nf_bind; [apply nf_tl_get_unwrap|]. intros x _. apply nf_bind; [apply nf_increment|]. intros [i' b] _. apply IH.
Qed.
Lemma nf_unary (l : tlike T) op : generic_unary_op l op <> NoFuel.
Proof.
  apply nf_bind; [apply nf_tl_to_tensor|]. intros t _. apply nf_bind; [apply nf_unary_loop|]. intros; apply nf_raw_new.
Qed.

Lemma nf_zip_next (l r : tlike T) st : zip_next l r st <> NoFuel.
Proof.
  apply nf_bind; [apply nf_elem_next|]. intros [[a|] s1] _; [|discriminate].
  apply nf_bind; [apply nf_elem_next|]. intros [[b|] s2] _; discriminate.
Qed.
Lemma nf_ewm (l r : tlike T) : element_wise_multiplication l r <> NoFuel.
Proof.
  apply nf_bind; [apply nf_assert|]. intros _ _. apply nf_bind; [|intros; apply nf_raw_new].
  apply (nf_iter_fold _ _ _ (zip_next l r) _ (fun st k => ei_left (tl_shape l) (fst st) k) (nf_zip_next l r)) with (k := size (pos1 (tl_shape l))).
  - intros a [x y]; discriminate.
  - intros [sl sr] k x s' HM. unfold zip_next. cbn [fst snd] in *. destruct (elem_iter_next l sl) as [[[a|] s1]| |] eqn:E1; cbn [bind]; try discriminate.
    destruct (elem_iter_next r sr) as [[[b|] s2]| |]; cbn [bind]; try discriminate. intros E. injection E as <- <-.
    exact (ei_step l sl k a s1 HM E1).
  - apply ei_start.
  - rewrite index_fuel_pos1. lia.
Qed.
Lemma nf_mul (a : raw T) (r : tlike T) : mul_raw a r <> NoFuel.
Proof.
  unfold mul_raw. destruct (shape a); [apply nf_bind; [apply nf_vindex|discriminate]|].
  destruct (tl_shape r); [apply nf_bind; [apply nf_tl_get_unwrap|discriminate]|]. apply nf_ewm.
Qed.
Lemma nf_dot (l r : tlike T) : dot_raw l r <> NoFuel.
Proof.
  apply nf_bind; [apply nf_assert|]. intros _ _. apply nf_bind; [|discriminate]. apply nf_foldM. intros a b _.
  apply nf_bind; [apply nf_vindex|]. intros x _. apply nf_bind; [apply nf_vindex|]. discriminate.
Qed.
Lemma nf_bmm_cell (l r : tlike T) li j : bmm_cell l r li j <> NoFuel.
Proof.
  apply nf_bind; [apply nf_vset|]. intros ri _. apply nf_bind; [apply nf_vindex|]. intros k _. apply nf_foldM. intros a b _.
  apply nf_bind; [apply nf_vset|]. intros x _. apply nf_bind; [apply nf_vset|]. intros y _.
  apply nf_bind; [apply nf_tl_get_unwrap|]. intros z _. apply nf_bind; [apply nf_tl_get_unwrap|]. discriminate.
Qed.
Lemma nf_bmm_rows (l r : tlike T) b n m : bmm_rows l r b n m <> NoFuel.
Proof.
  apply nf_bind; [|discriminate]. apply nf_foldM. intros [arr li] c _.
  apply nf_bind; [destruct (_ =? 3); [apply nf_vset|discriminate]|]. intros li' _. apply nf_foldM. intros [arr' li''] i _.
  apply nf_bind; [apply nf_vset|]. intros li3 _. apply nf_bind; [|discriminate]. apply nf_mapM. intros; apply nf_bmm_cell.
Qed.
Lemma nf_bmm (l r : tlike T) : bmm_raw l r <> NoFuel.
Proof.
  unfold bmm_raw. apply nf_bind; [apply nf_assert|]. intros _ _. apply nf_bind; [apply nf_assert|]. intros _ _.
  do 2 (apply nf_bind; [apply nf_vindex|]; intros ? _). apply nf_bind; [apply nf_assert|]. intros _ _.
  do 3 (apply nf_bind; [apply nf_vindex|]; intros ? _).
  apply nf_bind; [destruct (_ =? 2); apply nf_bmm_rows|]. intros arr _. destruct (_ =? 2); discriminate.
Qed.

(** ** Backward rules *)

Lemma nf_jdb_body (d g : raw T) js is idx oi j1 arr j0 : jdb_body d g js is idx oi j1 arr j0 <> NoFuel.
Proof.
  unfold jdb_body. apply nf_bind; [apply nf_global_index|]. intros r1 _. apply nf_bind; [apply nf_unwrap|]. intros o _.
  apply nf_bind; [apply nf_global_index|]. intros r2 _. apply nf_bind; [apply nf_unwrap|]. intros o2 _.
  apply nf_bind; [apply nf_raw_at|]. intros gv _. apply nf_bind; [apply nf_raw_at|]. intros dv _.
  apply nf_bind; [apply nf_vindex|]. intros old _. apply nf_vset.
Qed.
Lemma nf_jdb_loop (d g : raw T) js bs is d0 :
  forall fuel i oi arr, i < size (pos1 (shape d)) -> size (pos1 (shape d)) - i < fuel + 1 ->
  jdb_loop fuel d g js bs is d0 (unravel (pos1 (shape d)) i) oi arr <> NoFuel.
Proof.
  induction fuel as [|fuel IH]; intros i oi arr Hi Hf; [lia|]. cbn [jdb_loop].
  apply nf_bind; [apply nf_global_index|]. intros r _. apply nf_bind; [apply nf_unwrap|]. intros j1 _.
  apply nf_bind; [apply nf_foldM; intros; apply nf_jdb_body|]. intros arr' _.
  apply nf_bind; [apply nf_increment|]. intros [i' [|]] E; [|discriminate].
  destruct (inc_next _ _ _ Hi E) as [H1 ->].
  apply nf_bind; [apply nf_increment|]. intros [o' b] _. apply nf_bind; [apply nf_assert|]. intros _ _. apply IH; lia.
Qed.
Lemma nf_jdb (d : raw T) js bs is g : jvp_from_diagonal_broadcast d js bs is g <> NoFuel.
Proof.
  unfold jvp_from_diagonal_broadcast. apply nf_bind; [apply nf_assert|]. intros _ _.
  apply nf_bind; [destruct (_ <=? 1); [discriminate|apply nf_vindex]|]. intros d0 _.
  apply nf_bind; [apply nf_vindex|]. intros js0 _. apply nf_bind; [apply nf_assert|]. intros _ _.
  apply nf_bind; [apply nf_vindex|]. intros js1 _. apply nf_bind; [|intros; apply nf_raw_new].
  rewrite start_pos1. apply nf_jdb_loop; [apply size_pos1|]. rewrite index_fuel_pos1. lia.
Qed.
Lemma nf_unary_diag (t : raw T) deriv :
  forall fuel i acc, i < size (pos1 (shape t)) -> size (pos1 (shape t)) - i < fuel + 1 ->
  unary_diag_loop fuel t deriv (unravel (pos1 (shape t)) i) acc <> NoFuel.
Proof.
  induction fuel as [|fuel IH]; intros i acc Hi Hf; [lia|]. cbn [unary_diag_loop].
  apply nf_bind; [apply nf_raw_at|]. intros v _. apply nf_bind; [apply nf_increment|]. intros [i' [|]] E; [|discriminate].
  destruct (inc_next _ _ _ Hi E) as [H1 ->]. apply IH; lia.
Qed.
Lemma nf_unary_jvp (t g : raw T) deriv : generic_unary_jvp t g deriv <> NoFuel.
Proof.
  unfold generic_unary_jvp. apply nf_bind.
  - rewrite start_pos1. apply nf_unary_diag; [apply size_pos1|]. rewrite index_fuel_pos1. lia.
  - intros a _. apply nf_bind; [apply nf_raw_new|]. intros d _. apply nf_bind; [apply nf_jdb|]. discriminate.
Qed.
Lemma nf_binop_diag (l r : raw T) deriv bs :
  forall fuel i acc, i < size (pos1 bs) -> size (pos1 bs) - i < fuel + 1 ->
  binop_diag_loop fuel l r deriv bs (unravel (pos1 bs) i) acc <> NoFuel.
Proof.
  induction fuel as [|fuel IH]; intros i acc Hi Hf; [lia|]. cbn [binop_diag_loop].
  apply nf_bind; [apply nf_raw_at|]. intros v _. apply nf_bind; [apply nf_raw_at|]. intros w _.
  apply nf_bind; [apply nf_increment|]. intros [i' [|]] E; [|discriminate].
  destruct (inc_next _ _ _ Hi E) as [H1 ->]. apply IH; lia.
Qed.
Lemma nf_binop_jvp (l r g : raw T) deriv : generic_binop_jvp l r g deriv <> NoFuel.
Proof.
  unfold generic_binop_jvp. apply nf_bind.
  - destruct (2 <=? _); [|discriminate]. apply nf_bind; [apply nf_vindex|]. intros; apply nf_assert.
  - intros _ _. apply nf_bind.
    + rewrite start_pos1. apply nf_binop_diag; [apply size_pos1|]. rewrite index_fuel_pos1. lia.
    + intros a _. apply nf_bind; [apply nf_raw_new|]. intros d _. apply nf_bind; [apply nf_jdb|]. intros x _.
      apply nf_bind; [apply nf_jdb|]. discriminate.
Qed.
Lemma nf_one_one (ts gs : list (raw T)) : one_one ts gs <> NoFuel.
Proof. destruct ts as [|? [|? ?]], gs as [|? [|? ?]]; discriminate. Qed.
Lemma nf_two_one (ts gs : list (raw T)) : two_one ts gs <> NoFuel.
Proof. destruct ts as [|? [|? [|? ?]]], gs as [|? [|? ?]]; discriminate. Qed.
Lemma nf_full (l r : raw T) : jvp_from_full_jacobians l r <> NoFuel.
Proof.
  unfold jvp_from_full_jacobians. destruct (_ || _); [|apply nf_bmm]. apply nf_bind; [apply nf_assert|]. intros; apply nf_mul.
Qed.
Lemma nf_receive i (s : list T) m : receive i s m <> NoFuel.
Proof.
  destruct m as [g v]. cbn [receive]. destruct (_ <? _); [discriminate|]. apply nf_bind; [apply nf_assert|]. intros _ _.
  apply nf_bind; [apply nf_vindex|]. intros; apply nf_vset.
Qed.
Lemma nf_deliver (segs : list (list T)) m : deliver segs m <> NoFuel.
Proof.
  apply nf_bind; [unfold writer_channel; destruct (_ <? _); discriminate|]. intros c _.
  apply nf_bind; [apply nf_vindex|]. intros s _. apply nf_bind; [apply nf_receive|]. intros; apply nf_vset.
Qed.
Lemma nf_bmm_task (a b jac : raw T) os ljs los ros i k j : bmm_task a b jac os ljs los ros i k j <> NoFuel.
Proof.
  unfold bmm_task.
  do 3 (apply nf_bind; [apply nf_global_index|]; intros ? _; apply nf_bind; [apply nf_unwrap|]; intros ? _).
  do 3 (apply nf_bind; [apply nf_vindex|]; intros ? _; apply nf_bind; [apply nf_assert|]; intros ? _).
  apply nf_bind; [apply nf_vindex|]. intros ? _. apply nf_mapM. intros x _.
  apply nf_bind; [apply nf_global_index|]. intros ? _. apply nf_bind; [apply nf_unwrap|]. intros ? _.
  apply nf_bind; [apply nf_raw_at|]. intros ? _. apply nf_bind; [apply nf_raw_at|]. intros ? _.
  apply nf_bind; [apply nf_global_index|]. intros ? _. apply nf_bind; [apply nf_unwrap|]. intros ? _.
  apply nf_bind; [apply nf_raw_at|]. discriminate.
Qed.
Lemma nf_bmm_jvp (ts gs : list (raw T)) : bmm_jvp ts gs <> NoFuel.
Proof.
  apply nf_bind; [apply nf_two_one|]. intros [[a b] jac] _.
  do 2 (apply nf_bind; [apply nf_vindex|]; intros ? _). apply nf_bind; [apply nf_assert|]. intros _ _.
  do 3 (apply nf_bind; [apply nf_vindex|]; intros ? _). cbn zeta.
  apply nf_bind; [apply nf_mapM; intros [[i k] j] _; apply nf_bmm_task|]. intros tasks _.
  do 2 (apply nf_bind; [apply nf_foldM; intros; apply nf_deliver|]; intros ? _).
  do 2 (apply nf_bind; [apply nf_raw_new|]; intros ? _). discriminate.
Qed.

Lemma nf_jvp k (ts gs : list (raw T)) : jvp k ts gs <> NoFuel.
Proof.
  destruct k; cbn [jvp].
  - apply nf_bind; [apply nf_two_one|]. intros [[l r] g] _. apply nf_binop_jvp.
  - apply nf_bind; [apply nf_vindex|]. intros t _. apply nf_bind; [apply nf_vindex|]. intros g _. apply nf_unary_jvp.
  - apply nf_bind; [apply nf_one_one|]. intros [t g] _. apply nf_bind; [apply nf_assert|]. intros _ _. apply nf_unary_jvp.
  - apply nf_bind; [apply nf_one_one|]. intros [t g] _. apply nf_unary_jvp.
  - apply nf_bind; [apply nf_one_one|]. intros [t g] _. apply nf_bind; [|intros; apply nf_bind; [apply nf_full|discriminate]].
    apply nf_bind; [|intros; apply nf_raw_new]. apply nf_mapM. intros [i j] _. destruct (i =? j); [|discriminate].
    apply nf_bind; [apply nf_vindex|]. discriminate.
  - apply nf_bind; [apply nf_one_one|]. intros [t g] _. discriminate.
  - apply nf_bmm_jvp.
  - apply nf_bind; [apply nf_two_one|]. intros [[l r] g] _. apply nf_bind; [apply nf_full|]. intros ? _. apply nf_bind; [apply nf_full|]. discriminate.
Qed.

Lemma nf_update_grad gr i (g : raw T) : update_grad gr i g <> NoFuel.
Proof. unfold update_grad. destruct (gr i); [|discriminate]. apply nf_bind; [apply nf_add|]. discriminate. Qed.

(** ** The recursion of [compute_jvp]: histories only refer to earlier tensors. *)
Definition backrefs (ns : list (node T)) : Prop := forall n nd k ins,
  nth_error ns n = Some nd -> n_fn nd = Some (k, ins) -> Forall (fun i => i < n) ins.

Lemma mapM_length A B (f : A -> outcome B) : forall l r, mapM f l = Ret r -> Forall2 (fun a b => f a = Ret b) l r.
Proof.
  induction l as [|a l IH]; intros r; cbn [mapM].
  - intros E. injection E as <-. constructor.
  - destruct (f a) as [b| |] eqn:Ea; cbn [bind]; try discriminate. destruct (mapM f l) as [bs| |]; cbn [bind]; try discriminate.
    intros E. injection E as <-. constructor; auto.
Qed.

Lemma in_inputs ns (ins : list nat) nds i (nd : node T) :
  mapM (vindex ns) ins = Ret nds -> In (i, nd) (combine ins nds) -> In i ins /\ nth_error ns i = Some nd.
Proof.
  intros En Hin. apply mapM_length in En. induction En as [|i' nd' ins nds E En IH]; [destruct Hin|].
  destruct Hin as [Hin|Hin].
  - injection Hin as <- <-. split; [left; auto|]. unfold vindex in E. destruct (nth_error ns i'); [|discriminate]. congruence.
  - destruct (IH Hin). split; [right; auto|auto].
Qed.

Lemma nf_compute_jvp ns : backrefs ns -> forall fuel n k ins gs gr,
  Forall (fun i => i < n) ins -> n < fuel -> compute_jvp fuel ns k ins gs gr <> NoFuel.
Proof.
  intros Hb. induction fuel as [|fuel IH]; intros n k ins gs gr Hi Hf; [lia|]. cbn [compute_jvp].
  apply nf_bind; [apply nf_mapM; intros; apply nf_vindex|]. intros nds En.
  apply nf_bind; [apply nf_jvp|]. intros sg _. apply nf_foldM. intros gr' [g [i nd]] Hin.
  apply in_combine_r in Hin. destruct (in_inputs ns ins nds i nd En Hin) as [Hii Hnd].
  rewrite Forall_forall in Hi. specialize (Hi i Hii).
  apply nf_bind; [apply nf_assert|]. intros _ _. apply nf_bind; [apply nf_raw_new|]. intros sg' _.
  apply nf_bind; [apply nf_update_grad|]. intros gr2 _. destruct (n_fn nd) as [[k' ins']|] eqn:Ef; [|discriminate].
  apply (IH i); [|lia]. exact (Hb _ _ _ _ Hnd Ef).
Qed.

Lemma nf_backward (h : heap T) i : backrefs (nodes h) -> backward h i <> NoFuel.
Proof.
  intros Hb. unfold backward. apply nf_bind; [apply nf_vindex|]. intros nd En. apply nf_bind; [apply nf_assert|]. intros _ _.
  apply nf_bind; [apply nf_unwrap_opt|]. intros [k ins] Ef. apply nf_bind; [|discriminate].
  unfold hget, vindex in En. destruct (nth_error (nodes h) i) as [nd'|] eqn:En'; [|discriminate]. injection En as <-.
  destruct (n_fn nd') as [[k' ins']|] eqn:Ef'; [|discriminate]. injection Ef as -> ->.
  apply (nf_compute_jvp _ Hb _ i); [exact (Hb _ _ _ _ En' Ef')|]. apply Nat.lt_lt_succ_r. apply nth_error_Some. congruence.
Qed.

(** ** API calls *)

Lemma nf_hget (h : heap T) i : hget h i <> NoFuel.
Proof. apply nf_vindex. Qed.

Lemma raw_from_unfold (l : list (nest T)) : raw_from (NVec l) = (let* ts := mapM raw_from l in raw_from_list ts).
Proof.
  cbn [raw_from]. f_equal. induction l as [|a l IH]; [reflexivity|]. cbn [mapM]. destruct (raw_from a); cbn [bind]; auto. rewrite IH. reflexivity.
Qed.

Fixpoint nf_raw_from (n : nest T) {struct n} : raw_from n <> NoFuel.
Proof.
  destruct n as [x|l]; [discriminate|]. rewrite raw_from_unfold. apply nf_bind; [|intros; apply nf_raw_from_list].
  induction l as [|a l IH]; cbn [mapM]; [discriminate|].
  apply nf_bind; [apply nf_raw_from|]. intros t _. apply nf_bind; [exact IH|]. discriminate.
Qed.

Lemma nf_push (s : state T) r : r <> NoFuel -> push s r <> NoFuel.
Proof. intros H. apply nf_bind; [exact H|]. intros [h i] _. discriminate. Qed.

Ltac nf := repeat first
  [ apply nf_push
  | apply nf_hget | apply nf_vindex | apply nf_unwrap_opt | apply nf_view_new | apply nf_add | apply nf_unary | apply nf_mul
  | apply nf_dot | apply nf_bmm | apply nf_tl_to_tensor | apply nf_tl_sum | apply nf_update_grad | apply nf_raw_new | apply nf_raw_from
  | discriminate
  | apply nf_bind; [|intros ? ?] ].

Lemma nf_exec (s : state T) c : backrefs (nodes (hp s)) -> exec s c <> NoFuel.
Proof.
  intros Hb. destruct c; cbn [exec];
    unfold op_new, op_filler, op_scalar, op_from, op_sub, op_add, op_neg, op_mul, op_abs, op_relu, op_tanh, op_sum, op_bmm, op_dot,
      op_dot_method, op_deep_clone, op_grad, op_update_grad, op_view_to_tensor, op_view_sum, op_mul_view, op_bmm_view; try (nf; fail).
  - (* sub *) apply nf_bind; [nf|]. intros i _. apply nf_bind; [nf|]. intros j _. apply nf_push. apply nf_bind; [nf|].
    intros [h' nj] _. nf.
  - (* backward *) apply nf_bind; [nf|]. intros i _. apply nf_bind; [apply nf_backward; auto|]. discriminate.
Qed.

End Tensors.
