(** * RustLink: the whole program of ModelKernel.v *)
From Coq Require String.
Import String.StringSyntax.
From Verif Require Import Base Lists ModelIndex ModelTensor ModelOps ModelJvp ModelGraph ModelUsize ModelRust ModelKernel SpecRust RustFacts RustBmm QueueFacts RustJvp RustMore.
#[local] Open Scope string_scope.

Section Link.
Context {U : usize_ops} {T : Type} {NT : Num T}.
Notation fenv := (@fenv T).

Lemma firstn_snoc A (l : list A) m d : nth_error l m = Some d -> firstn (S m) l = firstn m l ++ [d].
Proof. revert l. induction m as [|m IH]; intros [|a l] H; cbn in *; try easy; [congruence|]. f_equal. now apply IH. Qed.

(** A function is found where it was defined. *)
Lemma link_at N (E : fenv) ds k d : NoDup (map fst ds) -> nth_error ds k = Some d ->
  forall m, k < m -> link N E (firstn m ds) (fst d) = Some (run_fn (link N E (firstn k ds)) N (snd d)).
Proof.
  intros ND Hk m. induction m as [|m IH]; intros H; [lia|].
  destruct (nth_error ds m) as [d'|] eqn:Em.
  - rewrite (firstn_snoc _ _ _ _ Em). unfold link in *. rewrite fold_left_app. cbn [fold_left]. unfold link1 at 1.
    destruct (String.eqb_spec (fst d) (fst d')) as [Q|Q].
    + assert (m = k).
      { assert (A1 : nth_error (map fst ds) m = Some (fst d')) by (rewrite nth_error_map, Em; easy).
        assert (A2 : nth_error (map fst ds) k = Some (fst d)) by (rewrite nth_error_map, Hk; easy).
        rewrite NoDup_nth_error in ND. apply ND; [apply nth_error_Some; congruence|congruence]. }
      subst m. assert (d = d') by congruence. subst d'. easy.
    + destruct (Nat.eq_dec m k) as [->|Ne]; [congruence|]. apply IH. lia.
  - assert (m <> k) by congruence. rewrite firstn_all2 by (apply nth_error_None in Em; lia).
    rewrite firstn_all2 in IH by (now apply nth_error_None). apply IH. lia.
Qed.
Lemma link_out N (E : fenv) f ds : ~ In f (map fst ds) -> link N E ds f = E f.
Proof.
  unfold link. revert E. induction ds as [|d ds IH]; intros E H; cbn [fold_left]; [easy|].
  cbn [map In] in H. rewrite IH by tauto. unfold link1. destruct (String.eqb_spec f (fst d)); [|easy]. exfalso. apply H. left. congruence.
Qed.

Lemma names_nodup : NoDup (map fst kernel).
Proof. repeat (constructor; [cbn; intuition discriminate|]). constructor. Qed.

Variables (N R : nat) (c : @closures T).
Hypothesis W : words U (S R).
Hypothesis HN : 2 <= N.
Definition env (m : nat) : fenv := link N (closure_env c) (firstn m kernel).
Lemma env_call k f b : nth_error kernel k = Some (f, b) -> forall m args, k < m -> call (env m) f args = run_fn (env k) N b args.
Proof. intros H m args L. unfold call, env. pose proof (link_at N (closure_env c) kernel k (f, b) names_nodup H m L) as E. cbn [fst snd] in E. now rewrite E. Qed.
Lemma env_all f args : run N c f args = call (env (length kernel)) f args.
Proof. unfold run, env. now rewrite firstn_all. Qed.

Lemma words_R n : n <= S R -> words U n.
Proof. intros. eapply words_le; eauto. Qed.

Ltac prep k := intros; rewrite (env_call k _ _ eq_refl) by lia.

Lemma l_reset m : 0 < m -> has_reset (env m).
Proof. intros H index position Wp. prep 0. now apply k_reset. Qed.
Lemma l_increment m : 1 < m -> has_increment R (env m).
Proof. intros H index shape L. prep 1. apply k_increment; [easy|apply words_R; lia|apply l_reset; lia]. Qed.
Lemma l_tii m : 2 < m -> has_tensor_index_inplace (env m).
Proof. intros H old g shape. prep 2. apply k_tensor_index_inplace_ok. Qed.
Lemma l_global m : 4 < m -> has_global_index R (env m).
Proof. intros H index shape offset L. prep 4. apply k_global_index_ok. apply words_R. lia. Qed.
Lemma l_new_empty m : 5 < m -> has_new_empty (env m).
Proof. intros H s. prep 5. apply k_new_empty_ok. Qed.
Lemma l_filler m : 6 < m -> has_filler (env m).
Proof. intros H s x. prep 6. apply k_new_with_filler_ok. Qed.
Lemma l_new m : 7 < m -> has_new (env m).
Proof. intros H a s. prep 7. apply k_new_ok. Qed.
Lemma l_set m : 8 < m -> has_set R (env m).
Proof. intros H t index x L. prep 8. apply (k_set_ok R); [apply l_global; lia|easy]. Qed.
Lemma l_raw_get m : 9 < m -> has_raw_get R (env m).
Proof. intros H t index L. prep 9. apply (k_raw_get_ok R); [apply l_global; lia|easy]. Qed.
Lemma l_view_get m : 10 < m -> has_view_get R (env m).
Proof. intros H v index L. prep 10. apply (k_view_get_ok R); [apply l_global; lia|easy]. Qed.
Lemma l_get m : 11 < m -> has_get R (env m).
Proof. intros H l index L. prep 11. apply (k_get_ok R); [apply l_raw_get; lia|apply l_view_get; lia|easy]. Qed.
Lemma l_index m : 12 < m -> has_index R (env m).
Proof. intros H t index L. prep 12. apply (k_index_ok R); [apply l_raw_get; lia|easy]. Qed.
Lemma l_tensor m : 14 < m -> has_tensor (env m).
Proof. intros H l. prep 14. apply k_tensor_ok. Qed.
Lemma l_index_iterator m : 16 < m -> has_index_iterator R (env m).
Proof.
  intros H. split; intros.
  - rewrite (env_call 15 _ _ eq_refl) by lia. apply k_index_iterator_new_ok.
  - rewrite (env_call 16 _ _ eq_refl) by lia. apply (k_index_iterator_next_ok R); [apply l_increment; lia|easy].
Qed.
Lemma l_element_iterator m : 18 < m -> has_element_iterator R (env m).
Proof.
  intros H. split; intros.
  - rewrite (env_call 17 _ _ eq_refl) by lia. apply k_element_iterator_new_ok.
  - rewrite (env_call 18 _ _ eq_refl) by lia. apply (k_element_iterator_next_ok R); [apply l_increment; lia|apply l_get; lia|easy|easy].
Qed.
Lemma l_to_tensor m : 19 < m -> has_to_tensor R N (env m).
Proof.
  intros H l K F NF. prep 19. apply (k_to_tensor_ok R); [apply l_element_iterator; lia|apply l_new; lia|easy..].
Qed.
Lemma l_same_shape m : 22 < m -> has_same_shape (env m).
Proof. intros H l r. prep 22. apply k_same_shape_ok. Qed.
Lemma l_broadcastable m : 23 < m -> has_broadcastable (env m).
Proof. intros H l s. prep 23. apply k_broadcastable_ok. Qed.
Lemma l_max_shape m : 24 < m -> has_max_shape (env m).
Proof. intros H a b. prep 24. apply k_max_shape_ok. Qed.
Lemma op_out m f : In f ["op"; "op_derivative"] -> env m f = closure_env c f.
Proof.
  intros H. unfold env. apply link_out. intros I.
  assert (J : In f (map fst kernel)) by (rewrite <- (firstn_skipn m kernel), map_app, in_app_iff; now left).
  clear I. cbn in H. destruct H as [<-|[<-|[]]]; cbn in J; intuition discriminate.
Qed.
Lemma l_op1 m : has_op1 (env m) "op" (c_op1 c).
Proof. intros x. unfold call. rewrite op_out by (cbn; tauto). reflexivity. Qed.
Lemma l_op2 m : has_op2 (env m) "op" (c_op2 c).
Proof. intros x y. unfold call. rewrite op_out by (cbn; tauto). reflexivity. Qed.
Lemma l_deriv1 m : has_op1 (env m) "op_derivative" (c_deriv1 c).
Proof. intros x. unfold call. rewrite op_out by (cbn; tauto). reflexivity. Qed.
Lemma l_deriv2 m : has_op2 (env m) "op_derivative" (c_deriv2 c).
Proof. intros x y. unfold call. rewrite op_out by (cbn; tauto). reflexivity. Qed.
Lemma l_jdb m : 27 < m -> has_jdb R N (env m).
Proof.
  intros H diag js bs is grad H1 H2 H3 H4 H5 H6 H7 H8. prep 27.
  apply (k_jvp_from_diagonal_broadcast_ok R); try assumption; [apply l_global; lia|apply l_index; lia|apply l_increment; lia|apply l_new; lia].
Qed.

(** ** The functions of the program *)
Ltac fn k := intros; rewrite env_all, (env_call k _ _ eq_refl) by (cbn; lia).
Lemma p_reset index position : words U (position + 1) -> run N c "reset_trailing_indices" [VVec index; VNum position]
  = Ret (VUnit, VVec (if position <? length index then reset_trailing_indices index position else index)).
Proof. fn 0. now apply k_reset. Qed.
Lemma p_increment index shape : length index <= R ->
  run N c "increment_index" [VVec index; VVec shape] = let* (index', more) := u_increment_index index shape in Ret (VBool more, VVec index').
Proof. intros. rewrite env_all. apply l_increment; [cbn; lia|easy]. Qed.
Lemma p_tensor_index g shape :
  run N c "tensor_index" [VNum g; VVec shape] = let* r := tensor_index g shape in Ret (result_val VVec r, VNum g).
Proof. fn 3. apply k_tensor_index_ok. apply l_tii. lia. Qed.
Lemma p_global index shape offset : length shape <= R ->
  run N c "global_index" [VVec index; VVec shape; off_val offset]
  = let* r := u_global_index index shape offset in Ret (result_val VNum r, VVec index).
Proof. intros. rewrite env_all. apply l_global; [cbn; lia|easy]. Qed.
Lemma p_new a s : run N c "RawTensor::new" [VArr a; VVec s] = let* t := u_raw_new a s in Ret (VTen (LRaw t), VArr a).
Proof. intros. rewrite env_all. apply l_new. cbn; lia. Qed.
Lemma p_set t index x : length (shape t) <= R ->
  run N c "set" [VTen (LRaw t); VVec index; VElem x]
  = let* r := u_raw_set t index x in
    match r with Ok t' => Ret (VOk VUnit, VTen (LRaw t')) | Err e => Ret (VErr e, VTen (LRaw t)) end.
Proof. intros. rewrite env_all. apply l_set; [cbn; lia|easy]. Qed.
Lemma p_get l index : rank_ok R l -> run N c "get" [VTen l; VVec index] = let* r := u_tl_get l index in Ret (result_val VElem r, VTen l).
Proof. intros. rewrite env_all. apply l_get; [cbn; lia|easy]. Qed.
Lemma p_first l : rank_ok R l -> run N c "get_first_elem" [VTen l] = let* x := u_tl_get_first_elem l in Ret (VElem x, VTen l).
Proof. fn 13. apply (k_get_first_elem_ok R); [apply l_get; lia|easy]. Qed.
Lemma p_index_next s : length (ii_index s) <= R ->
  run N c "IndexIterator::next" [ii_val s] = let* (o, s') := u_index_iter_next s in Ret (opt_val VVec o, ii_val s').
Proof. intros. rewrite env_all. apply l_index_iterator; [cbn; lia|easy]. Qed.
Lemma p_element_next l s : rank_ok R l -> length (ei_index s) <= R ->
  run N c "ElementIterator::next" [ei_val l s] = let* (o, s') := u_elem_iter_next l s in Ret (opt_val VElem o, ei_val l s').
Proof. intros. rewrite env_all. apply l_element_iterator; [cbn; lia|easy..]. Qed.
Lemma p_to_tensor l : rank_ok R l -> index_fuel (tl_shape l) <= N -> u_tl_to_tensor l <> NoFuel ->
  run N c "to_tensor" [VTen l] = let* t := u_tl_to_tensor l in Ret (VTen (LRaw t), VTen l).
Proof. intros. rewrite env_all. apply l_to_tensor; [cbn; lia|easy..]. Qed.
Lemma p_left_scalar l x : run N c "left_scalar_multiplication" [VTen l; VElem x]
  = let* _ := u_product (tl_shape l) in Ret (VTen (LRaw (left_scalar_multiplication l x)), VTen l).
Proof. fn 20. apply k_left_scalar_ok; [apply l_new_empty; lia|apply l_tensor; lia]. Qed.
Lemma p_right_scalar l x : run N c "right_scalar_multiplication" [VTen l; VElem x]
  = let* _ := u_product (tl_shape l) in Ret (VTen (LRaw (right_scalar_multiplication l x)), VTen l).
Proof. fn 21. apply k_right_scalar_ok; [apply l_new_empty; lia|apply l_tensor; lia]. Qed.
Lemma p_same_shape l r : run N c "same_shape" [VTen l; VTen r] = Ret (VBool (same_shape l r), VTen l).
Proof. intros. rewrite env_all. apply l_same_shape. cbn; lia. Qed.
Lemma p_broadcastable l s : run N c "broadcastable" [VTen l; VVec s] = Ret (VBool (broadcastable (tl_shape l) s), VTen l).
Proof. intros. rewrite env_all. apply l_broadcastable. cbn; lia. Qed.
Lemma p_max_shape a b : run N c "max_shape" [VVec a; VVec b] = Ret (VVec (max_shape a b), VVec a).
Proof. intros. rewrite env_all. apply l_max_shape. cbn; lia. Qed.
Lemma p_binop l r : rank_ok R l -> rank_ok R r -> index_fuel (max_shape (tl_shape l) (tl_shape r)) <= N ->
  u_generic_binop_raw l r (c_op2 c) <> NoFuel ->
  run N c "generic_binop_raw" [VTen l; VTen r] = let* t := u_generic_binop_raw l r (c_op2 c) in Ret (VTen (LRaw t), VTen l).
Proof.
  fn 25. apply (k_generic_binop_raw_ok R); try assumption;
    [apply l_broadcastable|apply l_max_shape|apply l_index_iterator|apply l_filler|apply l_get|apply l_set|apply l_op2]; lia.
Qed.
Lemma p_unary l : rank_ok R l -> index_fuel (tl_shape l) <= N -> u_tl_to_tensor l <> NoFuel ->
  run N c "generic_unary_op" [VTen l] = let* t := u_generic_unary_op l (c_op1 c) in Ret (VTen (LRaw t), VTen l).
Proof.
  fn 26. apply (k_generic_unary_op_ok R); try assumption;
    [apply l_to_tensor|apply l_get|apply l_op1|apply l_increment|apply l_new]; lia.
Qed.
Lemma p_jdb diag js bs is grad : 2 <= R -> length (shape diag) <= R -> length bs <= R -> length is <= R -> length (shape grad) <= R ->
  match js with Some v => length v <= R | None => True end ->
  index_fuel (shape diag) <= N -> u_jvp_from_diagonal_broadcast diag js bs is grad <> NoFuel ->
  run N c "jvp_from_diagonal_broadcast" [VTen (LRaw diag); opt_val VVec js; VVec bs; VVec is; VTen (LRaw grad)]
  = let* t := u_jvp_from_diagonal_broadcast diag js bs is grad in Ret (VTen (LRaw t), VTen (LRaw diag)).
Proof. intros. rewrite env_all. apply l_jdb; [cbn; lia|assumption..]. Qed.
Lemma p_unary_jvp t grad : 2 <= R -> length (shape t) <= R -> length (shape grad) <= R ->
  index_fuel (shape t) <= N -> index_fuel [1; length (array t)] <= N -> u_generic_unary_jvp t grad (c_deriv1 c) <> NoFuel ->
  run N c "generic_unary_jvp" [VTen (LRaw t); VTen (LRaw grad)]
  = let* l := u_generic_unary_jvp t grad (c_deriv1 c) in Ret (VTens l, VTen (LRaw t)).
Proof.
  fn 28. apply (k_generic_unary_jvp_ok R); try assumption; [apply l_raw_get|apply l_deriv1|apply l_increment|apply l_new|apply l_jdb]; lia.
Qed.
Lemma p_binop_jvp l r grad : 2 <= R -> length (shape l) <= R -> length (shape r) <= R -> length (shape grad) <= R ->
  index_fuel (max_shape (shape l) (shape r)) <= N ->
  (forall d, u_product (max_shape (shape l) (shape r)) = Ret d -> index_fuel [1; d] <= N) ->
  u_generic_binop_jvp l r grad (c_deriv2 c) <> NoFuel ->
  run N c "generic_binop_jvp" [VTen (LRaw l); VTen (LRaw r); VTen (LRaw grad)]
  = let* o := u_generic_binop_jvp l r grad (c_deriv2 c) in Ret (VTens o, VTen (LRaw l)).
Proof.
  fn 29. apply (k_generic_binop_jvp_ok R); try assumption;
    [apply l_max_shape|apply l_raw_get|apply l_deriv2|apply l_increment|apply l_new|apply l_jdb]; lia.
Qed.
Lemma p_tanh_derivative t : run N c "tanh_derivative" [VTen (LRaw t)] = let* d := u_tanh_derivative t in Ret (VTen (LRaw d), VTen (LRaw t)).
Proof. fn 30. apply k_tanh_derivative_ok. apply l_new. lia. Qed.
Lemma p_dot l r : run N c "dot_raw" [VTen l; VTen r] = let* t := dot_raw l r in Ret (VTen (LRaw t), VTen l).
Proof. fn 31. apply k_dot_raw_ok; [apply l_same_shape|apply l_tensor]; lia. Qed.
Lemma p_ewm l r : rank_ok R l -> rank_ok R r -> index_fuel (tl_shape l) <= N -> u_element_wise_multiplication l r <> NoFuel ->
  run N c "element_wise_multiplication" [VTen l; VTen r] = let* t := u_element_wise_multiplication l r in Ret (VTen (LRaw t), VTen l).
Proof.
  fn 32. apply (k_element_wise_multiplication_ok R); try assumption; [apply l_same_shape|apply l_element_iterator|apply l_new]; lia.
Qed.
Lemma p_bmm l r : rank_ok R l -> rank_ok R r -> (forall t, u_product (bmm_shape l r) = Ret t -> t = product (bmm_shape l r)) ->
  run N c "bmm_raw" [VTen l; VTen r] = let* t := u_bmm_raw l r in Ret (VTen (LRaw t), VTen l).
Proof. fn 33. apply (k_bmm_raw_ok R); try assumption. apply l_get; lia. Qed.
(** [SplitArrayWriter], [bmm_jvp] *)
Lemma p_split_new n : run N c "SplitArrayWriter::new" [VSlice 0 n] = Ret (writer_val n (rparts width 0 n), VSlice 0 n).
Proof. fn 34. apply k_split_new_ok. Qed.
Lemma p_writer f q g x : In f ["left_writer"; "right_writer"] ->
  run N c f [VChans q; VNum bit_width; VNum g; VElem x] = let* q' := q_send q (g, x) in Ret (VOk VUnit, VChans q').
Proof. intros [<-|[<-|[]]]; [fn 35|fn 36]; apply k_writer_ok. Qed.
Lemma p_start A ps q : length q = length ps ->
  run N c "start_then_join" [VArr A; VParts ps; VChans q; VNum width] = let* A' := a_recv_all q ps 0 A in Ret (VUnit, VArr A').
Proof. fn 37. now apply k_start_ok. Qed.
Lemma p_bmm_jvp ts gs : 2 <= R -> Forall (fun t => length (shape t) <= R) ts -> Forall (fun t => length (shape t) <= R) gs ->
  run N c "bmm_jvp" [VTens ts; VTens gs] = let* o := q_bmm_jvp ts gs in Ret (VTens o, VTens ts).
Proof.
  fn 38. apply (k_bmm_jvp_ok N R); try assumption; [apply l_global; lia|apply l_index; lia|..].
  - intros q g x. rewrite (env_call 35 _ _ eq_refl) by lia. apply k_writer_ok.
  - intros q g x. rewrite (env_call 36 _ _ eq_refl) by lia. apply k_writer_ok.
  - intros n. rewrite (env_call 34 _ _ eq_refl) by lia. apply k_split_new_ok.
  - intros A ps q L. rewrite (env_call 37 _ _ eq_refl) by lia. now apply k_start_ok.
  - apply l_new; lia.
Qed.

(** Sums, views, products, rules of derivatives *)
Lemma l_is_scalar m : 39 < m -> has_is_scalar (env m).
Proof. intros H t. prep 39. apply k_is_scalar_ok. Qed.
Lemma p_is_scalar t : run N c "is_scalar" [VTen (LRaw t)] = Ret (VBool (is_scalar t), VTen (LRaw t)).
Proof. intros. rewrite env_all. apply l_is_scalar. cbn; lia. Qed.
Lemma p_raw_sum t : run N c "RawTensor::sum" [VTen (LRaw t)]
  = let* s := u_tl_sum (LRaw t) in let* g := u_raw_filler (shape t) n_one in Ret (VTens [s; g], VTen (LRaw t)).
Proof. fn 40. apply k_raw_sum_ok. apply l_filler. lia. Qed.
Lemma p_view_sum v : rank_ok R (LView v) -> index_fuel (v_shape v) <= N -> u_tl_sum (LView v) <> NoFuel ->
  run N c "TensorView::sum" [VTen (LView v)] = let* s := u_tl_sum (LView v) in Ret (VTen (LRaw s), VTen (LView v)).
Proof. fn 41. apply (k_view_sum_ok N R); try assumption. apply l_element_iterator. lia. Qed.
Lemma p_view_new t o : run N c "TensorView::new" [VTen (LRaw t); VRanges (Some o)] = let* v := u_view_new t o in Ret (VTen (LView v), VTen (LRaw t)).
Proof. fn 42. apply k_view_new_ok. Qed.
Lemma p_reshape v s : run N c "reshape" [VTen (LView v); VVec s] = let* w := u_view_reshape v s in Ret (VTen (LView w), VTen (LView v)).
Proof. fn 43. apply k_view_reshape_ok. Qed.
Lemma p_eq v other : rank_ok R (LView v) -> rank_ok R other -> index_fuel (v_shape v) <= N -> u_view_eq v other <> NoFuel ->
  run N c "eq" [VTen (LView v); VTen other] = let* b := u_view_eq v other in Ret (VBool b, VTen (LView v)).
Proof. fn 44. apply (k_view_eq_ok N R); try assumption; [apply l_index_iterator|apply l_view_get|apply l_get]; lia. Qed.
Lemma l_mul m : 45 < m -> has_mul N R (env m).
Proof.
  intros H t r K1 K2 F NF. prep 45. apply (k_mul_ok N R); try assumption.
  - intros l x. rewrite (env_call 20 _ _ eq_refl) by lia. apply k_left_scalar_ok; [apply l_new_empty; lia|apply l_tensor; lia].
  - intros l x. rewrite (env_call 21 _ _ eq_refl) by lia. apply k_right_scalar_ok; [apply l_new_empty; lia|apply l_tensor; lia].
  - intros l K. rewrite (env_call 13 _ _ eq_refl) by lia. apply (k_get_first_elem_ok R); [apply l_get; lia|easy].
  - intros l r' K3 K4 F' NF'. rewrite (env_call 32 _ _ eq_refl) by lia.
    apply (k_element_wise_multiplication_ok R); try assumption; [apply l_same_shape|apply l_element_iterator|apply l_new]; lia.
Qed.
Lemma p_mul t r : rank_ok R (LRaw t) -> rank_ok R r -> index_fuel (shape t) <= N -> u_mul_raw t r <> NoFuel ->
  run N c "mul" [VTen (LRaw t); VTen r] = let* x := u_mul_raw t r in Ret (VTen (LRaw x), VTen (LRaw t)).
Proof. intros. rewrite env_all. apply l_mul; [cbn; lia|assumption..]. Qed.
Lemma l_full m : 46 < m -> has_full N R (env m).
Proof.
  intros H l r O. prep 46. apply (k_full_ok N R); [apply l_is_scalar; lia|apply l_mul; lia| |exact O].
  intros l' r' K1 K2 HB. rewrite (env_call 33 _ _ eq_refl) by lia. apply (k_bmm_raw_ok R); try assumption. apply l_get; lia.
Qed.
Lemma p_full l r : full_ok N R l r ->
  run N c "jvp_from_full_jacobians" [VTen (LRaw l); VTen (LRaw r)] = let* t := u_jvp_from_full_jacobians l r in Ret (VTen (LRaw t), VTen (LRaw l)).
Proof. intros. rewrite env_all. apply l_full; [cbn; lia|assumption]. Qed.
Lemma p_ones ts gs : run N c "ones" [VTens ts; VTens gs] = let* l := u_jvp KSum ts gs in Ret (VTens l, VTens ts).
Proof. fn 47. apply k_ones_ok. apply l_filler. lia. Qed.
Lemma p_tanh_outer ts gs : (forall t g d, one_one ts gs = Ret (t, g) -> u_tanh_derivative t = Ret d -> full_ok N R g d) ->
  run N c "tanh_derivative_outer" [VTens ts; VTens gs] = let* l := u_jvp KTanh ts gs in Ret (VTens l, VTens ts).
Proof.
  fn 48. apply (k_tanh_outer_ok N R); [|apply l_full; lia|assumption].
  intros t. rewrite (env_call 30 _ _ eq_refl) by lia. apply k_tanh_derivative_ok. apply l_new. lia.
Qed.
Lemma p_dot_jvp ts gs : (forall l r g, two_one ts gs = Ret (l, r, g) -> full_ok N R g r /\ full_ok N R g l) ->
  run N c "dot_jvp" [VTens ts; VTens gs] = let* l := u_jvp KDot ts gs in Ret (VTens l, VTens ts).
Proof. fn 49. apply (k_dot_jvp_ok N R); [apply l_full; lia|assumption]. Qed.
Lemma l_unary_jvp m : 28 < m -> has_unary_jvp N R (env m) (c_deriv1 c).
Proof.
  intros H t g (O1 & O2 & O3 & O4 & O5 & O6). prep 28.
  apply (k_generic_unary_jvp_ok R); try assumption; [apply l_raw_get|apply l_deriv1|apply l_increment|apply l_new|apply l_jdb]; lia.
Qed.
Lemma p_add_jvp ts gs : (forall l r g, two_one ts gs = Ret (l, r, g) -> binary_ok N R (c_deriv2 c) l r g) ->
  run N c "add_jvp" [VTens ts; VTens gs]
  = let* o := (let* (l, r, g) := two_one ts gs in u_generic_binop_jvp l r g (c_deriv2 c)) in Ret (VTens o, VTens ts).
Proof.
  fn 50. apply (k_add_jvp_ok N R); [|assumption]. intros l r g (O1 & O2 & O3 & O4 & O5 & O6 & O7).
  rewrite (env_call 29 _ _ eq_refl) by lia. apply (k_generic_binop_jvp_ok R); try assumption;
    [apply l_max_shape|apply l_raw_get|apply l_deriv2|apply l_increment|apply l_new|apply l_jdb]; lia.
Qed.
Lemma p_relu_jvp ts gs : (forall t g, one_one ts gs = Ret (t, g) -> unary_ok N R (c_deriv1 c) t g) ->
  run N c "relu_jvp" [VTens ts; VTens gs]
  = let* o := (let* (t, g) := one_one ts gs in u_generic_unary_jvp t g (c_deriv1 c)) in Ret (VTens o, VTens ts).
Proof. fn 51. apply (k_relu_jvp_ok N R); [apply l_unary_jvp; lia|assumption]. Qed.
Lemma p_abs_jvp ts gs : (forall t g, one_one ts gs = Ret (t, g) -> length (shape g) = 2 -> unary_ok N R (c_deriv1 c) t g) ->
  run N c "abs_jvp" [VTens ts; VTens gs]
  = let* o := (let* (t, g) := one_one ts gs in assert (length (shape g) =? 2) ;; u_generic_unary_jvp t g (c_deriv1 c)) in Ret (VTens o, VTens ts).
Proof. fn 52. apply (k_abs_jvp_ok N R); [apply l_unary_jvp; lia|assumption]. Qed.
Lemma p_neg_jvp ts gs : (forall t g, vindex ts 0 = Ret t -> vindex gs 0 = Ret g -> unary_ok N R (c_deriv1 c) t g) ->
  run N c "neg_jvp" [VTens ts; VTens gs]
  = let* o := (let* t := vindex ts 0 in let* g := vindex gs 0 in u_generic_unary_jvp t g (c_deriv1 c)) in Ret (VTens o, VTens ts).
Proof. fn 53. apply (k_neg_jvp_ok N R); [apply l_unary_jvp; lia|assumption]. Qed.
Lemma p_filler s x : run N c "RawTensor::new_with_filler" [VVec s; VElem x] = let* t := u_raw_filler s x in Ret (VTen (LRaw t), VVec s).
Proof. intros. rewrite env_all. apply l_filler. cbn; lia. Qed.
End Link.
