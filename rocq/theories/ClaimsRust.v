(** * ClaimsRust: the loops of the source, statement by statement (C87) *)
From Coq Require Import ZArith.
From Coq Require String.
From Verif Require Import Base ModelIndex ModelTensor ModelOps ModelJvp ModelUsize ModelRust ModelKernel Spec SpecRust Lists FuelFacts UsizeFacts JvpFacts
  RustFacts RustBmm QueueFacts RustJvp RustLink RustRel ClaimsTensor ClaimsOps ClaimsUsize Instances.
Import String.StringSyntax.
Local Open Scope string_scope.

(** C87: the arithmetic of a build with overflow checks and of one without, on words with [M] values, meets the conditions
    of the theorems below for tensors of every rank that fits a word; unbounded numbers meet them for every rank. *)
Lemma c87_words :
  (forall M R : nat, S R < M -> words (checked M) (S R) /\ words (wrapping M) (S R)) /\ (forall R : nat, words unbounded (S R)).
Proof. split; [intros M R H; split; [now apply words_checked|now apply words_wrapping]|intros R; apply words_unbounded]. Qed.
Example c87_words_ex : words (checked 256) 255 /\ words (wrapping 256) 255 /\ ~ words (checked 256) 256.
Proof.
  split; [apply words_checked; lia|]. split; [apply words_wrapping; lia|]. intros [A _]. specialize (A 255 1 ltac:(lia)). discriminate A.
Qed.

(** C87: the statements of utils.rs - the odometer, the two directions between indices and places, the iterator of indices -
    compute what the model says, panics included. *)
Lemma c87_indices :
  forall (U : usize_ops) (T : Type) (NT : Num T) (N R : nat) (c : closures) (index shape : list nat),
    words U (S R) -> 2 <= N -> length index <= R -> length shape <= R ->
    (forall position, position <= R -> run N c "reset_trailing_indices" [VVec index; VNum position]
       = Ret (VUnit, VVec (if position <? length index then reset_trailing_indices index position else index))) /\
    run N c "increment_index" [VVec index; VVec shape]
      = (let* (index', more) := u_increment_index index shape in Ret (VBool more, VVec index')) /\
    (forall g, run N c "tensor_index" [VNum g; VVec shape] = let* r := tensor_index g shape in Ret (result_val VVec r, VNum g)) /\
    (forall offset, run N c "global_index" [VVec index; VVec shape; off_val offset]
       = let* r := u_global_index index shape offset in Ret (result_val VNum r, VVec index)) /\
    (forall s, length (ii_index s) <= R ->
       run N c "IndexIterator::next" [ii_val s] = let* (o, s') := u_index_iter_next s in Ret (opt_val VVec o, ii_val s')).
Proof.
  intros U T NT N R c index shape W HN LI LS. repeat split; intros.
  - apply p_reset; try assumption. apply (words_le _ _ _ W). lia.
  - apply (p_increment N R); assumption.
  - apply p_tensor_index; assumption.
  - apply (p_global N R); assumption.
  - apply (p_index_next N R); assumption.
Qed.
Example c87_indices_ex : forall c : @closures Z,
  run (U := checked 64) 2 c "increment_index" [VVec [0; 2; 3]; VVec [2; 3; 4]] = Ret (VBool true, VVec [1; 0; 0]) /\
  run (U := checked 64) 2 c "increment_index" [VVec [1; 2; 3]; VVec [2; 3; 4]] = Ret (VBool false, VVec [1; 2; 3]) /\
  run (U := checked 64) 2 c "increment_index" [VVec [0; 0]; VVec [2; 0]] = Panic PArith /\
  run (U := checked 64) 2 c "global_index" [VVec [1; 2; 3]; VVec [2; 3; 4]; VNone] = Ret (VOk (VNum 23), VVec [1; 2; 3]) /\
  run (U := checked 16) 2 c "global_index" [VVec [1; 2; 3]; VVec [2; 3; 4]; VNone] = Panic PArith /\
  run (U := checked 64) 2 c "tensor_index" [VNum 23; VVec [2; 3; 4]] = Ret (VOk (VVec [1; 2; 3]), VNum 23).
Proof. intros c. vm_compute. repeat split. Qed.

(** C87: the statements of raw_tensor.rs, tensor_view.rs and tensor_like.rs that build tensors, read them, write them and run
    through their elements compute what the model says. *)
Lemma c87_storage :
  forall (U : usize_ops) (T : Type) (NT : Num T) (N R : nat) (c : closures) (l : tlike T) (t : raw T) (index : list nat),
    words U (S R) -> 2 <= N -> rank_ok R l -> length (shape t) <= R ->
    (forall a s, run N c "RawTensor::new" [VArr a; VVec s] = let* t := u_raw_new a s in Ret (VTen (LRaw t), VArr a)) /\
    (forall x, run N c "set" [VTen (LRaw t); VVec index; VElem x]
       = let* r := u_raw_set t index x in
         match r with Ok t' => Ret (VOk VUnit, VTen (LRaw t')) | Err e => Ret (VErr e, VTen (LRaw t)) end) /\
    run N c "get" [VTen l; VVec index] = (let* r := u_tl_get l index in Ret (result_val VElem r, VTen l)) /\
    run N c "get_first_elem" [VTen l] = (let* x := u_tl_get_first_elem l in Ret (VElem x, VTen l)) /\
    (forall s, length (ei_index s) <= R ->
       run N c "ElementIterator::next" [ei_val l s] = let* (o, s') := u_elem_iter_next l s in Ret (opt_val VElem o, ei_val l s')) /\
    (index_fuel (tl_shape l) <= N -> u_tl_to_tensor l <> NoFuel ->
       run N c "to_tensor" [VTen l] = let* t := u_tl_to_tensor l in Ret (VTen (LRaw t), VTen l)).
Proof.
  intros U T NT N R c l t index W HN K L. repeat split; intros.
  - apply p_new; assumption.
  - apply (p_set N R); assumption.
  - apply (p_get N R); assumption.
  - apply (p_first N R); assumption.
  - apply (p_element_next N R); assumption.
  - apply (p_to_tensor N R); assumption.
Qed.
Example c87_storage_ex : forall c : @closures Z,
  run (U := checked 64) 9 c "get" [VTen (LView (mkView (mkRaw [1; 2; 3; 4; 5; 6]%Z [2; 3]) [2; 2] [mkSR 0 2; mkSR 1 3])); VVec [1; 0]]
    = Ret (VOk (VElem 5%Z), VTen (LView (mkView (mkRaw [1; 2; 3; 4; 5; 6]%Z [2; 3]) [2; 2] [mkSR 0 2; mkSR 1 3]))) /\
  run (U := checked 64) 9 c "to_tensor" [VTen (LView (mkView (mkRaw [1; 2; 3; 4; 5; 6]%Z [2; 3]) [2; 2] [mkSR 0 2; mkSR 1 3]))]
    = Ret (VTen (LRaw (mkRaw [2; 3; 5; 6]%Z [2; 2])), VTen (LView (mkView (mkRaw [1; 2; 3; 4; 5; 6]%Z [2; 3]) [2; 2] [mkSR 0 2; mkSR 1 3]))) /\
  run (U := checked 64) 9 c "set" [VTen (LRaw (mkRaw [1; 2; 3; 4; 5; 6]%Z [2; 3])); VVec [1; 1]; VElem 9%Z]
    = Ret (VOk VUnit, VTen (LRaw (mkRaw [1; 2; 3; 4; 9; 6]%Z [2; 3]))).
Proof. intros c. vm_compute. repeat split. Qed.

(** C87: the statements of functional/element_wise_ops.rs and functional/misc.rs that calculate values - broadcasting, element-wise
    operations, products of numbers, rows and matrices - compute what the model says. *)
Lemma c87_operations :
  forall (U : usize_ops) (T : Type) (NT : Num T) (N R : nat) (c : closures) (l r : tlike T),
    words U (S R) -> 2 <= N -> rank_ok R l -> rank_ok R r ->
    (forall x, run N c "left_scalar_multiplication" [VTen l; VElem x]
       = let* _ := u_product (tl_shape l) in Ret (VTen (LRaw (left_scalar_multiplication l x)), VTen l)) /\
    (forall x, run N c "right_scalar_multiplication" [VTen l; VElem x]
       = let* _ := u_product (tl_shape l) in Ret (VTen (LRaw (right_scalar_multiplication l x)), VTen l)) /\
    run N c "same_shape" [VTen l; VTen r] = Ret (VBool (same_shape l r), VTen l) /\
    (forall s, run N c "broadcastable" [VTen l; VVec s] = Ret (VBool (broadcastable (tl_shape l) s), VTen l)) /\
    (forall a b, run N c "max_shape" [VVec a; VVec b] = Ret (VVec (max_shape a b), VVec a)) /\
    (index_fuel (max_shape (tl_shape l) (tl_shape r)) <= N -> u_generic_binop_raw l r (c_op2 c) <> NoFuel ->
       run N c "generic_binop_raw" [VTen l; VTen r] = let* t := u_generic_binop_raw l r (c_op2 c) in Ret (VTen (LRaw t), VTen l)) /\
    (index_fuel (tl_shape l) <= N -> u_tl_to_tensor l <> NoFuel ->
       run N c "generic_unary_op" [VTen l] = let* t := u_generic_unary_op l (c_op1 c) in Ret (VTen (LRaw t), VTen l)) /\
    run N c "dot_raw" [VTen l; VTen r] = (let* t := dot_raw l r in Ret (VTen (LRaw t), VTen l)) /\
    (index_fuel (tl_shape l) <= N -> u_element_wise_multiplication l r <> NoFuel ->
       run N c "element_wise_multiplication" [VTen l; VTen r]
       = let* t := u_element_wise_multiplication l r in Ret (VTen (LRaw t), VTen l)) /\
    ((forall t, u_product (bmm_shape l r) = Ret t -> t = product (bmm_shape l r)) ->
       run N c "bmm_raw" [VTen l; VTen r] = let* t := u_bmm_raw l r in Ret (VTen (LRaw t), VTen l)).
Proof.
  intros U T NT N R c l r W HN Kl Kr. repeat apply conj; intros.
  - apply p_left_scalar; assumption.
  - apply p_right_scalar; assumption.
  - apply p_same_shape; assumption.
  - apply p_broadcastable; assumption.
  - apply p_max_shape; assumption.
  - apply (p_binop N R); assumption.
  - apply (p_unary N R); assumption.
  - apply p_dot; assumption.
  - apply (p_ewm N R); assumption.
  - apply (p_bmm N R); assumption.
Qed.
Example c87_operations_ex :
  let c := mkClosures Z.opp Z.add (fun x => x) Z.mul in
  let a := LRaw (mkRaw [1; 2; 3; 4; 5; 6]%Z [2; 3]) in
  run (U := checked 64) 20 c "generic_binop_raw" [VTen a; VTen (LRaw (mkRaw [10; 20; 30]%Z [3]))]
    = Ret (VTen (LRaw (mkRaw [11; 22; 33; 14; 25; 36]%Z [2; 3])), VTen a) /\
  run (U := checked 64) 20 c "bmm_raw" [VTen a; VTen (LRaw (mkRaw [1; 0; 0; 1; 1; 1]%Z [3; 2]))]
    = Ret (VTen (LRaw (mkRaw [4; 5; 10; 11]%Z [2; 2])), VTen a) /\
  run (U := checked 64) 20 c "bmm_raw" [VTen a; VTen a] = Panic PAssert /\
  run (U := checked 64) 20 c "element_wise_multiplication" [VTen a; VTen a]
    = Ret (VTen (LRaw (mkRaw [1; 4; 9; 16; 25; 36]%Z [2; 3])), VTen a).
Proof. vm_compute. repeat split. Qed.

(** C87: so do the statements that calculate derivatives: the product with a diagonal Jacobian under broadcasting, the rules of the
    element-wise operations of one and two arguments, the Jacobian of tanh. *)
Lemma c87_derivatives :
  forall (U : usize_ops) (T : Type) (NT : Num T) (N R : nat) (c : closures) (t u grad : raw T),
    words U (S R) -> 2 <= N -> 2 <= R -> length (shape t) <= R -> length (shape u) <= R -> length (shape grad) <= R ->
    (forall js bs is, length bs <= R -> length is <= R -> match js with Some v => length v <= R | None => True end ->
       index_fuel (shape t) <= N -> u_jvp_from_diagonal_broadcast t js bs is grad <> NoFuel ->
       run N c "jvp_from_diagonal_broadcast" [VTen (LRaw t); opt_val VVec js; VVec bs; VVec is; VTen (LRaw grad)]
       = let* d := u_jvp_from_diagonal_broadcast t js bs is grad in Ret (VTen (LRaw d), VTen (LRaw t))) /\
    (index_fuel (shape t) <= N -> index_fuel [1; length (array t)] <= N -> u_generic_unary_jvp t grad (c_deriv1 c) <> NoFuel ->
       run N c "generic_unary_jvp" [VTen (LRaw t); VTen (LRaw grad)]
       = let* o := u_generic_unary_jvp t grad (c_deriv1 c) in Ret (VTens o, VTen (LRaw t))) /\
    (index_fuel (max_shape (shape t) (shape u)) <= N ->
       (forall d, u_product (max_shape (shape t) (shape u)) = Ret d -> index_fuel [1; d] <= N) ->
       u_generic_binop_jvp t u grad (c_deriv2 c) <> NoFuel ->
       run N c "generic_binop_jvp" [VTen (LRaw t); VTen (LRaw u); VTen (LRaw grad)]
       = let* o := u_generic_binop_jvp t u grad (c_deriv2 c) in Ret (VTens o, VTen (LRaw t))) /\
    run N c "tanh_derivative" [VTen (LRaw t)] = (let* d := u_tanh_derivative t in Ret (VTen (LRaw d), VTen (LRaw t))).
Proof.
  intros U T NT N R c t u grad W HN HR Lt Lu Lg. repeat apply conj; intros.
  - apply (p_jdb N R); assumption.
  - apply (p_unary_jvp N R); assumption.
  - apply (p_binop_jvp N R); assumption.
  - apply p_tanh_derivative; assumption.
Qed.
Example c87_derivatives_ex :
  let c := mkClosures Z.opp Z.add (fun x => 2 * x)%Z (fun _ _ => 1%Z) in
  run (U := checked 64) 20 c "generic_unary_jvp" [VTen (LRaw (mkRaw [1; 2; 3]%Z [3])); VTen (LRaw (mkRaw [1; 10; 100]%Z [1; 3]))]
    = Ret (VTens [mkRaw [2; 40; 600]%Z [1; 3]], VTen (LRaw (mkRaw [1; 2; 3]%Z [3]))) /\
  run (U := checked 64) 20 c "generic_binop_jvp"
      [VTen (LRaw (mkRaw [1; 2]%Z [2; 1])); VTen (LRaw (mkRaw [1; 2; 3]%Z [3])); VTen (LRaw (mkRaw [1; 2; 3; 4; 5; 6]%Z [1; 6]))]
    = Ret (VTens [mkRaw [6; 15]%Z [1; 2]; mkRaw [5; 7; 9]%Z [1; 3]], VTen (LRaw (mkRaw [1; 2]%Z [2; 1]))).
Proof. vm_compute. repeat split. Qed.

Section Unbounded.
#[local] Existing Instance unbounded.
Context {T : Type} {NT : Num T}.
Lemma n_binop (l r : tlike T) op : u_generic_binop_raw l r op = generic_binop_raw l r op.
Proof.
  unfold u_generic_binop_raw, generic_binop_raw. apply bind_ext. intros []. cbv zeta. rewrite n_raw_filler. cbn [bind].
  apply iter_fold_ext; [apply n_index_next|]. intros t i. rewrite !n_tl_get_unwrap. apply bind_ext. intros x. apply bind_ext. intros y.
  rewrite n_raw_set. reflexivity.
Qed.
Lemma rank_any (l : tlike T) : rank_ok (match l with LRaw t => length (shape t) | LView v => length (v_shape v) + length (shape (v_tensor v)) end) l.
Proof. destruct l; cbn; lia. Qed.
Lemma rank_more R R' (l : tlike T) : rank_ok R l -> R <= R' -> rank_ok R' l.
Proof. destruct l; cbn; lia. Qed.
Lemma rank_two (l r : tlike T) : exists R, rank_ok R l /\ rank_ok R r.
Proof.
  exists ((match l with LRaw t => length (shape t) | LView v => length (v_shape v) + length (shape (v_tensor v)) end)
     + (match r with LRaw t => length (shape t) | LView v => length (v_shape v) + length (shape (v_tensor v)) end)).
  split; (eapply rank_more; [apply rank_any|lia]).
Qed.
End Unbounded.

(** C87: with unbounded numbers the source's loops are the functional model on which the other properties are proved: for all
    tensors and views, panics included, given enough turns for the loops. *)
Lemma c87_model :
  forall (T : Type) (NT : Num T) (N : nat) (c : closures) (l r : tlike T) (index : list nat),
    2 <= N -> index_fuel (tl_shape l) <= N -> index_fuel (max_shape (tl_shape l) (tl_shape r)) <= N ->
    run (U := unbounded) N c "get" [VTen l; VVec index] = (let* x := tl_get l index in Ret (result_val VElem x, VTen l)) /\
    run (U := unbounded) N c "to_tensor" [VTen l] = (let* t := tl_to_tensor l in Ret (VTen (LRaw t), VTen l)) /\
    run (U := unbounded) N c "generic_binop_raw" [VTen l; VTen r]
      = (let* t := generic_binop_raw l r (c_op2 c) in Ret (VTen (LRaw t), VTen l)) /\
    run (U := unbounded) N c "generic_unary_op" [VTen l] = (let* t := generic_unary_op l (c_op1 c) in Ret (VTen (LRaw t), VTen l)) /\
    run (U := unbounded) N c "dot_raw" [VTen l; VTen r] = (let* t := dot_raw l r in Ret (VTen (LRaw t), VTen l)) /\
    run (U := unbounded) N c "element_wise_multiplication" [VTen l; VTen r]
      = (let* t := element_wise_multiplication l r in Ret (VTen (LRaw t), VTen l)) /\
    run (U := unbounded) N c "bmm_raw" [VTen l; VTen r] = (let* t := bmm_raw l r in Ret (VTen (LRaw t), VTen l)).
Proof.
  intros T NT N c l r index HN H1 H2. destruct (rank_two l r) as (R & Kl & Kr). pose proof (words_unbounded (S R)) as W.
  destruct (c87_storage unbounded T NT N R c l (mkRaw [] []) index W HN Kl ltac:(cbn; lia)) as (_ & _ & G & _ & _ & TT).
  destruct (c87_operations unbounded T NT N R c l r W HN Kl Kr) as (_ & _ & _ & _ & _ & B & Un & D & Ew & Bm).
  rewrite n_tl_get in G. rewrite n_to_tensor in TT. rewrite n_binop in B. rewrite n_unary, n_to_tensor in Un. rewrite n_ewm in Ew.
  rewrite n_bmm_raw in Bm.
  split; [exact G|]. split; [exact (TT H1 (nf_tl_to_tensor l))|]. split; [exact (B H2 (nf_binop l r _))|].
  split; [exact (Un H1 (nf_tl_to_tensor l))|]. split; [exact D|]. split; [exact (Ew H1 (nf_ewm l r))|].
  apply Bm. intros t. rewrite n_product. now intros [= <-].
Qed.
Example c87_model_ex : index_fuel [2; 3] = 7 /\ index_fuel (max_shape [2; 3] [3]) = 7.
Proof. split; reflexivity. Qed.

(** C87: the derivatives likewise. *)
Lemma c87_model_derivatives :
  forall (T : Type) (NT : Num T) (N : nat) (c : closures) (t u grad : raw T),
    2 <= N -> index_fuel (shape t) <= N -> index_fuel [1; length (array t)] <= N -> index_fuel (max_shape (shape t) (shape u)) <= N ->
    index_fuel [1; product (max_shape (shape t) (shape u))] <= N ->
    run (U := unbounded) N c "generic_unary_jvp" [VTen (LRaw t); VTen (LRaw grad)]
      = (let* o := generic_unary_jvp t grad (c_deriv1 c) in Ret (VTens o, VTen (LRaw t))) /\
    run (U := unbounded) N c "generic_binop_jvp" [VTen (LRaw t); VTen (LRaw u); VTen (LRaw grad)]
      = (let* o := generic_binop_jvp t u grad (c_deriv2 c) in Ret (VTens o, VTen (LRaw t))) /\
    run (U := unbounded) N c "tanh_derivative" [VTen (LRaw t)] = (let* d := tanh_derivative t in Ret (VTen (LRaw d), VTen (LRaw t))).
Proof.
  intros T NT N c t u grad HN H1 H2 H3 H4. set (R := 2 + length (shape t) + length (shape u) + length (shape grad)).
  destruct (c87_derivatives unbounded T NT N R c t u grad (words_unbounded _) HN ltac:(unfold R; lia) ltac:(unfold R; lia) ltac:(unfold R; lia)
    ltac:(unfold R; lia)) as (_ & Un & Bi & Ta).
  rewrite n_unary_jvp in Un. rewrite n_binop_jvp in Bi. rewrite n_tanh_derivative in Ta.
  split; [exact (Un H1 H2 (nf_unary_jvp t grad _))|]. split; [|exact Ta]. apply Bi; [exact H3| |apply nf_binop_jvp].
  intros d. rewrite n_product. now intros [= <-].
Qed.
Example c87_model_derivatives_ex :
  let c := mkClosures Z.opp Z.add (fun x => 2 * x)%Z (fun _ _ => 1%Z) in
  run (U := unbounded) 20 c "generic_unary_jvp" [VTen (LRaw (mkRaw [1; 2; 3]%Z [3])); VTen (LRaw (mkRaw [1; 10; 100]%Z [1; 3]))]
    = Ret (VTens [mkRaw [2; 40; 600]%Z [1; 3]], VTen (LRaw (mkRaw [1; 2; 3]%Z [3]))).
Proof. vm_compute. reflexivity. Qed.

(** C87: the source's loops, run in a build with overflow checks, multiply matrices: where the sizes fit a word, the result is the
    textbook product. *)
Lemma c87_matrix_product :
  forall (T : Type) (NT : Num T) (N M : nat) (c : closures) (l r : tlike T) (n k m : nat) (f g : nat -> nat -> T) (t : raw T) (v : val),
    2 <= N -> 4 < M -> proper l -> proper r -> rank_ok 3 l -> rank_ok 3 r -> tl_shape l = [n; k] -> tl_shape r = [k; m] ->
    (forall i t, i < n -> t < k -> tl_get l [i; t] = Ret (Ok (f i t))) ->
    (forall t j, t < k -> j < m -> tl_get r [t; j] = Ret (Ok (g t j))) ->
    run (U := checked M) N c "bmm_raw" [VTen l; VTen r] = Ret (VTen (LRaw t), v) ->
    shape t = [n; m] /\
    forall i j, i < n -> j < m ->
      raw_get t [i; j] = Ret (Ok (fold_left n_add (map (fun t => n_mul (f i t) (g t j)) (seq 0 k)) n_zero)).
Proof.
  intros T NT N M c l r n k m f g t v HN HM Pl Pr Kl Kr Sl Sr Fl Fr H.
  destruct (c87_operations (checked M) T NT N 3 c l r (words_checked M 4 HM) HN Kl Kr) as (_ & _ & _ & _ & _ & _ & _ & _ & _ & Bm).
  assert (HP : forall s a t, foldM (@u_mul (checked M)) s a = Ret t -> t = fold_left Nat.mul s a).
  { clear. induction s as [|d s IH]; intros a t; cbn [foldM fold_left]; [now intros [= <-]|].
    cbn [u_mul checked]. destruct (a * d <? M); cbn [bind]; [|easy]. apply IH. }
  rewrite Bm in H by (intros t'; apply HP). clear Bm.
  assert (D : @u_bmm_raw (checked M) T NT l r = bmm_raw l r \/ @u_bmm_raw (checked M) T NT l r = Panic PArith).
  { rewrite <- n_bmm_raw. apply (r_bmm_raw (fun A o o' => o = o' \/ o = Panic PArith)).
    all: first [apply dev_bind | now left | intros ? ?; cbn [u_add u_mul u_sub checked unbounded];
      match goal with |- context [if ?b then _ else _] => destruct b end; auto]. }
  destruct (c25_bmm_rank2 T NT l r n k m f g Pl Pr Sl Sr Fl Fr) as (t' & E & S' & _ & G).
  destruct D as [D|D]; rewrite D in H; [|easy]. rewrite E in H. cbn [bind] in H. injection H as -> _. split; [exact S'|exact G].
Qed.
Example c87_matrix_product_ex :
  let c := mkClosures Z.opp Z.add (fun x => x) Z.mul in
  let l := LRaw (mkRaw [1; 2; 3; 4; 5; 6]%Z [2; 3]) in
  let r := LRaw (mkRaw [1; 0; 0; 1; 1; 1]%Z [3; 2]) in
  proper l /\ proper r /\ rank_ok 3 l /\ rank_ok 3 r /\
  run (U := checked 8) 2 c "bmm_raw" [VTen l; VTen r] = Ret (VTen (LRaw (mkRaw [4; 5; 10; 11]%Z [2; 2])), VTen l).
Proof. vm_compute. repeat split; lia. Qed.

(** C87: and its loops add with broadcasting. *)
Lemma c87_addition :
  forall (T : Type) (NT : Num T) (N M R : nat) (c : closures) (a b : raw T) (s : list nat) (t : raw T) (v : val),
    2 <= N -> index_fuel (max_shape (shape a) (shape b)) <= N -> S R < M -> length (shape a) <= R -> length (shape b) <= R ->
    wf a -> wf b -> positive (shape a) -> positive (shape b) -> bcast (shape a) (shape b) s -> c_op2 c = n_add ->
    run (U := checked M) N c "generic_binop_raw" [VTen (LRaw a); VTen (LRaw b)] = Ret (VTen (LRaw t), v) ->
    shape t = s /\
    forall i, in_range s i ->
      exists x y, raw_get a (clamp (shape a) i) = Ret (Ok x) /\ raw_get b (clamp (shape b) i) = Ret (Ok y) /\
                  raw_get t i = Ret (Ok (n_add x y)).
Proof.
  intros T NT N M R c a b s t v HN HF HM Ra Rb Wa Wb Pa Pb HB HC H.
  destruct (c87_operations (checked M) T NT N R c (LRaw a) (LRaw b) (words_checked M (S R) HM) HN Ra Rb) as (_ & _ & _ & _ & _ & Bi & _).
  assert (D : @u_add_raw (checked M) T NT (LRaw a) (LRaw b) = add_raw (LRaw a) (LRaw b) \/ @u_add_raw (checked M) T NT (LRaw a) (LRaw b) = Panic PArith).
  { rewrite <- n_add_raw. apply (r_add_raw (fun A o o' => o = o' \/ o = Panic PArith)).
    all: first [apply dev_bind | now left | intros ? ?; cbn [u_add u_mul u_sub checked unbounded];
      match goal with |- context [if ?b then _ else _] => destruct b end; auto]. }
  unfold u_add_raw in D. rewrite <- HC in D.
  assert (NF : @u_generic_binop_raw (checked M) T NT (LRaw a) (LRaw b) (c_op2 c) <> NoFuel).
  { destruct D as [D|D]; rewrite D; [|easy]. apply nf_add. }
  rewrite (Bi HF NF) in H. clear Bi NF.
  destruct (c17_add_broadcast T NT a b Wa Wb Pa Pb) as [A _]. destruct (A s HB) as (t' & E & S' & _ & G).
  destruct D as [D|D]; rewrite D in H; [|easy]. rewrite E in H. cbn [bind] in H. injection H as -> _. split; [exact S'|exact G].
Qed.
Example c87_addition_ex :
  let c := mkClosures Z.opp Z.add (fun x => x) Z.mul in
  let a := mkRaw [1; 2; 3; 4; 5; 6]%Z [2; 3] in
  let b := mkRaw [10; 20]%Z [2; 1] in
  wf a /\ wf b /\ positive (shape a) /\ positive (shape b) /\ bcast (shape a) (shape b) [2; 3] /\
  run (U := checked 8) 20 c "generic_binop_raw" [VTen (LRaw a); VTen (LRaw b)]
    = Ret (VTen (LRaw (mkRaw [11; 12; 13; 24; 25; 26]%Z [2; 3])), VTen (LRaw a)).
Proof.
  split; [reflexivity|]. split; [reflexivity|]. split; [repeat constructor|]. split; [repeat constructor|].
  split; [apply br_one_r, br_eq; constructor|]. vm_compute. reflexivity.
Qed.

(** C87: whatever functions are written in the language, a build with overflow checks does what unbounded numbers do, or panics because a
    [usize] overflowed; and if it returns, a build without overflow checks returns the same. *)
Lemma c87_any_program :
  forall (M : nat) (T : Type) (NT : Num T) (N : nat) (E : fenv) (ds : list (string * func)) (f : string) (args : list val),
    (call (link (U := checked M) N E ds) f args = call (link (U := unbounded) N E ds) f args \/
     call (link (U := checked M) N E ds) f args = Panic PArith) /\
    (forall x, call (link (U := checked M) N E ds) f args = Ret x -> call (link (U := wrapping M) N E ds) f args = Ret x).
Proof.
  intros M T NT N E ds f args. split.
  - apply (rel_link (fun A o o' => o = o' \/ o = Panic PArith)).
    + intros; left; reflexivity.
    + apply dev_bind.
    + intros a b. cbn [u_add checked unbounded]. destruct (a + b <? M); auto.
    + intros a b. cbn [u_mul checked unbounded]. destruct (a * b <? M); auto.
    + intros a b. cbn [u_sub checked unbounded]. destruct (b <=? a); auto.
    + intros A m m' k [-> | ->]; cbn [u_debug checked unbounded]; auto.
    + intros g xs. now left.
  - apply (rel_link (fun A o o' => forall x, o = Ret x -> o' = Ret x)).
    + auto.
    + intros A B m m' g g' H1 H2 x Hx. destruct m as [a|p|]; try discriminate. rewrite (H1 a eq_refl). cbn [bind] in *. auto.
    + intros a b x. cbn [u_add checked wrapping]. destruct (a + b <? M) eqn:El; [|discriminate]. apply Nat.ltb_lt in El. now rewrite Nat.mod_small.
    + intros a b x. cbn [u_mul checked wrapping]. destruct (a * b <? M) eqn:El; [|discriminate]. apply Nat.ltb_lt in El. now rewrite Nat.mod_small.
    + intros a b x. cbn [u_sub checked wrapping]. destruct (b <=? a); [easy|discriminate].
    + intros A m m' k _ x. cbn [u_debug checked wrapping]. destruct m as [[|]|p|]; cbn [bind assert]; easy.
    + intros g xs x Hx. exact Hx.
Qed.
Example c87_any_program_ex :
  let double := mkFn ["x"] (block [SDebugAssert (ELt (EVar "x") (ENum 100)); SReturn (EAdd (EVar "x") (EVar "x"))]) in
  call (T := Z) (link (U := checked 256) 2 (fun _ => None) [("double", double)]) "double" [VNum 99] = Ret (VNum 198, VNum 99) /\
  call (T := Z) (link (U := wrapping 256) 2 (fun _ => None) [("double", double)]) "double" [VNum 99] = Ret (VNum 198, VNum 99) /\
  call (T := Z) (link (U := checked 256) 2 (fun _ => None) [("double", double)]) "double" [VNum 100] = Panic PAssert /\
  call (T := Z) (link (U := checked 64) 2 (fun _ => None) [("double", double)]) "double" [VNum 99] = Panic PArith /\
  call (T := Z) (link (U := wrapping 64) 2 (fun _ => None) [("double", double)]) "double" [VNum 99] = Ret (VNum 6, VNum 99).
Proof. vm_compute. repeat split. Qed.
Lemma run_checked (T : Type) (NT : Num T) M N c f args :
  (run (U := checked M) N c f args = run (U := unbounded) N c f args \/ run (U := checked M) N c f args = Panic PArith) /\
  (forall x, run (U := checked M) N c f args = Ret x -> run (U := wrapping M) N c f args = Ret x).
Proof. unfold run. apply c87_any_program. Qed.

(** C87: so with overflow checks the source's loops compute what the model says or panic because a [usize] overflowed, whatever the rank
    and the width of a word; and what they return they return without the checks too. *)
Lemma c87_checked :
  forall (T : Type) (NT : Num T) (M N : nat) (c : closures) (l r : tlike T) (t u grad : raw T) (index : list nat),
    2 <= N -> index_fuel (tl_shape l) <= N -> index_fuel (max_shape (tl_shape l) (tl_shape r)) <= N ->
    index_fuel (shape t) <= N -> index_fuel [1; length (array t)] <= N -> index_fuel (max_shape (shape t) (shape u)) <= N ->
    index_fuel [1; product (max_shape (shape t) (shape u))] <= N ->
    forall (f : string) (args : list val) (o : outcome (val * val)),
      In (f, args, o)
        [ ("get", [VTen l; VVec index], let* x := tl_get l index in Ret (result_val VElem x, VTen l));
          ("to_tensor", [VTen l], let* t := tl_to_tensor l in Ret (VTen (LRaw t), VTen l));
          ("generic_binop_raw", [VTen l; VTen r], let* t := generic_binop_raw l r (c_op2 c) in Ret (VTen (LRaw t), VTen l));
          ("generic_unary_op", [VTen l], let* t := generic_unary_op l (c_op1 c) in Ret (VTen (LRaw t), VTen l));
          ("dot_raw", [VTen l; VTen r], let* t := dot_raw l r in Ret (VTen (LRaw t), VTen l));
          ("element_wise_multiplication", [VTen l; VTen r], let* t := element_wise_multiplication l r in Ret (VTen (LRaw t), VTen l));
          ("bmm_raw", [VTen l; VTen r], let* t := bmm_raw l r in Ret (VTen (LRaw t), VTen l));
          ("generic_unary_jvp", [VTen (LRaw t); VTen (LRaw grad)],
             let* o := generic_unary_jvp t grad (c_deriv1 c) in Ret (VTens o, VTen (LRaw t)));
          ("generic_binop_jvp", [VTen (LRaw t); VTen (LRaw u); VTen (LRaw grad)],
             let* o := generic_binop_jvp t u grad (c_deriv2 c) in Ret (VTens o, VTen (LRaw t)));
          ("tanh_derivative", [VTen (LRaw t)], let* d := tanh_derivative t in Ret (VTen (LRaw d), VTen (LRaw t))) ] ->
      (run (U := checked M) N c f args = o \/ run (U := checked M) N c f args = Panic PArith) /\
      (forall x, run (U := checked M) N c f args = Ret x -> run (U := wrapping M) N c f args = Ret x /\ o = Ret x).
Proof.
  intros T NT M N c l r t u grad index H2 H3 H4 H5 H6 H7 H8 f args o Hin.
  destruct (run_checked T NT M N c f args) as [A B].
  assert (Q : run (U := unbounded) N c f args = o).
  { destruct (c87_model T NT N c l r index H2 H3 H4) as (M1 & M2 & M3 & M4 & M5 & M6 & M7).
    destruct (c87_model_derivatives T NT N c t u grad H2 H5 H6 H7 H8) as (D1 & D2 & D3).
    destruct Hin as [Hin|Hin]; [injection Hin as <- <- <-; exact M1|].
    destruct Hin as [Hin|Hin]; [injection Hin as <- <- <-; exact M2|].
    destruct Hin as [Hin|Hin]; [injection Hin as <- <- <-; exact M3|].
    destruct Hin as [Hin|Hin]; [injection Hin as <- <- <-; exact M4|].
    destruct Hin as [Hin|Hin]; [injection Hin as <- <- <-; exact M5|].
    destruct Hin as [Hin|Hin]; [injection Hin as <- <- <-; exact M6|].
    destruct Hin as [Hin|Hin]; [injection Hin as <- <- <-; exact M7|].
    destruct Hin as [Hin|Hin]; [injection Hin as <- <- <-; exact D1|].
    destruct Hin as [Hin|Hin]; [injection Hin as <- <- <-; exact D2|].
    destruct Hin as [Hin|Hin]; [injection Hin as <- <- <-; exact D3|].
    contradiction Hin. }
  rewrite Q in A. split; [exact A|]. intros x Hx. split; [exact (B x Hx)|]. destruct A as [A|A]; congruence.
Qed.
Example c87_checked_ex :
  let c := mkClosures Z.opp Z.add (fun x => x) Z.mul in
  let a := LRaw (mkRaw [1; 2; 3; 4; 5; 6]%Z [2; 3]) in
  run (U := checked 8) 20 c "generic_unary_op" [VTen a] = Ret (VTen (LRaw (mkRaw [-1; -2; -3; -4; -5; -6]%Z [2; 3])), VTen a) /\
  run (U := wrapping 8) 20 c "generic_unary_op" [VTen a] = Ret (VTen (LRaw (mkRaw [-1; -2; -3; -4; -5; -6]%Z [2; 3])), VTen a) /\
  run (U := checked 6) 20 c "generic_unary_op" [VTen a] = Panic PArith.
Proof. vm_compute. repeat split. Qed.

Lemma defined_checked M : defined (checked M).
Proof. split; [|split]; intros a b; cbn [u_add u_mul u_sub checked]; [destruct (_ <? _)|destruct (_ <? _)|destruct (_ <=? _)]; discriminate. Qed.
Lemma defined_wrapping M : defined (wrapping M).
Proof. split; [|split]; intros a b; cbn [u_add u_mul u_sub wrapping]; discriminate. Qed.
Lemma defined_unbounded : defined unbounded.
Proof. split; [|split]; intros a b; cbn [u_add u_mul u_sub unbounded]; [discriminate..|destruct (_ <=? _); discriminate]. Qed.

(** C87: [SplitArrayWriter]: the parts it cuts the array into, the channel a message goes to, and what the receivers do.  After the receivers
    have taken what the writers sent, the array is what delivering the messages one by one gives. *)
Lemma c87_split_writer :
  forall (U : usize_ops) (T : Type) (NT : Num T) (N : nat) (c : closures) (ms : list (nat * T)) (arr : list T),
    defined U -> 2 <= N ->
    exists ps : list (nat * nat),
      run N c "SplitArrayWriter::new" [VSlice 0 (length arr)]
        = Ret (VRec [("segments", VParts ps); ("bit_width", VNum 5); ("width", VNum 32); ("splits", VNum (length arr / 32));
                     ("channels", VChans (repeat [] (length ps)))], VSlice 0 (length arr)) /\
      map (fun p => firstn (snd p) (skipn (fst p) arr)) ps = split_new arr /\
      forall (result : list T),
        (exists q : list (list (nat * T)),
           foldM (fun q m =>
                    let* r := run N c "left_writer" [VChans q; VNum 5; VNum (fst m); VElem (snd m)] in
                    match r with (VOk VUnit, VChans q') => Ret q' | _ => NoFuel end) ms (repeat [] (length ps)) = Ret q /\
           run N c "start_then_join" [VArr arr; VParts ps; VChans q; VNum 32] = Ret (VUnit, VArr result))
        <-> (exists segs, foldM u_deliver ms (split_new arr) = Ret segs /\ result = split_join segs).
Proof.
  intros U T NT N c ms arr UF HN.
  exists (places (split_new arr)).
  assert (Hp : rparts width 0 (length arr) = places (split_new arr)) by (apply rparts_places; unfold width; lia).
  split; [|split].
  - pose proof (p_split_new (U := U) (NT := NT) N c HN (length arr)) as Q. unfold writer_val in Q. rewrite Hp in Q. exact Q.
  - assert (K : forall segs : list (list T), forall Y, map (fun p => firstn (snd p) (skipn (fst p) (split_join segs ++ Y))) (places segs) = segs).
    { unfold split_join. induction segs as [|s segs IH]; intros Y; cbn [places map rev fst snd]; [easy|]. rewrite concat_app. cbn [concat].
      rewrite app_nil_r, <- app_assoc, IH. f_equal. rewrite skipn_app, skipn_all, Nat.sub_diag. cbn [skipn app].
      rewrite firstn_app, Nat.sub_diag. cbn [firstn]. rewrite app_nil_r. apply firstn_all. }
    specialize (K (split_new arr) []). rewrite app_nil_r in K. 
    replace (split_join (split_new arr)) with arr in K by (symmetry; apply (split_join_rchunks arr width); unfold width; lia). exact K.
  - intros result.
    assert (Q : forall ms q, foldM (fun q m =>
                    let* r := run N c "left_writer" [VChans q; VNum 5; VNum (fst m); VElem (snd m)] in
                    match r with (VOk VUnit, VChans q') => Ret q' | _ => NoFuel end) ms q = foldM q_send ms q).
    { clear - HN. induction ms as [|m ms IH]; intros q; cbn [foldM]; [easy|]. rewrite (p_writer N c HN "left_writer" q (fst m) (snd m)) by (now left).
      replace (fst m, snd m) with m by (now destruct m). destruct (q_send q m); cbn [bind]; easy. }
    rewrite places_length. setoid_rewrite Q. destruct (queue_deliver UF ms (split_new arr)) as (_ & _ & H).
    assert (LQ : forall q, foldM q_send ms (repeat [] (length (split_new arr))) = Ret q -> length q = length (split_new arr)).
    { intros q Hq. refine (foldM_inv _ _ _ (fun s => length s = length (split_new arr)) _ _ _ _ _ Hq); [|apply repeat_length].
      intros s m s' P Hs. apply send_length in Hs. congruence. }
    split.
    + intros (q & Hq & Hr). pose proof (LQ q Hq) as Lq. rewrite (p_start N c HN) in Hr by (now rewrite places_length). rewrite a_recv_split in Hr by exact Lq.
      destruct (recv_all q (split_new arr)) as [segs|p|] eqn:Er; try discriminate Hr. injection Hr as <-. exists segs. split; [|easy].
      apply H. rewrite Hq. exact Er.
    + intros (segs & Hs & ->). apply H in Hs. apply bind_ret_iff in Hs. destruct Hs as (q & Hq & Hr). exists q. split; [exact Hq|].
      rewrite (p_start N c HN) by (rewrite places_length; now apply LQ). rewrite a_recv_split by (now apply LQ). rewrite Hr. reflexivity.
Qed.
Example c87_split_writer_ex : forall c : @closures Z,
  run (U := checked 256) 2 c "SplitArrayWriter::new" [VSlice 0 40]
  = Ret (VRec [("segments", VParts [(8, 32); (0, 8)]); ("bit_width", VNum 5); ("width", VNum 32); ("splits", VNum 1);
               ("channels", VChans [[]; []])], VSlice 0 40) /\
  run (U := checked 256) 2 c "left_writer" [VChans [[]; []]; VNum 5; VNum 35; VElem 7%Z] = Ret (VOk VUnit, VChans [[]; [(35, 7%Z)]]) /\
  run (U := checked 256) 2 c "start_then_join" [VArr [0; 0; 0; 1]%Z; VParts [(0, 4)]; VChans [[(3, 7%Z); (0, 2%Z)]]; VNum 32]
    = Ret (VUnit, VArr [2; 0; 0; 8]%Z) /\
  run (U := checked 256) 2 c "start_then_join" [VArr [0; 0; 0; 1]%Z; VParts [(0, 4)]; VChans [[(4, 7%Z)]]; VNum 32] = Panic PAssert.
Proof. intros c. vm_compute. repeat split. Qed.

(** C87: [bmm_jvp], its tasks run one after the other and its channels holding what was sent until the receivers run: it returns what the model
    returns and panics when the model panics. *)
Lemma c87_bmm_jvp :
  forall (U : usize_ops) (T : Type) (NT : Num T) (N R : nat) (c : closures) (ts gs : list (raw T)),
    words U (S R) -> defined U -> 2 <= N -> 2 <= R ->
    Forall (fun t => length (shape t) <= R) ts -> Forall (fun t => length (shape t) <= R) gs ->
    run N c "bmm_jvp" [VTens ts; VTens gs] <> NoFuel /\ u_bmm_jvp ts gs <> NoFuel /\
    forall x, run N c "bmm_jvp" [VTens ts; VTens gs] = Ret x <-> exists l, u_bmm_jvp ts gs = Ret l /\ x = (VTens l, VTens ts).
Proof.
  intros U T NT N R c ts gs W UF HN HR Ht Hg. rewrite (p_bmm_jvp N R c W HN ts gs HR Ht Hg).
  destruct (bmm_jvp_sim R HR UF ts gs) as (F1 & F2 & H). split; [|split; [exact F2|]].
  - apply fine_bind; [exact F1|]. discriminate.
  - intros x. rewrite bind_ret_iff. split; intros (l & Hl & Hx); exists l.
    + split; [now apply H|congruence].
    + split; [now apply H|congruence].
Qed.
Example c87_bmm_jvp_ex :
  let c := mkClosures Z.opp Z.add (fun x => x) Z.mul in
  let a := mkRaw [1; 2; 3; 4; 5; 6]%Z [2; 3] in
  let b := mkRaw [1; 0; 0; 1; 1; 1]%Z [3; 2] in
  let g := mkRaw [1; 10; 100; 1000]%Z [1; 4] in
  run (U := checked 64) 2 c "bmm_jvp" [VTens [a; b]; VTens [g]]
    = Ret (VTens [mkRaw [1; 10; 11; 100; 1000; 1100]%Z [1; 6]; mkRaw [401; 4010; 502; 5020; 603; 6030]%Z [1; 6]], VTens [a; b]) /\
  run (U := checked 64) 2 c "bmm_jvp" [VTens [a; a]; VTens [g]] = Panic PAssert.
Proof. vm_compute. repeat split. Qed.

(** C87: with overflow checks, what [bmm_jvp] returns is what the model with unbounded numbers returns, and without the checks it
    returns the same; if it does not return, the model panics or a [usize] overflowed. *)
Lemma c87_bmm_jvp_checked :
  forall (T : Type) (NT : Num T) (M N : nat) (c : closures) (ts gs : list (raw T)),
    2 <= N ->
    (forall x, run (U := checked M) N c "bmm_jvp" [VTens ts; VTens gs] = Ret x ->
       run (U := wrapping M) N c "bmm_jvp" [VTens ts; VTens gs] = Ret x /\ exists l, bmm_jvp ts gs = Ret l /\ x = (VTens l, VTens ts)) /\
    (forall l, bmm_jvp ts gs = Ret l ->
       run (U := checked M) N c "bmm_jvp" [VTens ts; VTens gs] = Ret (VTens l, VTens ts) \/
       run (U := checked M) N c "bmm_jvp" [VTens ts; VTens gs] = Panic PArith).
Proof.
  intros T NT M N c ts gs HN. destruct (run_checked T NT M N c "bmm_jvp" [VTens ts; VTens gs]) as [A B].
  set (R := 2 + list_max (map (fun t => length (shape t)) (ts ++ gs))).
  assert (HR : Forall (fun t => length (shape t) <= R) (ts ++ gs)).
  { apply Forall_forall. intros t Ht. assert (L : list_max (map (fun t => length (shape t)) (ts ++ gs)) <= list_max (map (fun t => length (shape t)) (ts ++ gs))) by lia.
    apply list_max_le in L. rewrite Forall_forall in L. specialize (L (length (shape t)) (in_map _ _ _ Ht)). unfold R. lia. }
  apply Forall_app in HR. destruct HR as [H1 H2].
  destruct (c87_bmm_jvp unbounded T NT N R c ts gs (words_unbounded _) defined_unbounded HN ltac:(unfold R; lia) H1 H2) as (_ & _ & H).
  setoid_rewrite n_bmm_jvp in H. split.
  - intros x Hx. split; [now apply B|]. apply H. destruct A as [A|A]; congruence.
  - intros l Hl. destruct A as [A|A]; [|now right]. left. rewrite A. apply H. exists l. split; [exact Hl|reflexivity].
Qed.
Example c87_bmm_jvp_checked_ex :
  let c := mkClosures Z.opp Z.add (fun x => x) Z.mul in
  let a := mkRaw [1; 2; 3; 4; 5; 6]%Z [2; 3] in
  let b := mkRaw [1; 0; 0; 1; 1; 1]%Z [3; 2] in
  let g := mkRaw [1; 10; 100; 1000]%Z [1; 4] in
  run (U := wrapping 64) 2 c "bmm_jvp" [VTens [a; b]; VTens [g]] = run (U := checked 64) 2 c "bmm_jvp" [VTens [a; b]; VTens [g]] /\
  bmm_jvp [a; b] [g] = Ret [mkRaw [1; 10; 11; 100; 1000; 1100]%Z [1; 6]; mkRaw [401; 4010; 502; 5020; 603; 6030]%Z [1; 6]] /\
  run (U := checked 6) 2 c "bmm_jvp" [VTens [a; b]; VTens [g]] = Panic PArith.
Proof. vm_compute. repeat split. Qed.

(** C87: sums, views and [*]: the statements compute what the model says, for every kind of word, panics included. *)
Lemma c87_views :
  forall (U : usize_ops) (T : Type) (NT : Num T) (N R : nat) (c : closures) (t : raw T) (v : view T) (l : tlike T),
    words U (S R) -> 2 <= N -> length (shape t) <= R -> rank_ok R (LView v) -> rank_ok R l ->
    run N c "is_scalar" [VTen (LRaw t)] = Ret (VBool (is_scalar t), VTen (LRaw t)) /\
    (forall s x, run N c "RawTensor::new_with_filler" [VVec s; VElem x] = let* t := u_raw_filler s x in Ret (VTen (LRaw t), VVec s)) /\
    run N c "RawTensor::sum" [VTen (LRaw t)]
      = (let* s := u_tl_sum (LRaw t) in let* g := u_raw_filler (shape t) Base.n_one in Ret (VTens [s; g], VTen (LRaw t))) /\
    (forall o, run N c "TensorView::new" [VTen (LRaw t); VRanges (Some o)] = let* v := u_view_new t o in Ret (VTen (LView v), VTen (LRaw t))) /\
    (forall s, run N c "reshape" [VTen (LView v); VVec s] = let* w := u_view_reshape v s in Ret (VTen (LView w), VTen (LView v))) /\
    (index_fuel (v_shape v) <= N -> u_tl_sum (LView v) <> NoFuel ->
       run N c "TensorView::sum" [VTen (LView v)] = let* s := u_tl_sum (LView v) in Ret (VTen (LRaw s), VTen (LView v))) /\
    (index_fuel (v_shape v) <= N -> u_view_eq v l <> NoFuel ->
       run N c "eq" [VTen (LView v); VTen l] = let* b := u_view_eq v l in Ret (VBool b, VTen (LView v))) /\
    (index_fuel (shape t) <= N -> u_mul_raw t l <> NoFuel ->
       run N c "mul" [VTen (LRaw t); VTen l] = let* x := u_mul_raw t l in Ret (VTen (LRaw x), VTen (LRaw t))).
Proof.
  intros U T NT N R c t v l W HN Ht Hv Hl.
  split; [apply (p_is_scalar N c); exact HN|]. split; [intros s x; apply (p_filler N c); exact HN|]. split; [apply (p_raw_sum N c); exact HN|].
  split; [intros o; apply (p_view_new N c); exact HN|]. split; [intros s; apply (p_reshape N c); exact HN|].
  split; [intros H1 H2; exact (p_view_sum N R c W HN v Hv H1 H2)|]. split; [intros H1 H2; exact (p_eq N R c W HN v l Hv Hl H1 H2)|].
  intros H1 H2. exact (p_mul N R c W HN t l Ht Hl H1 H2).
Qed.
Example c87_views_ex :
  let c := mkClosures Z.opp Z.add (fun x => 2 * x)%Z (fun _ _ => 1%Z) in
  let t := mkRaw [1; 2; 3; 4; 5; 6]%Z [2; 3] in
  let v := mkView t [2; 2] [mkSR 0 2; mkSR 1 3] in
  run (U := checked 256) 20 c "TensorView::new" [VTen (LRaw t); VRanges (Some [mkSR 0 2; mkSR 1 3])] = Ret (VTen (LView v), VTen (LRaw t)) /\
  run (U := checked 256) 20 c "TensorView::sum" [VTen (LView v)] = Ret (VTen (LRaw (mkRaw [16]%Z [])), VTen (LView v)) /\
  run (U := checked 256) 20 c "eq" [VTen (LView v); VTen (LRaw (mkRaw [2; 3; 5; 6]%Z [2; 2]))] = Ret (VBool true, VTen (LView v)) /\
  run (U := checked 256) 20 c "eq" [VTen (LView v); VTen (LRaw (mkRaw [2; 3; 5; 7]%Z [2; 2]))] = Ret (VBool false, VTen (LView v)).
Proof. vm_compute. repeat split. Qed.

Lemma n_view_reshape T (v : view T) s : u_view_reshape (U := unbounded) v s = view_reshape v s.
Proof. unfold u_view_reshape, view_reshape. rewrite !n_product. reflexivity. Qed.
Lemma n_view_eq T (NT : Num T) (v : view T) l : u_view_eq (U := unbounded) v l = view_eq v l.
Proof.
  unfold u_view_eq, view_eq. destruct (negb _); [reflexivity|]. generalize (index_fuel (v_shape v)) (index_iter_new (v_shape v)). intros n.
  induction n as [|n IH]; intros s; [reflexivity|]. cbn [iter_all]. rewrite n_index_next. destruct (index_iter_next s) as [[[i|] s']| |]; try reflexivity.
  cbn [bind]. rewrite n_view_get, n_tl_get. destruct (view_get v i) as [x| |]; try reflexivity. destruct (tl_get l i) as [y| |]; try reflexivity.
  cbn [bind]. rewrite IH. reflexivity.
Qed.
Lemma nf_view_eq T (NT : Num T) (v : view T) l : view_eq v l <> NoFuel.
Proof.
  unfold view_eq. destruct (negb _); [discriminate|]. apply nf_index_all. intros i. apply nf_bind; [apply nf_view_get|]. intros x _.
  apply nf_bind; [apply nf_tl_get|]. discriminate.
Qed.

(** C87: with unbounded words these are the functions of the model itself. *)
Lemma c87_model_views :
  forall (T : Type) (NT : Num T) (N : nat) (c : closures) (t : raw T) (v : view T) (l : tlike T),
    2 <= N -> index_fuel (shape t) <= N -> index_fuel (v_shape v) <= N ->
    (forall s x, run (U := unbounded) N c "RawTensor::new_with_filler" [VVec s; VElem x] = Ret (VTen (LRaw (raw_filler s x)), VVec s)) /\
    run (U := unbounded) N c "RawTensor::sum" [VTen (LRaw t)]
      = (let* s := tl_sum (LRaw t) in Ret (VTens [s; raw_filler (shape t) Base.n_one], VTen (LRaw t))) /\
    (forall o, run (U := unbounded) N c "TensorView::new" [VTen (LRaw t); VRanges (Some o)]
       = let* v := view_new t o in Ret (VTen (LView v), VTen (LRaw t))) /\
    (forall s, run (U := unbounded) N c "reshape" [VTen (LView v); VVec s] = let* w := view_reshape v s in Ret (VTen (LView w), VTen (LView v))) /\
    run (U := unbounded) N c "TensorView::sum" [VTen (LView v)] = (let* s := tl_sum (LView v) in Ret (VTen (LRaw s), VTen (LView v))) /\
    run (U := unbounded) N c "eq" [VTen (LView v); VTen l] = (let* b := view_eq v l in Ret (VBool b, VTen (LView v))) /\
    run (U := unbounded) N c "mul" [VTen (LRaw t); VTen l] = (let* x := mul_raw t l in Ret (VTen (LRaw x), VTen (LRaw t))).
Proof.
  intros T NT N c t v l HN H1 H2. destruct (rank_two (LView v) l) as (R & Kv & Kl). set (R' := R + length (shape t)).
  assert (Kv' : rank_ok R' (LView v)) by (eapply rank_more; [exact Kv|unfold R'; lia]).
  assert (Kl' : rank_ok R' l) by (eapply rank_more; [exact Kl|unfold R'; lia]).
  destruct (c87_views unbounded T NT N R' c t v l (words_unbounded _) HN ltac:(unfold R'; lia) Kv' Kl') as (_ & A & B & C & D & E & F & G).
  split. { intros s x. rewrite A, n_raw_filler. reflexivity. }
  split. { rewrite B, n_sum. apply bind_ext. intros s. rewrite n_raw_filler. reflexivity. }
  split. { intros o. rewrite C, n_view_new. reflexivity. }
  split. { intros s. rewrite D, n_view_reshape. reflexivity. }
  rewrite n_sum in E. rewrite n_view_eq in F. rewrite n_mul_raw in G.
  split; [exact (E H2 (nf_tl_sum _))|]. split; [exact (F H2 (nf_view_eq _ _ v l))|exact (G H1 (nf_mul t l))].
Qed.
Example c87_model_views_ex :
  let c := mkClosures Z.opp Z.add (fun x => 2 * x)%Z (fun _ _ => 1%Z) in
  let t := mkRaw [1; 2; 3; 4; 5; 6]%Z [2; 3] in
  let v := mkView t [2; 2] [mkSR 0 2; mkSR 1 3] in
  index_fuel (shape t) <= 20 /\ index_fuel (v_shape v) <= 20 /\
  run (U := unbounded) 20 c "RawTensor::sum" [VTen (LRaw t)] = Ret (VTens [mkRaw [21]%Z []; mkRaw [1; 1; 1; 1; 1; 1]%Z [2; 3]], VTen (LRaw t)) /\
  run (U := unbounded) 20 c "mul" [VTen (LRaw t); VTen (LRaw (mkRaw [10]%Z []))] = Ret (VTen (LRaw (mkRaw [10; 20; 30; 40; 50; 60]%Z [2; 3])), VTen (LRaw t)) /\
  run (U := unbounded) 20 c "reshape" [VTen (LView v); VVec [3]] = Panic PAssert.
Proof. vm_compute. repeat split; repeat constructor. Qed.
