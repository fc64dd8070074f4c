(** * PropertiesRust: the theorems of ClaimsRust.v, restated (generated by tools/genprops.py) *)
From Coq Require Import ZArith.
From Coq Require String.
From Verif Require Import Base ModelIndex ModelTensor ModelOps ModelJvp ModelUsize ModelRust ModelKernel Spec SpecRust Lists FuelFacts UsizeFacts JvpFacts
  RustFacts RustBmm QueueFacts RustJvp RustLink RustRel ClaimsTensor ClaimsOps ClaimsUsize Instances.
From Verif Require Import ClaimsRust.
Import String.StringSyntax.
Local Open Scope string_scope.

(** C87: the arithmetic of a build with overflow checks and of one without, on words with [M] values, meets the conditions
    of the theorems below for tensors of every rank that fits a word; unbounded numbers meet them for every rank. *)
Theorem C87_words :
  (forall M R : nat, S R < M -> words (checked M) (S R) /\ words (wrapping M) (S R)) /\ (forall R : nat, words unbounded (S R)).
Proof. exact c87_words. Qed.
Print Assumptions C87_words.
Example C87_words_ex : words (checked 256) 255 /\ words (wrapping 256) 255 /\ ~ words (checked 256) 256.
Proof. exact c87_words_ex. Qed.

(** C87: the statements of utils.rs - the odometer, the two directions between indices and places, the iterator of indices -
    compute what the model says, panics included. *)
Theorem C87_indices :
  forall (U : usize_ops) (T : Type) (NT : Num T) (N R : nat) (c : closures) (index shape : list nat),
    words U (S R) -> 2 <= N -> length index <= R -> length shape <= R ->
    (forall position, position <= R -> run N c "reset_trailing_indices" [VVec index; VNum position]
       = Ret (VUnit, VVec (if position <? length index then reset_trailing_indices index position else index))) /\
    run N c "increment_index" [VVec index; VVec shape]
      = (let* (index', more) := u_increment_index index shape in Ret (VBool more, VVec index')) /\
    (forall g, run N c "tensor_index" [VNum g; VVec shape] = let* r := tensor_index g shape in Ret (result_val VVec r, VNum g)) /\
    (forall offset, run N c "global_index" [VVec index; VVec shape; off_val offset]
       = let* r := u_global_index index shape offset in Ret (result_val VNum r, VVec index)) /\
    (forall s, length (ii_index s) <= R ->
       run N c "IndexIterator::next" [ii_val s] = let* (o, s') := u_index_iter_next s in Ret (opt_val VVec o, ii_val s')).
Proof. exact c87_indices. Qed.
Print Assumptions C87_indices.
Example C87_indices_ex : forall c : @closures Z,
  run (U := checked 64) 2 c "increment_index" [VVec [0; 2; 3]; VVec [2; 3; 4]] = Ret (VBool true, VVec [1; 0; 0]) /\
  run (U := checked 64) 2 c "increment_index" [VVec [1; 2; 3]; VVec [2; 3; 4]] = Ret (VBool false, VVec [1; 2; 3]) /\
  run (U := checked 64) 2 c "increment_index" [VVec [0; 0]; VVec [2; 0]] = Panic PArith /\
  run (U := checked 64) 2 c "global_index" [VVec [1; 2; 3]; VVec [2; 3; 4]; VNone] = Ret (VOk (VNum 23), VVec [1; 2; 3]) /\
  run (U := checked 16) 2 c "global_index" [VVec [1; 2; 3]; VVec [2; 3; 4]; VNone] = Panic PArith /\
  run (U := checked 64) 2 c "tensor_index" [VNum 23; VVec [2; 3; 4]] = Ret (VOk (VVec [1; 2; 3]), VNum 23).
Proof. exact c87_indices_ex. Qed.

(** C87: the statements of raw_tensor.rs, tensor_view.rs and tensor_like.rs that build tensors, read them, write them and run
    through their elements compute what the model says. *)
Theorem C87_storage :
  forall (U : usize_ops) (T : Type) (NT : Num T) (N R : nat) (c : closures) (l : tlike T) (t : raw T) (index : list nat),
    words U (S R) -> 2 <= N -> rank_ok R l -> length (shape t) <= R ->
    (forall a s, run N c "RawTensor::new" [VArr a; VVec s] = let* t := u_raw_new a s in Ret (VTen (LRaw t), VArr a)) /\
    (forall x, run N c "set" [VTen (LRaw t); VVec index; VElem x]
       = let* r := u_raw_set t index x in
         match r with Ok t' => Ret (VOk VUnit, VTen (LRaw t')) | Err e => Ret (VErr e, VTen (LRaw t)) end) /\
    run N c "get" [VTen l; VVec index] = (let* r := u_tl_get l index in Ret (result_val VElem r, VTen l)) /\
    run N c "get_first_elem" [VTen l] = (let* x := u_tl_get_first_elem l in Ret (VElem x, VTen l)) /\
    (forall s, length (ei_index s) <= R ->
       run N c "ElementIterator::next" [ei_val l s] = let* (o, s') := u_elem_iter_next l s in Ret (opt_val VElem o, ei_val l s')) /\
    (index_fuel (tl_shape l) <= N -> u_tl_to_tensor l <> NoFuel ->
       run N c "to_tensor" [VTen l] = let* t := u_tl_to_tensor l in Ret (VTen (LRaw t), VTen l)).
Proof. exact c87_storage. Qed.
Print Assumptions C87_storage.
Example C87_storage_ex : forall c : @closures Z,
  run (U := checked 64) 9 c "get" [VTen (LView (mkView (mkRaw [1; 2; 3; 4; 5; 6]%Z [2; 3]) [2; 2] [mkSR 0 2; mkSR 1 3])); VVec [1; 0]]
    = Ret (VOk (VElem 5%Z), VTen (LView (mkView (mkRaw [1; 2; 3; 4; 5; 6]%Z [2; 3]) [2; 2] [mkSR 0 2; mkSR 1 3]))) /\
  run (U := checked 64) 9 c "to_tensor" [VTen (LView (mkView (mkRaw [1; 2; 3; 4; 5; 6]%Z [2; 3]) [2; 2] [mkSR 0 2; mkSR 1 3]))]
    = Ret (VTen (LRaw (mkRaw [2; 3; 5; 6]%Z [2; 2])), VTen (LView (mkView (mkRaw [1; 2; 3; 4; 5; 6]%Z [2; 3]) [2; 2] [mkSR 0 2; mkSR 1 3]))) /\
  run (U := checked 64) 9 c "set" [VTen (LRaw (mkRaw [1; 2; 3; 4; 5; 6]%Z [2; 3])); VVec [1; 1]; VElem 9%Z]
    = Ret (VOk VUnit, VTen (LRaw (mkRaw [1; 2; 3; 4; 9; 6]%Z [2; 3]))).
Proof. exact c87_storage_ex. Qed.

(** C87: the statements of functional/element_wise_ops.rs and functional/misc.rs that calculate values - broadcasting, element-wise
    operations, products of numbers, rows and matrices - compute what the model says. *)
Theorem C87_operations :
  forall (U : usize_ops) (T : Type) (NT : Num T) (N R : nat) (c : closures) (l r : tlike T),
    words U (S R) -> 2 <= N -> rank_ok R l -> rank_ok R r ->
    (forall x, run N c "left_scalar_multiplication" [VTen l; VElem x]
       = let* _ := u_product (tl_shape l) in Ret (VTen (LRaw (left_scalar_multiplication l x)), VTen l)) /\
    (forall x, run N c "right_scalar_multiplication" [VTen l; VElem x]
       = let* _ := u_product (tl_shape l) in Ret (VTen (LRaw (right_scalar_multiplication l x)), VTen l)) /\
    run N c "same_shape" [VTen l; VTen r] = Ret (VBool (same_shape l r), VTen l) /\
    (forall s, run N c "broadcastable" [VTen l; VVec s] = Ret (VBool (broadcastable (tl_shape l) s), VTen l)) /\
    (forall a b, run N c "max_shape" [VVec a; VVec b] = Ret (VVec (max_shape a b), VVec a)) /\
    (index_fuel (max_shape (tl_shape l) (tl_shape r)) <= N -> u_generic_binop_raw l r (c_op2 c) <> NoFuel ->
       run N c "generic_binop_raw" [VTen l; VTen r] = let* t := u_generic_binop_raw l r (c_op2 c) in Ret (VTen (LRaw t), VTen l)) /\
    (index_fuel (tl_shape l) <= N -> u_tl_to_tensor l <> NoFuel ->
       run N c "generic_unary_op" [VTen l] = let* t := u_generic_unary_op l (c_op1 c) in Ret (VTen (LRaw t), VTen l)) /\
    run N c "dot_raw" [VTen l; VTen r] = (let* t := dot_raw l r in Ret (VTen (LRaw t), VTen l)) /\
    (index_fuel (tl_shape l) <= N -> u_element_wise_multiplication l r <> NoFuel ->
       run N c "element_wise_multiplication" [VTen l; VTen r]
       = let* t := u_element_wise_multiplication l r in Ret (VTen (LRaw t), VTen l)) /\
    ((forall t, u_product (bmm_shape l r) = Ret t -> t = product (bmm_shape l r)) ->
       run N c "bmm_raw" [VTen l; VTen r] = let* t := u_bmm_raw l r in Ret (VTen (LRaw t), VTen l)).
Proof. exact c87_operations. Qed.
Print Assumptions C87_operations.
Example C87_operations_ex :
  let c := mkClosures Z.opp Z.add (fun x => x) Z.mul in
  let a := LRaw (mkRaw [1; 2; 3; 4; 5; 6]%Z [2; 3]) in
  run (U := checked 64) 20 c "generic_binop_raw" [VTen a; VTen (LRaw (mkRaw [10; 20; 30]%Z [3]))]
    = Ret (VTen (LRaw (mkRaw [11; 22; 33; 14; 25; 36]%Z [2; 3])), VTen a) /\
  run (U := checked 64) 20 c "bmm_raw" [VTen a; VTen (LRaw (mkRaw [1; 0; 0; 1; 1; 1]%Z [3; 2]))]
    = Ret (VTen (LRaw (mkRaw [4; 5; 10; 11]%Z [2; 2])), VTen a) /\
  run (U := checked 64) 20 c "bmm_raw" [VTen a; VTen a] = Panic PAssert /\
  run (U := checked 64) 20 c "element_wise_multiplication" [VTen a; VTen a]
    = Ret (VTen (LRaw (mkRaw [1; 4; 9; 16; 25; 36]%Z [2; 3])), VTen a).
Proof. exact c87_operations_ex. Qed.

(** C87: so do the statements that calculate derivatives: the product with a diagonal Jacobian under broadcasting, the rules of the
    element-wise operations of one and two arguments, the Jacobian of tanh. *)
Theorem C87_derivatives :
  forall (U : usize_ops) (T : Type) (NT : Num T) (N R : nat) (c : closures) (t u grad : raw T),
    words U (S R) -> 2 <= N -> 2 <= R -> length (shape t) <= R -> length (shape u) <= R -> length (shape grad) <= R ->
    (forall js bs is, length bs <= R -> length is <= R -> match js with Some v => length v <= R | None => True end ->
       index_fuel (shape t) <= N -> u_jvp_from_diagonal_broadcast t js bs is grad <> NoFuel ->
       run N c "jvp_from_diagonal_broadcast" [VTen (LRaw t); opt_val VVec js; VVec bs; VVec is; VTen (LRaw grad)]
       = let* d := u_jvp_from_diagonal_broadcast t js bs is grad in Ret (VTen (LRaw d), VTen (LRaw t))) /\
    (index_fuel (shape t) <= N -> index_fuel [1; length (array t)] <= N -> u_generic_unary_jvp t grad (c_deriv1 c) <> NoFuel ->
       run N c "generic_unary_jvp" [VTen (LRaw t); VTen (LRaw grad)]
       = let* o := u_generic_unary_jvp t grad (c_deriv1 c) in Ret (VTens o, VTen (LRaw t))) /\
    (index_fuel (max_shape (shape t) (shape u)) <= N ->
       (forall d, u_product (max_shape (shape t) (shape u)) = Ret d -> index_fuel [1; d] <= N) ->
       u_generic_binop_jvp t u grad (c_deriv2 c) <> NoFuel ->
       run N c "generic_binop_jvp" [VTen (LRaw t); VTen (LRaw u); VTen (LRaw grad)]
       = let* o := u_generic_binop_jvp t u grad (c_deriv2 c) in Ret (VTens o, VTen (LRaw t))) /\
    run N c "tanh_derivative" [VTen (LRaw t)] = (let* d := u_tanh_derivative t in Ret (VTen (LRaw d), VTen (LRaw t))).
Proof. exact c87_derivatives. Qed.
Print Assumptions C87_derivatives.
Example C87_derivatives_ex :
  let c := mkClosures Z.opp Z.add (fun x => 2 * x)%Z (fun _ _ => 1%Z) in
  run (U := checked 64) 20 c "generic_unary_jvp" [VTen (LRaw (mkRaw [1; 2; 3]%Z [3])); VTen (LRaw (mkRaw [1; 10; 100]%Z [1; 3]))]
    = Ret (VTens [mkRaw [2; 40; 600]%Z [1; 3]], VTen (LRaw (mkRaw [1; 2; 3]%Z [3]))) /\
  run (U := checked 64) 20 c "generic_binop_jvp"
      [VTen (LRaw (mkRaw [1; 2]%Z [2; 1])); VTen (LRaw (mkRaw [1; 2; 3]%Z [3])); VTen (LRaw (mkRaw [1; 2; 3; 4; 5; 6]%Z [1; 6]))]
    = Ret (VTens [mkRaw [6; 15]%Z [1; 2]; mkRaw [5; 7; 9]%Z [1; 3]], VTen (LRaw (mkRaw [1; 2]%Z [2; 1]))).
Proof. exact c87_derivatives_ex. Qed.

(** C87: with unbounded numbers the source's loops are the functional model on which the other properties are proved: for all
    tensors and views, panics included, given enough turns for the loops. *)
Theorem C87_model :
  forall (T : Type) (NT : Num T) (N : nat) (c : closures) (l r : tlike T) (index : list nat),
    2 <= N -> index_fuel (tl_shape l) <= N -> index_fuel (max_shape (tl_shape l) (tl_shape r)) <= N ->
    run (U := unbounded) N c "get" [VTen l; VVec index] = (let* x := tl_get l index in Ret (result_val VElem x, VTen l)) /\
    run (U := unbounded) N c "to_tensor" [VTen l] = (let* t := tl_to_tensor l in Ret (VTen (LRaw t), VTen l)) /\
    run (U := unbounded) N c "generic_binop_raw" [VTen l; VTen r]
      = (let* t := generic_binop_raw l r (c_op2 c) in Ret (VTen (LRaw t), VTen l)) /\
    run (U := unbounded) N c "generic_unary_op" [VTen l] = (let* t := generic_unary_op l (c_op1 c) in Ret (VTen (LRaw t), VTen l)) /\
    run (U := unbounded) N c "dot_raw" [VTen l; VTen r] = (let* t := dot_raw l r in Ret (VTen (LRaw t), VTen l)) /\
    run (U := unbounded) N c "element_wise_multiplication" [VTen l; VTen r]
      = (let* t := element_wise_multiplication l r in Ret (VTen (LRaw t), VTen l)) /\
    run (U := unbounded) N c "bmm_raw" [VTen l; VTen r] = (let* t := bmm_raw l r in Ret (VTen (LRaw t), VTen l)).
Proof. exact c87_model. Qed.
Print Assumptions C87_model.
Example C87_model_ex : index_fuel [2; 3] = 7 /\ index_fuel (max_shape [2; 3] [3]) = 7.
Proof. exact c87_model_ex. Qed.

(** C87: the derivatives likewise. *)
Theorem C87_model_derivatives :
  forall (T : Type) (NT : Num T) (N : nat) (c : closures) (t u grad : raw T),
    2 <= N -> index_fuel (shape t) <= N -> index_fuel [1; length (array t)] <= N -> index_fuel (max_shape (shape t) (shape u)) <= N ->
    index_fuel [1; product (max_shape (shape t) (shape u))] <= N ->
    run (U := unbounded) N c "generic_unary_jvp" [VTen (LRaw t); VTen (LRaw grad)]
      = (let* o := generic_unary_jvp t grad (c_deriv1 c) in Ret (VTens o, VTen (LRaw t))) /\
    run (U := unbounded) N c "generic_binop_jvp" [VTen (LRaw t); VTen (LRaw u); VTen (LRaw grad)]
      = (let* o := generic_binop_jvp t u grad (c_deriv2 c) in Ret (VTens o, VTen (LRaw t))) /\
    run (U := unbounded) N c "tanh_derivative" [VTen (LRaw t)] = (let* d := tanh_derivative t in Ret (VTen (LRaw d), VTen (LRaw t))).
Proof. exact c87_model_derivatives. Qed.
Print Assumptions C87_model_derivatives.
Example C87_model_derivatives_ex :
  let c := mkClosures Z.opp Z.add (fun x => 2 * x)%Z (fun _ _ => 1%Z) in
  run (U := unbounded) 20 c "generic_unary_jvp" [VTen (LRaw (mkRaw [1; 2; 3]%Z [3])); VTen (LRaw (mkRaw [1; 10; 100]%Z [1; 3]))]
    = Ret (VTens [mkRaw [2; 40; 600]%Z [1; 3]], VTen (LRaw (mkRaw [1; 2; 3]%Z [3]))).
Proof. exact c87_model_derivatives_ex. Qed.

(** C87: the source's loops, run in a build with overflow checks, multiply matrices: where the sizes fit a word, the result is the
    textbook product. *)
Theorem C87_matrix_product :
  forall (T : Type) (NT : Num T) (N M : nat) (c : closures) (l r : tlike T) (n k m : nat) (f g : nat -> nat -> T) (t : raw T) (v : val),
    2 <= N -> 4 < M -> proper l -> proper r -> rank_ok 3 l -> rank_ok 3 r -> tl_shape l = [n; k] -> tl_shape r = [k; m] ->
    (forall i t, i < n -> t < k -> tl_get l [i; t] = Ret (Ok (f i t))) ->
    (forall t j, t < k -> j < m -> tl_get r [t; j] = Ret (Ok (g t j))) ->
    run (U := checked M) N c "bmm_raw" [VTen l; VTen r] = Ret (VTen (LRaw t), v) ->
    shape t = [n; m] /\
    forall i j, i < n -> j < m ->
      raw_get t [i; j] = Ret (Ok (fold_left n_add (map (fun t => n_mul (f i t) (g t j)) (seq 0 k)) n_zero)).
Proof. exact c87_matrix_product. Qed.
Print Assumptions C87_matrix_product.
Example C87_matrix_product_ex :
  let c := mkClosures Z.opp Z.add (fun x => x) Z.mul in
  let l := LRaw (mkRaw [1; 2; 3; 4; 5; 6]%Z [2; 3]) in
  let r := LRaw (mkRaw [1; 0; 0; 1; 1; 1]%Z [3; 2]) in
  proper l /\ proper r /\ rank_ok 3 l /\ rank_ok 3 r /\
  run (U := checked 8) 2 c "bmm_raw" [VTen l; VTen r] = Ret (VTen (LRaw (mkRaw [4; 5; 10; 11]%Z [2; 2])), VTen l).
Proof. exact c87_matrix_product_ex. Qed.

(** C87: and its loops add with broadcasting. *)
Theorem C87_addition :
  forall (T : Type) (NT : Num T) (N M R : nat) (c : closures) (a b : raw T) (s : list nat) (t : raw T) (v : val),
    2 <= N -> index_fuel (max_shape (shape a) (shape b)) <= N -> S R < M -> length (shape a) <= R -> length (shape b) <= R ->
    wf a -> wf b -> positive (shape a) -> positive (shape b) -> bcast (shape a) (shape b) s -> c_op2 c = n_add ->
    run (U := checked M) N c "generic_binop_raw" [VTen (LRaw a); VTen (LRaw b)] = Ret (VTen (LRaw t), v) ->
    shape t = s /\
    forall i, in_range s i ->
      exists x y, raw_get a (clamp (shape a) i) = Ret (Ok x) /\ raw_get b (clamp (shape b) i) = Ret (Ok y) /\
                  raw_get t i = Ret (Ok (n_add x y)).
Proof. exact c87_addition. Qed.
Print Assumptions C87_addition.
Example C87_addition_ex :
  let c := mkClosures Z.opp Z.add (fun x => x) Z.mul in
  let a := mkRaw [1; 2; 3; 4; 5; 6]%Z [2; 3] in
  let b := mkRaw [10; 20]%Z [2; 1] in
  wf a /\ wf b /\ positive (shape a) /\ positive (shape b) /\ bcast (shape a) (shape b) [2; 3] /\
  run (U := checked 8) 20 c "generic_binop_raw" [VTen (LRaw a); VTen (LRaw b)]
    = Ret (VTen (LRaw (mkRaw [11; 12; 13; 24; 25; 26]%Z [2; 3])), VTen (LRaw a)).
Proof. exact c87_addition_ex. Qed.

(** C87: whatever functions are written in the language, a build with overflow checks does what unbounded numbers do, or panics because a
    [usize] overflowed; and if it returns, a build without overflow checks returns the same. *)
Theorem C87_any_program :
  forall (M : nat) (T : Type) (NT : Num T) (N : nat) (E : fenv) (ds : list (string * func)) (f : string) (args : list val),
    (call (link (U := checked M) N E ds) f args = call (link (U := unbounded) N E ds) f args \/
     call (link (U := checked M) N E ds) f args = Panic PArith) /\
    (forall x, call (link (U := checked M) N E ds) f args = Ret x -> call (link (U := wrapping M) N E ds) f args = Ret x).
Proof. exact c87_any_program. Qed.
Print Assumptions C87_any_program.
Example C87_any_program_ex :
  let double := mkFn ["x"] (block [SDebugAssert (ELt (EVar "x") (ENum 100)); SReturn (EAdd (EVar "x") (EVar "x"))]) in
  call (T := Z) (link (U := checked 256) 2 (fun _ => None) [("double", double)]) "double" [VNum 99] = Ret (VNum 198, VNum 99) /\
  call (T := Z) (link (U := wrapping 256) 2 (fun _ => None) [("double", double)]) "double" [VNum 99] = Ret (VNum 198, VNum 99) /\
  call (T := Z) (link (U := checked 256) 2 (fun _ => None) [("double", double)]) "double" [VNum 100] = Panic PAssert /\
  call (T := Z) (link (U := checked 64) 2 (fun _ => None) [("double", double)]) "double" [VNum 99] = Panic PArith /\
  call (T := Z) (link (U := wrapping 64) 2 (fun _ => None) [("double", double)]) "double" [VNum 99] = Ret (VNum 6, VNum 99).
Proof. exact c87_any_program_ex. Qed.

(** C87: so with overflow checks the source's loops compute what the model says or panic because a [usize] overflowed, whatever the rank
    and the width of a word; and what they return they return without the checks too. *)
Theorem C87_checked :
  forall (T : Type) (NT : Num T) (M N : nat) (c : closures) (l r : tlike T) (t u grad : raw T) (index : list nat),
    2 <= N -> index_fuel (tl_shape l) <= N -> index_fuel (max_shape (tl_shape l) (tl_shape r)) <= N ->
    index_fuel (shape t) <= N -> index_fuel [1; length (array t)] <= N -> index_fuel (max_shape (shape t) (shape u)) <= N ->
    index_fuel [1; product (max_shape (shape t) (shape u))] <= N ->
    forall (f : string) (args : list val) (o : outcome (val * val)),
      In (f, args, o)
        [ ("get", [VTen l; VVec index], let* x := tl_get l index in Ret (result_val VElem x, VTen l));
          ("to_tensor", [VTen l], let* t := tl_to_tensor l in Ret (VTen (LRaw t), VTen l));
          ("generic_binop_raw", [VTen l; VTen r], let* t := generic_binop_raw l r (c_op2 c) in Ret (VTen (LRaw t), VTen l));
          ("generic_unary_op", [VTen l], let* t := generic_unary_op l (c_op1 c) in Ret (VTen (LRaw t), VTen l));
          ("dot_raw", [VTen l; VTen r], let* t := dot_raw l r in Ret (VTen (LRaw t), VTen l));
          ("element_wise_multiplication", [VTen l; VTen r], let* t := element_wise_multiplication l r in Ret (VTen (LRaw t), VTen l));
          ("bmm_raw", [VTen l; VTen r], let* t := bmm_raw l r in Ret (VTen (LRaw t), VTen l));
          ("generic_unary_jvp", [VTen (LRaw t); VTen (LRaw grad)],
             let* o := generic_unary_jvp t grad (c_deriv1 c) in Ret (VTens o, VTen (LRaw t)));
          ("generic_binop_jvp", [VTen (LRaw t); VTen (LRaw u); VTen (LRaw grad)],
             let* o := generic_binop_jvp t u grad (c_deriv2 c) in Ret (VTens o, VTen (LRaw t)));
          ("tanh_derivative", [VTen (LRaw t)], let* d := tanh_derivative t in Ret (VTen (LRaw d), VTen (LRaw t))) ] ->
      (run (U := checked M) N c f args = o \/ run (U := checked M) N c f args = Panic PArith) /\
      (forall x, run (U := checked M) N c f args = Ret x -> run (U := wrapping M) N c f args = Ret x /\ o = Ret x).
Proof. exact c87_checked. Qed.
Print Assumptions C87_checked.
Example C87_checked_ex :
  let c := mkClosures Z.opp Z.add (fun x => x) Z.mul in
  let a := LRaw (mkRaw [1; 2; 3; 4; 5; 6]%Z [2; 3]) in
  run (U := checked 8) 20 c "generic_unary_op" [VTen a] = Ret (VTen (LRaw (mkRaw [-1; -2; -3; -4; -5; -6]%Z [2; 3])), VTen a) /\
  run (U := wrapping 8) 20 c "generic_unary_op" [VTen a] = Ret (VTen (LRaw (mkRaw [-1; -2; -3; -4; -5; -6]%Z [2; 3])), VTen a) /\
  run (U := checked 6) 20 c "generic_unary_op" [VTen a] = Panic PArith.
Proof. exact c87_checked_ex. Qed.

(** C87: [SplitArrayWriter]: the parts it cuts the array into, the channel a message goes to, and what the receivers do.  After the receivers
    have taken what the writers sent, the array is what delivering the messages one by one gives. *)
Theorem C87_split_writer :
  forall (U : usize_ops) (T : Type) (NT : Num T) (N : nat) (c : closures) (ms : list (nat * T)) (arr : list T),
    defined U -> 2 <= N ->
    exists ps : list (nat * nat),
      run N c "SplitArrayWriter::new" [VSlice 0 (length arr)]
        = Ret (VRec [("segments", VParts ps); ("bit_width", VNum 5); ("width", VNum 32); ("splits", VNum (length arr / 32));
                     ("channels", VChans (repeat [] (length ps)))], VSlice 0 (length arr)) /\
      map (fun p => firstn (snd p) (skipn (fst p) arr)) ps = split_new arr /\
      forall (result : list T),
        (exists q : list (list (nat * T)),
           foldM (fun q m =>
                    let* r := run N c "left_writer" [VChans q; VNum 5; VNum (fst m); VElem (snd m)] in
                    match r with (VOk VUnit, VChans q') => Ret q' | _ => NoFuel end) ms (repeat [] (length ps)) = Ret q /\
           run N c "start_then_join" [VArr arr; VParts ps; VChans q; VNum 32] = Ret (VUnit, VArr result))
        <-> (exists segs, foldM u_deliver ms (split_new arr) = Ret segs /\ result = split_join segs).
Proof. exact c87_split_writer. Qed.
Print Assumptions C87_split_writer.
Example C87_split_writer_ex : forall c : @closures Z,
  run (U := checked 256) 2 c "SplitArrayWriter::new" [VSlice 0 40]
  = Ret (VRec [("segments", VParts [(8, 32); (0, 8)]); ("bit_width", VNum 5); ("width", VNum 32); ("splits", VNum 1);
               ("channels", VChans [[]; []])], VSlice 0 40) /\
  run (U := checked 256) 2 c "left_writer" [VChans [[]; []]; VNum 5; VNum 35; VElem 7%Z] = Ret (VOk VUnit, VChans [[]; [(35, 7%Z)]]) /\
  run (U := checked 256) 2 c "start_then_join" [VArr [0; 0; 0; 1]%Z; VParts [(0, 4)]; VChans [[(3, 7%Z); (0, 2%Z)]]; VNum 32]
    = Ret (VUnit, VArr [2; 0; 0; 8]%Z) /\
  run (U := checked 256) 2 c "start_then_join" [VArr [0; 0; 0; 1]%Z; VParts [(0, 4)]; VChans [[(4, 7%Z)]]; VNum 32] = Panic PAssert.
Proof. exact c87_split_writer_ex. Qed.

(** C87: [bmm_jvp], its tasks run one after the other and its channels holding what was sent until the receivers run: it returns what the model
    returns and panics when the model panics. *)
Theorem C87_bmm_jvp :
  forall (U : usize_ops) (T : Type) (NT : Num T) (N R : nat) (c : closures) (ts gs : list (raw T)),
    words U (S R) -> defined U -> 2 <= N -> 2 <= R ->
    Forall (fun t => length (shape t) <= R) ts -> Forall (fun t => length (shape t) <= R) gs ->
    run N c "bmm_jvp" [VTens ts; VTens gs] <> NoFuel /\ u_bmm_jvp ts gs <> NoFuel /\
    forall x, run N c "bmm_jvp" [VTens ts; VTens gs] = Ret x <-> exists l, u_bmm_jvp ts gs = Ret l /\ x = (VTens l, VTens ts).
Proof. exact c87_bmm_jvp. Qed.
Print Assumptions C87_bmm_jvp.
Example C87_bmm_jvp_ex :
  let c := mkClosures Z.opp Z.add (fun x => x) Z.mul in
  let a := mkRaw [1; 2; 3; 4; 5; 6]%Z [2; 3] in
  let b := mkRaw [1; 0; 0; 1; 1; 1]%Z [3; 2] in
  let g := mkRaw [1; 10; 100; 1000]%Z [1; 4] in
  run (U := checked 64) 2 c "bmm_jvp" [VTens [a; b]; VTens [g]]
    = Ret (VTens [mkRaw [1; 10; 11; 100; 1000; 1100]%Z [1; 6]; mkRaw [401; 4010; 502; 5020; 603; 6030]%Z [1; 6]], VTens [a; b]) /\
  run (U := checked 64) 2 c "bmm_jvp" [VTens [a; a]; VTens [g]] = Panic PAssert.
Proof. exact c87_bmm_jvp_ex. Qed.

(** C87: with overflow checks, what [bmm_jvp] returns is what the model with unbounded numbers returns, and without the checks it
    returns the same; if it does not return, the model panics or a [usize] overflowed. *)
Theorem C87_bmm_jvp_checked :
  forall (T : Type) (NT : Num T) (M N : nat) (c : closures) (ts gs : list (raw T)),
    2 <= N ->
    (forall x, run (U := checked M) N c "bmm_jvp" [VTens ts; VTens gs] = Ret x ->
       run (U := wrapping M) N c "bmm_jvp" [VTens ts; VTens gs] = Ret x /\ exists l, bmm_jvp ts gs = Ret l /\ x = (VTens l, VTens ts)) /\
    (forall l, bmm_jvp ts gs = Ret l ->
       run (U := checked M) N c "bmm_jvp" [VTens ts; VTens gs] = Ret (VTens l, VTens ts) \/
       run (U := checked M) N c "bmm_jvp" [VTens ts; VTens gs] = Panic PArith).
Proof. exact c87_bmm_jvp_checked. Qed.
Print Assumptions C87_bmm_jvp_checked.
Example C87_bmm_jvp_checked_ex :
  let c := mkClosures Z.opp Z.add (fun x => x) Z.mul in
  let a := mkRaw [1; 2; 3; 4; 5; 6]%Z [2; 3] in
  let b := mkRaw [1; 0; 0; 1; 1; 1]%Z [3; 2] in
  let g := mkRaw [1; 10; 100; 1000]%Z [1; 4] in
  run (U := wrapping 64) 2 c "bmm_jvp" [VTens [a; b]; VTens [g]] = run (U := checked 64) 2 c "bmm_jvp" [VTens [a; b]; VTens [g]] /\
  bmm_jvp [a; b] [g] = Ret [mkRaw [1; 10; 11; 100; 1000; 1100]%Z [1; 6]; mkRaw [401; 4010; 502; 5020; 603; 6030]%Z [1; 6]] /\
  run (U := checked 6) 2 c "bmm_jvp" [VTens [a; b]; VTens [g]] = Panic PArith.
Proof. exact c87_bmm_jvp_checked_ex. Qed.

(** C87: sums, views and [*]: the statements compute what the model says, for every kind of word, panics included. *)
Theorem C87_views :
  forall (U : usize_ops) (T : Type) (NT : Num T) (N R : nat) (c : closures) (t : raw T) (v : view T) (l : tlike T),
    words U (S R) -> 2 <= N -> length (shape t) <= R -> rank_ok R (LView v) -> rank_ok R l ->
    run N c "is_scalar" [VTen (LRaw t)] = Ret (VBool (is_scalar t), VTen (LRaw t)) /\
    (forall s x, run N c "RawTensor::new_with_filler" [VVec s; VElem x] = let* t := u_raw_filler s x in Ret (VTen (LRaw t), VVec s)) /\
    run N c "RawTensor::sum" [VTen (LRaw t)]
      = (let* s := u_tl_sum (LRaw t) in let* g := u_raw_filler (shape t) Base.n_one in Ret (VTens [s; g], VTen (LRaw t))) /\
    (forall o, run N c "TensorView::new" [VTen (LRaw t); VRanges (Some o)] = let* v := u_view_new t o in Ret (VTen (LView v), VTen (LRaw t))) /\
    (forall s, run N c "reshape" [VTen (LView v); VVec s] = let* w := u_view_reshape v s in Ret (VTen (LView w), VTen (LView v))) /\
    (index_fuel (v_shape v) <= N -> u_tl_sum (LView v) <> NoFuel ->
       run N c "TensorView::sum" [VTen (LView v)] = let* s := u_tl_sum (LView v) in Ret (VTen (LRaw s), VTen (LView v))) /\
    (index_fuel (v_shape v) <= N -> u_view_eq v l <> NoFuel ->
       run N c "eq" [VTen (LView v); VTen l] = let* b := u_view_eq v l in Ret (VBool b, VTen (LView v))) /\
    (index_fuel (shape t) <= N -> u_mul_raw t l <> NoFuel ->
       run N c "mul" [VTen (LRaw t); VTen l] = let* x := u_mul_raw t l in Ret (VTen (LRaw x), VTen (LRaw t))).
Proof. exact c87_views. Qed.
Print Assumptions C87_views.
Example C87_views_ex :
  let c := mkClosures Z.opp Z.add (fun x => 2 * x)%Z (fun _ _ => 1%Z) in
  let t := mkRaw [1; 2; 3; 4; 5; 6]%Z [2; 3] in
  let v := mkView t [2; 2] [mkSR 0 2; mkSR 1 3] in
  run (U := checked 256) 20 c "TensorView::new" [VTen (LRaw t); VRanges (Some [mkSR 0 2; mkSR 1 3])] = Ret (VTen (LView v), VTen (LRaw t)) /\
  run (U := checked 256) 20 c "TensorView::sum" [VTen (LView v)] = Ret (VTen (LRaw (mkRaw [16]%Z [])), VTen (LView v)) /\
  run (U := checked 256) 20 c "eq" [VTen (LView v); VTen (LRaw (mkRaw [2; 3; 5; 6]%Z [2; 2]))] = Ret (VBool true, VTen (LView v)) /\
  run (U := checked 256) 20 c "eq" [VTen (LView v); VTen (LRaw (mkRaw [2; 3; 5; 7]%Z [2; 2]))] = Ret (VBool false, VTen (LView v)).
Proof. exact c87_views_ex. Qed.

(** C87: with unbounded words these are the functions of the model itself. *)
Theorem C87_model_views :
  forall (T : Type) (NT : Num T) (N : nat) (c : closures) (t : raw T) (v : view T) (l : tlike T),
    2 <= N -> index_fuel (shape t) <= N -> index_fuel (v_shape v) <= N ->
    (forall s x, run (U := unbounded) N c "RawTensor::new_with_filler" [VVec s; VElem x] = Ret (VTen (LRaw (raw_filler s x)), VVec s)) /\
    run (U := unbounded) N c "RawTensor::sum" [VTen (LRaw t)]
      = (let* s := tl_sum (LRaw t) in Ret (VTens [s; raw_filler (shape t) Base.n_one], VTen (LRaw t))) /\
    (forall o, run (U := unbounded) N c "TensorView::new" [VTen (LRaw t); VRanges (Some o)]
       = let* v := view_new t o in Ret (VTen (LView v), VTen (LRaw t))) /\
    (forall s, run (U := unbounded) N c "reshape" [VTen (LView v); VVec s] = let* w := view_reshape v s in Ret (VTen (LView w), VTen (LView v))) /\
    run (U := unbounded) N c "TensorView::sum" [VTen (LView v)] = (let* s := tl_sum (LView v) in Ret (VTen (LRaw s), VTen (LView v))) /\
    run (U := unbounded) N c "eq" [VTen (LView v); VTen l] = (let* b := view_eq v l in Ret (VBool b, VTen (LView v))) /\
    run (U := unbounded) N c "mul" [VTen (LRaw t); VTen l] = (let* x := mul_raw t l in Ret (VTen (LRaw x), VTen (LRaw t))).
Proof. exact c87_model_views. Qed.
Print Assumptions C87_model_views.
Example C87_model_views_ex :
  let c := mkClosures Z.opp Z.add (fun x => 2 * x)%Z (fun _ _ => 1%Z) in
  let t := mkRaw [1; 2; 3; 4; 5; 6]%Z [2; 3] in
  let v := mkView t [2; 2] [mkSR 0 2; mkSR 1 3] in
  index_fuel (shape t) <= 20 /\ index_fuel (v_shape v) <= 20 /\
  run (U := unbounded) 20 c "RawTensor::sum" [VTen (LRaw t)] = Ret (VTens [mkRaw [21]%Z []; mkRaw [1; 1; 1; 1; 1; 1]%Z [2; 3]], VTen (LRaw t)) /\
  run (U := unbounded) 20 c "mul" [VTen (LRaw t); VTen (LRaw (mkRaw [10]%Z []))] = Ret (VTen (LRaw (mkRaw [10; 20; 30; 40; 50; 60]%Z [2; 3])), VTen (LRaw t)) /\
  run (U := unbounded) 20 c "reshape" [VTen (LView v); VVec [3]] = Panic PAssert.
Proof. exact c87_model_views_ex. Qed.

