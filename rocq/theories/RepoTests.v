(** * RepoTests: the repository's own tests, run on the model

    Each definition below transcribes one [#[test]] function of /repo; the example after it says
    that the model passes it ([Ret tt]: no assertion fails and nothing panics).  They are evidence
    that the model computes what the code computes, not claims of their own.

    Left out: the assertions that depend on the platform's [tanh] to the last digits
    (test_tanh_sets_grad, test_multi_dimensional_tanh, test_tanh_twice_sets_grad,
    test_tanh_derivative, element_wise_ops.rs:489-603), for which the example says that the program
    reaches the assertion, whatever [tanh] is; and test_mlp_fits_random_function
    (nn/feed_foward.rs:67-152), which is ignored in the repository and needs the random generator. *)
From Coq Require Import ZArith SpecFloat.
From Verif Require Import Base Lists ModelIndex ModelTensor ModelOps ModelJvp ModelGraph ModelNN Instances.
From Verif Require Import Spec IndexFacts ClaimsTensor.

(** 64-bit floats, the default type of literals such as [1.0] *)
Definition f64 : Set := spec_float.
Definition F64Num : Num f64 := {|
  n_zero := S754_zero false;
  n_one := S754_finite false (2 ^ 52) (-52);
  n_add := SFadd 53 1024;
  n_mul := SFmul 53 1024;
  n_sub := SFsub 53 1024;
  n_neg := SFopp;
  n_lt := SFltb;
  n_ge := fun x y => SFleb y x;
  n_eq := SFeqb;
  n_abs := SFabs;
  n_tanh := fun x => x |}.

(** The literal [m / 10^k], rounded: both are whole numbers below 2^53, so one division rounds once. *)
Definition whole (m : Z) : f64 := binary_normalize 53 1024 m 0 false.
Definition lit (m : Z) (k : nat) : f64 := SFdiv 53 1024 (whole m) (whole (10 ^ Z.of_nat k)).

Section Harness.
Context {T : Type} {NT : Num T}.

(** [[x, y, …]] and [[[x, …], …]] *)
Definition arr (l : list T) : nest T := NVec (map NLeaf l).
Definition arr2 (l : list (list T)) : nest T := NVec (map arr l).

(** [assert_eq!] of two tensors *)
Definition assert_eq (h : heap T) (i j : nat) : outcome unit :=
  let* a := hget h i in
  let* b := hget h j in
  assert (raw_eq (n_val a) (n_val b)).

(** [assert_eq!(t, RcTensor::from(n))] *)
Definition assert_is (h : heap T) (i : nat) (n : nest T) : outcome unit :=
  let* (h, j) := op_from h n in assert_eq h i j.

(** [assert_eq!(t.grad(), RcTensor::from(n))] *)
Definition assert_grad (h : heap T) (i : nat) (n : nest T) : outcome unit :=
  let* (h, g) := op_grad h i in assert_is h g n.

(** [t.sum().elem()] *)
Definition sum_elem (h : heap T) (i : nat) : outcome T :=
  let* (h, s) := op_sum h i in
  let* nd := hget h s in tl_elem (LRaw (n_val nd)).
End Harness.

(** ** src/nn/linear.rs *)
Section Linear.
Local Existing Instance F64Num.

(** Lines 63-75 *)
Definition test_layer_no_grad : outcome unit :=
  let* (h, w) := op_filler empty_heap [2; 2] (whole 1) in
  let* (h, b) := op_filler h [1; 2] (whole 1) in
  let layer := linear_new w b None in
  let* (h, input) := op_new h [whole 1; whole 2] [1; 2] in
  let* (h, res) := linear_forward layer h input in
  let* (h, expected) := op_new h [whole 4; whole 4] [1; 2] in
  assert_eq h res expected.
Example test_layer_no_grad_passes : test_layer_no_grad = Ret tt.
Proof. vm_compute. reflexivity. Qed.

Definition the_weights : nest f64 := arr2 [[whole 1; whole (-2)]; [lit (-11) 1; lit 7 1]].

(** Lines 77-93 *)
Definition test_layer : outcome unit :=
  let* (h, w) := op_from empty_heap the_weights in
  let* (h, b) := op_filler h [1; 2] (whole 1) in
  let layer := linear_new w b None in
  let* (h, input) := op_new h [whole 1; whole 2] [1; 2] in
  let* (h, res) := linear_forward layer h input in
  let* (h, s) := op_sum h res in
  let* h := backward h s in
  let* (h, _) := op_grad h w in
  let* (h, _) := op_grad h b in
  let* (h, res) := linear_forward layer h input in
  let* (h, s) := op_sum h res in
  let* h := backward h s in
  let* (h, _) := op_grad h w in
  let* (_, _) := op_grad h b in
  Ret tt.
Example test_layer_passes : test_layer = Ret tt.
Proof. vm_compute. reflexivity. Qed.

(** Lines 95-108 *)
Definition test_layer_batch_tensor : outcome unit :=
  let* (h, w) := op_from empty_heap the_weights in
  let* (h, b) := op_filler h [2] (whole 1) in
  let layer := linear_new w b None in
  let* (h, input) := op_new h [whole 1; whole 2] [1; 2] in
  let* (h, res) := linear_forward layer h input in
  let* (h, s) := op_sum h res in
  let* h := backward h s in
  let* (h, _) := op_grad h w in
  let* (_, _) := op_grad h b in
  Ret tt.
Example test_layer_batch_tensor_passes : test_layer_batch_tensor = Ret tt.
Proof. vm_compute. reflexivity. Qed.

(** src/nn/feed_foward.rs:50-65 *)
Definition test_mlp_creation : outcome unit :=
  let* (h, w1) := op_from empty_heap the_weights in
  let* (h, b1) := op_filler h [1; 2] (whole 1) in
  let* (h, w2) := op_from h the_weights in
  let* (_, b2) := op_filler h [1; 2] (whole 1) in
  let _ : mlp f64 := [linear_new w1 b1 (Some op_tanh); linear_new w2 b2 (Some op_tanh)] in
  Ret tt.
Example test_mlp_creation_passes : test_mlp_creation = Ret tt.
Proof. vm_compute. reflexivity. Qed.
End Linear.

(** ** src/tensor/rc_tensor.rs *)
Section Rc.
Local Existing Instance F64Num.

(** Lines 375-381 *)
Definition test_update_grad : outcome unit :=
  let* (h, tensor) := op_from empty_heap (arr [whole 1]) in
  let* (h, grad) := op_from h (arr [whole 7]) in
  let* h := op_update_grad h tensor grad in
  let* (h, g) := op_grad h tensor in
  assert_eq h g grad.
Example test_update_grad_passes : test_update_grad = Ret tt.
Proof. vm_compute. reflexivity. Qed.

(** Lines 383-388 *)
Definition test_neg : outcome unit :=
  let* (h, tensor) := op_from empty_heap (arr [whole 1]) in
  let* (h, n) := op_neg h tensor in
  let* h := backward h n in
  assert_grad h tensor (arr [whole (-1)]).
Example test_neg_passes : test_neg = Ret tt.
Proof. vm_compute. reflexivity. Qed.

(** Lines 390-398; test_add_two_inputs_cloned, lines 400-408, differs only by clones of handles. *)
Definition test_add_two_inputs : outcome unit :=
  let* (h, tensor1) := op_from empty_heap (arr [whole 111]) in
  let* (h, tensor2) := op_from h (arr [whole (-12)]) in
  let* (h, s) := op_add h tensor1 tensor2 in
  let* h := backward h s in
  assert_grad h tensor1 (arr [whole 1]) ;;
  assert_grad h tensor2 (arr [whole 1]).
Example test_add_two_inputs_passes : test_add_two_inputs = Ret tt.
Proof. vm_compute. reflexivity. Qed.

(** Lines 410-419 *)
Definition test_add_3 : outcome unit :=
  let* (h, tensor1) := op_from empty_heap (arr [whole 1]) in
  let* (h, tensor2) := op_from h (arr [whole 1]) in
  let* (h, tensor3) := op_from h (arr [whole 1]) in
  let* (h, n) := op_neg h tensor1 in
  let* (h, s) := op_add h tensor2 tensor3 in
  let* (h, r) := op_add h n s in
  let* h := backward h r in
  assert_grad h tensor1 (arr [whole (-1)]) ;;
  assert_grad h tensor2 (arr [whole 1]) ;;
  assert_grad h tensor3 (arr [whole 1]).
Example test_add_3_passes : test_add_3 = Ret tt.
Proof. vm_compute. reflexivity. Qed.

(** Lines 421-427 and 429-435 (operands by reference and by value); the literals are [i32]s, here
    unbounded integers: nothing comes near the bounds. *)
Definition test_element_wise_multiplication : outcome unit :=
  let* (h, lhs) := op_from empty_heap (arr [1; 2; 3]%Z) in
  let* (h, rhs) := op_from h (arr [7; 2; 8]%Z) in
  let* (h, p) := op_mul h lhs rhs in
  assert_is h p (arr [7; 4; 24]%Z).
Example test_element_wise_multiplication_passes : test_element_wise_multiplication = Ret tt.
Proof. vm_compute. reflexivity. Qed.
End Rc.

(** ** src/tensor/functional/misc.rs *)
Section Misc.
Local Existing Instance F64Num.

(** Lines 376-383 *)
Definition test_dot_autograd : outcome unit :=
  let* (h, lhs) := op_from empty_heap (arr [whole 1; whole 2; whole 3]) in
  let* (h, rhs) := op_from h (arr [whole 4; whole 5; whole 6]) in
  let* (h, d) := op_dot h lhs rhs in
  let* h := backward h d in
  let* (h, gl) := op_grad h lhs in
  let* (h, gr) := op_grad h rhs in
  assert_eq h rhs gl ;; assert_eq h lhs gr.
Example test_dot_autograd_passes : test_dot_autograd = Ret tt.
Proof. vm_compute. reflexivity. Qed.

(** Lines 400-405 *)
Definition test_dot : outcome unit :=
  let* (h, vec) := op_new empty_heap [0; 1; 2]%Z [3] in
  let* (h, d) := op_dot h vec vec in
  let* (h, e) := op_new h [5]%Z [1] in
  assert_eq h d e.
Example test_dot_passes : test_dot = Ret tt.
Proof. vm_compute. reflexivity. Qed.

(** Lines 407-419 *)
Definition test_bmm_jvp : outcome unit :=
  let* (h, matrix_a) := op_from empty_heap (arr2 [[whole 1; whole 2]; [whole 3; whole 4]]) in
  let* (h, matrix_b) := op_from h (arr2 [[whole 10; whole 3]; [whole 42; whole (-7)]]) in
  let* (h, p) := op_bmm h matrix_a matrix_b in
  let* (h, s) := op_sum h p in
  let* h := backward h s in
  assert_grad h matrix_a (arr2 [[whole 13; n_add (whole 42) (whole (-7))];
                                [n_add (whole 10) (whole 3); n_add (whole 42) (whole (-7))]]) ;;
  assert_grad h matrix_b (arr2 [[whole 4; whole 4]; [whole 6; whole 6]]).
Example test_bmm_jvp_passes : test_bmm_jvp = Ret tt.
Proof. vm_compute. reflexivity. Qed.

(** Lines 421-444 *)
Definition test_bmm_jvp_differing_shapes : outcome unit :=
  let* (h, matrix_a) := op_from empty_heap
     (arr2 [[whole 1; whole 2]; [whole 3; whole 4]; [lit 1234 1; lit 1 3]]) in
  let* (h, matrix_b) := op_from h
     (arr2 [[whole 10; lit 1 2; whole (-12)]; [whole 42; lit 3142 3; whole (-7)]]) in
  let* (h, expected_jvp_a) := op_from h
     (arr2 [[lit (-19900) 4; lit 381420 4]; [lit (-19900) 4; lit 381420 4]; [lit (-19900) 4; lit 381420 4]]) in
  let* (h, expected_jvp_b) := op_from h
     (arr2 [[lit 1274500 4; lit 1274500 4; lit 1274500 4]; [lit 60010 4; lit 60010 4; lit 60010 4]]) in
  let* (h, p) := op_bmm h matrix_a matrix_b in
  let* (h, s) := op_sum h p in
  let* h := backward h s in
  let* (h, ga) := op_grad h matrix_a in
  let* (h, da) := op_sub h ga expected_jvp_a in
  let* ea := sum_elem h da in
  assert (n_ge (lit 1 3) ea) ;;
  let* (h, gb) := op_grad h matrix_b in
  let* (h, db) := op_sub h gb expected_jvp_b in
  let* eb := sum_elem h db in
  assert (n_ge (lit 1 3) eb).
Example test_bmm_jvp_differing_shapes_passes : test_bmm_jvp_differing_shapes = Ret tt.
Proof. vm_compute. reflexivity. Qed.

(** Lines 446-466 *)
Definition test_add_grad : outcome unit :=
  let* (h, lhs) := op_from empty_heap (arr [whole 1; whole 2; whole 3]) in
  let* (h, rhs) := op_from h (arr [whole 10; whole 42; whole (-5)]) in
  let* (h, left_grad) := op_from h (arr [whole 1; whole 1; whole 1]) in
  let* (h, a) := op_add h lhs rhs in
  let* (h, s) := op_sum h a in
  let* h := backward h s in
  let check (i : nat) :=
    let* (h, computed_grad) := op_grad h i in
    let* (h, diff) := op_sub h computed_grad left_grad in
    let* e := sum_elem h diff in
    assert (n_ge (lit 1 3) e) in
  check lhs ;; check rhs.
Example test_add_grad_passes : test_add_grad = Ret tt.
Proof. vm_compute. reflexivity. Qed.

(** Lines 468-490 *)
Definition test_bmm_2x2 : outcome unit :=
  let* (h, matrix) := op_new empty_heap [0; 1; 2; 3]%Z [2; 2] in
  let sh := [2; 1] in
  let* (h, e1) := op_new h [0; 1]%Z [2; 1] in
  let* (h, e2) := op_new h [1; 0]%Z [2; 1] in
  let* (h, diag) := op_new h [1; 1]%Z [2; 1] in
  let* (h, r) := op_bmm h matrix diag in
  let* nd := hget h r in
  assert (shape_eqb (shape (n_val nd)) sh) ;;
  let* (h, e) := op_new h [1; 5]%Z sh in
  assert_eq h r e ;;
  let h := zero_grad h matrix in
  let* (h, r) := op_bmm h matrix e1 in
  let* (h, s) := op_sum h r in
  let* h := backward h s in
  let* (h, e) := op_new h [1; 3]%Z sh in
  assert_eq h r e ;;
  let* (h, _) := op_grad h matrix in
  let h := zero_grad h matrix in
  let* (h, s) := op_sum h r in
  let* h := backward h s in
  let* (h, r) := op_bmm h matrix e2 in
  let* (h, _) := op_grad h matrix in
  let* (h, e) := op_new h [0; 2]%Z sh in
  assert_eq h r e.
Example test_bmm_2x2_passes : test_bmm_2x2 = Ret tt.
Proof. vm_compute. reflexivity. Qed.

(** Lines 492-519: random elements, so for all elements *)
Definition test_bmm_runs {T} {NT : Num T} (left_shape right_shape : list nat) (left_array right_array : list T)
  : outcome unit :=
  let* (h, lhs) := op_new empty_heap left_array left_shape in
  let* (h, rhs) := op_new h right_array right_shape in
  let* (h, p) := op_bmm h lhs rhs in
  let* (h, s) := op_sum h p in
  let* _ := backward h s in
  Ret tt.
End Misc.

Ltac elements l n H :=
  lazymatch n with
  | O => destruct l; [|discriminate H]
  | S ?m => let l' := fresh "l" in destruct l as [|? l']; [discriminate H|]; elements l' m H
  end.

Example test_bmm_runs_passes : forall (T : Type) (NT : Num T) (ls rs : list nat) (l r : list T),
  In (ls, rs) [([2; 2], [2; 2]); ([2; 2], [2; 1]); ([8; 2], [2; 1])] ->
  length l = product ls -> length r = product rs ->
  test_bmm_runs ls rs l r = Ret tt.
Proof.
  intros T NT ls rs l r [E|[E|[E|[]]]] Hl Hr; injection E as <- <-; unfold product in Hl, Hr; simpl in Hl, Hr.
  - elements l 4 Hl. elements r 4 Hr. vm_compute. reflexivity.
  - elements l 4 Hl. elements r 2 Hr. vm_compute. reflexivity.
  - elements l 16 Hl. elements r 2 Hr. vm_compute. reflexivity.
Qed.

(** ** src/tensor/functional/element_wise_ops.rs *)
Section Elementwise.
Local Existing Instance F64Num.

(** Lines 416-469: one case *)
Definition add_jvp_case (lhs rhs grad expected_left expected_right : nest f64) : outcome unit :=
  let* lhs := raw_from lhs in
  let* rhs := raw_from rhs in
  let* grad := raw_from grad in
  let* expected_left := raw_from expected_left in
  let* expected_right := raw_from expected_right in
  let count := tl_count (LRaw lhs) in
  let* js := add_jvp [lhs; rhs] [grad] in
  let* rows := vindex (shape grad) 0 in
  assert (shape_eqb (shape expected_left) [rows; count]) ;;
  let* j0 := vindex js 0 in
  let* j1 := vindex js 1 in
  assert (raw_eq j0 expected_left) ;; assert (raw_eq j1 expected_right).

Definition n123 : list f64 := [whole 1; whole 2; whole 3].
Definition n111 : list f64 := [whole 1; whole 1; whole 1].
Definition n1111 : list f64 := [whole 1; whole 1; whole 1; whole 1].
Definition test_add_jvp : outcome unit :=
  add_jvp_case (arr n123) (arr n123) (arr2 [n111]) (arr2 [n111]) (arr2 [n111]) ;;
  add_jvp_case (arr [whole 10; whole (-2); whole 3; whole 4]) (arr [whole 1; whole 2; whole 3; lit 1 1])
    (arr2 [n1111]) (arr2 [n1111]) (arr2 [n1111]) ;;
  add_jvp_case (arr n123) (arr n123) (arr2 [n123]) (arr2 [n123]) (arr2 [n123]) ;;
  add_jvp_case (arr n123) (arr n123) (arr2 [n123; n123]) (arr2 [n123; n123]) (arr2 [n123; n123]) ;;
  add_jvp_case (arr [whole 1]) (arr n123) (arr2 [n123; n123]) (arr2 [[whole 6]; [whole 6]]) (arr2 [n123; n123]).
Example test_add_jvp_passes : test_add_jvp = Ret tt.
Proof. vm_compute. reflexivity. Qed.

(** Lines 471-480 *)
Definition test_sum_backward : outcome unit :=
  let* (h, input) := op_from empty_heap (arr n123) in
  let* (h, s) := op_sum h input in
  let* h := backward h s in
  assert_grad h input (arr n111).
Example test_sum_backward_passes : test_sum_backward = Ret tt.
Proof. vm_compute. reflexivity. Qed.

(** Lines 482-487 *)
Definition test_add_to_zero : outcome unit :=
  let* (h, a) := op_from empty_heap (arr [1; 2; 3]%Z) in
  let* (h, b) := op_from h (arr [1; 2; 3]%Z) in
  let* (h, res) := op_sub h a b in
  assert_is h res (arr [0; 0; 0]%Z) ;;
  let* e := sum_elem h res in assert (Z.eqb e 0).
Example test_add_to_zero_passes : test_add_to_zero = Ret tt.
Proof. vm_compute. reflexivity. Qed.

(** Lines 605-616; the last sum consumes the handles, to the same effect. *)
Definition test_add_functional : outcome unit :=
  let* (h, tensor1) := op_filler empty_heap [4; 4] 1%Z in
  let* (h, tensor2) := op_new h (map Z.of_nat (seq 0 32)) [2; 4; 4] in
  let* (h, tensor3) := op_new h (map Z.of_nat (seq 1 32)) [2; 4; 4] in
  let* (h, a) := op_add h tensor2 tensor1 in
  let* (h, s) := op_sum h a in
  let* h := backward h s in
  let* (h, _) := op_grad h tensor1 in
  let* (h, r) := op_add h tensor2 tensor1 in
  assert_eq h r tensor3 ;;
  let* (h, r) := op_add h tensor1 tensor2 in
  assert_eq h r tensor3 ;;
  let* (h, r) := op_add h tensor1 tensor2 in
  assert_eq h r tensor3.
Example test_add_functional_passes : test_add_functional = Ret tt.
Proof. vm_compute. reflexivity. Qed.

(** [v >= 0. && v - ev < 1e-3 && ev - v < 1e-3] for all pairs *)
Definition close (v ev : list f64) : outcome unit :=
  assert (forallb (fun p => n_ge (fst p) (whole 0) && n_lt (n_sub (fst p) (snd p)) (lit 1 3)
                            && n_lt (n_sub (snd p) (fst p)) (lit 1 3)) (combine v ev)).

(** Lines 618-634 *)
Definition test_abs : outcome unit :=
  let* (h, tensor) := op_from empty_heap
     (arr2 [[whole (-1); whole (-2); whole 3]; [lit (-1) 3; whole (-700); lit 12 1]]) in
  let* (h, expected) := op_from h (arr2 [[whole 1; whole 2; whole 3]; [lit 1 3; whole 700; lit 12 1]]) in
  let* (h, res) := op_abs h tensor in
  assert_eq h res expected ;;
  let* (h, s) := op_sum h res in
  let* h := backward h s in
  let* r := hget h res in
  let* e := hget h expected in
  close (array (n_val r)) (array (n_val e)) ;;
  assert_grad h tensor (arr2 [[whole (-1); whole (-1); whole 1]; [whole (-1); whole (-1); whole 1]]).
Example test_abs_passes : test_abs = Ret tt.
Proof. vm_compute. reflexivity. Qed.

(** Lines 636-658 *)
Definition test_abs_sum : outcome unit :=
  let* (h, tensor1) := op_from empty_heap
     (arr2 [[whole (-1); whole (-2); whole 3]; [lit (-1) 3; whole (-700); lit 12 1]]) in
  let* (h, tensor2) := op_from h
     (arr2 [[whole 12; whole 7; lit 123 2]; [lit 1 3; lit 42 1; whole (-10)]]) in
  let* (h, expected) := op_from h
     (arr2 [[n_sub (whole 12) (whole 1); n_sub (whole 7) (whole 2); n_add (lit 123 2) (whole 3)];
            [whole 0; n_add (lit (-42) 1) (whole 700); n_sub (whole 10) (lit 12 1)]]) in
  let* (h, a) := op_add h tensor2 tensor1 in
  let* (h, res) := op_abs h a in
  let* (h, s) := op_sum h res in
  let* h := backward h s in
  let* r := hget h res in
  let* e := hget h expected in
  close (array (n_val r)) (array (n_val e)).
Example test_abs_sum_passes : test_abs_sum = Ret tt.
Proof. vm_compute. reflexivity. Qed.
End Elementwise.

(** The tests of [tanh], up to the final assertion, for any element type. *)
Section Tanh.
Context {T : Type} {NT : Num T}.

(** Lines 489-502 and 524-557; [once]: [tanh], twice: [tanh] of [tanh]; the result is the left side
    of the assertion. *)
Definition test_tanh_sets_grad (once : bool) (x epsilon inv_epsilon : T) : outcome T :=
  let f h i := if once then op_tanh h i else let* (h, t) := op_tanh h i in op_tanh h t in
  let* (h, input) := op_from empty_heap (arr [x]) in
  let* (h, t) := f h input in
  let* (h, output) := op_sum h t in
  let* (h, eps) := op_scalar h epsilon in
  let* (h, p) := op_add h input eps in
  let* (h, tp) := f h p in
  let* (h, output_perturbed) := op_sum h tp in
  let* (h, inv) := op_scalar h inv_epsilon in
  let* (h, d) := op_sub h output_perturbed output in
  let* (h, numerical_derivative) := op_mul h inv d in
  let* h := backward h output in
  let* (h, grad) := op_grad h input in
  let* (h, diff) := op_sub h numerical_derivative grad in
  let* (h, abs_diff) := op_abs h diff in
  sum_elem h abs_diff.

(** Lines 504-522 *)
Definition test_multi_dimensional_tanh (a b c d : T) : outcome (list T) :=
  let* (h, input) := op_from empty_heap (arr2 [[a; b]; [c; d]]) in
  let* (h, t) := op_tanh h input in
  let* (h, tt_) := op_tanh h t in
  let* (h, output) := op_sum h tt_ in
  let* h := backward h output in
  let* (h, grad) := op_grad h input in
  let* g := hget h grad in Ret (array (n_val g)).

(** [tanh_derivative] with [full_jacobian_output = false]: element_wise_ops.rs:89-96 *)
Definition tanh_derivative_flat (t : raw T) : outcome (raw T) :=
  let* es := elements (LRaw t) in
  raw_new (map (fun x => n_sub n_one (n_mul (n_tanh x) (n_tanh x))) es) (shape t).

(** Lines 559-603 *)
Definition test_tanh_derivative (values : list T) (epsilon inv_epsilon : T) : outcome T :=
  let* (h, input) := op_new empty_heap values [4; 4; 4] in
  let* (h, epsilon_tensor) := op_filler h [4; 4; 4] epsilon in
  let* (h, perturbed_input) := op_add h input epsilon_tensor in
  let* (h, output) := op_tanh h input in
  let* (h, output_perturbed) := op_tanh h perturbed_input in
  let* (h, inv) := op_scalar h inv_epsilon in
  let* (h, d) := op_sub h output_perturbed output in
  let* (h, numerical_derivative) := op_mul h inv d in
  let* i := hget h input in
  let* calculated := tanh_derivative_flat (n_val i) in
  let* (h, calculated_derivative) := op_new h (array calculated) (shape calculated) in
  let* (h, diff) := op_sub h numerical_derivative calculated_derivative in
  let* (h, abs_diff) := op_abs h diff in
  sum_elem h abs_diff.
End Tanh.

Example test_tanh_sets_grad_runs : forall (T : Type) (NT : Num T) (once : bool) (x e i : T),
  exists r, test_tanh_sets_grad once x e i = Ret r.
Proof. intros. destruct once; eexists; lazy; reflexivity. Qed.

Example test_multi_dimensional_tanh_runs : forall (T : Type) (NT : Num T) (a b c d : T),
  exists r, test_multi_dimensional_tanh a b c d = Ret r.
Proof. intros. eexists. lazy. reflexivity. Qed.

Example test_tanh_derivative_runs : forall (T : Type) (NT : Num T) (values : list T) (e i : T),
  length values = 64 -> exists r, test_tanh_derivative values e i = Ret r.
Proof.
  intros T NT values e i H. elements values 64 H. eexists. lazy. reflexivity.
Qed.

(** ** src/tensor/utils.rs *)

(** Lines 54-69 *)
Definition test_element_iterator : outcome unit :=
  let v := [1; 2; 3]%Z in
  let* tensor := raw_from (arr v) in
  let* r := slice_range_new 0 3 in
  let* vw := view_new tensor [r] in
  let* a := elements (LView vw) in
  let* b := elements (LRaw tensor) in
  assert (forallb (fun p => Z.eqb (fst (fst p)) (snd p) && Z.eqb (snd (fst p)) (snd p))
                  (combine (combine a b) v)).
Example test_element_iterator_passes : test_element_iterator = Ret tt.
Proof. vm_compute. reflexivity. Qed.

(** Lines 160-175 *)
Definition test_tensor_index (shapes : list (list nat)) : outcome unit :=
  foldM (fun _ s =>
    foldM (fun _ i =>
      let* r := tensor_index i s in
      match r with
      | Err _ => Panic PUnwrap
      | Ok index =>
        let* g := global_index index s None in
        match g with Err _ => Panic PUnwrap | Ok g => assert (i =? g) end
      end) (seq 0 (product s)) tt) shapes tt.
(** There are 26208 positions to test in the second shape: by C04 instead of by computation. *)
Example test_tensor_index_passes :
  test_tensor_index [[1; 2; 3; 1]; [3; 12; 7; 4; 1; 1; 2; 13]; [1; 2; 3; 4; 5; 7]] = Ret tt.
Proof.
  unfold test_tensor_index.
  assert (IN : forall s l, positive s -> (forall i, In i l -> i < size s) ->
    foldM (fun _ i =>
      let* r := tensor_index i s in
      match r with
      | Err _ => Panic PUnwrap
      | Ok index =>
        let* g := global_index index s None in
        match g with Err _ => Panic PUnwrap | Ok g => assert (i =? g) end
      end) l tt = Ret tt).
  { intros s l P. induction l as [|i l IH]; intros B; [reflexivity|]. cbn [foldM].
    destruct (proj1 (c04_position_bijection s P) i (B i (or_introl eq_refl))) as (x & E1 & _ & E2).
    rewrite E1. cbn [bind]. rewrite E2. cbn [bind]. rewrite Nat.eqb_refl. cbn [assert bind].
    apply IH. intros j Hj. apply B. right. exact Hj. }
  assert (ALL : forall ss, Forall positive ss ->
    foldM (fun _ s => foldM (fun _ i =>
      let* r := tensor_index i s in
      match r with
      | Err _ => Panic PUnwrap
      | Ok index =>
        let* g := global_index index s None in
        match g with Err _ => Panic PUnwrap | Ok g => assert (i =? g) end
      end) (seq 0 (product s)) tt) ss tt = Ret tt).
  { induction ss as [|s ss IH]; intros F; [reflexivity|]. inversion F; subst. cbn [foldM].
    rewrite (IN s); [cbn [bind]; apply IH; assumption|assumption|].
    intros i Hi. apply in_seq in Hi. rewrite product_size in Hi. lia. }
  apply ALL. unfold positive. repeat constructor.
Qed.

(** Lines 262-284 *)
Definition test_increment_index : outcome unit :=
  let dimensions := [2; 3; 2] in
  let* _ := foldM (fun index expected =>
      let* (index, valid) := increment_index index dimensions in
      assert valid ;; assert (shape_eqb index expected) ;; Ret index)
    [[0; 0; 1]; [0; 1; 0]; [0; 1; 1]; [0; 2; 0]; [0; 2; 1]; [1; 0; 0]; [1; 0; 1]; [1; 1; 0]; [1; 1; 1];
     [1; 2; 0]; [1; 2; 1]] [0; 0; 0] in
  Ret tt.
Example test_increment_index_passes : test_increment_index = Ret tt.
Proof. vm_compute. reflexivity. Qed.

(** Lines 286-302 *)
Example test_index_iterator_passes :
  index_iter_collect [2; 2; 2] =
  Ret [[0; 0; 0]; [0; 0; 1]; [0; 1; 0]; [0; 1; 1]; [1; 0; 0]; [1; 0; 1]; [1; 1; 0]; [1; 1; 1]].
Proof. vm_compute. reflexivity. Qed.

(** ** src/tensor/tensor_view.rs:178-192 *)
Definition test_sum_tensor_view : outcome unit :=
  let plane := arr2 [[0; 1; 2; 3]; [2; 3; 4; 5]; [3; 4; 5; 6]]%Z in
  let* tensor := raw_from (NVec [plane; plane]) in
  let* r1 := slice_range_new 0 2 in
  let* r2 := slice_range_new 1 2 in
  let* r3 := slice_range_new 2 4 in
  let* vw := tl_slice (LRaw tensor) [r1; r2; r3] in
  let* s := tl_sum (LView vw) in
  let* e := tl_elem (LRaw s) in
  assert (Z.eqb e (2 * (4 + 5))).
Example test_sum_tensor_view_passes : test_sum_tensor_view = Ret tt.
Proof. vm_compute. reflexivity. Qed.

(** ** tests/test_tensor.rs *)
Definition zeq (a b : Z) : outcome unit := assert (Z.eqb a b).
Definition upto (a n : nat) : list Z := map Z.of_nat (seq a n).

(** [t.slice(vec![SliceRange::new(a, b), …])] *)
Definition slice_of (t : raw Z) (o : list (nat * nat)) : outcome (view Z) :=
  let* rs := mapM (fun '(a, b) => slice_range_new a b) o in tl_slice (LRaw t) rs.

(** Lines 4-38; the slices that are only printed are taken too. *)
Definition test_slicing : outcome unit :=
  let* tensor1 := raw_from (arr2 [[0; 1; 2]; [3; 4; 5]]%Z) in
  let* tensor2 := raw_from (arr2 [[1; 2]; [4; 5]]%Z) in
  let* _ := slice_of tensor1 [(0, 2); (1, 2)] in
  let* a := slice_of tensor1 [(0, 2); (1, 3)] in
  let* b := slice_of tensor2 [(0, 2); (0, 2)] in
  let* e := view_eq a (LView b) in
  assert e ;;
  let* slice1 := slice_of tensor1 [(0, 2); (1, 3)] in
  let* slice2 := slice_of tensor1 [(0, 2); (0, 3)] in
  let* x := view_at slice1 [0; 0] in
  zeq x 1 ;;
  let* e := view_eq slice1 (LView slice2) in
  assert (negb e) ;;
  let* tensor := raw_new (upto 0 32) [2; 4; 4] in
  let* slice := slice_of tensor [(1, 2); (2, 3); (1, 4)] in
  assert (shape_eqb (tl_shape (LView slice)) [1; 1; 3]) ;;
  let* t := raw_from (NVec [arr2 [[25; 26; 27]%Z]]) in
  let* e := view_eq slice (LRaw t) in
  assert e.
Example test_slicing_passes : test_slicing = Ret tt.
Proof. vm_compute. reflexivity. Qed.

(** Lines 40-45 and 47-52 (arrays and vectors) *)
Definition test_from_array : outcome unit :=
  let* tensor1 := raw_from (arr2 [[0; 1; 2]; [3; 4; 5]]%Z) in
  let* tensor2 := raw_new (upto 0 6) [2; 3] in
  assert (raw_eq tensor1 tensor2).
Example test_from_array_passes : test_from_array = Ret tt.
Proof. vm_compute. reflexivity. Qed.

(** [*t.get(&index).unwrap()] *)
Definition get (t : raw Z) (index : list nat) : outcome Z := let* r := raw_get t index in unwrap r.
Definition gets (t : raw Z) (l : list (list nat * Z)) : outcome unit :=
  foldM (fun _ '(i, e) => let* x := get t i in zeq x e) l tt.

(** Lines 55-61 *)
Definition test_new_with_filler : outcome unit :=
  let vec := raw_filler [4] 4%Z in
  assert (shape_eqb (shape vec) [4]) ;; gets vec [([0], 4%Z)].
Example test_new_with_filler_passes : test_new_with_filler = Ret tt.
Proof. vm_compute. reflexivity. Qed.

(** Lines 64-70 *)
Definition test_get_2x2x2 : outcome unit :=
  let* matrix := raw_new (upto 0 8) [2; 2; 2] in
  gets matrix [([0; 0; 0], 0%Z); ([0; 1; 0], 2%Z); ([1; 1; 1], 7%Z)].
Example test_get_2x2x2_passes : test_get_2x2x2 = Ret tt.
Proof. vm_compute. reflexivity. Qed.

(** Lines 73-78 *)
Definition test_get_3x3x4 : outcome unit :=
  let* matrix := raw_new (upto 0 36) [3; 3; 4] in
  gets matrix [([0; 0; 0], 0%Z); ([2; 2; 3], 35%Z)].
Example test_get_3x3x4_passes : test_get_3x3x4 = Ret tt.
Proof. vm_compute. reflexivity. Qed.

(** Lines 81-100 *)
Definition test_get_3x3 : outcome unit :=
  let* matrix := raw_new (upto 0 9) [3; 3] in
  let* _ := foldM (fun prev ij =>
      let* curr := get matrix [fst ij; snd ij] in zeq (prev + 1) curr ;; Ret curr)
    (list_prod (seq 0 3) (seq 0 3)) (-1)%Z in
  gets matrix [([0; 0], 0%Z); ([0; 1], 1%Z); ([1; 0], 3%Z); ([2; 2], 8%Z)].
Example test_get_3x3_passes : test_get_3x3 = Ret tt.
Proof. vm_compute. reflexivity. Qed.

(** Lines 103-113 *)
Definition test_add_scalar : outcome unit :=
  let* tensor1 := raw_new (upto 0 32) [2; 4; 4] in
  let* tensor2 := raw_new (upto 42 32) [2; 4; 4] in
  let scalar := raw_scalar 42%Z in
  let* a := add_raw (LRaw tensor1) (LRaw scalar) in
  assert (raw_eq a tensor2) ;;
  let* b := add_raw (LRaw scalar) (LRaw tensor1) in
  assert (raw_eq b tensor2).
Example test_add_scalar_passes : test_add_scalar = Ret tt.
Proof. vm_compute. reflexivity. Qed.

(** Lines 117-125 *)
Definition test_creation : outcome unit :=
  let* matrix := raw_new (upto 0 4) [2; 2] in gets matrix [([0; 0], 0%Z)].
Example test_creation_passes : test_creation = Ret tt.
Proof. vm_compute. reflexivity. Qed.

(** Lines 130-137 *)
Definition test_right_scalar_multiplication : outcome unit :=
  let vec := raw_filler [4] 1%Z in
  let* e := raw_new [42; 42; 42; 42]%Z [4] in
  assert (raw_eq (right_scalar_multiplication (LRaw vec) 42%Z) e).
Example test_right_scalar_multiplication_passes : test_right_scalar_multiplication = Ret tt.
Proof. vm_compute. reflexivity. Qed.
