(** * PropertiesGrad: the theorems of ClaimsGrad.v, restated (generated by tools/genprops.py) *)
From Coq Require Import Reals Lra.
From Verif Require Import Base ModelIndex ModelTensor ModelOps ModelJvp ModelGraph Spec SpecDual SpecGraph
  Lists IndexFacts TensorFacts OpsFacts Sums JvpFacts Dual ClaimsMat Adjoint GradRing RealInst SpecReal OpDeriv GradReal
  FuelFacts GraphFacts ProgFacts BackFacts ClaimsGraph ClaimsProg ClaimsVjp SimFacts.
From Verif Require Import ClaimsGrad.
Local Open Scope R_scope.

(** C31, for any recorded computation: the root is one that [backward] handles exactly ([root_ok]:
    a [sum], or a one-element combination of sums, or [dot], of tensors computed with [+], [-],
    [neg], [relu], [tanh], [abs] and [bmm] of matrices of at most 32 entries), and tensor [l] is any
    other tensor that is not itself the result of a [sum].  [backward] adds the partial derivative to
    every entry of the gradient of [l], and no other number. *)
Theorem C31_backward_is_gradient :
  forall (s : state R) (r l : nat), reach tidy s -> nonempty (nodes (hp s)) -> matrices_only (nodes (hp s)) ->
    root_ok (nodes (hp s)) r -> no_kinks (nodes (hp s)) r ->
    (l < length (nodes (hp s)))%nat -> l <> r -> (forall ins, fn_of (nodes (hp s)) l <> Some (KSum, ins)) ->
    exists h', backward (hp s) r = Ret h' /\
      forall p, (p < size (shape (vof (nodes (hp s)) l)))%nat -> forall d,
        partial_derivative (nodes (hp s)) r l p d <-> gentry (grads h') l p = gentry (grads (hp s)) l p + d.
Proof. exact c31_backward_is_gradient. Qed.
Print Assumptions C31_backward_is_gradient.
Example C31_backward_is_gradient_ex : exists (s : state R), reach tidy s /\ nonempty (nodes (hp s)) /\ matrices_only (nodes (hp s)) /\
  root_ok (nodes (hp s)) 3%nat /\ no_kinks (nodes (hp s)) 3%nat /\ (1 < length (nodes (hp s)))%nat.
Proof. exact c31_backward_is_gradient_ex. Qed.

(** C31, for programs of leaf constructors, [+], [-], [neg], [relu], [tanh], [abs], [bmm], [sum] and
    [dot], with a root that [backward] handles exactly ([root_ok]).  After [backward] the gradient of
    the leaf [CNew a sh] is the list of derivatives of the root's value with respect to the entries
    of [a], when the whole program is run again on changed data; it is missing exactly for leaves the
    root does not use. *)
Theorem C31_program_gradient :
  forall (p1 p2 : list (cmd R)) (a : list R) (sh : list nat) (st : state R) (y r : nat),
    forallb differentiable (p1 ++ CNew a sh :: p2) = true -> run (p1 ++ CNew a sh :: p2) init_state = Ret st ->
    nonempty (nodes (hp st)) -> matrices_only (nodes (hp st)) ->
    nth_error (env st) y = Some r -> root_ok (nodes (hp st)) r -> no_kinks (nodes (hp st)) r ->
    exists st', exec st (CBackward y) = Ret st' /\
      (forall l, nth_error (env st) (length p1) = Some l ->
         (var_grad st' (length p1) = None <-> ~ uses (nodes (hp st)) r l)) /\
      forall q, (q < length a)%nat ->
        program_derivative (fun t => p1 ++ CNew (list_set a q (nth q a 0 + t)) sh :: p2) y (grad_entry st' (length p1) q).
Proof. exact c31_program_gradient. Qed.
Print Assumptions C31_program_gradient.
Example C31_program_gradient_ex : exists st : state R,
  forallb differentiable ([] ++ CNew [1; 2] [1; 2]%nat :: [CScalar (-5); CAdd 0 1; CTanh 2; CSum 3; CNeg 0; CSum 5; CAdd 4 6]) = true /\
  run ([] ++ CNew [1; 2] [1; 2]%nat :: [CScalar (-5); CAdd 0 1; CTanh 2; CSum 3; CNeg 0; CSum 5; CAdd 4 6]) init_state = Ret st /\
  nonempty (nodes (hp st)) /\ matrices_only (nodes (hp st)) /\ nth_error (env st) 7 = Some 7%nat /\ root_ok (nodes (hp st)) 7 /\ no_kinks (nodes (hp st)) 7.
Proof. exact c31_program_gradient_ex. Qed.

(** C31 for programs that build a tensor from leaves with [+], [-], [neg], [relu], [tanh], [abs] and
    [bmm] of matrices of at most 32 entries and then take its [sum]. *)
Theorem C31_sum_programs :
  forall (p1 p2 : list (cmd R)) (a : list R) (sh : list nat) (x : nat) (st : state R),
    forallb graph_cmd (p1 ++ CNew a sh :: p2) = true -> run ((p1 ++ CNew a sh :: p2) ++ [CSum x]) init_state = Ret st ->
    nonempty (nodes (hp st)) -> matrices_only (nodes (hp st)) -> small_bmm (nodes (hp st)) ->
    exists r, nth_error (env st) (length (p1 ++ CNew a sh :: p2)) = Some r /\
      (no_kinks (nodes (hp st)) r ->
       exists st', exec st (CBackward (length (p1 ++ CNew a sh :: p2))) = Ret st' /\
         (forall l, nth_error (env st) (length p1) = Some l ->
            (var_grad st' (length p1) = None <-> ~ uses (nodes (hp st)) r l)) /\
         forall q, (q < length a)%nat ->
           program_derivative (fun t => (p1 ++ CNew (list_set a q (nth q a 0 + t)) sh :: p2) ++ [CSum x])
             (length (p1 ++ CNew a sh :: p2)) (grad_entry st' (length p1) q)).
Proof. exact c31_sum_programs. Qed.
Print Assumptions C31_sum_programs.
Example C31_sum_programs_ex : exists st : state R,
  forallb graph_cmd ([CScalar 3] ++ CNew [1; 2] [1; 2]%nat :: [CNew [1; 4] [2; 1]%nat; CRelu 1; CBmm 3 2; CSub 4 0]) = true /\
  run (([CScalar 3] ++ CNew [1; 2] [1; 2]%nat :: [CNew [1; 4] [2; 1]%nat; CRelu 1; CBmm 3 2; CSub 4 0]) ++ [CSum 5]) init_state = Ret st /\
  nonempty (nodes (hp st)) /\ matrices_only (nodes (hp st)) /\ small_bmm (nodes (hp st)) /\ no_kinks (nodes (hp st)) 7.
Proof. exact c31_sum_programs_ex. Qed.

(** C31 as stated, without the bound on the matrices: false. *)
Theorem C31_all_sizes_refuted :
  ~ (forall (p1 p2 : list (cmd R)) (a : list R) (sh : list nat) (x : nat) (st : state R),
       forallb graph_cmd (p1 ++ CNew a sh :: p2) = true -> run ((p1 ++ CNew a sh :: p2) ++ [CSum x]) init_state = Ret st ->
       nonempty (nodes (hp st)) -> matrices_only (nodes (hp st)) ->
       exists r, nth_error (env st) (length (p1 ++ CNew a sh :: p2)) = Some r /\
         (no_kinks (nodes (hp st)) r ->
          exists st', exec st (CBackward (length (p1 ++ CNew a sh :: p2))) = Ret st' /\
            forall q, (q < length a)%nat ->
              program_derivative (fun t => (p1 ++ CNew (list_set a q (nth q a 0 + t)) sh :: p2) ++ [CSum x])
                (length (p1 ++ CNew a sh :: p2)) (grad_entry st' (length p1) q))).
Proof. exact c31_all_sizes_refuted. Qed.
Print Assumptions C31_all_sizes_refuted.
