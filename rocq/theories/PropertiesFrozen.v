(** * PropertiesFrozen: the theorems of ClaimsFrozen.v, restated (generated by tools/genprops.py) *)
From Coq Require Import Reals Lra.
From Verif Require Import Base ModelIndex ModelTensor ModelOps ModelJvp ModelGraph Spec SpecDual SpecGraph
  Lists IndexFacts TensorFacts OpsFacts Sums JvpFacts Dual ClaimsMat Adjoint GradRing RealInst SpecReal OpDeriv GradReal
  FuelFacts GraphFacts ProgFacts BackFacts ClaimsGraph ClaimsProg ClaimsVjp SimFacts ClaimsGrad SpecFrozen FrozenFacts.
From Verif Require Import ClaimsFrozen.
Local Open Scope R_scope.

(** C82: whatever the values, kinks included, [backward] goes through, and what it adds to an entry of a gradient
    is the derivative of the computation in which [abs] and [relu] keep their branches: at 0, [abs] is
    the identity and so is [relu]. *)
Theorem C82_backward_keeps_branches :
  forall (s : state R) (r l : nat), reach tidy s -> nonempty (nodes (hp s)) -> matrices_only (nodes (hp s)) ->
    root_ok (nodes (hp s)) r ->
    (l < length (nodes (hp s)))%nat -> l <> r -> (forall ins, fn_of (nodes (hp s)) l <> Some (KSum, ins)) ->
    exists h', backward (hp s) r = Ret h' /\
      forall p, (p < size (shape (vof (nodes (hp s)) l)))%nat -> forall d,
        frozen_derivative (nodes (hp s)) r l p d <-> gentry (grads h') l p = gentry (grads (hp s)) l p + d.
Proof. exact c82_backward_keeps_branches. Qed.
Print Assumptions C82_backward_keeps_branches.
Example C82_backward_keeps_branches_ex : exists (s : state R) h', run cancel init_state = Ret s /\ reach tidy s /\ backward (hp s) 6 = Ret h' /\
  gentry (grads h') 0 0 = 2.
Proof. exact c82_backward_keeps_branches_ex. Qed.

(** C82: away from the kinks, keeping the branches makes no difference. *)
Theorem C82_away_from_kinks :
  forall (s : state R) (r l : nat), reach tidy s -> nonempty (nodes (hp s)) -> matrices_only (nodes (hp s)) ->
    root_ok (nodes (hp s)) r -> no_kinks (nodes (hp s)) r ->
    (l < length (nodes (hp s)))%nat -> l <> r -> (forall ins, fn_of (nodes (hp s)) l <> Some (KSum, ins)) ->
    forall p, (p < size (shape (vof (nodes (hp s)) l)))%nat -> forall d,
      frozen_derivative (nodes (hp s)) r l p d <-> partial_derivative (nodes (hp s)) r l p d.
Proof. exact c82_away_from_kinks. Qed.
Print Assumptions C82_away_from_kinks.
Example C82_away_from_kinks_ex : exists (s : state R), reach tidy s /\ nonempty (nodes (hp s)) /\ matrices_only (nodes (hp s)) /\
  root_ok (nodes (hp s)) 3%nat /\ no_kinks (nodes (hp s)) 3%nat /\ (1 < length (nodes (hp s)))%nat.
Proof. exact c82_away_from_kinks_ex. Qed.

(** C82: the same for programs: leaves, [+], [-], [neg], [relu], [tanh], [abs] and [bmm] (of matrices of at
    most 32 entries), then [sum] and [backward]. *)
Theorem C82_sum_programs :
  forall (p : list (cmd R)) (x : nat) (st : state R),
    forallb graph_cmd p = true -> run (p ++ [CSum x]) init_state = Ret st ->
    nonempty (nodes (hp st)) -> matrices_only (nodes (hp st)) -> small_bmm (nodes (hp st)) ->
    exists r st', nth_error (env st) (length p) = Some r /\ exec st (CBackward (length p)) = Ret st' /\
      forall v l, nth_error (env st) v = Some l -> v <> length p ->
        forall q, (q < size (shape (vof (nodes (hp st)) l)))%nat -> frozen_derivative (nodes (hp st)) r l q (grad_entry st' v q).
Proof. exact c82_sum_programs. Qed.
Print Assumptions C82_sum_programs.
Example C82_sum_programs_ex : exists st st' : state R,
  forallb graph_cmd [CNew [0; 0] [1; 2]%nat; CRelu 0; CAbs 1] = true /\ run ([CNew [0; 0] [1; 2]%nat; CRelu 0; CAbs 1] ++ [CSum 2]) init_state = Ret st /\
  exec st (CBackward 3) = Ret st' /\ grad_entry st' 0 1 = 1.
Proof. exact c82_sum_programs_ex. Qed.

(** C82: so at a kink [backward] can be wrong even where the computed function has a derivative: [|x| - |-x|]
    is constant, and the gradient at 0 is 2. *)
Theorem C82_derivative_if_there_is_one_refuted :
  ~ forall (s : state R) (r l : nat), reach tidy s -> nonempty (nodes (hp s)) -> matrices_only (nodes (hp s)) ->
    root_ok (nodes (hp s)) r ->
    (l < length (nodes (hp s)))%nat -> l <> r -> (forall ins, fn_of (nodes (hp s)) l <> Some (KSum, ins)) ->
    exists h', backward (hp s) r = Ret h' /\
      forall p, (p < size (shape (vof (nodes (hp s)) l)))%nat -> forall d,
        partial_derivative (nodes (hp s)) r l p d -> gentry (grads h') l p = gentry (grads (hp s)) l p + d.
Proof. exact c82_derivative_if_there_is_one_refuted. Qed.
Print Assumptions C82_derivative_if_there_is_one_refuted.
