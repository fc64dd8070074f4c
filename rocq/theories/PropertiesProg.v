(** * PropertiesProg: the theorems of ClaimsProg.v, restated (generated by tools/genprops.py) *)
From Coq Require Import ZArith Ring.
From Verif Require Import Base ModelIndex ModelTensor ModelOps ModelJvp ModelGraph Spec SpecDual SpecGraph
  Lists IndexFacts TensorFacts OpsFacts Sums JvpFacts Dual ClaimsMat Adjoint GradRing FuelFacts GraphFacts ProgFacts BackFacts ClaimsGraph Instances.
From Verif Require Import ClaimsProg.


(** C39, data: no call whatsoever changes the data, shape or history of an existing tensor. *)
Theorem C39_tensors_never_change :
  forall (T : Type) (NT : Num T) (p : list (cmd T)) (s s' : state T),
    run p s = Ret s' ->
    forall i nd, nth_error (nodes (hp s)) i = Some nd -> nth_error (nodes (hp s')) i = Some nd.
Proof. exact c39_tensors_never_change. Qed.
Print Assumptions C39_tensors_never_change.
Example C39_tensors_never_change_ex :
  exists s : state Z, run [CNew [1; 2]%Z [2]; CRelu 0; CSum 1; CBackward 2; CNeg 0; CZeroGrad 0] init_state = Ret s /\
    nth_error (nodes (hp s)) 0 = Some (mkNode (mkRaw [1; 2]%Z [2]) None).
Proof. exact c39_tensors_never_change_ex. Qed.

(** C39, forward calls change no existing gradient; [zero_grad] and [update_grad] change only the one of the
    tensor they are called on. *)
Theorem C39_forward_keeps_gradients :
  forall (T : Type) (NT : Num T) (c : cmd T) (s s' : state T),
    exec s c = Ret s' -> forward c = true -> forall i, i < length (nodes (hp s)) -> grads (hp s') i = grads (hp s) i.
Proof. exact c39_forward_keeps_gradients. Qed.
Print Assumptions C39_forward_keeps_gradients.
Example C39_forward_keeps_gradients_ex :
  exists s : state Z, run [CNew [1; 2]%Z [2]; CSum 0; CBackward 1; CTanh 0; CSum 2; CAdd 0 0] init_state = Ret s /\
    var_grad s 0 = Some (mkRaw [1; 1]%Z [2]).
Proof. exact c39_forward_keeps_gradients_ex. Qed.

Theorem C39_update_and_zero_grad :
  forall (T : Type) (NT : Num T) (s s' : state T) (x y i : nat),
    nth_error (env s) x = Some i -> exec s (CUpdateGrad x y) = Ret s' \/ exec s (CZeroGrad x) = Ret s' ->
    forall j, j <> i -> grads (hp s') j = grads (hp s) j.
Proof. exact c39_update_and_zero_grad. Qed.
Print Assumptions C39_update_and_zero_grad.
Example C39_update_and_zero_grad_ex :
  exists s : state Z, run [CNew [1; 2]%Z [2]; CNew [3; 4]%Z [2]; CUpdateGrad 0 1; CUpdateGrad 1 0; CZeroGrad 1] init_state = Ret s /\
    var_grad s 0 = Some (mkRaw [3; 4]%Z [2]) /\ var_grad s 1 = None.
Proof. exact c39_update_and_zero_grad_ex. Qed.

(** C39, [backward] changes only gradients of tensors its root was computed from, and not the root's. *)
Theorem C39_backward_touches_ancestors :
  forall (T : Type) (NT : Num T) (s : state T) (r : nat) (h' : heap T),
    reach any s -> backward (hp s) r = Ret h' ->
    nodes h' = nodes (hp s) /\ grads h' r = grads (hp s) r /\
    forall j, ~ uses (nodes (hp s)) r j -> grads h' j = grads (hp s) j.
Proof. exact c39_backward_touches_ancestors. Qed.
Print Assumptions C39_backward_touches_ancestors.
Example C39_backward_touches_ancestors_ex :
  exists s : state Z, run [CNew [1; 2]%Z [2]; CNew [3; 4]%Z [2]; CTanh 0; CSum 2; CBackward 3] init_state = Ret s /\
    var_grad s 1 = None /\ var_grad s 0 <> None.
Proof. exact c39_backward_touches_ancestors_ex. Qed.

(** C40 is false with views: [&x * &view], where [x] has rank 0, copies the array the view looks into. *)
Theorem C40_well_formed_refuted :
  ~ (forall (T : Type) (NT : Num T) (p : list (cmd T)) (s : state T), run p init_state = Ret s ->
       forall i nd, nth_error (nodes (hp s)) i = Some nd -> length (array (n_val nd)) = product (shape (n_val nd))).
Proof. exact c40_well_formed_refuted. Qed.
Print Assumptions C40_well_formed_refuted.
Example C40_well_formed_refuted_ex :
  exists s : state Z, run [CScalar 2%Z; CNew [1; 2]%Z [2]; CMulView 0 1 [mkSR 0 1]] init_state = Ret s /\
    var_value s 2 = Ret (mkRaw [2; 4]%Z [1]).
Proof. exact c40_well_formed_refuted_ex. Qed.

(** In every other program every tensor is well formed and was computed from earlier ones. *)
Theorem C40_well_formed :
  forall (T : Type) (NT : Num T) (s : state T), reach any s ->
    (forall i nd, nth_error (nodes (hp s)) i = Some nd ->
       length (array (n_val nd)) = product (shape (n_val nd)) /\
       forall k ins, n_fn nd = Some (k, ins) ->
         Forall (fun j => j < i) ins /\ fwd k (map (vof (nodes (hp s))) ins) = Ret (n_val nd)) /\
    (forall i g, grads (hp s) i = Some g -> length (array g) = product (shape g)) /\
    Forall (fun i => i < length (nodes (hp s))) (env s).
Proof. exact c40_well_formed. Qed.
Print Assumptions C40_well_formed.
Example C40_well_formed_ex :
  exists s : state Z, run [CNew [1; 2; 3; 4]%Z [2; 2]; CBmm 0 0; CAdd 0 1] init_state = Ret s /\
    nth_error (nodes (hp s)) 2 = Some (mkNode (mkRaw [8; 12; 18; 26]%Z [2; 2]) (Some (KAdd, [0; 1]))).
Proof. exact c40_well_formed_ex. Qed.

(** ... in particular in every program that does not multiply by views. *)
Theorem C40_programs_without_view_products :
  forall (T : Type) (NT : Num T) (p : list (cmd T)) (s : state T),
    Forall (fun c => forall x y o, c <> CMulView x y o) p -> run p init_state = Ret s ->
    forall i nd, nth_error (nodes (hp s)) i = Some nd ->
      length (array (n_val nd)) = product (shape (n_val nd)) /\
      forall k ins, n_fn nd = Some (k, ins) -> Forall (fun j => j < i) ins.
Proof. exact c40_programs_without_view_products. Qed.
Print Assumptions C40_programs_without_view_products.
Example C40_programs_without_view_products_ex :
  exists s : state Z, run [CNew [1; 2; 3; 4]%Z [2; 2]; CViewSum 0 [mkSR 0 2; mkSR 1 2]; CSub 0 1] init_state = Ret s /\
    var_value s 2 = Ret (mkRaw [-5; -4; -3; -2]%Z [2; 2]).
Proof. exact c40_programs_without_view_products_ex. Qed.

(** C41: on every reachable graph [backward] terminates; it fails at once when the root does not have one
    element or has no history, and only then: in all other cases the outcome is the traversal's. *)
Theorem C41_backward_terminates :
  forall (T : Type) (NT : Num T) (s : state T) (r : nat), reach any s -> backward (hp s) r <> NoFuel.
Proof. exact c41_backward_terminates. Qed.
Print Assumptions C41_backward_terminates.
Example C41_backward_terminates_ex :
  exists s : state Z, run [CNew [1; 2]%Z [2]; CTanh 0; CAdd 1 1; CAdd 2 2; CSum 3; CBackward 4] init_state = Ret s.
Proof. exact c41_backward_terminates_ex. Qed.

Theorem C41_fails_at_once :
  forall (T : Type) (NT : Num T) (h : heap T) (r : nat) (nd : node T), nth_error (nodes h) r = Some nd ->
    (length (array (n_val nd)) <> 1 -> backward h r = Panic PAssert) /\
    (length (array (n_val nd)) = 1 -> n_fn nd = None -> backward h r = Panic PUnwrap) /\
    (length (array (n_val nd)) = 1 -> forall k ins, n_fn nd = Some (k, ins) ->
       backward h r = let* gr := compute_jvp (S (length (nodes h))) (nodes h) k ins [raw_scalar n_one] (grads h) in
                      Ret (mkHeap (nodes h) gr)).
Proof. exact c41_fails_at_once. Qed.
Print Assumptions C41_fails_at_once.
Example C41_fails_at_once_ex :
  exists s : state Z, run [CNew [1; 2]%Z [2]; CTanh 0; CScalar 3%Z] init_state = Ret s /\
    backward (hp s) 1 = Panic PAssert /\ backward (hp s) 2 = Panic PUnwrap.
Proof. exact c41_fails_at_once_ex. Qed.

(** It succeeds, whatever gradients were accumulated before, for every one-element root of a graph of
    non-empty tensors and matrices that does not use [dot] below the root and does not end in [abs] or
    [bmm] ... *)
Theorem C41_backward_succeeds :
  forall (T : Type) (NT : Num T) (s : state T) (r : nat), reach tidy s ->
    nonempty (nodes (hp s)) -> matrices_only (nodes (hp s)) ->
    size (shape (vof (nodes (hp s)) r)) = 1 -> accepts (nodes (hp s)) r -> exists h', backward (hp s) r = Ret h'.
Proof. exact c41_backward_succeeds. Qed.
Print Assumptions C41_backward_succeeds.
Example C41_backward_succeeds_ex :
  exists s : state Z, run [CNew [1; 2; 3; 4]%Z [2; 2]; CBmm 0 0; CRelu 1; CAbs 2; CSum 3; CNeg 4; CBackward 5] init_state = Ret s.
Proof. exact c41_backward_succeeds_ex. Qed.

(** ... hence for all graphs of [+], [-], [neg], [relu], [tanh]. *)
Theorem C41_elementwise_succeeds :
  forall (T : Type) (NT : Num T) (s : state T) (r : nat), reach tidy s ->
    nonempty (nodes (hp s)) -> matrices_only (nodes (hp s)) ->
    size (shape (vof (nodes (hp s)) r)) = 1 -> fn_of (nodes (hp s)) r <> None -> elementwise (nodes (hp s)) r ->
    exists h', backward (hp s) r = Ret h'.
Proof. exact c41_elementwise_succeeds. Qed.
Print Assumptions C41_elementwise_succeeds.
Example C41_elementwise_succeeds_ex :
  exists s : state Z, run [CNew [1]%Z [1]; CNew [4]%Z [1; 1]; CSub 0 1; CTanh 2; CRelu 3; CNeg 4; CAdd 5 0; CBackward 6] init_state = Ret s.
Proof. exact c41_elementwise_succeeds_ex. Qed.

(** C42 is false *)
Theorem C42_one_element_roots_refuted :
  ~ (forall (T : Type) (NT : Num T) (s : state T) (r : nat) (nd : node T), reach tidy s -> nonempty (nodes (hp s)) ->
       nth_error (nodes (hp s)) r = Some nd -> length (array (n_val nd)) = 1 ->
       (exists ins, n_fn nd = Some (KBmm, ins) \/ n_fn nd = Some (KAbs, ins) \/ n_fn nd = Some (KDot, ins)) ->
       exists h', backward (hp s) r = Ret h').
Proof. exact c42_one_element_roots_refuted. Qed.
Print Assumptions C42_one_element_roots_refuted.
Example C42_one_element_roots_refuted_ex :
  run [CNew [2]%Z [1]; CAbs 0; CBackward 1] init_state = Panic PAssert /\
  run [CNew [2]%Z [1; 1]; CBmm 0 0; CBackward 1] init_state = Panic PIndex /\
  run [CNew [2; 3]%Z [2]; CNeg 0; CDot 1 0; CBackward 2] init_state = Panic PAssert /\
  run [CNew [2; 3]%Z [2]; CDot 0 0; CNeg 1; CBackward 2] init_state = Panic PAssert.
Proof. exact c42_one_element_roots_refuted_ex. Qed.

(** [abs]: always fails, *)
Theorem C42_abs_root_fails :
  forall (T : Type) (NT : Num T) (s : state T) (r : nat) (ins : list nat), reach any s ->
    fn_of (nodes (hp s)) r = Some (KAbs, ins) -> backward (hp s) r = Panic PAssert.
Proof. exact c42_abs_root_fails. Qed.
Print Assumptions C42_abs_root_fails.
Example C42_abs_root_fails_ex :
  run [CNew [2]%Z [1; 1]; CTanh 0; CAbs 1; CBackward 2] init_state = Panic PAssert.
Proof. exact c42_abs_root_fails_ex. Qed.

(** [bmm]: always fails, *)
Theorem C42_bmm_root_fails :
  forall (T : Type) (NT : Num T) (s : state T) (r : nat) (ins : list nat), reach any s ->
    fn_of (nodes (hp s)) r = Some (KBmm, ins) -> exists p, backward (hp s) r = Panic p.
Proof. exact c42_bmm_root_fails. Qed.
Print Assumptions C42_bmm_root_fails.
Example C42_bmm_root_fails_ex :
  run [CNew [2; 3]%Z [1; 2]; CNew [2; 3]%Z [2; 1]; CBmm 0 1; CBackward 2] init_state = Panic PIndex.
Proof. exact c42_bmm_root_fails_ex. Qed.

(** [dot]: works for leaves and for computed rows [1, n]. *)
Theorem C42_dot_root_succeeds :
  forall (T : Type) (NT : Num T) (s : state T) (r i j : nat), reach tidy s ->
    nonempty (nodes (hp s)) -> matrices_only (nodes (hp s)) ->
    fn_of (nodes (hp s)) r = Some (KDot, [i; j]) ->
    Forall (fun i => fn_of (nodes (hp s)) i = None \/
                     (no_dot (nodes (hp s)) i /\ exists N, shape (vof (nodes (hp s)) i) = [1; N])) [i; j] ->
    exists h', backward (hp s) r = Ret h'.
Proof. exact c42_dot_root_succeeds. Qed.
Print Assumptions C42_dot_root_succeeds.
Example C42_dot_root_succeeds_ex :
  exists s : state Z, run [CNew [2; 3]%Z [1; 2]; CNew [2; 3]%Z [1; 2]; CNeg 0; CDot 1 2; CBackward 3] init_state = Ret s /\
    var_grad s 0 = Some (mkRaw [-2; -3]%Z [1; 2]) /\ var_grad s 1 = Some (mkRaw [-2; -3]%Z [1; 2]).
Proof. exact c42_dot_root_succeeds_ex. Qed.

(** C52: the clone has the same data and shape, no gradient and no history, so in every later heap the
    traversal ends at it. *)
Theorem C52_deep_clone :
  forall (T : Type) (NT : Num T) (s s1 : state T) (x i : nat) (nd : node T),
    nth_error (env s) x = Some i -> nth_error (nodes (hp s)) i = Some nd -> wf (n_val nd) ->
    exec s (CDeepClone x) = Ret s1 ->
    exists c, env s1 = env s ++ [c] /\ c = length (nodes (hp s)) /\
      nth_error (nodes (hp s1)) c = Some (mkNode (mkRaw (array (n_val nd)) (shape (n_val nd))) None) /\
      grads (hp s1) c = None /\
      forall (p : list (cmd T)) (s2 : state T) (m : nat), run p s1 = Ret s2 -> uses (nodes (hp s2)) c m -> m = c.
Proof. exact c52_deep_clone. Qed.
Print Assumptions C52_deep_clone.
Example C52_deep_clone_ex :
  exists s : state Z, run [CNew [2; 3]%Z [2]; CNeg 0; CDeepClone 1; CTanh 2; CSum 3; CBackward 4] init_state = Ret s /\
    var_grad s 0 = None /\ var_grad s 1 = None /\ var_grad s 2 <> None.
Proof. exact c52_deep_clone_ex. Qed.

Theorem C52_isolation :
  forall (T : Type) (NT : Num T) (s s1 s2 : state T) (x : nat) (p : list (cmd T)),
    reach any s -> exec s (CDeepClone x) = Ret s1 ->
    Forall (fun c => Forall (fun y => length (env s) <= y) (operands c) /\ forall x y o, c <> CMulView x y o) p ->
    run p s1 = Ret s2 ->
    forall y, y < length (env s) -> var_value s2 y = var_value s y /\ var_grad s2 y = var_grad s y.
Proof. exact c52_isolation. Qed.
Print Assumptions C52_isolation.
Example C52_isolation_ex :
  exists s : state Z, run [CNew [2; 3]%Z [2]; CSum 0; CBackward 1; CDeepClone 0; CTanh 2; CSum 3; CBackward 4; CBackward 4] init_state = Ret s /\
    var_grad s 0 = Some (mkRaw [1; 1]%Z [2]) /\ var_value s 0 = Ret (mkRaw [2; 3]%Z [2]).
Proof. exact c52_isolation_ex. Qed.

