(** * PropertiesLocal: the theorems of ClaimsLocal.v, restated (generated by tools/genprops.py) *)
From Coq Require Import ZArith Reals Lra.
From Verif Require Import Base ModelIndex ModelTensor ModelOps ModelJvp ModelGraph Spec SpecDual SpecGraph SpecFlow SpecLocal
  Lists IndexFacts TensorFacts FuelFacts GraphFacts ProgFacts BackFacts FlowFacts ClaimsProg Instances RealInst SpecReal GradReal ClaimsGrad LocalFacts LocalReal.
From Verif Require Import ClaimsLocal.


(** C85: Take two programs' states, in which what [r] was computed from is the same up to the names of the tensors.  [backward] panics
    alike in both, or gives the same gradients, whatever else there is in the two states ... *)
Theorem C85_ancestors_only :
  forall (T : Type) (NT : Num T) (ok : cmd T -> Prop) (s s' : state T) (f : nat -> nat) (r : nat), reach ok s -> reach ok s' ->
    r < length (nodes (hp s)) -> same_history f (hp s) (hp s') r ->
    same_gradients f (hp s) r (backward (hp s) r) (backward (hp s') (f r)).
Proof. exact c85_ancestors_only. Qed.
Print Assumptions C85_ancestors_only.
Example C85_ancestors_only_ex : exists (s s' : state Z) (f : nat -> nat), reach tidy s /\ reach tidy s' /\
  2 < length (nodes (hp s)) /\ f 2 = 4 /\ same_history f (hp s) (hp s') 2 /\
  (exists h h', backward (hp s) 2 = Ret h /\ backward (hp s') 4 = Ret h' /\ grads h 0 = Some (mkRaw [4; 6]%Z [1; 2]) /\ grads h' 1 = Some (mkRaw [4; 6]%Z [1; 2])).
Proof. exact c85_ancestors_only_ex. Qed.

(** ... so tensors made in the meantime, with or without [r], do not matter, ... *)
Theorem C85_work_in_between :
  forall (T : Type) (NT : Num T) (ok : cmd T -> Prop) (p : list (cmd T)) (s s' : state T) (r : nat), reach ok s ->
    Forall (fun c => forward c = true /\ forall x y o, c <> CMulView x y o) p -> run p s = Ret s' -> r < length (nodes (hp s)) ->
    same_gradients (fun n => n) (hp s) r (backward (hp s) r) (backward (hp s') r).
Proof. exact c85_work_in_between. Qed.
Print Assumptions C85_work_in_between.
Example C85_work_in_between_ex : exists s s' : state Z, run [CNew [2; 3]%Z [1; 2]; CNeg 0; CDot 1 1] init_state = Ret s /\
  run [CNew []%Z [0]; CAdd 2 2] s = Ret s' /\
  (exists h h', backward (hp s) 2 = Ret h /\ backward (hp s') 2 = Ret h' /\ grads h 0 = Some (mkRaw [4; 6]%Z [1; 2]) /\ grads h' 0 = Some (mkRaw [4; 6]%Z [1; 2])).
Proof. exact c85_work_in_between_ex. Qed.

(** ... [backward] succeeds exactly if its gradients get through (C77) even if there are empty tensors elsewhere, ... *)
Theorem C85_succeeds_exactly :
  forall (T : Type) (NT : Num T) (s : state T) (r : nat), reach tidy s -> nonempty_above (nodes (hp s)) r ->
    ((exists h', backward (hp s) r = Ret h') <->
     size (shape (vof (nodes (hp s)) r)) = 1 /\ fn_of (nodes (hp s)) r <> None /\ gets_through (nodes (hp s)) r []).
Proof. exact c85_succeeds_exactly. Qed.
Print Assumptions C85_succeeds_exactly.
Example C85_succeeds_exactly_ex : exists s : state Z, run [CNew []%Z [0]; CNew [2; 3]%Z [1; 2]; CNeg 1; CDot 2 2] init_state = Ret s /\
  (exists h', backward (hp s) 3 = Ret h') /\ ~ nonempty (nodes (hp s)) /\ nonempty_above (nodes (hp s)) 3.
Proof. exact c85_succeeds_exactly_ex. Qed.

(** ... and gives the gradient (C31) even if there are empty tensors and products of batches elsewhere. *)
Theorem C85_gradient :
  forall (s : state R) (r l : nat), reach tidy s -> nonempty_above (nodes (hp s)) r -> matrices_above (nodes (hp s)) r ->
    root_ok (nodes (hp s)) r -> no_kinks (nodes (hp s)) r ->
    l < length (nodes (hp s)) -> l <> r -> (forall ins, fn_of (nodes (hp s)) l <> Some (KSum, ins)) ->
    exists h', backward (hp s) r = Ret h' /\
      forall p, p < size (shape (vof (nodes (hp s)) l)) -> forall d,
        partial_derivative (nodes (hp s)) r l p d <-> gentry (grads h') l p = (gentry (grads (hp s)) l p + d)%R.
Proof. exact c85_gradient. Qed.
Print Assumptions C85_gradient.
Example C85_gradient_ex : exists s : state R, reach tidy s /\ nonempty_above (nodes (hp s)) 7 /\ matrices_above (nodes (hp s)) 7 /\
  root_ok (nodes (hp s)) 7 /\ no_kinks (nodes (hp s)) 7 /\ 4 < length (nodes (hp s)) /\ ~ nonempty (nodes (hp s)) /\ ~ matrices_only (nodes (hp s)).
Proof. exact c85_gradient_ex. Qed.

