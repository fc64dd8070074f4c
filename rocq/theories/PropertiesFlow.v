(** * PropertiesFlow: the theorems of ClaimsFlow.v, restated (generated by tools/genprops.py) *)
From Coq Require Import ZArith.
From Verif Require Import Base ModelIndex ModelTensor ModelOps ModelJvp ModelGraph Spec SpecDual SpecGraph SpecFlow
  Lists IndexFacts TensorFacts FuelFacts GraphFacts ProgFacts BackFacts FlowFacts ClaimsProg Instances.
From Verif Require Import ClaimsFlow.


(** C77: [backward] succeeds exactly if the root has one element and a history, and the gradients get through to the leaves ... *)
Theorem C77_backward_exactly :
  forall (T : Type) (NT : Num T) (s : state T) (r : nat), reach tidy s -> nonempty (nodes (hp s)) ->
    ((exists h', backward (hp s) r = Ret h') <->
     size (shape (vof (nodes (hp s)) r)) = 1 /\ fn_of (nodes (hp s)) r <> None /\ gets_through (nodes (hp s)) r []).
Proof. exact c77_backward_exactly. Qed.
Print Assumptions C77_backward_exactly.
Example C77_backward_exactly_ex :
  (exists s : state Z, run [CNew [2; 3]%Z [1; 2]; CNeg 0; CAbs 1; CDot 2 2; CBackward 3] init_state = Ret s /\
     gets_through (nodes (hp s)) 3 []) /\
  run [CNew [2; 3]%Z [1; 2]; CNeg 0; CDot 1 1; CDot 2 2; CBackward 3] init_state = Panic PAssert /\
  (exists s : state Z, run [CNew [2; 3]%Z [1; 1; 2]; CTanh 0; CTanh 1; CDot 2 2; CBackward 3] init_state = Ret s) /\
  run [CNew [2; 3]%Z [1; 1; 2]; CNeg 0; CTanh 1; CDot 2 2; CBackward 3] init_state = Panic PAssert.
Proof. exact c77_backward_exactly_ex. Qed.

(** ... otherwise it panics; ... *)
Theorem C77_panics_otherwise :
  forall (T : Type) (NT : Num T) (s : state T) (r : nat), reach tidy s -> nonempty (nodes (hp s)) ->
    ((exists p, backward (hp s) r = Panic p) <->
     size (shape (vof (nodes (hp s)) r)) <> 1 \/ fn_of (nodes (hp s)) r = None \/ ~ gets_through (nodes (hp s)) r []).
Proof. exact c77_panics_otherwise. Qed.
Print Assumptions C77_panics_otherwise.
Example C77_panics_otherwise_ex :
  run [CNew [2; 3]%Z [2]; CNeg 0; CDot 0 1; CBackward 2] init_state = Panic PAssert /\
  run [CNew [2; 3]%Z [2; 1]; CNew [4; 5]%Z [1; 2]; CBmm 1 0; CBackward 2] init_state = Panic PIndex /\
  run [CNew [2]%Z [1]; CBackward 0] init_state = Panic PUnwrap.
Proof. exact c77_panics_otherwise_ex. Qed.

(** ... so it only depends on the shapes and the operations, not on the elements, nor on gradients stored before. *)
Theorem C77_shapes_only :
  forall (T U : Type) (NT : Num T) (NU : Num U) (s : state T) (s' : state U) (r : nat), reach tidy s -> reach tidy s' ->
    nonempty (nodes (hp s)) -> length (nodes (hp s)) = length (nodes (hp s')) ->
    (forall i, shape (vof (nodes (hp s)) i) = shape (vof (nodes (hp s')) i) /\ fn_of (nodes (hp s)) i = fn_of (nodes (hp s')) i) ->
    ((exists h, backward (hp s) r = Ret h) <-> (exists h, backward (hp s') r = Ret h)).
Proof. exact c77_shapes_only. Qed.
Print Assumptions C77_shapes_only.
Example C77_shapes_only_ex :
  (exists s : state Z, run [CNew [2; 3]%Z [2]; CTanh 0; CSum 1; CBackward 2; CBackward 2] init_state = Ret s) /\
  (exists s : state Z, run [CNew [-7; 0]%Z [2]; CTanh 0; CSum 1; CBackward 2] init_state = Ret s).
Proof. exact c77_shapes_only_ex. Qed.

(** C78: A product of a batch of matrices can be differentiated. False: the sum of one cannot. *)
Theorem C78_batches_refuted :
  ~ forall (T : Type) (NT : Num T) (s : state T) (r n i j : nat), reach tidy s -> nonempty (nodes (hp s)) ->
      fn_of (nodes (hp s)) r = Some (KSum, [n]) -> fn_of (nodes (hp s)) n = Some (KBmm, [i; j]) ->
      fn_of (nodes (hp s)) i = None -> fn_of (nodes (hp s)) j = None -> exists h', backward (hp s) r = Ret h'.
Proof. exact c78_batches_refuted. Qed.
Print Assumptions C78_batches_refuted.
(** C78: [backward] panics wherever its root was computed from a product with a left factor of three or more dimensions, ... *)
Theorem C78_panics :
  forall (T : Type) (NT : Num T) (s : state T) (r n i j : nat), reach tidy s -> nonempty (nodes (hp s)) ->
    uses (nodes (hp s)) r n -> fn_of (nodes (hp s)) n = Some (KBmm, [i; j]) ->
    3 <= length (shape (vof (nodes (hp s)) i)) -> size (shape (vof (nodes (hp s)) i)) <> 1 ->
    exists p, backward (hp s) r = Panic p.
Proof. exact c78_panics. Qed.
Print Assumptions C78_panics.
Example C78_panics_ex :
  run [CNew [1; 2; 3; 4]%Z [2; 1; 2]; CNew [5; 6]%Z [2; 1]; CBmm 0 1; CTanh 2; CSum 3; CBackward 4] init_state = Panic PAssert.
Proof. exact c78_panics_ex. Qed.

(** ... unless that factor has a single element: the sum of such a product can be differentiated exactly then. *)
Theorem C78_sum_exactly :
  forall (T : Type) (NT : Num T) (s : state T) (r n i j : nat), reach tidy s -> nonempty (nodes (hp s)) ->
    fn_of (nodes (hp s)) r = Some (KSum, [n]) -> fn_of (nodes (hp s)) n = Some (KBmm, [i; j]) ->
    fn_of (nodes (hp s)) i = None -> fn_of (nodes (hp s)) j = None -> 3 <= length (shape (vof (nodes (hp s)) i)) ->
    ((exists h', backward (hp s) r = Ret h') <-> size (shape (vof (nodes (hp s)) i)) = 1).
Proof. exact c78_sum_exactly. Qed.
Print Assumptions C78_sum_exactly.
Example C78_sum_exactly_ex :
  exists s : state Z, run [CNew [3]%Z [1; 1; 1]; CNew [5; 6]%Z [1; 2]; CBmm 0 1; CSum 2; CBackward 3; CGrad 0; CGrad 1] init_state = Ret s /\
    env s = [0; 1; 2; 3; 4; 5] /\
    vof (nodes (hp s)) 4 = mkRaw [11%Z] [1; 1; 1] /\ vof (nodes (hp s)) 5 = mkRaw [3; 3]%Z [1; 2].
Proof. exact c78_sum_exactly_ex. Qed.

