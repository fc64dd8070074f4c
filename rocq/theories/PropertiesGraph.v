(** * PropertiesGraph: the theorems of ClaimsGraph.v, restated (generated by tools/genprops.py) *)
From Coq Require Import ZArith Ring.
From Verif Require Import Base ModelIndex ModelTensor ModelOps ModelJvp ModelGraph Spec SpecDual SpecGraph
  Lists IndexFacts TensorFacts OpsFacts Sums JvpFacts Dual ClaimsMat Adjoint GradRing FuelFacts GraphFacts ProgFacts BackFacts Instances.
From Verif Require Import ClaimsGraph.


(** C34 is false: the rule of [sum] returns ones whatever gradient comes in. *)
Theorem C34_sum_scales_refuted :
  ~ (forall (T : Type) (NT : Num T), is_ring T -> forall (a : list T) (s : list nat) (s' : state T),
       positive s -> run [CNew a s; CSum 0; CNeg 1; CBackward 2] init_state = Ret s' ->
       var_grad s' 0 = Some (mkRaw (repeat (n_neg n_one) (size s)) s)).
Proof. exact c34_sum_scales_refuted. Qed.
Print Assumptions C34_sum_scales_refuted.
Example C34_sum_scales_refuted_ex :
  exists s' : state Z, run [CNew [5; 7]%Z [2]; CSum 0; CNeg 1; CBackward 2] init_state = Ret s' /\
    var_grad s' 0 = Some (mkRaw [1; 1]%Z [2]).
Proof. exact c34_sum_scales_refuted_ex. Qed.

(** What it does instead, for every tensor: after [(-(x.sum())).backward()] the gradient of [x] is +1
    everywhere. *)
Theorem C34_neg_sum_gives_ones :
  forall (T : Type) (NT : Num T) (a : list T) (s : list nat), length a = size s -> positive s ->
    exists s' : state T, run [CNew a s; CSum 0; CNeg 1; CBackward 2] init_state = Ret s' /\
      var_grad s' 0 = Some (mkRaw (repeat n_one (size s)) s).
Proof. exact c34_neg_sum_gives_ones. Qed.
Print Assumptions C34_neg_sum_gives_ones.
Example C34_neg_sum_gives_ones_ex :
  exists s' : state Z, run [CNew [5; 7; 1]%Z [3; 1]; CSum 0; CNeg 1; CBackward 2] init_state = Ret s' /\
    var_grad s' 0 = Some (mkRaw [1; 1; 1]%Z [3; 1]).
Proof. exact c34_neg_sum_gives_ones_ex. Qed.

(** The rule only looks at the size of the incoming gradient. *)
Theorem C34_rule_ignores_gradient :
  forall (T : Type) (NT : Num T) (x g g' : raw T),
    size (shape g) = size (shape g') -> jvp KSum [x] [g] = jvp KSum [x] [g'].
Proof. exact c34_rule_ignores_gradient. Qed.
Print Assumptions C34_rule_ignores_gradient.
Example C34_rule_ignores_gradient_ex :
  jvp KSum [mkRaw [5; 7]%Z [2]] [mkRaw [100]%Z []] = Ret [mkRaw [1; 1]%Z [1; 2]].
Proof. exact c34_rule_ignores_gradient_ex. Qed.

(** C34, the part that holds: [x.sum().backward()] gives ones. *)
Theorem C34_plain_sum :
  forall (T : Type) (NT : Num T) (a : list T) (s : list nat), length a = size s ->
    exists s' : state T, run [CNew a s; CSum 0; CBackward 1] init_state = Ret s' /\
      var_grad s' 0 = Some (mkRaw (repeat n_one (size s)) s).
Proof. exact c34_plain_sum. Qed.
Print Assumptions C34_plain_sum.
Example C34_plain_sum_ex :
  exists s' : state Z, run [CNew [5; 7; 1]%Z [3; 1]; CSum 0; CBackward 1] init_state = Ret s' /\
    var_grad s' 0 = Some (mkRaw [1; 1; 1]%Z [3; 1]).
Proof. exact c34_plain_sum_ex. Qed.

(** C35 is false: a product has no history. *)
Theorem C35_products_refuted :
  ~ (forall (T : Type) (NT : Num T), is_ring T -> forall (a b : list T) (s : list nat) (s' : state T),
       positive s -> run [CNew a s; CNew b s; CMul 0 1; CSum 2; CBackward 3] init_state = Ret s' ->
       var_grad s' 0 = Some (mkRaw b s) /\ var_grad s' 1 = Some (mkRaw a s)).
Proof. exact c35_products_refuted. Qed.
Print Assumptions C35_products_refuted.
Example C35_products_refuted_ex :
  exists s' : state Z, run [CNew [5]%Z [1]; CNew [7]%Z [1]; CMul 0 1; CSum 2; CBackward 3] init_state = Ret s' /\
    var_grad s' 0 = None /\ var_grad s' 1 = None.
Proof. exact c35_products_refuted_ex. Qed.

(** What happens instead, for all operands of all products: the result has no history, so it was
    "computed" from nothing but itself, and no gradient goes through it. *)
Theorem C35_product_has_no_history :
  forall (T : Type) (NT : Num T) (h h' : heap T) (i j n m : nat),
    op_mul h i j = Ret (h', n) -> fn_of (nodes h') n = None /\ (uses (nodes h') n m -> m = n).
Proof. exact c35_product_has_no_history. Qed.
Print Assumptions C35_product_has_no_history.
Example C35_product_has_no_history_ex :
  exists s' : state Z, run [CNew [5; 6]%Z [2]; CNew [7; 1]%Z [2]; CMul 0 1] init_state = Ret s' /\
    fn_of (nodes (hp s')) 2 = None /\ vof (nodes (hp s')) 2 = mkRaw [35; 6]%Z [2].
Proof. exact c35_product_has_no_history_ex. Qed.

Theorem C35_product_gets_no_gradient :
  forall (T : Type) (NT : Num T) (a b : list T) (s : list nat),
    length a = size s -> length b = size s -> positive s ->
    exists s' : state T, run [CNew a s; CNew b s; CMul 0 1; CSum 2; CBackward 3] init_state = Ret s' /\
      var_grad s' 0 = None /\ var_grad s' 1 = None.
Proof. exact c35_product_gets_no_gradient. Qed.
Print Assumptions C35_product_gets_no_gradient.
Example C35_product_gets_no_gradient_ex :
  exists s' : state Z, run [CNew [5; 6]%Z [2]; CNew [7; 1]%Z [2]; CMul 0 1; CSum 2; CBackward 3] init_state = Ret s' /\
    var_grad s' 0 = None /\ var_grad s' 2 = Some (mkRaw [1; 1]%Z [2]).
Proof. exact c35_product_gets_no_gradient_ex. Qed.

(** C36: for every recorded graph and root there is one contribution per tensor and entry, depending on
    nothing else, that every [backward] call adds to the stored gradients. *)
Theorem C36_backward_adds :
  forall (T : Type) (NT : Num T), is_ring T -> forall (ns : list (node T)) (r : nat), recorded ns ->
    exists c : nat -> nat -> T,
      forall (gr gr' : nat -> option (raw T)) (n : nat),
        backward (mkHeap ns gr) r = Ret (mkHeap ns gr') ->
        (forall g, gr n = Some g -> wf g /\ shape g = shape (vof ns n)) ->
        (forall g, gr' n = Some g -> wf g /\ shape g = shape (vof ns n)) /\
        forall p, p < size (shape (vof ns n)) -> gentry gr' n p = n_add (gentry gr n p) (c n p).
Proof. exact c36_backward_adds. Qed.
Print Assumptions C36_backward_adds.
Example C36_backward_adds_ex :
  exists (s1 s2 : state Z),
    run [CNew [5; 7]%Z [2]; CAdd 0 0; CSum 1; CBackward 2] init_state = Ret s1 /\ run [CBackward 2] s1 = Ret s2 /\
    var_grad s1 0 = Some (mkRaw [2; 2]%Z [2]) /\ var_grad s2 0 = Some (mkRaw [4; 4]%Z [2]).
Proof. exact c36_backward_adds_ex. Qed.

(** Calling it [k] times adds [k] times the contribution; after [zero_grad] it is exactly that. *)
Theorem C36_backward_k_times :
  forall (T : Type) (NT : Num T), is_ring T -> forall (ns : list (node T)) (r : nat), recorded ns ->
    exists c : nat -> nat -> T,
      forall (k : nat) (gr gr' : nat -> option (raw T)) (n : nat),
        times k (mkHeap ns gr) r = Ret (mkHeap ns gr') ->
        (forall g, gr n = Some g -> wf g /\ shape g = shape (vof ns n)) ->
        forall p, p < size (shape (vof ns n)) ->
          gentry gr' n p = n_add (gentry gr n p) (lsum (repeat (c n p) k)) /\
          (gr n = None -> gentry gr' n p = lsum (repeat (c n p) k)).
Proof. exact c36_backward_k_times. Qed.
Print Assumptions C36_backward_k_times.
Example C36_backward_k_times_ex :
  exists (s1 : state Z) (h : heap Z),
    run [CNew [5; 7]%Z [2]; CAdd 0 0; CSum 1] init_state = Ret s1 /\ times 3 (hp s1) 2 = Ret h /\
    grads h 0 = Some (mkRaw [6; 6]%Z [2]).
Proof. exact c36_backward_k_times_ex. Qed.

(** [zero_grad] forgets the stored gradient of its tensor and changes nothing else. *)
Theorem C36_zero_grad :
  forall (T : Type) (NT : Num T) (h : heap T) (n : nat),
    nodes (zero_grad h n) = nodes h /\ grads (zero_grad h n) n = None /\
    forall m, m <> n -> grads (zero_grad h n) m = grads h m.
Proof. exact c36_zero_grad. Qed.
Print Assumptions C36_zero_grad.
Example C36_zero_grad_ex :
  exists (s1 : state Z),
    run [CNew [5; 7]%Z [2]; CSum 0; CBackward 1; CZeroGrad 0; CBackward 1] init_state = Ret s1 /\
    var_grad s1 0 = Some (mkRaw [1; 1]%Z [2]).
Proof. exact c36_zero_grad_ex. Qed.

(** Whether [backward] succeeds does not depend on the gradients stored so far: a call that worked works
    again, at any time, on graphs of non-empty tensors. *)
Theorem C36_backward_again :
  forall (T : Type) (NT : Num T) (s : state T) (gr : nat -> option (raw T)) (h : heap T) (r : nat),
    reach tidy s -> nonempty (nodes (hp s)) -> matrices_only (nodes (hp s)) ->
    backward (mkHeap (nodes (hp s)) gr) r = Ret h -> exists h', backward (hp s) r = Ret h'.
Proof. exact c36_backward_again. Qed.
Print Assumptions C36_backward_again.
Example C36_backward_again_ex :
  exists (s1 s2 : state Z),
    run [CNew [5; 7]%Z [2]; CTanh 0; CSum 1; CBackward 2] init_state = Ret s1 /\ run [CBackward 2; CBackward 2] s1 = Ret s2.
Proof. exact c36_backward_again_ex. Qed.

(** C37: in every program in which only [backward] calls [update_grad], a stored gradient of a tensor that is
    not a [sum] result has the tensor's shape and as many elements. *)
Theorem C37_gradient_shape :
  forall (T : Type) (NT : Num T) (s : state T) (n : nat) (g : raw T),
    reach tidy s -> grads (hp s) n = Some g -> (forall ins, fn_of (nodes (hp s)) n <> Some (KSum, ins)) ->
    n < length (nodes (hp s)) /\ shape g = shape (vof (nodes (hp s)) n) /\ length (array g) = length (array (vof (nodes (hp s)) n)).
Proof. exact c37_gradient_shape. Qed.
Print Assumptions C37_gradient_shape.
Example C37_gradient_shape_ex :
  exists s : state Z,
    run [CNew [1; 2; 3; 4; 5; 6]%Z [2; 3]; CNew [1; 2; 3]%Z [3]; CAdd 0 1; CSum 2; CBackward 3] init_state = Ret s /\
    var_grad s 1 = Some (mkRaw [2; 2; 2]%Z [3]) /\ var_grad s 2 = Some (mkRaw [1; 1; 1; 1; 1; 1]%Z [2; 3]).
Proof. exact c37_gradient_shape_ex. Qed.

(** C38 is false: the result of [sum] is born with a gradient, of ones, in the shape of what was summed. *)
Theorem C38_sum_gradient_refuted :
  ~ (forall (T : Type) (NT : Num T) (a : list T) (s : list nat) (s' : state T),
       positive s -> run [CNew a s; CSum 0] init_state = Ret s' -> var_grad s' 1 = None).
Proof. exact c38_sum_gradient_refuted. Qed.
Print Assumptions C38_sum_gradient_refuted.
Example C38_sum_gradient_refuted_ex :
  exists s' : state Z, run [CNew [5; 7]%Z [2]; CSum 0] init_state = Ret s' /\
    var_grad s' 1 = Some (mkRaw [1; 1]%Z [2]) /\ var_value s' 1 = Ret (mkRaw [12]%Z []).
Proof. exact c38_sum_gradient_refuted_ex. Qed.

(** For every tensor: *)
Theorem C38_sum_preset :
  forall (T : Type) (NT : Num T) (h h' : heap T) (i n : nat) (x : node T),
    hget h i = Ret x -> op_sum h i = Ret (h', n) ->
    n = length (nodes h) /\ vof (nodes h') n = mkRaw [fold_left n_add (array (n_val x)) n_zero] [] /\
    grads h' n = Some (mkRaw (repeat n_one (size (shape (n_val x)))) (shape (n_val x))).
Proof. exact c38_sum_preset. Qed.
Print Assumptions C38_sum_preset.
Example C38_sum_preset_ex :
  exists (h' : heap Z), op_sum (mkHeap [mkNode (mkRaw [5; 7]%Z [1; 2]) None] (fun _ => None)) 0 = Ret (h', 1) /\
    grads h' 1 = Some (mkRaw [1; 1]%Z [1; 2]).
Proof. exact c38_sum_preset_ex. Qed.

(** C38, the part that holds: once it was cleared by [zero_grad], what [backward] puts there is a scalar.
    In any program, it is a scalar or has the shape of the summed tensor. *)
Theorem C38_sum_gradient_shape :
  forall (T : Type) (NT : Num T) (s : state T) (n i : nat) (g : raw T),
    reach tidy s -> fn_of (nodes (hp s)) n = Some (KSum, [i]) -> grads (hp s) n = Some g ->
    (shape g = [] \/ shape g = shape (vof (nodes (hp s)) i)) /\
    forall (r : nat) (h : heap T), backward (zero_grad (hp s) n) r = Ret h ->
      forall g', grads h n = Some g' -> shape g' = [] /\ exists x, array g' = [x].
Proof. exact c38_sum_gradient_shape. Qed.
Print Assumptions C38_sum_gradient_shape.
Example C38_sum_gradient_shape_ex :
  exists s' : state Z, run [CNew [5; 7]%Z [2]; CSum 0; CNeg 1; CZeroGrad 1; CBackward 2] init_state = Ret s' /\
    var_grad s' 1 = Some (mkRaw [-1]%Z []).
Proof. exact c38_sum_gradient_shape_ex. Qed.

