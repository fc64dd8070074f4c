(** * PropertiesNN: the theorems of ClaimsNN.v, restated (generated by tools/genprops.py) *)
From Coq Require Import ZArith.
From Verif Require Import Base ModelIndex ModelTensor ModelOps ModelJvp ModelGraph ModelNN Spec SpecDual SpecGraph SpecNN
  Lists IndexFacts TensorFacts OpsFacts Sums JvpFacts Dual ClaimsMat Adjoint GradRing FuelFacts GraphFacts ProgFacts BackFacts Instances
  ClaimsProg SimFacts NNFacts.
From Verif Require Import ClaimsNN.


(** C47: a whole network, any number of layers, with the activations of the library: [forward] succeeds
    on every batch of matching width, and every element of the result is the network function. *)
Theorem C47_mlp_forward :
  forall (T : Type) (NT : Num T) (h : heap T) (m : mlp T) (ls : list (nat * list T * list T * (T -> T))) (x n i : nat),
    heap_inv h -> net_params (vof (nodes h)) i m ls ->
    Forall (fun l => weights l < length (nodes h) /\ bias l < length (nodes h)) m ->
    x < length (nodes h) -> shape (vof (nodes h) x) = [n; i] -> 0 < n -> 
    exists h' out, mlp_forward m h x = Ret (h', out) /\ extends h h' /\ grads_kept h h' /\
      shape (vof (nodes h') out) = [n; net_out i (map (fun '(o, _, _, _) => o) ls)] /\
      forall r c, r < n -> c < net_out i (map (fun '(o, _, _, _) => o) ls) ->
        entries (net_out i (map (fun '(o, _, _, _) => o) ls)) (array (vof (nodes h') out)) r c =
        net_val i ls (entries i (array (vof (nodes h) x))) r c.
Proof. exact c47_mlp_forward. Qed.
Print Assumptions C47_mlp_forward.
Example C47_mlp_forward_ex :
  exists (h : heap Z) x m ls, heap_inv h /\ net_params (vof (nodes h)) 2 m ls /\
    Forall (fun l => weights l < length (nodes h) /\ bias l < length (nodes h)) m /\ x < length (nodes h) /\
    shape (vof (nodes h) x) = [2; 2] /\ length m = 2 /\
    forall r c, net_val 2 ls (entries 2 (array (vof (nodes h) x))) r c = net_val 2 ls (entries 2 [1; 2; 3; 4]%Z) r c /\
    net_val 2 ls (entries 2 [1; 2; 3; 4]%Z) 1 0 = 13%Z.
Proof. exact c47_mlp_forward_ex. Qed.

(** C47: one layer without activation, element by element *)
Theorem C47_linear_forward :
  forall (T : Type) (NT : Num T) (h : heap T) (w b x n i o : nat),
    heap_inv h -> w < length (nodes h) -> b < length (nodes h) -> x < length (nodes h) -> 0 < n -> 0 < i -> 0 < o ->
    shape (vof (nodes h) x) = [n; i] -> shape (vof (nodes h) w) = [i; o] ->
    shape (vof (nodes h) b) = [1; o] \/ shape (vof (nodes h) b) = [o] ->
    exists h' out, linear_forward (linear_new w b None) h x = Ret (h', out) /\ extends h h' /\ grads_kept h h' /\
      shape (vof (nodes h') out) = [n; o] /\
      forall r c, r < n -> c < o ->
        entries o (array (vof (nodes h') out)) r c =
        n_add (sumn i (fun t => n_mul (entries i (array (vof (nodes h) x)) r t) (entries o (array (vof (nodes h) w)) t c)))
              (nth c (array (vof (nodes h) b)) n_zero).
Proof. exact c47_linear_forward. Qed.
Print Assumptions C47_linear_forward.
Example C47_linear_forward_ex : exists (h' : heap Z) out,
  (let* s := run [CNew [1; 2]%Z [1; 2]; CNew [1; -2; -11; 7]%Z [2; 2]; CNew [1; 1]%Z [2]] init_state in
   linear_forward (linear_new 1 2 None) (hp s) 0) = Ret (h', out) /\ vof (nodes h') out = mkRaw [-20; 13]%Z [1; 2].
Proof. exact c47_linear_forward_ex. Qed.

(** C47: with an activation - any function the user passes *)
Theorem C47_activation :
  forall (T : Type) (NT : Num T) (h : heap T) (w b x : nat) (f : act T),
    linear_forward (linear_new w b (Some f)) h x =
    (let* (h1, z) := linear_forward (linear_new w b None) h x in f h1 z).
Proof. exact c47_activation. Qed.
Print Assumptions C47_activation.
Example C47_activation_ex : exists (h' : heap Z) out,
  (let* s := run [CNew [1; 2]%Z [1; 2]; CNew [1; -2; -11; 7]%Z [2; 2]; CNew [1; 1]%Z [2]] init_state in
   linear_forward (linear_new 1 2 (Some op_relu)) (hp s) 0) = Ret (h', out) /\ vof (nodes h') out = mkRaw [0; 13]%Z [1; 2].
Proof. exact c47_activation_ex. Qed.

(** C47: networks compose from left to right, whatever the activations. *)
Theorem C47_mlp_composition :
  forall (T : Type) (NT : Num T) (h : heap T) (m1 m2 : mlp T) (l : linear T) (x : nat),
    mlp_forward (m1 ++ m2) h x = (let* (h1, y) := mlp_forward m1 h x in mlp_forward m2 h1 y) /\
    mlp_forward [l] h x = linear_forward l h x /\ mlp_forward [] h x = Ret (h, x).
Proof. exact c47_mlp_composition. Qed.
Print Assumptions C47_mlp_composition.
Example C47_mlp_composition_ex : exists (h' : heap Z) out,
  (let* s := run [CNew [1; 2]%Z [1; 2]; CNew [1; -2; -11; 7]%Z [2; 2]; CNew [1; 1]%Z [2]] init_state in
   mlp_forward [linear_new 1 2 (Some op_relu); linear_new 1 2 None] (hp s) 0) = Ret (h', out) /\ vof (nodes h') out = mkRaw [-142; 92]%Z [1; 2].
Proof. exact c47_mlp_composition_ex. Qed.

(** C48: [params] lists weights then bias for each layer in order. *)
Theorem C48_params :
  forall (T : Type) (NT : Num T) (m : mlp T),
    length (mlp_params m) = 2 * length m /\
    forall k l, nth_error m k = Some l ->
      nth_error (mlp_params m) (2 * k) = Some (weights l) /\ nth_error (mlp_params m) (2 * k + 1) = Some (bias l).
Proof. exact c48_params. Qed.
Print Assumptions C48_params.
Example C48_params_ex : mlp_params (T := Z) [linear_new 4 5 None; linear_new 7 6 (Some op_tanh)] = [4; 5; 7; 6].
Proof. exact c48_params_ex. Qed.

(** C48: [update_params] with two tensors per layer makes [params] return them and keeps everything else. *)
Theorem C48_update_params :
  forall (T : Type) (NT : Num T) (m : mlp T) (ps : list nat), length ps = 2 * length m ->
    exists m', mlp_update_params m ps = Ret m' /\ mlp_params m' = ps /\ map activation m' = map activation m /\ length m' = length m.
Proof. exact c48_update_params. Qed.
Print Assumptions C48_update_params.
Example C48_update_params_ex :
  mlp_update_params (T := Z) [linear_new 4 5 None; linear_new 7 6 (Some op_tanh)] [1; 2; 3; 9] = Ret [linear_new 1 2 None; linear_new 3 9 (Some op_tanh)].
Proof. exact c48_update_params_ex. Qed.

Theorem C48_update_with_own :
  forall (T : Type) (NT : Num T) (m : mlp T), mlp_update_params m (mlp_params m) = Ret m.
Proof. exact c48_update_with_own. Qed.
Print Assumptions C48_update_with_own.
Example C48_update_with_own_ex :
  mlp_update_params (T := Z) [linear_new 4 5 None; linear_new 7 6 (Some op_tanh)] [4; 5; 7; 6] = Ret [linear_new 4 5 None; linear_new 7 6 (Some op_tanh)].
Proof. exact c48_update_with_own_ex. Qed.

(** C48: with fewer tensors it panics; with more, the surplus at the front is ignored. *)
Theorem C48_other_lengths :
  forall (T : Type) (NT : Num T) (m : mlp T) (ps extra : list nat),
    (length ps < 2 * length m -> mlp_update_params m ps = Panic PUnwrap) /\
    (length ps = 2 * length m -> mlp_update_params m (extra ++ ps) = mlp_update_params m ps).
Proof. exact c48_other_lengths. Qed.
Print Assumptions C48_other_lengths.
Example C48_other_lengths_ex :
  mlp_update_params (T := Z) [linear_new 4 5 None; linear_new 7 6 None] [1; 2; 3] = Panic PUnwrap /\
  mlp_update_params (T := Z) [linear_new 4 5 None] [1; 2; 3] = Ret [linear_new 2 3 None].
Proof. exact c48_other_lengths_ex. Qed.

(** C48 for a single [Linear]: the first two tensors are used. *)
Theorem C48_linear :
  forall (T : Type) (NT : Num T) (l : linear T) (ps : list nat),
    linear_params l = [weights l; bias l] /\ linear_update_params l (linear_params l) = Ret l /\
    (length ps < 2 -> linear_update_params l ps = Panic PIndex) /\
    (forall w b rest, ps = w :: b :: rest ->
       exists l', linear_update_params l ps = Ret l' /\ linear_params l' = [w; b] /\ activation l' = activation l).
Proof. exact c48_linear. Qed.
Print Assumptions C48_linear.
Example C48_linear_ex : linear_update_params (T := Z) (linear_new 4 5 None) [7; 8; 9] = Ret (linear_new 7 8 None).
Proof. exact c48_linear_ex. Qed.

(** C49: with a rank-0 step size [c] every parameter that has a gradient is replaced by a new tensor of the
    same shape whose elements are [p + (-(c * grad))], in the same order; the old tensors and their
    gradients are as before and no new tensor has a gradient. *)
Theorem C49_sgd_step :
  forall (T : Type) (NT : Num T) (c : T) (m : mlp T) (h : heap T), heap_inv h -> has_grads h (mlp_params m) ->
    exists h' m', sgd_step_mlp m (raw_scalar c) h = Ret (h', m') /\ heap_inv h' /\ extends h h' /\ grads_kept h h' /\
      Forall2 (stepped c h h') (mlp_params m) (mlp_params m') /\
      map activation m' = map activation m /\ length m' = length m /\
      (forall j, length (nodes h) <= j -> grads h' j = None).
Proof. exact c49_sgd_step. Qed.
Print Assumptions C49_sgd_step.
Example C49_sgd_step_ex : exists (h h' : heap Z) m m', heap_inv h /\ has_grads h (mlp_params m) /\
  sgd_step_mlp m (raw_scalar 2%Z) h = Ret (h', m') /\ map (fun p => array (vof (nodes h') p)) (mlp_params m') = [[-7; -14]; [1]]%Z.
Proof. exact c49_sgd_step_ex. Qed.

(** C49: the same for a single [Linear] layer. *)
Theorem C49_sgd_step_linear :
  forall (T : Type) (NT : Num T) (c : T) (l : linear T) (h : heap T), heap_inv h -> has_grads h (linear_params l) ->
    exists h' l', sgd_step_linear l (raw_scalar c) h = Ret (h', l') /\ heap_inv h' /\ extends h h' /\ grads_kept h h' /\
      stepped c h h' (weights l) (weights l') /\ stepped c h h' (bias l) (bias l') /\ activation l' = activation l.
Proof. exact c49_sgd_step_linear. Qed.
Print Assumptions C49_sgd_step_linear.
Example C49_sgd_step_linear_ex : exists (h h' : heap Z) l l', heap_inv h /\ has_grads h (linear_params l) /\
  sgd_step_linear l (raw_scalar 2%Z) h = Ret (h', l') /\ array (vof (nodes h') (weights l')) = [-7; -14]%Z /\ array (vof (nodes h') (bias l')) = [1]%Z.
Proof. exact c49_sgd_step_linear_ex. Qed.

(** C49: over a ring the new elements are [p - c * grad]. *)
Theorem C49_descent_elements :
  forall (T : Type) (NT : Num T), is_ring T -> forall (c : T) (h h' : heap T) p new g i, stepped c h h' p new -> grads h p = Some g ->
    wf (vof (nodes h) p) -> wf g -> shape g = shape (vof (nodes h) p) -> i < length (array (vof (nodes h) p)) ->
    nth i (array (vof (nodes h') new)) n_zero = n_sub (nth i (array (vof (nodes h) p)) n_zero) (n_mul c (nth i (array g) n_zero)).
Proof. exact c49_descent_elements. Qed.
Print Assumptions C49_descent_elements.
Example C49_descent_elements_ex : exists (h h' : heap Z) p new g, stepped 2%Z h h' p new /\ grads h p = Some g /\
  wf (vof (nodes h) p) /\ wf g /\ shape g = shape (vof (nodes h) p) /\ 1 < length (array (vof (nodes h) p)) /\
  nth 1 (array (vof (nodes h') new)) 0%Z = (-2 - 2 * 6)%Z.
Proof. exact c49_descent_elements_ex. Qed.

(** C49: [sgd_step] panics at the first parameter without a gradient. *)
Theorem C49_missing_gradient :
  forall (T : Type) (NT : Num T) (c : T) (m : mlp T) (h : heap T) ps p qs, heap_inv h -> mlp_params m = ps ++ p :: qs ->
    has_grads h ps -> p < length (nodes h) -> grads h p = None -> sgd_step_mlp m (raw_scalar c) h = Panic PUnwrap.
Proof. exact c49_missing_gradient. Qed.
Print Assumptions C49_missing_gradient.
Example C49_missing_gradient_ex : exists (h : heap Z) m ps p, heap_inv h /\ mlp_params m = ps ++ [p] /\ ps <> [] /\ has_grads h ps /\
  p < length (nodes h) /\ grads h p = None /\ sgd_step_mlp m (raw_scalar 2%Z) h = Panic PUnwrap.
Proof. exact c49_missing_gradient_ex. Qed.

(** C50: the new parameters do refer to the old ones. *)
Theorem C50_no_history_refuted :
  ~ (forall (T : Type) (NT : Num T) (step : raw T) (h h' : heap T) (m m' : mlp T), heap_inv h ->
       sgd_step_mlp m step h = Ret (h', m') ->
       forall p n, In p (mlp_params m') -> uses (nodes h') p n -> length (nodes h) <= n).
Proof. exact c50_no_history_refuted. Qed.
Print Assumptions C50_no_history_refuted.
(** C50: after [k] rounds (any computation, then a step) every parameter is the end of a chain of [k+1] different tensors
    all of which it still refers to, the first being the initial parameter. *)
Theorem C50_history_grows :
  forall (T : Type) (NT : Num T) (step : raw T) k (h h' : heap T) ps ps', trained step k h ps h' ps' ->
    Forall2 (chain (nodes h') k) ps ps' /\
    forall p, In p ps' -> exists l, length l = S k /\ NoDup l /\ forall q, In q l -> uses (nodes h') p q.
Proof. exact c50_history_grows. Qed.
Print Assumptions C50_history_grows.
Example C50_history_grows_ex : exists (h h' : heap Z) ps', trained (raw_scalar 2%Z) 2 h [1; 2] h' ps' /\ heap_inv h /\ ps' <> [1; 2].
Proof. exact c50_history_grows_ex. Qed.

(** C50: the number of tensors recorded grows by three per parameter and round at least. *)
Theorem C50_memory_grows :
  forall (T : Type) (NT : Num T) (step : raw T) k (h h' : heap T) ps ps', trained step k h ps h' ps' ->
    length (nodes h) + 3 * k * length ps <= length (nodes h').
Proof. exact c50_memory_grows. Qed.
Print Assumptions C50_memory_grows.
Example C50_memory_grows_ex : exists (h h' : heap Z) ps', trained (raw_scalar 2%Z) 2 h [1; 2] h' ps' /\ length (nodes h) = 7 /\ length (nodes h') = 19.
Proof. exact c50_memory_grows_ex. Qed.

(** C50: so [backward] from a loss that depends on a trained parameter also reaches the parameters of
    every earlier round: each gets a gradient. *)
Theorem C50_backward_reaches_all_rounds :
  forall (T : Type) (NT : Num T) (h h' : heap T) k p r loss, heap_inv h -> chain (nodes h) k p r -> uses (nodes h) loss r ->
    p <> loss -> backward h loss = Ret h' -> grads h' p <> None.
Proof. exact c50_backward_reaches_all_rounds. Qed.
Print Assumptions C50_backward_reaches_all_rounds.
Example C50_backward_reaches_all_rounds_ex : exists (h h' : heap Z) m' loss, heap_inv h /\ chain (nodes h) 1 1 m' /\ uses (nodes h) loss m' /\ 1 <> loss /\
  backward h loss = Ret h' /\ grads h 1 = Some (mkRaw [4; 6]%Z [2; 1]) /\ grads h' 1 = Some (mkRaw [5; 7]%Z [2; 1]).
Proof. exact c50_backward_reaches_all_rounds_ex. Qed.

