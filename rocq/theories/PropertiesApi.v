(** * PropertiesApi: the theorems of ClaimsApi.v, restated (generated by tools/genprops.py) *)
From Coq Require Import ZArith.
From Verif Require Import Base ModelIndex ModelTensor ModelOps ModelJvp ModelGraph ModelApi Spec SpecDual SpecGraph SpecApi
  Lists TensorFacts GradRing FuelFacts GraphFacts ProgFacts BackFacts Instances ApiFacts CopyFacts.
From Verif Require Import ClaimsApi.


(** C62: whatever public function is called, on a tensor, a [RawTensor] or a view: the values the program
    holds read as before, and gradients change only by [update_grad], [zero_grad] and [backward]. *)
Theorem C62_values_kept : forall (T : Type) (NT : Num T) (a : astate T) (c : call T) (a' : astate T),
  a_reach any_call a -> a_exec a c = Some (Ret a') ->
  (exists e, aenv a' = aenv a ++ e) /\ (forall v, In v (aenv a) -> as_like (ahp a') v = as_like (ahp a) v) /\
  (changes_grads c = false -> forall v, In v (aenv a) -> grads (ahp a') (tensor_of v) = grads (ahp a) (tensor_of v)).
Proof. exact c62_values_kept. Qed.
Print Assumptions C62_values_kept.
Example C62_values_kept_ex : a_reach any_call a_end /\ exists a', a_exec a_end (ABmm 5 1) = Some (Ret a') /\ as_like (ahp a') (VRc 1) = Ret (LRaw (mkRaw [3; 4]%Z [1; 2])).
Proof. exact c62_values_kept_ex. Qed.

(** C62: those three calls change gradients of tensors their receiver was computed from, and nothing else. *)
Theorem C62_gradient_calls : forall (T : Type) (NT : Num T) (a : astate T) (c : call T) (a' : astate T),
  changes_grads c = true -> a_exec a c = Some (Ret a') ->
  nodes (ahp a') = nodes (ahp a) /\ aenv a' = aenv a /\
  exists x v, nth_error (aenv a) x = Some v /\
    ((exists y, c = AUpdateGrad x y) \/ c = AZeroGrad x \/ c = ABackward x) /\
    forall j, ~ uses (nodes (ahp a)) (tensor_of v) j -> grads (ahp a') j = grads (ahp a) j.
Proof. exact c62_gradient_calls. Qed.
Print Assumptions C62_gradient_calls.
Example C62_gradient_calls_ex : exists a', a_exec a_end (ABackward 4) = Some (Ret a') /\
  grads (ahp a') 0 = Some (mkRaw [7; 7]%Z [2; 1]) /\ grads (ahp a') 1 = None.
Proof. exact c62_gradient_calls_ex. Qed.

(** C62: every program that type-checks ends: with a state or with a panic. *)
Theorem C62_terminates : forall (T : Type) (NT : Num T) (p : list (call T)),
  a_run p a_init <> Some NoFuel.
Proof. exact c62_terminates. Qed.
Print Assumptions C62_terminates.
Example C62_terminates_ex : a_run a_prog a_init = Some (Ret a_end) /\ a_run (a_prog ++ [ADotMethod 0 1]) a_init = Some (Panic PTodo).
Proof. exact c62_terminates_ex. Qed.

(** C62: no tensor is computed from itself. *)
Theorem C62_acyclic : forall (T : Type) (NT : Num T) (a : astate T),
  a_reach any_call a -> forall n m, uses (nodes (ahp a)) n m -> m <= n /\ (uses (nodes (ahp a)) m n -> m = n).
Proof. exact c62_acyclic. Qed.
Print Assumptions C62_acyclic.
Example C62_acyclic_ex : a_reach any_call a_end /\ uses (nodes (ahp a_end)) 4 0.
Proof. exact c62_acyclic_ex. Qed.

(** C62 is false in one respect: a program can make a tensor whose array does not fit its shape, by
    [RawTensor::default()] or by scaling a view. *)
Theorem C62_well_formed_refuted :
  ~ (forall (T : Type) (NT : Num T) (a : astate T), a_reach any_call a -> forall n nd, nth_error (nodes (ahp a)) n = Some nd -> wf (n_val nd)).
Proof. exact c62_well_formed_refuted. Qed.
Print Assumptions C62_well_formed_refuted.
Example C62_well_formed_refuted_ex : exists a : astate Z,
  a_run [ARc (CNew [1; 2; 3; 4]%Z [2; 2]); ASlice 0 [mkSR 0 1; mkSR 0 2]; ARightScalar 1 5%Z] a_init = Some (Ret a) /\
  as_like (ahp a) (VRaw 1) = Ret (LRaw (mkRaw [5; 10; 15; 20]%Z [1; 2])).
Proof. exact c62_well_formed_refuted_ex. Qed.

(** C62: without those two, every tensor is well formed and has the value its recorded history
    evaluates to. *)
Theorem C62_well_formed_partial : forall (T : Type) (NT : Num T) (a : astate T),
  a_reach careful a -> forall n nd, nth_error (nodes (ahp a)) n = Some nd ->
  wf (n_val nd) /\ (forall g, grads (ahp a) n = Some g -> wf g) /\
  forall k ins, n_fn nd = Some (k, ins) -> Forall (fun i => i < n) ins /\ fwd k (map (vof (nodes (ahp a))) ins) = Ret (n_val nd).
Proof. exact c62_well_formed_partial. Qed.
Print Assumptions C62_well_formed_partial.
Example C62_well_formed_partial_ex : a_reach careful a_end /\ exists nd, nth_error (nodes (ahp a_end)) 3 = Some nd /\ n_fn nd = Some (KBmm, [0; 2]) /\ n_val nd = mkRaw [3; 4; 6; 8]%Z [2; 2].
Proof. exact c62_well_formed_partial_ex. Qed.

(** C62: and without [update_grad] by the program, a gradient has the shape of its tensor, unless that is
    a scalar. *)
Theorem C62_gradient_shapes : forall (T : Type) (NT : Num T) (a : astate T),
  a_reach careful_tidy a -> forall n nd g, nth_error (nodes (ahp a)) n = Some nd ->
  grads (ahp a) n = Some g -> shape g = shape (n_val nd) \/ shape (n_val nd) = [].
Proof. exact c62_gradient_shapes. Qed.
Print Assumptions C62_gradient_shapes.
Example C62_gradient_shapes_ex : a_reach careful_tidy a_end /\ exists nd, nth_error (nodes (ahp a_end)) 4 = Some nd /\
  grads (ahp a_end) 4 = Some (mkRaw [1; 1; 1; 1]%Z [2; 2]) /\ shape (n_val nd) = [].
Proof. exact c62_gradient_shapes_ex. Qed.

(** C62: the programs of ModelGraph are among these: such a program reaches the same heap and ends in the
    same panic through the whole interface. *)
Theorem C62_includes : forall (T : Type) (NT : Num T) (p : list (cmd T)) (s : state T),
  run p init_state = Ret s ->
  exists q a at_, a_run q a_init = Some (Ret a) /\ holds a s at_ /\
    forall c e, Forall (fun x => x < length (env s)) (operands c) -> exec s c = Panic e -> exists q', a_run (q ++ q') a_init = Some (Panic e).
Proof. exact c62_includes. Qed.
Print Assumptions C62_includes.
Example C62_includes_ex : exists s : state Z, run [CNew [1; 2; 3; 4]%Z [2; 2]; CViewSum 0 [mkSR 0 1; mkSR 0 2]; CSum 0; CBackward 2] init_state = Ret s /\
  vof (nodes (hp s)) 1 = mkRaw [3]%Z [] /\ grads (hp s) 0 = Some (mkRaw [1; 1; 1; 1]%Z [2; 2]) /\ exec s (CDotMethod 0 0) = Panic PTodo.
Proof. exact c62_includes_ex. Qed.

(** C62: the value of the result of a call is a function of the values of the operands: their kinds
    ([RcTensor], [RawTensor], view), histories and gradients make no difference.  The call panics if that
    function does, and only then (unless an operand is a view: [x.bmm(&view)] copies the view first). *)
Theorem C62_meaning : forall (T : Type) (NT : Num T) (a : astate T) (c : call T) (r : outcome (astate T)) (ls : list (tlike T)) (m : outcome (tlike T)),
  a_exec a c = Some r -> api_reads a c ls -> api_means c ls = Some m ->
  (forall a', r = Ret a' -> exists v l, aenv a' = aenv a ++ [v] /\ as_like (ahp a') v = Ret l /\ m = Ret l) /\
  (forall e, m = Panic e -> r = Panic e) /\
  (forall l, m = Ret l -> Forall (fun l => exists t, l = LRaw t) ls -> exists a', r = Ret a').
Proof. exact c62_meaning. Qed.
Print Assumptions C62_meaning.
Example C62_meaning_ex :
  exists a', a_exec a_end (ASub 0 1) = Some a' /\ api_reads a_end (ASub 0 1) [LRaw (mkRaw [1; 2]%Z [2; 1]); LRaw (mkRaw [3; 4]%Z [1; 2])] /\
    api_means (ASub 0 1) [LRaw (mkRaw [1; 2]%Z [2; 1]); LRaw (mkRaw [3; 4]%Z [1; 2])] = Some (Ret (LRaw (mkRaw [-2; -3; -1; -2]%Z [2; 2]))).
Proof. exact c62_meaning_ex. Qed.

(** C62: [bmm] with a view, sliced or reshaped, is [bmm] with the tensor made from the view. *)
Theorem C62_bmm_view : forall (T : Type) (NT : Num T) (a r : raw T) (v : view T),
  tl_to_tensor (LView v) = Ret r -> bmm_raw (LRaw a) (LView v) = bmm_raw (LRaw a) (LRaw r).
Proof. exact c62_bmm_view. Qed.
Print Assumptions C62_bmm_view.
Example C62_bmm_view_ex :
  let v := mkView (mkRaw [1; 2; 3; 4]%Z [2; 2]) [2; 2] [mkSR 0 2; mkSR 0 2] in
  tl_to_tensor (LView v) = Ret (mkRaw [1; 2; 3; 4]%Z [2; 2]) /\
  bmm_raw (LRaw (mkRaw [1; 1]%Z [1; 2])) (LView v) = Ret (mkRaw [4; 6]%Z [1; 2]).
Proof. exact c62_bmm_view_ex. Qed.

(** C63 is false: which of several handles to the same data is used decides whether a tensor gets a
    gradient. In [x.bmm(&*w)] the right operand is a [RawTensor], of which a hidden copy is recorded, and
    the gradient goes to that copy. *)
Theorem C63_copies_refuted :
  ~ (forall (T : Type) (NT : Num T) (a a1 b1 : astate T) (x w d : nat), a_reach any_call a ->
       forall i, nth_error (aenv a) w = Some (VRc i) -> nth_error (aenv a) d = Some (VRaw i) -> let z := length (aenv a) in
       a_run [ABmm x w; ASum z; ABackward (S z)] a = Some (Ret a1) -> a_run [ABmm x d; ASum z; ABackward (S z)] a = Some (Ret b1) ->
       grads (ahp a1) i = grads (ahp b1) i).
Proof. exact c63_copies_refuted. Qed.
Print Assumptions C63_copies_refuted.
Example C63_copies_refuted_ex :
  exists a b : astate Z,
    a_run [ARc (CNew [1; 2]%Z [1; 2]); ARc (CNew [3; 4]%Z [2; 1]); ADeref 1; ABmm 0 1; ASum 3; ABackward 4] a_init = Some (Ret a) /\ grads (ahp a) 1 = Some (mkRaw [1; 2]%Z [2; 1]) /\
    a_run [ARc (CNew [1; 2]%Z [1; 2]); ARc (CNew [3; 4]%Z [2; 1]); ADeref 1; ABmm 0 2; ASum 3; ABackward 4] a_init = Some (Ret b) /\ grads (ahp b) 1 = None.
Proof. exact c63_copies_refuted_ex. Qed.

(** C63: what does hold: let one history have several copies of a tensor where the other has a single one.
    Then the gradient of the single one is the sum of those of its copies, and it has one exactly when
    one of them has. *)
Theorem C63_copies_partial : forall (T : Type) (NT : Num T) (f : nat -> nat) (h2 h1 h2' h1' : heap T) (i n : nat) (nd : node T),
  is_ring T ->
  unshares f (nodes h2) (nodes h1) -> heap_inv h2 -> heap_inv h1 ->
  backward h2 i = Ret h2' -> backward h1 (f i) = Ret h1' -> nth_error (nodes h1) n = Some nd ->
  grads h1 n = None -> (forall m, In m (occurrences f (nodes h2) n) -> grads h2 m = None) ->
  (grads h1' n = None <-> forall m, In m (occurrences f (nodes h2) n) -> grads h2' m = None) /\
  forall p, p < size (shape (n_val nd)) -> gentry (grads h1') n p = lsum (map (fun m => gentry (grads h2') m p) (occurrences f (nodes h2) n)).
Proof. exact c63_copies_partial. Qed.
Print Assumptions C63_copies_partial.
Example C63_copies_partial_ex : is_ring Z /\ unshares w_of (nodes (ahp two_w)) (nodes (ahp one_w)) /\ heap_inv (ahp two_w) /\ heap_inv (ahp one_w) /\
  exists h2' h1', backward (ahp two_w) 3 = Ret h2' /\ backward (ahp one_w) (w_of 3) = Ret h1' /\
    occurrences w_of (nodes (ahp two_w)) 0 = [0; 1] /\ grads h2' 0 = Some (mkRaw [1; 1]%Z [2]) /\ grads h2' 1 = Some (mkRaw [1; 1]%Z [2]) /\ grads h1' 0 = Some (mkRaw [2; 2]%Z [2]).
Proof. exact c63_copies_partial_ex. Qed.

(** C63: in any arithmetic, a tensor with no other copy gets the same gradient in both. *)
Theorem C63_unique : forall (T : Type) (NT : Num T) (f : nat -> nat) (h2 h1 h2' h1' : heap T) (i m : nat),
  unshares f (nodes h2) (nodes h1) -> heap_inv h2 -> heap_inv h1 ->
  backward h2 i = Ret h2' -> backward h1 (f i) = Ret h1' -> m < length (nodes h2) ->
  (forall m', m' < length (nodes h2) -> f m' = f m -> m' = m) -> grads h1 (f m) = grads h2 m -> grads h1' (f m) = grads h2' m.
Proof. exact c63_unique. Qed.
Print Assumptions C63_unique.
Example C63_unique_ex : unshares w_of (nodes (ahp two_w)) (nodes (ahp one_w)) /\ heap_inv (ahp two_w) /\ heap_inv (ahp one_w) /\
  exists h2' h1', backward (ahp two_w) 3 = Ret h2' /\ backward (ahp one_w) (w_of 3) = Ret h1' /\
    (forall m', m' < length (nodes (ahp two_w)) -> w_of m' = w_of 2 -> m' = 2) /\ grads h2' 2 = Some (mkRaw [1; 1]%Z [2]) /\ grads h1' 1 = Some (mkRaw [1; 1]%Z [2]).
Proof. exact c63_unique_ex. Qed.

(** C63: [backward] of a copy of a tensor does what [backward] of the tensor does. *)
Theorem C63_backward_of_copy : forall (T : Type) (NT : Num T) (h h' : heap T) (i j : nat),
  op_copy h i = Ret (h', j) -> backward h' j = backward h' i.
Proof. exact c63_backward_of_copy. Qed.
Print Assumptions C63_backward_of_copy.
Example C63_backward_of_copy_ex : exists h' h'' : heap Z, op_copy (ahp one_w) 2 = Ret (h', 3) /\ backward h' 3 = Ret h'' /\ grads h'' 0 = Some (mkRaw [2; 2]%Z [2]).
Proof. exact c63_backward_of_copy_ex. Qed.

(** C63: which calls record a history. Arithmetic on [RcTensor]s does, except [*]; [clone], [to_tensor],
    [tensor], [slice], [reshape] pass it on, except [to_tensor] of a view; all else, in particular
    arithmetic on a [RawTensor] or a view, makes a tensor without history. *)
Theorem C63_history : forall (T : Type) (NT : Num T) (a : astate T) (c : call T) (a' : astate T),
  a_exec a c = Some (Ret a') -> changes_grads c = false ->
  exists v', aenv a' = aenv a ++ [v'] /\
    (tracked a c -> fn_of (nodes (ahp a')) (tensor_of v') <> None) /\
    (forall v, passes_on a c = Some v -> fn_of (nodes (ahp a')) (tensor_of v') = fn_of (nodes (ahp a)) (tensor_of v)) /\
    (~ tracked a c -> passes_on a c = None -> (forall x, c <> AGrad x) -> fn_of (nodes (ahp a')) (tensor_of v') = None).
Proof. exact c63_history. Qed.
Print Assumptions C63_history.
Example C63_history_ex : exists a1 a2 : astate Z,
  a_exec two_w (AAdd 0 2) = Some (Ret a1) /\ tracked two_w (AAdd 0 2) /\ fn_of (nodes (ahp a1)) 4 = Some (KAdd, [0; 1]) /\
  a_exec two_w (AAdd 1 2) = Some (Ret a2) /\ ~ tracked two_w (AAdd 1 2) /\ fn_of (nodes (ahp a2)) 4 = None.
Proof. exact c63_history_ex. Qed.

