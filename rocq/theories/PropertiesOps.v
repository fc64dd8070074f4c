(** * PropertiesOps: the theorems of ClaimsOps.v, restated (generated by tools/genprops.py) *)
From Coq Require Import ZArith Ring Permutation.
From Verif Require Import Base ModelIndex ModelTensor ModelOps ModelJvp ModelGraph Spec Lists IndexFacts
  TensorFacts OpsFacts Sums Instances ClaimsTensor ClaimsView.
From Verif Require Import ClaimsOps.


(** C17: addition broadcasts as numpy does, and refuses exactly the incompatible shapes. *)
Theorem C17_add_broadcast :
  forall (T : Type) (NT : Num T) (a b : raw T),
    wf a -> wf b -> positive (shape a) -> positive (shape b) ->
    (forall s, bcast (shape a) (shape b) s ->
       exists t, add_raw (LRaw a) (LRaw b) = Ret t /\ shape t = s /\ wf t /\
         forall i, in_range s i ->
           exists x y, raw_get a (clamp (shape a) i) = Ret (Ok x) /\
                       raw_get b (clamp (shape b) i) = Ret (Ok y) /\
                       raw_get t i = Ret (Ok (n_add x y))) /\
    ((forall s, ~ bcast (shape a) (shape b) s) -> add_raw (LRaw a) (LRaw b) = Panic PAssert).
Proof. exact c17_add_broadcast. Qed.
Print Assumptions C17_add_broadcast.
Example C17_add_broadcast_ex :
  bcast [2; 1] [3] [2; 3] /\
  add_raw (LRaw (mkRaw [10; 20]%Z [2; 1])) (LRaw (mkRaw [1; 2; 3]%Z [3])) = Ret (mkRaw [11; 12; 13; 21; 22; 23]%Z [2; 3]) /\
  add_raw (LRaw (mkRaw [10; 20]%Z [2])) (LRaw (mkRaw [1; 2; 3]%Z [3])) = Panic PAssert.
Proof. exact c17_add_broadcast_ex. Qed.

(** C17: [RcTensor] addition computes the same value in a new tensor. *)
Theorem C17_rc_add :
  forall (T : Type) (NT : Num T) (h : heap T) (i j : nat) (na nb : node T),
    hget h i = Ret na -> hget h j = Ret nb ->
    match add_raw (LRaw (n_val na)) (LRaw (n_val nb)) with
    | Ret t => exists h' k nk, op_add h i j = Ret (h', k) /\ hget h' k = Ret nk /\ n_val nk = t
    | Panic p => op_add h i j = Panic p
    | NoFuel => op_add h i j = NoFuel
    end.
Proof. exact c17_rc_add. Qed.
Print Assumptions C17_rc_add.
Example C17_rc_add_ex :
  exists h i j na nb, hget h i = Ret na /\ hget h j = Ret nb /\
    add_raw (LRaw (n_val na)) (LRaw (n_val nb)) = Ret (mkRaw [11; 12]%Z [2]).
Proof. exact c17_rc_add_ex. Qed.

(** C18: addition commutes when element addition does. *)
Theorem C18_add_comm :
  forall (T : Type) (NT : Num T) (a b : raw T),
    (forall x y : T, n_add x y = n_add y x) ->
    wf a -> wf b -> positive (shape a) -> positive (shape b) ->
    add_raw (LRaw a) (LRaw b) = add_raw (LRaw b) (LRaw a).
Proof. exact c18_add_comm. Qed.
Print Assumptions C18_add_comm.
Example C18_add_comm_ex :
  add_raw (LRaw (mkRaw [10; 20]%Z [2; 1])) (LRaw (mkRaw [1; 2; 3]%Z [3])) =
  add_raw (LRaw (mkRaw [1; 2; 3]%Z [3])) (LRaw (mkRaw [10; 20]%Z [2; 1])).
Proof. exact c18_add_comm_ex. Qed.

(** C18: addition is associative when element addition is, as outcomes: both ways of bracketing give
    the same tensor or are both refused. *)
Theorem C18_add_assoc :
  forall (T : Type) (NT : Num T) (a b c : raw T),
    (forall x y z : T, n_add (n_add x y) z = n_add x (n_add y z)) ->
    wf a -> wf b -> wf c -> positive (shape a) -> positive (shape b) -> positive (shape c) ->
    (let* x := add_raw (LRaw a) (LRaw b) in add_raw (LRaw x) (LRaw c)) =
    (let* y := add_raw (LRaw b) (LRaw c) in add_raw (LRaw a) (LRaw y)).
Proof. exact c18_add_assoc. Qed.
Print Assumptions C18_add_assoc.
Example C18_add_assoc_ex :
  (let* x := add_raw (LRaw (mkRaw [10; 20]%Z [2; 1])) (LRaw (mkRaw [1; 2; 3]%Z [3])) in
   add_raw (LRaw x) (LRaw (raw_scalar 5%Z))) = Ret (mkRaw [16; 17; 18; 26; 27; 28]%Z [2; 3]) /\
  (let* y := add_raw (LRaw (mkRaw [1; 2; 3]%Z [3])) (LRaw (raw_scalar 5%Z)) in
   add_raw (LRaw (mkRaw [10; 20]%Z [2; 1])) (LRaw y)) = Ret (mkRaw [16; 17; 18; 26; 27; 28]%Z [2; 3]).
Proof. exact c18_add_assoc_ex. Qed.

(** C18: a scalar zero is neutral. *)
Theorem C18_add_zero :
  forall (T : Type) (NT : Num T) (a : raw T),
    (forall x : T, n_add x n_zero = x) -> wf a -> positive (shape a) ->
    add_raw (LRaw a) (LRaw (raw_scalar n_zero)) = Ret a.
Proof. exact c18_add_zero. Qed.
Print Assumptions C18_add_zero.
Example C18_add_zero_ex : add_raw (LRaw (mkRaw [1; 2]%Z [2; 1])) (LRaw (raw_scalar 0%Z)) = Ret (mkRaw [1; 2]%Z [2; 1]).
Proof. exact c18_add_zero_ex. Qed.

(** C19 is false: adding an empty tensor to a compatible one panics. *)
Theorem C19_add_empty_refuted :
  ~ (forall (T : Type) (NT : Num T) (a b : raw T) (s : list nat),
       wf a -> wf b -> bcast (shape a) (shape b) s -> ~ positive s ->
       add_raw (LRaw a) (LRaw b) = Ret (mkRaw [] s)).
Proof. exact c19_add_empty_refuted. Qed.
Print Assumptions C19_add_empty_refuted.
Example C19_add_empty_refuted_ex :
  add_raw (LRaw (mkRaw [1%Z] [1])) (LRaw (mkRaw [] [0])) = Panic PUnwrap /\
  add_raw (LRaw (mkRaw (@nil Z) [0])) (LRaw (mkRaw [] [0])) = Panic PUnwrap.
Proof. exact c19_add_empty_refuted_ex. Qed.

(** What happens instead: whenever an operand has a zero dimension, addition panics. *)
Theorem C19_add_empty_always_panics :
  forall (T : Type) (NT : Num T) (a b : raw T), wf a -> wf b ->
    ~ positive (shape a) \/ ~ positive (shape b) ->
    exists p, add_raw (LRaw a) (LRaw b) = Panic p.
Proof. exact c19_add_empty_always_panics. Qed.
Print Assumptions C19_add_empty_always_panics.
Example C19_add_empty_always_panics_ex :
  exists p, add_raw (LRaw (mkRaw (@nil Z) [2; 0])) (LRaw (raw_scalar 1%Z)) = Panic p.
Proof. exact c19_add_empty_always_panics_ex. Qed.

(** C20: negation. *)
Theorem C20_neg :
  forall (T : Type) (NT : Num T) (a : raw T), wf a ->
    neg_raw (LRaw a) = Ret (mkRaw (map n_neg (array a)) (shape a)) /\
    ((forall x : T, n_neg (n_neg x) = x) -> (let* b := neg_raw (LRaw a) in neg_raw (LRaw b)) = Ret a).
Proof. exact c20_neg. Qed.
Print Assumptions C20_neg.
Example C20_neg_ex : neg_raw (LRaw (mkRaw [1; -2]%Z [2])) = Ret (mkRaw [-1; 2]%Z [2]).
Proof. exact c20_neg_ex. Qed.

(** C20: subtraction is broadcasting addition of the negation, for every compatible pair. *)
Theorem C20_sub :
  forall (T : Type) (NT : Num T) (a b : raw T),
    wf a -> wf b -> positive (shape a) -> positive (shape b) ->
    (forall s, bcast (shape a) (shape b) s ->
       exists t, sub_raw a b = Ret t /\ shape t = s /\ wf t /\
         forall i, in_range s i ->
           exists x y, raw_get a (clamp (shape a) i) = Ret (Ok x) /\
                       raw_get b (clamp (shape b) i) = Ret (Ok y) /\
                       raw_get t i = Ret (Ok (n_add x (n_neg y)))) /\
    ((forall s, ~ bcast (shape a) (shape b) s) -> sub_raw a b = Panic PAssert).
Proof. exact c20_sub. Qed.
Print Assumptions C20_sub.
Example C20_sub_ex :
  bcast [2; 1] [2] [2; 2] /\
  sub_raw (mkRaw [10; 20]%Z [2; 1]) (mkRaw [1; 2]%Z [2]) = Ret (mkRaw [9; 8; 19; 18]%Z [2; 2]).
Proof. exact c20_sub_ex. Qed.

(** C20: [a - a] is all zeros when negation gives additive inverses. *)
Theorem C20_sub_self :
  forall (T : Type) (NT : Num T) (a : raw T),
    (forall x : T, n_add x (n_neg x) = n_zero) -> wf a -> positive (shape a) ->
    sub_raw a a = Ret (mkRaw (repeat n_zero (size (shape a))) (shape a)).
Proof. exact c20_sub_self. Qed.
Print Assumptions C20_sub_self.
Example C20_sub_self_ex : sub_raw (mkRaw [10; 20]%Z [2; 1]) (mkRaw [10; 20]%Z [2; 1]) = Ret (mkRaw [0; 0]%Z [2; 1]).
Proof. exact c20_sub_self_ex. Qed.

(** C21: relu, tanh and abs apply the scalar function to every element and keep the shape, on every
    tensor, empty ones included. *)
Theorem C21_elementwise :
  forall (T : Type) (NT : Num T) (a : raw T), wf a ->
    relu_raw (LRaw a) = Ret (mkRaw (map (fun x => if n_lt x n_zero then n_zero else x) (array a)) (shape a)) /\
    tanh_raw (LRaw a) = Ret (mkRaw (map n_tanh (array a)) (shape a)) /\
    abs_raw (LRaw a) = Ret (mkRaw (map n_abs (array a)) (shape a)).
Proof. exact c21_elementwise. Qed.
Print Assumptions C21_elementwise.
Example C21_elementwise_ex :
  relu_raw (LRaw (mkRaw [1; -2; 0]%Z [3; 1])) = Ret (mkRaw [1; 0; 0]%Z [3; 1]) /\
  abs_raw (LRaw (mkRaw (@nil Z) [2; 0])) = Ret (mkRaw [] [2; 0]).
Proof. exact c21_elementwise_ex. Qed.

(** C21: the [RcTensor] operations compute these values in a new tensor. *)
Theorem C21_rc_elementwise :
  forall (T : Type) (NT : Num T) (h : heap T) (i : nat) (na : node T),
    hget h i = Ret na -> wf (n_val na) ->
    (exists h' k nk, op_relu h i = Ret (h', k) /\ hget h' k = Ret nk /\
       n_val nk = mkRaw (map (fun x => if n_lt x n_zero then n_zero else x) (array (n_val na))) (shape (n_val na))) /\
    (exists h' k nk, op_tanh h i = Ret (h', k) /\ hget h' k = Ret nk /\
       n_val nk = mkRaw (map n_tanh (array (n_val na))) (shape (n_val na))) /\
    (exists h' k nk, op_abs h i = Ret (h', k) /\ hget h' k = Ret nk /\
       n_val nk = mkRaw (map n_abs (array (n_val na))) (shape (n_val na))) /\
    (exists h' k nk, op_neg h i = Ret (h', k) /\ hget h' k = Ret nk /\
       n_val nk = mkRaw (map n_neg (array (n_val na))) (shape (n_val na))).
Proof. exact c21_rc_elementwise. Qed.
Print Assumptions C21_rc_elementwise.
Example C21_rc_elementwise_ex :
  exists h i na, hget h i = Ret na /\ wf (n_val na) /\ array (n_val na) = [1; -2]%Z.
Proof. exact c21_rc_elementwise_ex. Qed.

(** C22: the four cases of multiplication; the result's element count always fits its shape. *)
Theorem C22_mul :
  forall (T : Type) (NT : Num T) (a b : raw T), wf a -> wf b ->
    (forall c, shape a = [] -> array a = [c] ->
       mul_raw a (LRaw b) = Ret (mkRaw (map (fun x => n_mul c x) (array b)) (shape b))) /\
    (forall c, shape a <> [] -> shape b = [] -> array b = [c] ->
       mul_raw a (LRaw b) = Ret (mkRaw (map (fun x => n_mul x c) (array a)) (shape a))) /\
    (shape a <> [] -> shape a = shape b -> positive (shape a) ->
       mul_raw a (LRaw b) =
       Ret (mkRaw (map (fun p => n_mul (fst p) (snd p)) (combine (array a) (array b))) (shape a))) /\
    (shape a <> [] -> shape b <> [] -> shape a <> shape b \/ ~ positive (shape a) ->
       exists p, mul_raw a (LRaw b) = Panic p) /\
    (forall t, mul_raw a (LRaw b) = Ret t -> wf t).
Proof. exact c22_mul. Qed.
Print Assumptions C22_mul.
Example C22_mul_ex :
  mul_raw (raw_scalar 3%Z) (LRaw (mkRaw [1; 2]%Z [2])) = Ret (mkRaw [3; 6]%Z [2]) /\
  mul_raw (mkRaw [1; 2]%Z [2]) (LRaw (mkRaw [3; 4]%Z [2])) = Ret (mkRaw [3; 8]%Z [2]) /\
  mul_raw (mkRaw [1; 2]%Z [2]) (LRaw (mkRaw [3%Z] [1])) = Panic PAssert.
Proof. exact c22_mul_ex. Qed.

(** C23 is false: scaling a view scales the whole underlying array under the view's shape. *)
Theorem C23_scale_view_refuted :
  ~ (forall (T : Type) (NT : Num T) (c : T) (t : raw T) (o : list slice_range) (v : view T) (m : raw T),
       wf t -> view_new t o = Ret v -> positive (v_shape v) -> tl_to_tensor (LView v) = Ret m ->
       mul_raw (raw_scalar c) (LView v) = mul_raw (raw_scalar c) (LRaw m)).
Proof. exact c23_scale_view_refuted. Qed.
Print Assumptions C23_scale_view_refuted.
Example C23_scale_view_refuted_ex :
  exists v, view_new (mkRaw [1; 2; 3]%Z [3]) [mkSR 1 2] = Ret v /\
    mul_raw (raw_scalar 2%Z) (LView v) = Ret (mkRaw [2; 4; 6]%Z [1]).
Proof. exact c23_scale_view_refuted_ex. Qed.

(** C23, the part that holds: a view of the whole tensor is scaled as it should. *)
Theorem C23_scale_full_view :
  forall (T : Type) (NT : Num T) (c : T) (t : raw T) (o : list slice_range) (v : view T),
    wf t -> view_new t o = Ret v -> positive (shape t) ->
    Forall2 (fun d r => sr_start r = 0 /\ sr_end r = d) (shape t) o ->
    exists m, tl_to_tensor (LView v) = Ret m /\
      mul_raw (raw_scalar c) (LView v) = mul_raw (raw_scalar c) (LRaw m) /\
      mul_raw (raw_scalar c) (LRaw m) = Ret (mkRaw (map (fun x => n_mul c x) (array m)) (shape m)).
Proof. exact c23_scale_full_view. Qed.
Print Assumptions C23_scale_full_view.
Example C23_scale_full_view_ex :
  exists v, view_new (mkRaw [1; 2; 3; 4]%Z [2; 2]) [mkSR 0 2; mkSR 0 2] = Ret v /\
    mul_raw (raw_scalar 2%Z) (LView v) = Ret (mkRaw [2; 4; 6; 8]%Z [2; 2]).
Proof. exact c23_scale_full_view_ex. Qed.

(** C24: the sum is zero plus the elements, left to right. *)
Theorem C24_sum :
  forall (T : Type) (NT : Num T) (a : list T) (s : list nat) (t : raw T),
    raw_new a s = Ret t ->
    tl_sum (LRaw t) = Ret (mkRaw [fold_left n_add a n_zero] []).
Proof. exact c24_sum. Qed.
Print Assumptions C24_sum.
Example C24_sum_ex : tl_sum (LRaw (mkRaw [1; 2; 3; 4]%Z [2; 2])) = Ret (mkRaw [10%Z] []).
Proof. exact c24_sum_ex. Qed.

(** C24: in a commutative ring the order of the elements does not matter and the sum is linear. *)
Theorem C24_sum_ring :
  forall (T : Type) (NT : Num T), is_ring T ->
    (forall a b : raw T, Permutation (array a) (array b) -> tl_sum (LRaw a) = tl_sum (LRaw b)) /\
    (forall (a b : raw T) x y, wf a -> wf b -> positive (shape a) -> shape a = shape b ->
       tl_sum (LRaw a) = Ret (raw_scalar x) -> tl_sum (LRaw b) = Ret (raw_scalar y) ->
       (let* t := add_raw (LRaw a) (LRaw b) in tl_sum (LRaw t)) = Ret (raw_scalar (n_add x y))) /\
    (forall (a : raw T) c x, wf a -> tl_sum (LRaw a) = Ret (raw_scalar x) ->
       (let* t := mul_raw (raw_scalar c) (LRaw a) in tl_sum (LRaw t)) = Ret (raw_scalar (n_mul c x))).
Proof. exact c24_sum_ring. Qed.
Print Assumptions C24_sum_ring.
Example C24_sum_ring_ex :
  is_ring Z /\ (let* t := add_raw (LRaw (mkRaw [1; 2]%Z [2])) (LRaw (mkRaw [3; 4]%Z [2])) in tl_sum (LRaw t)) = Ret (raw_scalar 10%Z).
Proof. exact c24_sum_ring_ex. Qed.

(** C25: rank-2 [bmm] is the matrix product; operands may be views; dimensions may be zero. *)
Theorem C25_bmm_rank2 :
  forall (T : Type) (NT : Num T) (l r : tlike T) (n k m : nat) (f g : nat -> nat -> T),
    proper l -> proper r -> tl_shape l = [n; k] -> tl_shape r = [k; m] ->
    (forall i t, i < n -> t < k -> tl_get l [i; t] = Ret (Ok (f i t))) ->
    (forall t j, t < k -> j < m -> tl_get r [t; j] = Ret (Ok (g t j))) ->
    exists c, bmm_raw l r = Ret c /\ shape c = [n; m] /\ wf c /\
      forall i j, i < n -> j < m ->
        raw_get c [i; j] = Ret (Ok (fold_left n_add (map (fun t => n_mul (f i t) (g t j)) (seq 0 k)) n_zero)).
Proof. exact c25_bmm_rank2. Qed.
Print Assumptions C25_bmm_rank2.
Example C25_bmm_rank2_ex :
  bmm_raw (LRaw (mkRaw [1; 2; 3; 4; 5; 6]%Z [2; 3])) (LRaw (mkRaw [1; 0; 0; 1; 1; 1]%Z [3; 2])) =
    Ret (mkRaw [4; 5; 10; 11]%Z [2; 2]) /\
  exists v, view_new (mkRaw [1; 2; 3; 4; 5; 6]%Z [2; 3]) [mkSR 0 2; mkSR 1 3] = Ret v /\ proper (LView v) /\
    bmm_raw (LRaw (mkRaw [1; 1]%Z [1; 2])) (LView v) = Ret (mkRaw [7; 9]%Z [1; 2]).
Proof. exact c25_bmm_rank2_ex. Qed.

(** C25: rank-3 left operand: one matrix product per batch. *)
Theorem C25_bmm_rank3 :
  forall (T : Type) (NT : Num T) (l r : tlike T) (b n k m : nat) (f : nat -> nat -> nat -> T) (g : nat -> nat -> T),
    proper l -> proper r -> tl_shape l = [b; n; k] -> tl_shape r = [k; m] ->
    (forall c i t, c < b -> i < n -> t < k -> tl_get l [c; i; t] = Ret (Ok (f c i t))) ->
    (forall t j, t < k -> j < m -> tl_get r [t; j] = Ret (Ok (g t j))) ->
    exists o, bmm_raw l r = Ret o /\ shape o = [b; n; m] /\ wf o /\
      forall c i j, c < b -> i < n -> j < m ->
        raw_get o [c; i; j] = Ret (Ok (fold_left n_add (map (fun t => n_mul (f c i t) (g t j)) (seq 0 k)) n_zero)).
Proof. exact c25_bmm_rank3. Qed.
Print Assumptions C25_bmm_rank3.
Example C25_bmm_rank3_ex :
  bmm_raw (LRaw (mkRaw [1; 2; 3; 4]%Z [2; 1; 2])) (LRaw (mkRaw [1; 0; 0; 1]%Z [2; 2])) =
    Ret (mkRaw [1; 2; 3; 4]%Z [2; 1; 2]).
Proof. exact c25_bmm_rank3_ex. Qed.

(** C25: what is refused. *)
Theorem C25_bmm_refused :
  forall (T : Type) (NT : Num T) (l r : tlike T),
    (length (tl_shape l) < 2 \/ length (tl_shape r) <> 2 ->  bmm_raw l r = Panic PAssert) /\
    (forall ls k k' m, tl_shape l = ls ++ [k] -> ls <> [] -> tl_shape r = [k'; m] -> k <> k' ->
       bmm_raw l r = Panic PAssert).
Proof. exact c25_bmm_refused. Qed.
Print Assumptions C25_bmm_refused.
Example C25_bmm_refused_ex :
  bmm_raw (LRaw (mkRaw [1; 2]%Z [2])) (LRaw (mkRaw [1; 2]%Z [2; 1])) = Panic PAssert /\
  bmm_raw (LRaw (mkRaw [1; 2]%Z [1; 2])) (LRaw (mkRaw [1; 2; 3]%Z [3; 1])) = Panic PAssert.
Proof. exact c25_bmm_refused_ex. Qed.

