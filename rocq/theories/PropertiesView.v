(** * PropertiesView: the theorems of ClaimsView.v, restated (generated by tools/genprops.py) *)
From Coq Require Import ZArith.
From Verif Require Import Base ModelIndex ModelTensor ModelOps ModelJvp ModelGraph Spec Lists IndexFacts
  TensorFacts OpsFacts Sums Instances ClaimsTensor.
From Verif Require Import ClaimsView.


(** C13 is false: [TensorView::get] panics outside the view. *)
Theorem C13_view_get_err_refuted :
  ~ (forall (T : Type) (NT : Num T) (t : raw T) (o : list slice_range) (v : view T) (idx : list nat),
       wf t -> positive (shape t) -> view_new t o = Ret v -> length idx = length (v_shape v) ->
       ~ in_range (v_shape v) idx -> exists r, view_get v idx = Ret r).
Proof. exact c13_view_get_err_refuted. Qed.
Print Assumptions C13_view_get_err_refuted.
Example C13_view_get_err_refuted_ex :
  exists v, view_new (mkRaw [1; 2; 3]%Z [3]) [mkSR 0 2] = Ret v /\ view_get v [2] = Panic PUnwrap.
Proof. exact c13_view_get_err_refuted_ex. Qed.

(** What happens instead: [get] on a view never answers [Err]; it reads the element the index stands
    for, or panics. *)
Theorem C13_view_get_exact :
  forall (T : Type) (NT : Num T) (t : raw T) (o : list slice_range) (v : view T) (idx : list nat),
    wf t -> positive (shape t) -> view_new t o = Ret v ->
    (exists i x, wresolves (shape t) o idx i /\ raw_get t i = Ret (Ok x) /\ view_get v idx = Ret (Ok x)) \/
    ((forall i, ~ wresolves (shape t) o idx i) /\ view_get v idx = Panic PUnwrap).
Proof. exact c13_view_get_exact. Qed.
Print Assumptions C13_view_get_exact.
Example C13_view_get_exact_ex :
  exists v, view_new (mkRaw [1; 2; 3; 4]%Z [2; 2]) [mkSR 0 2; mkSR 1 2] = Ret v /\
    view_get v [1; 0] = Ret (Ok 4%Z) /\ view_get v [1; 1] = Panic PUnwrap.
Proof. exact c13_view_get_exact_ex. Qed.

(** C14 is false: slicing a view is relative to the underlying tensor, so the slice can show
    elements outside the view. *)
Theorem C14_slice_of_view_refuted :
  ~ (forall (T : Type) (NT : Num T) (t : raw T) (o o' : list slice_range) (v w : view T) (i : list nat),
       wf t -> view_new t o = Ret v -> view_slice v o' = Ret w -> in_range (v_shape w) i ->
       view_get w i = view_get v (shift o' i)).
Proof. exact c14_slice_of_view_refuted. Qed.
Print Assumptions C14_slice_of_view_refuted.
Example C14_slice_of_view_refuted_ex :
  exists v w, view_new (mkRaw [10; 11; 12; 13]%Z [4]) [mkSR 2 4] = Ret v /\
    view_slice v [mkSR 0 1] = Ret w /\ view_get v [0] = Ret (Ok 12%Z) /\ view_get w [0] = Ret (Ok 10%Z).
Proof. exact c14_slice_of_view_refuted_ex. Qed.

(** What happens instead: [view.slice(ranges)] is the window [ranges] of the underlying tensor,
    whatever the view selects. *)
Theorem C14_slice_of_view_is_slice_of_tensor :
  forall (T : Type) (NT : Num T) (t : raw T) (o o' : list slice_range) (v w : view T) (i : list nat),
    wf t -> view_new t o = Ret v -> view_slice v o' = Ret w -> in_range (v_shape w) i ->
    view_new t o' = Ret w /\ view_get w i = raw_get t (shift o' i).
Proof. exact c14_slice_of_view_is_slice_of_tensor. Qed.
Print Assumptions C14_slice_of_view_is_slice_of_tensor.
Example C14_slice_of_view_is_slice_of_tensor_ex :
  exists v w, view_new (mkRaw [10; 11; 12; 13]%Z [4]) [mkSR 0 4] = Ret v /\
    view_slice v [mkSR 1 3] = Ret w /\ in_range (v_shape w) [1] /\ view_get w [1] = Ret (Ok 12%Z).
Proof. exact c14_slice_of_view_is_slice_of_tensor_ex. Qed.

(** ... and it succeeds for the windows of the underlying tensor, of a view as of a tensor. *)
Theorem C14_slice_exactly :
  forall (T : Type) (NT : Num T) (t : raw T) (o o' : list slice_range) (v : view T), view_new t o = Ret v ->
    tl_slice (LView v) o' = tl_slice (LRaw t) o' /\
    ((exists w, tl_slice (LView v) o' = Ret w) <-> window_ok (shape t) o' /\ valid_ranges o') /\
    forall w, tl_slice (LView v) o' = Ret w -> v_shape w = window_shape o' /\ v_tensor w = t.
Proof. exact c14_slice_exactly. Qed.
Print Assumptions C14_slice_exactly.
Example C14_slice_exactly_ex :
  exists v, view_new (mkRaw [10; 11; 12; 13]%Z [4]) [mkSR 2 3] = Ret v /\
    tl_slice (LView v) [mkSR 0 4] = Ret (mkView (mkRaw [10; 11; 12; 13]%Z [4]) [4] [mkSR 0 4]) /\
    tl_slice (LView v) [mkSR 0 5] = Panic PAssert.
Proof. exact c14_slice_exactly_ex. Qed.

(** C15 is false: a reshaped view is still indexed with the old shape. *)
Theorem C15_reshape_refuted :
  ~ (forall (T : Type) (NT : Num T) (t : raw T) (o : list slice_range) (v w : view T) (s : list nat),
       wf t -> view_new t o = Ret v -> positive s -> view_reshape v s = Ret w ->
       elements (LView w) = elements (LView v)).
Proof. exact c15_reshape_refuted. Qed.
Print Assumptions C15_reshape_refuted.
Example C15_reshape_refuted_ex :
  (exists v w, view_new (mkRaw [10; 11; 12; 13]%Z [4]) [mkSR 0 4] = Ret v /\
     view_reshape v [2; 2] = Ret w /\ elements (LView w) = Ret [10; 11; 10; 11]%Z) /\
  (exists v w, view_new (mkRaw [10; 11; 12; 13]%Z [2; 2]) [mkSR 0 2; mkSR 0 2] = Ret v /\
     view_reshape v [4] = Ret w /\ elements (LView w) = Panic PUnwrap).
Proof. exact c15_reshape_refuted_ex. Qed.

(** C15, the part that holds: a reshape is accepted exactly when the number of elements is kept, and
    putting size-1 dimensions in front keeps the row-major sequence of elements. *)
Theorem C15_reshape_leading_ones :
  forall (T : Type) (NT : Num T) (t : raw T) (o : list slice_range) (v : view T) (s : list nat) (k : nat),
    wf t -> view_new t o = Ret v -> positive (v_shape v) ->
    ((exists w, view_reshape v s = Ret w) <-> size s = size (v_shape v)) /\
    exists w, view_reshape v (repeat 1 k ++ v_shape v) = Ret w /\ v_shape w = repeat 1 k ++ v_shape v /\
      exists xs, elements (LView w) = Ret xs /\ elements (LView v) = Ret xs.
Proof. exact c15_reshape_leading_ones. Qed.
Print Assumptions C15_reshape_leading_ones.
Example C15_reshape_leading_ones_ex :
  exists v w, view_new (mkRaw [10; 11; 12; 13]%Z [4]) [mkSR 1 4] = Ret v /\ positive (v_shape v) /\
     view_reshape v [1; 1; 3] = Ret w /\ elements (LView w) = Ret [11; 12; 13]%Z.
Proof. exact c15_reshape_leading_ones_ex. Qed.

(** C16 is false: a size-1 window of a larger dimension does not broadcast. *)
Theorem C16_view_broadcast_refuted :
  ~ (forall (T : Type) (NT : Num T) (a t : raw T) (o : list slice_range) (v : view T) (m : raw T) (s : list nat),
       wf a -> positive (shape a) -> wf t -> view_new t o = Ret v -> positive (v_shape v) ->
       bcast (shape a) (v_shape v) s -> tl_to_tensor (LView v) = Ret m ->
       add_raw (LRaw a) (LView v) = add_raw (LRaw a) (LRaw m)).
Proof. exact c16_view_broadcast_refuted. Qed.
Print Assumptions C16_view_broadcast_refuted.
Example C16_view_broadcast_refuted_ex :
  exists v m, view_new (mkRaw [10; 11; 12]%Z [3]) [mkSR 1 2] = Ret v /\ tl_to_tensor (LView v) = Ret m /\
    add_raw (LRaw (mkRaw [1; 2]%Z [2])) (LRaw m) = Ret (mkRaw [12; 13]%Z [2]) /\
    add_raw (LRaw (mkRaw [1; 2]%Z [2])) (LView v) = Panic PUnwrap.
Proof. exact c16_view_broadcast_refuted_ex. Qed.

(** C16, the part that holds: if every size-1 dimension of the view is a size-1 dimension of its
    tensor (or the shapes are equal), adding the view is adding the materialised view, broadcasting
    included. *)
Theorem C16_view_broadcast :
  forall (T : Type) (NT : Num T) (a t : raw T) (o : list slice_range) (v : view T) (m : raw T) (s : list nat),
    wf a -> positive (shape a) -> wf t -> view_new t o = Ret v -> positive (v_shape v) ->
    bcast (shape a) (v_shape v) s -> tl_to_tensor (LView v) = Ret m ->
    shape a = v_shape v \/
      (forall p, p < length o -> nth p (v_shape v) 0 = 1 -> nth p (shape t) 0 = 1) ->
    add_raw (LRaw a) (LView v) = add_raw (LRaw a) (LRaw m) /\
    exists r, add_raw (LRaw a) (LView v) = Ret r /\ shape r = s.
Proof. exact c16_view_broadcast. Qed.
Print Assumptions C16_view_broadcast.
Example C16_view_broadcast_ex :
  exists v m, view_new (mkRaw [10; 11; 12; 13]%Z [1; 4]) [mkSR 0 1; mkSR 1 3] = Ret v /\ positive (v_shape v) /\
    tl_to_tensor (LView v) = Ret m /\ bcast [3; 2] (v_shape v) [3; 2] /\
    (forall p, p < 2 -> nth p (v_shape v) 0 = 1 -> nth p [1; 4] 0 = 1) /\
    add_raw (LRaw (mkRaw [1; 2; 3; 4; 5; 6]%Z [3; 2])) (LView v) = Ret (mkRaw [12; 14; 14; 16; 16; 18]%Z [3; 2]).
Proof. exact c16_view_broadcast_ex. Qed.

(** C51: equality compares shapes and elements only. *)
Theorem C51_eq_spec :
  forall (T : Type) (NT : Num T) (a b : raw T), wf a -> wf b ->
    (raw_eq a b = true <->
     shape a = shape b /\
     forall i, in_range (shape a) i ->
       exists x y, raw_get a i = Ret (Ok x) /\ raw_get b i = Ret (Ok y) /\ n_eq x y = true).
Proof. exact c51_eq_spec. Qed.
Print Assumptions C51_eq_spec.
Example C51_eq_spec_ex :
  raw_eq (mkRaw [1; 2]%Z [2]) (mkRaw [1; 2]%Z [2]) = true /\ raw_eq (mkRaw [1; 2]%Z [2]) (mkRaw [1; 2]%Z [2; 1]) = false /\
  raw_eq (mkRaw [1; 2]%Z [2]) (mkRaw [1; 3]%Z [2]) = false.
Proof. exact c51_eq_spec_ex. Qed.

(** C51: tensor equality is an equivalence when element equality is one. *)
Theorem C51_eq_equivalence :
  forall (T : Type) (NT : Num T),
    ((forall x : T, n_eq x x = true) -> forall a, raw_eq a a = true) /\
    ((forall x y : T, n_eq x y = true -> n_eq y x = true) ->
       forall a b, raw_eq a b = true -> raw_eq b a = true) /\
    ((forall x y z : T, n_eq x y = true -> n_eq y z = true -> n_eq x z = true) ->
       forall a b c, raw_eq a b = true -> raw_eq b c = true -> raw_eq a c = true).
Proof. exact c51_eq_equivalence. Qed.
Print Assumptions C51_eq_equivalence.
Example C51_eq_equivalence_ex : forall a b : raw Z, raw_eq a b = true -> raw_eq b a = true.
Proof. exact c51_eq_equivalence_ex. Qed.

