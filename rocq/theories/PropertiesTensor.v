(** * PropertiesTensor: the theorems of ClaimsTensor.v, restated (generated by tools/genprops.py) *)
From Coq Require Import ZArith Sorting.Sorted.
From Verif Require Import Base ModelIndex ModelTensor ModelOps ModelJvp ModelGraph Spec Lists IndexFacts
  TensorFacts OpsFacts Sums Instances.
From Verif Require Import ClaimsTensor.


(** C01: an in-range index reads the array element at its row-major position. *)
Theorem C01_get_row_major :
  forall (T : Type) (NT : Num T) (a : list T) (s i : list nat) (t : raw T),
    raw_new a s = Ret t -> in_range s i ->
    exists x, nth_error a (rm s i) = Some x /\ raw_get t i = Ret (Ok x).
Proof. exact c01_get_row_major. Qed.
Print Assumptions C01_get_row_major.
Example C01_get_row_major_ex :
  exists t, raw_new [10; 11; 12; 13; 14; 15]%Z [2; 3] = Ret t /\ in_range [2; 3] [1; 2] /\
            raw_get t [1; 2] = Ret (Ok 15%Z).
Proof. exact c01_get_row_major_ex. Qed.

(** C02: on a tensor without zero dimensions, [get] returns for every index whatsoever: the element
    that the index stands for under broadcasting, or [Err]. *)
Theorem C02_get_total :
  forall (T : Type) (NT : Num T) (a : list T) (s idx : list nat) (t : raw T),
    raw_new a s = Ret t -> positive s ->
    (exists i x, resolves s idx i /\ nth_error a (rm s i) = Some x /\ raw_get t idx = Ret (Ok x)) \/
    ((forall i, ~ resolves s idx i) /\ exists e, raw_get t idx = Ret (Err e)).
Proof. exact c02_get_total. Qed.
Print Assumptions C02_get_total.
Example C02_get_total_ex :
  (* shape [2;1;3]: a rank-4 index, a too short index, a coordinate of a size-1 dimension *)
  exists t, raw_new [10; 11; 12; 13; 14; 15]%Z [2; 1; 3] = Ret t /\ positive [2; 1; 3] /\
            raw_get t [9; 1; 7; 2] = Ret (Ok 15%Z) /\ resolves [2; 1; 3] [9; 1; 7; 2] [1; 0; 2] /\
            (exists e, raw_get t [2; 0; 0] = Ret (Err e)) /\ (exists e, raw_get t [0; 0] = Ret (Err e)).
Proof. exact c02_get_total_ex. Qed.

(** C02: exactly when [get] succeeds, in terms of positions counted from the right. *)
Theorem C02_get_ok_iff :
  forall (T : Type) (NT : Num T) (a : list T) (s idx : list nat) (t : raw T),
    raw_new a s = Ret t -> positive s ->
    ((exists x, raw_get t idx = Ret (Ok x)) <->
     forall p, p < length s ->
       nth p s 0 = 1 \/
       (length s - p <= length idx /\ nth (length idx - (length s - p)) idx 0 < nth p s 0)).
Proof. exact c02_get_ok_iff. Qed.
Print Assumptions C02_get_ok_iff.
Example C02_get_ok_iff_ex :
  exists t, raw_new [1; 2; 3]%Z [1; 3] = Ret t /\ positive [1; 3] /\ raw_get t [2] = Ret (Ok 3%Z).
Proof. exact c02_get_ok_iff_ex. Qed.

(** C02: leading extra coordinates are ignored (for every tensor, empty ones included). *)
Theorem C02_leading_ignored :
  forall (T : Type) (NT : Num T) (t : raw T) (extra idx : list nat),
    length (shape t) <= length idx -> raw_get t (extra ++ idx) = raw_get t idx.
Proof. exact c02_leading_ignored. Qed.
Print Assumptions C02_leading_ignored.
Example C02_leading_ignored_ex :
  raw_get (mkRaw [1; 2; 3]%Z [3]) [5; 7; 2] = Ret (Ok 3%Z) /\ raw_get (mkRaw [1; 2; 3]%Z [3]) [2] = Ret (Ok 3%Z).
Proof. exact c02_leading_ignored_ex. Qed.

(** C03 is false: [get(&[])] on an empty tensor panics. *)
Theorem C03_get_never_panics_refuted :
  ~ (forall (T : Type) (NT : Num T) (a : list T) (s idx : list nat) (t : raw T),
       raw_new a s = Ret t -> exists r, raw_get t idx = Ret r).
Proof. exact c03_get_never_panics_refuted. Qed.
Print Assumptions C03_get_never_panics_refuted.
Example C03_get_never_panics_refuted_ex :
  raw_new (@nil Z) [0] = Ret (mkRaw [] [0]) /\ raw_get (mkRaw (@nil Z) [0]) [] = Panic PIndex.
Proof. exact c03_get_never_panics_refuted_ex. Qed.

(** C03, the part that holds: an empty tensor answers [Err] to every index that has at least one
    coordinate per dimension. *)
Theorem C03_get_empty_full_index :
  forall (T : Type) (NT : Num T) (a : list T) (s idx : list nat) (t : raw T),
    raw_new a s = Ret t -> ~ positive s -> length s <= length idx ->
    exists e, raw_get t idx = Ret (Err e).
Proof. exact c03_get_empty_full_index. Qed.
Print Assumptions C03_get_empty_full_index.
Example C03_get_empty_full_index_ex :
  exists t, raw_new (@nil Z) [2; 0] = Ret t /\ ~ positive [2; 0] /\ exists e, raw_get t [1; 0] = Ret (Err e).
Proof. exact c03_get_empty_full_index_ex. Qed.

(** C04: storage positions and in-range indices are in bijection through [tensor_index] and
    [global_index]; a position past the end is reported. *)
Theorem C04_position_bijection :
  forall s : list nat, positive s ->
    (forall g, g < size s ->
       exists i, tensor_index g s = Ret (Ok i) /\ in_range s i /\ global_index i s None = Ret (Ok g)) /\
    (forall i, in_range s i ->
       exists g, g < size s /\ global_index i s None = Ret (Ok g) /\ tensor_index g s = Ret (Ok i)) /\
    (forall i j g, in_range s i -> in_range s j ->
       global_index i s None = Ret (Ok g) -> global_index j s None = Ret (Ok g) -> i = j) /\
    (forall g, size s <= g -> exists e, tensor_index g s = Ret (Err e)).
Proof. exact c04_position_bijection. Qed.
Print Assumptions C04_position_bijection.
Example C04_position_bijection_ex :
  positive [2; 3; 2] /\ tensor_index 9 [2; 3; 2] = Ret (Ok [1; 1; 1]) /\
  global_index [1; 1; 1] [2; 3; 2] None = Ret (Ok 9) /\ (exists e, tensor_index 12 [2; 3; 2] = Ret (Err e)).
Proof. exact c04_position_bijection_ex. Qed.

(** C05: iteration yields exactly the in-range indices, each once, in lexicographic order. *)
Theorem C05_iter_indices :
  forall (T : Type) (NT : Num T) (l : tlike T), positive (tl_shape l) ->
    exists is, tl_iter_indices l = Ret is /\
      (forall i, In i is <-> in_range (tl_shape l) i) /\ NoDup is /\ StronglySorted lex_lt is /\
      length is = size (tl_shape l).
Proof. exact c05_iter_indices. Qed.
Print Assumptions C05_iter_indices.
Example C05_iter_indices_ex :
  tl_iter_indices (LRaw (mkRaw [1; 2; 3; 4]%Z [2; 1; 2])) =
    Ret [[0; 0; 0]; [0; 0; 1]; [1; 0; 0]; [1; 0; 1]] /\
  tl_iter_indices (LRaw (mkRaw [1]%Z [])) = Ret [[]].
Proof. exact c05_iter_indices_ex. Qed.

(** C06 is false: iterating over the indices of an empty tensor panics. *)
Theorem C06_iter_empty_refuted :
  ~ (forall (T : Type) (NT : Num T) (t : raw T), wf t -> ~ positive (shape t) ->
       tl_iter_indices (LRaw t) = Ret []).
Proof. exact c06_iter_empty_refuted. Qed.
Print Assumptions C06_iter_empty_refuted.
Example C06_iter_empty_refuted_ex : tl_iter_indices (LRaw (mkRaw (@nil Z) [0; 3])) = Panic PArith.
Proof. exact c06_iter_empty_refuted_ex. Qed.

(** What happens instead: iterating over a shape with a zero dimension always panics (dev profile:
    [dim - 1] underflows). *)
Theorem C06_iter_empty_always_panics :
  forall (T : Type) (NT : Num T) (l : tlike T), ~ positive (tl_shape l) ->
    tl_iter_indices l = Panic PArith.
Proof. exact c06_iter_empty_always_panics. Qed.
Print Assumptions C06_iter_empty_always_panics.
Example C06_iter_empty_always_panics_ex :
  ~ positive [2; 0; 3] /\ tl_iter_indices (LRaw (mkRaw (@nil Z) [2; 0; 3])) = Panic PArith.
Proof. exact c06_iter_empty_always_panics_ex. Qed.

(** C07: [new] accepts exactly matching lengths and keeps the data. *)
Theorem C07_new_iff :
  forall (T : Type) (NT : Num T) (a : list T) (s : list nat),
    (length a = size s -> raw_new a s = Ret (mkRaw a s)) /\
    (length a <> size s -> raw_new a s = Panic PAssert).
Proof. exact c07_new_iff. Qed.
Print Assumptions C07_new_iff.
Example C07_new_iff_ex :
  raw_new [1; 2]%Z [2] = Ret (mkRaw [1; 2]%Z [2]) /\ raw_new [1; 2]%Z [3] = Panic PAssert /\
  raw_new [1]%Z [] = Ret (mkRaw [1%Z] []).
Proof. exact c07_new_iff_ex. Qed.

(** C07: filler and scalar constructors, and [is_scalar]. *)
Theorem C07_filler_scalar :
  forall (T : Type) (NT : Num T) (s : list nat) (x : T) (t : raw T),
    raw_filler s x = mkRaw (repeat x (size s)) s /\
    raw_scalar x = mkRaw [x] [] /\
    (is_scalar t = true <-> shape t = [] /\ length (array t) = 1).
Proof. exact c07_filler_scalar. Qed.
Print Assumptions C07_filler_scalar.
Example C07_filler_scalar_ex :
  raw_filler [2; 2] 7%Z = mkRaw [7; 7; 7; 7]%Z [2; 2] /\ raw_filler [2; 0] 7%Z = mkRaw [] [2; 0] /\
  is_scalar (raw_scalar 3%Z) = true /\ is_scalar (mkRaw [3%Z] [1]) = false.
Proof. exact c07_filler_scalar_ex. Qed.

(** C07: an [RcTensor] made by [new] holds the data, no gradient and no history. *)
Theorem C07_rc_new :
  forall (T : Type) (NT : Num T) (h h' : heap T) (a : list T) (s : list nat) (i : nat),
    op_new h a s = Ret (h', i) ->
    length a = size s /\ hget h' i = Ret (mkNode (mkRaw a s) None) /\ grads h' i = None.
Proof. exact c07_rc_new. Qed.
Print Assumptions C07_rc_new.
Example C07_rc_new_ex :
  exists h i, op_new empty_heap [1; 2]%Z [2; 1] = Ret (h, i) /\ hget h i = Ret (mkNode (mkRaw [1; 2]%Z [2; 1]) None).
Proof. exact c07_rc_new_ex. Qed.

(** C08: a nesting converts exactly when it is rectangular with no empty level; the result has the
    nesting's shape and elements; everything else panics. *)
Theorem C08_from_nested :
  forall (T : Type) (NT : Num T) (n : nest T),
    (forall t, raw_from n = Ret t ->
       rect n (shape t) /\ wf t /\
       forall i, in_range (shape t) i ->
         exists x, nest_at n i = Some x /\ raw_get t i = Ret (Ok x)) /\
    (forall s, rect n s -> exists t, raw_from n = Ret t /\ shape t = s) /\
    ((forall s, ~ rect n s) -> exists p, raw_from n = Panic p).
Proof. exact c08_from_nested. Qed.
Print Assumptions C08_from_nested.
Example C08_from_nested_ex :
  let n := NVec [NVec [NLeaf 1%Z; NLeaf 2%Z; NLeaf 3%Z]; NVec [NLeaf 4%Z; NLeaf 5%Z; NLeaf 6%Z]] in
  rect n [2; 3] /\ raw_from n = Ret (mkRaw [1; 2; 3; 4; 5; 6]%Z [2; 3]) /\
  nest_at n [1; 0] = Some 4%Z /\
  raw_from (NVec [NVec [NLeaf 1%Z]; NVec [NLeaf 1%Z; NLeaf 2%Z]]) = Panic PAssert /\
  raw_from (NVec (@nil (nest Z))) = Panic PIndex.
Proof. exact c08_from_nested_ex. Qed.

(** C11: a view is accepted exactly when there is one range per dimension, each ending within the
    dimension; it then has shape [end - start]. *)
Theorem C11_view_accepted :
  forall (T : Type) (NT : Num T) (t : raw T) (o : list slice_range), valid_ranges o ->
    (length o = length (shape t) /\ (forall p, p < length o -> sr_end (nth p o (mkSR 0 0)) <= nth p (shape t) 0) ->
       view_new t o = Ret (mkView t (map (fun r => sr_end r - sr_start r) o) o)) /\
    (~ (length o = length (shape t) /\ forall p, p < length o -> sr_end (nth p o (mkSR 0 0)) <= nth p (shape t) 0) ->
       view_new t o = Panic PAssert).
Proof. exact c11_view_accepted. Qed.
Print Assumptions C11_view_accepted.
Example C11_view_accepted_ex :
  valid_ranges [mkSR 0 1; mkSR 1 3] /\
  view_new (mkRaw [1; 2; 3; 4; 5; 6]%Z [2; 3]) [mkSR 0 1; mkSR 1 3] =
    Ret (mkView (mkRaw [1; 2; 3; 4; 5; 6]%Z [2; 3]) [1; 2] [mkSR 0 1; mkSR 1 3]) /\
  view_new (mkRaw [1; 2]%Z [2]) [mkSR 0 3] = Panic PAssert /\
  view_new (mkRaw [1; 2]%Z [2]) [] = Panic PAssert.
Proof. exact c11_view_accepted_ex. Qed.

(** C11: ... where the ranges are made by [SliceRange::new], which accepts exactly [start <= end]: views are
    accepted or refused, without any assumption on the ranges. *)
Theorem C11_view_of_new_ranges :
  forall (T : Type) (NT : Num T) (t : raw T) (ps : list (nat * nat)),
    let fits := length ps = length (shape t) /\
      forall p, p < length ps -> fst (nth p ps (0, 0)) <= snd (nth p ps (0, 0)) /\ snd (nth p ps (0, 0)) <= nth p (shape t) 0 in
    let made := let* o := mapM (fun '(a, b) => slice_range_new a b) ps in view_new t o in
    (fits -> exists o, made = Ret (mkView t (map (fun '(a, b) => b - a) ps) o) /\ map sr_start o = map fst ps /\ map sr_end o = map snd ps) /\
    (~ fits -> made = Panic PAssert).
Proof. exact c11_view_of_new_ranges. Qed.
Print Assumptions C11_view_of_new_ranges.
Example C11_view_of_new_ranges_ex :
  (let* o := mapM (fun '(a, b) => slice_range_new a b) [(0, 1); (2, 2)] in view_new (mkRaw [1; 2; 3; 4]%Z [2; 2]) o) =
    Ret (mkView (mkRaw [1; 2; 3; 4]%Z [2; 2]) [1; 0] [mkSR 0 1; mkSR 2 2]) /\
  (let* o := mapM (fun '(a, b) => slice_range_new a b) [(0, 1); (2, 1)] in view_new (mkRaw [1; 2; 3; 4]%Z [2; 2]) o) = Panic PAssert.
Proof. exact c11_view_of_new_ranges_ex. Qed.

(** C11: an in-range view index reads the tensor at index + start, by [get] and by [[]]. *)
Theorem C11_view_get :
  forall (T : Type) (NT : Num T) (t : raw T) (o : list slice_range) (v : view T) (i : list nat),
    wf t -> view_new t o = Ret v -> in_range (v_shape v) i ->
    let j := map (fun '(r, x) => sr_start r + x) (combine o i) in
    in_range (shape t) j /\
    exists x, raw_get t j = Ret (Ok x) /\ view_get v i = Ret (Ok x) /\ view_at v i = Ret x.
Proof. exact c11_view_get. Qed.
Print Assumptions C11_view_get.
Example C11_view_get_ex :
  exists v, view_new (mkRaw [1; 2; 3; 4; 5; 6]%Z [2; 3]) [mkSR 1 2; mkSR 1 3] = Ret v /\
    in_range (v_shape v) [0; 1] /\ view_get v [0; 1] = Ret (Ok 6%Z).
Proof. exact c11_view_get_ex. Qed.

(** C12: materialising, counting, summing and cloning a non-empty view. *)
Theorem C12_view_materialise :
  forall (T : Type) (NT : Num T) (t : raw T) (o : list slice_range) (v : view T),
    wf t -> view_new t o = Ret v -> positive (v_shape v) ->
    exists m : raw T, tl_to_tensor (LView v) = Ret m /\ shape m = v_shape v /\ wf m /\
      (forall i, in_range (v_shape v) i -> exists x, raw_get m i = Ret (Ok x) /\ view_get v i = Ret (Ok x)) /\
      tl_count (LView v) = length (array m) /\
      tl_sum (LView v) = Ret (raw_scalar (fold_left n_add (array m) n_zero)) /\
      tl_deep_clone (LView v) = Ret m.
Proof. exact c12_view_materialise. Qed.
Print Assumptions C12_view_materialise.
Example C12_view_materialise_ex :
  exists v, view_new (mkRaw [1; 2; 3; 4; 5; 6]%Z [2; 3]) [mkSR 0 2; mkSR 1 3] = Ret v /\ positive (v_shape v) /\
    tl_to_tensor (LView v) = Ret (mkRaw [2; 3; 5; 6]%Z [2; 2]) /\ tl_sum (LView v) = Ret (raw_scalar 16%Z) /\
    tl_count (LView v) = 4.
Proof. exact c12_view_materialise_ex. Qed.

(** C12: a view equals another view or tensor exactly when shapes and all elements agree. *)
Theorem C12_view_eq :
  forall (T : Type) (NT : Num T) (t : raw T) (o : list slice_range) (v : view T) (l : tlike T),
    wf t -> view_new t o = Ret v -> positive (v_shape v) ->
    (match l with
     | LRaw u => wf u /\ positive (shape u)
     | LView w => exists u o', wf u /\ view_new u o' = Ret w /\ positive (v_shape w)
     end) ->
    exists b : bool, view_eq v l = Ret b /\
      (b = true <-> v_shape v = tl_shape l /\
         forall i, in_range (v_shape v) i ->
           exists x y, view_get v i = Ret (Ok x) /\ tl_get l i = Ret (Ok y) /\ n_eq x y = true).
Proof. exact c12_view_eq. Qed.
Print Assumptions C12_view_eq.
Example C12_view_eq_ex :
  exists v, view_new (mkRaw [1; 2; 3; 4]%Z [4]) [mkSR 1 3] = Ret v /\ positive (v_shape v) /\
    view_eq v (LRaw (mkRaw [2; 3]%Z [2])) = Ret true /\ view_eq v (LRaw (mkRaw [2; 4]%Z [2])) = Ret false /\
    view_eq v (LRaw (mkRaw [2; 3]%Z [1; 2])) = Ret false.
Proof. exact c12_view_eq_ex. Qed.

