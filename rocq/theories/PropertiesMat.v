(** * PropertiesMat: the theorems of ClaimsMat.v, restated (generated by tools/genprops.py) *)
From Coq Require Import ZArith Ring Permutation.
From Verif Require Import Base ModelIndex ModelTensor ModelOps Spec Lists IndexFacts
  TensorFacts OpsFacts Sums Instances ClaimsTensor ClaimsView ClaimsOps.
From Verif Require Import ClaimsMat.


(** C27: the matrix product is associative, for a matrix or a batch of matrices on the left. *)
Theorem C27_bmm_assoc :
  forall (T : Type) (NT : Num T) (a b c : raw T) (pre : list nat) (n k m p : nat),
    is_ring T -> wf a -> wf b -> wf c -> length pre <= 1 ->
    shape a = pre ++ [n; k] -> shape b = [k; m] -> shape c = [m; p] ->
    exists abc, (let* x := bmm_raw (LRaw a) (LRaw b) in bmm_raw (LRaw x) (LRaw c)) = Ret abc /\
                (let* y := bmm_raw (LRaw b) (LRaw c) in bmm_raw (LRaw a) (LRaw y)) = Ret abc.
Proof. exact c27_bmm_assoc. Qed.
Print Assumptions C27_bmm_assoc.
Example C27_bmm_assoc_ex :
  (let* x := bmm_raw (LRaw (mkRaw [1; 2]%Z [1; 2])) (LRaw (mkRaw [1; 2; 3; 4]%Z [2; 2])) in
   bmm_raw (LRaw x) (LRaw (mkRaw [5; 6]%Z [2; 1]))) = Ret (mkRaw [95%Z] [1; 1]).
Proof. exact c27_bmm_assoc_ex. Qed.

(** C27: the matrix product distributes over addition on both sides. *)
Theorem C27_bmm_distr :
  forall (T : Type) (NT : Num T) (a a' b b' : raw T) (n k m : nat),
    is_ring T -> wf a -> wf a' -> wf b -> wf b' ->
    0 < n -> 0 < k -> 0 < m ->
    shape a = [n; k] -> shape a' = [n; k] -> shape b = [k; m] -> shape b' = [k; m] ->
    (exists t, (let* x := add_raw (LRaw a) (LRaw a') in bmm_raw (LRaw x) (LRaw b)) = Ret t /\
       (let* x := bmm_raw (LRaw a) (LRaw b) in let* y := bmm_raw (LRaw a') (LRaw b) in
        add_raw (LRaw x) (LRaw y)) = Ret t) /\
    (exists t, (let* x := add_raw (LRaw b) (LRaw b') in bmm_raw (LRaw a) (LRaw x)) = Ret t /\
       (let* x := bmm_raw (LRaw a) (LRaw b) in let* y := bmm_raw (LRaw a) (LRaw b') in
        add_raw (LRaw x) (LRaw y)) = Ret t).
Proof. exact c27_bmm_distr. Qed.
Print Assumptions C27_bmm_distr.
Example C27_bmm_distr_ex :
  (let* x := add_raw (LRaw (mkRaw [1; 2]%Z [1; 2])) (LRaw (mkRaw [3; 4]%Z [1; 2])) in
   bmm_raw (LRaw x) (LRaw (mkRaw [5; 6]%Z [2; 1]))) = Ret (mkRaw [56%Z] [1; 1]).
Proof. exact c27_bmm_distr_ex. Qed.

(** C27: identity matrices are neutral on both sides, and scalars pass through. *)
Theorem C27_bmm_identity :
  forall (T : Type) (NT : Num T) (a : raw T) (n k : nat),
    is_ring T -> wf a -> shape a = [n; k] ->
    bmm_raw (LRaw a) (LRaw (eye k)) = Ret a /\ bmm_raw (LRaw (eye n)) (LRaw a) = Ret a.
Proof. exact c27_bmm_identity. Qed.
Print Assumptions C27_bmm_identity.
Example C27_bmm_identity_ex :
  eye 2 = mkRaw [1; 0; 0; 1]%Z [2; 2] /\
  bmm_raw (LRaw (mkRaw [1; 2; 3; 4; 5; 6]%Z [3; 2])) (LRaw (eye 2)) = Ret (mkRaw [1; 2; 3; 4; 5; 6]%Z [3; 2]).
Proof. exact c27_bmm_identity_ex. Qed.

(** C28 is false: with a left operand of shape [1,1,n,k] [bmm] succeeds and drops rows. *)
Theorem C28_bmm_rank4_refuted :
  ~ (forall (T : Type) (NT : Num T) (l r t : raw T) (pre : list nat) (n k m : nat),
       wf l -> wf r -> shape l = pre ++ [n; k] -> shape r = [k; m] ->
       bmm_raw (LRaw l) (LRaw r) = Ret t -> shape t = pre ++ [n; m]).
Proof. exact c28_bmm_rank4_refuted. Qed.
Print Assumptions C28_bmm_rank4_refuted.
Example C28_bmm_rank4_refuted_ex :
  bmm_raw (LRaw (mkRaw [5; 7]%Z [1; 1; 2; 1])) (LRaw (mkRaw [3%Z] [1; 1])) = Ret (mkRaw [15%Z] [1; 1; 1]).
Proof. exact c28_bmm_rank4_refuted_ex. Qed.

(** The exact behaviour of ranks 4 and above on non-empty operands: if some dimension before the last
    two is at least 2 it panics; if they are all 1 the result is the first row only, under a rank-3
    shape. *)
Theorem C28_bmm_high_rank :
  forall (T : Type) (NT : Num T) (l r : raw T) (pre : list nat) (n k m : nat),
    wf l -> wf r -> positive (shape l) -> positive (shape r) ->
    2 <= length pre -> shape l = pre ++ [n; k] -> shape r = [k; m] ->
    (Exists (fun d => 2 <= d) pre -> bmm_raw (LRaw l) (LRaw r) = Panic PUnwrap) /\
    (Forall (fun d => d = 1) pre ->
       exists t row, bmm_raw (LRaw l) (LRaw r) = Ret t /\ shape t = [1; 1; m] /\ array t = row /\
         length row = m /\
         forall (f g : nat -> T) j, j < m ->
           (forall u, u < k -> raw_get l (map (fun _ => 0) pre ++ [0; u]) = Ret (Ok (f u))) ->
           (forall u, u < k -> raw_get r [u; j] = Ret (Ok (g u))) ->
           nth_error row j = Some (fold_left n_add (map (fun u => n_mul (f u) (g u)) (seq 0 k)) n_zero)).
Proof. exact c28_bmm_high_rank. Qed.
Print Assumptions C28_bmm_high_rank.
Example C28_bmm_high_rank_ex :
  bmm_raw (LRaw (mkRaw [5; 7; 9; 11]%Z [1; 1; 2; 2])) (LRaw (mkRaw [1; 0; 0; 1]%Z [2; 2])) = Ret (mkRaw [5; 7]%Z [1; 1; 2]) /\
  bmm_raw (LRaw (mkRaw [5; 7]%Z [2; 1; 1; 1])) (LRaw (mkRaw [1%Z] [1; 1])) = Panic PUnwrap.
Proof. exact c28_bmm_high_rank_ex. Qed.

(** C29: dot is the sum of products, and is refused for different shapes. *)
Theorem C29_dot :
  forall (T : Type) (NT : Num T) (a b : raw T), wf a -> wf b ->
    (shape a = shape b ->
       dot_raw (LRaw a) (LRaw b) =
       Ret (mkRaw [fold_left n_add (map (fun p => n_mul (fst p) (snd p)) (combine (array a) (array b))) n_zero] [1])) /\
    (shape a <> shape b -> dot_raw (LRaw a) (LRaw b) = Panic PAssert) /\
    (is_ring T -> dot_raw (LRaw a) (LRaw b) = dot_raw (LRaw b) (LRaw a)).
Proof. exact c29_dot. Qed.
Print Assumptions C29_dot.
Example C29_dot_ex :
  dot_raw (LRaw (mkRaw [1; 2; 3]%Z [3])) (LRaw (mkRaw [4; 5; 6]%Z [3])) = Ret (mkRaw [32%Z] [1]) /\
  dot_raw (LRaw (mkRaw [1; 2; 3]%Z [3])) (LRaw (mkRaw [4; 5; 6]%Z [3; 1])) = Panic PAssert.
Proof. exact c29_dot_ex. Qed.

(** C30 is false: dot with a view reads the start of the underlying array. *)
Theorem C30_dot_view_refuted :
  ~ (forall (T : Type) (NT : Num T) (a t : raw T) (o : list slice_range) (v : view T) (m : raw T),
       wf a -> wf t -> view_new t o = Ret v -> positive (v_shape v) -> shape a = v_shape v ->
       tl_to_tensor (LView v) = Ret m ->
       dot_raw (LRaw a) (LView v) = dot_raw (LRaw a) (LRaw m)).
Proof. exact c30_dot_view_refuted. Qed.
Print Assumptions C30_dot_view_refuted.
Example C30_dot_view_refuted_ex :
  exists v, view_new (mkRaw [1; 2; 3]%Z [3]) [mkSR 1 2] = Ret v /\
    dot_raw (LRaw (mkRaw [1%Z] [1])) (LView v) = Ret (mkRaw [1%Z] [1]).
Proof. exact c30_dot_view_refuted_ex. Qed.

(** C30, the part that holds: a view of the whole tensor, on either side. *)
Theorem C30_dot_full_view :
  forall (T : Type) (NT : Num T) (a t : raw T) (o : list slice_range) (v : view T),
    wf a -> wf t -> view_new t o = Ret v -> positive (shape t) ->
    Forall2 (fun d r => sr_start r = 0 /\ sr_end r = d) (shape t) o ->
    exists m, tl_to_tensor (LView v) = Ret m /\
      dot_raw (LRaw a) (LView v) = dot_raw (LRaw a) (LRaw m) /\
      dot_raw (LView v) (LRaw a) = dot_raw (LRaw m) (LRaw a).
Proof. exact c30_dot_full_view. Qed.
Print Assumptions C30_dot_full_view.
Example C30_dot_full_view_ex :
  exists v, view_new (mkRaw [1; 2]%Z [2]) [mkSR 0 2] = Ret v /\
    dot_raw (LRaw (mkRaw [3; 4]%Z [2])) (LView v) = Ret (mkRaw [11%Z] [1]).
Proof. exact c30_dot_full_view_ex. Qed.

(** What [dot] computes for a view in general: the products with the underlying array from its start,
    panicking when that array is shorter than the other operand's. *)
Theorem C30_dot_view_exact :
  forall (T : Type) (NT : Num T) (a : raw T) (v : view T),
    shape a = v_shape v ->
    (length (array a) <= length (array (v_tensor v)) ->
       dot_raw (LRaw a) (LView v) =
       Ret (mkRaw [fold_left n_add (map (fun p => n_mul (fst p) (snd p))
                    (combine (array a) (array (v_tensor v)))) n_zero] [1])) /\
    (length (array (v_tensor v)) < length (array a) -> dot_raw (LRaw a) (LView v) = Panic PIndex).
Proof. exact c30_dot_view_exact. Qed.
Print Assumptions C30_dot_view_exact.
Example C30_dot_view_exact_ex :
  dot_raw (LRaw (mkRaw [1; 2]%Z [2])) (LView (mkView (mkRaw [1; 2; 3]%Z [3]) [2] [mkSR 1 3])) = Ret (mkRaw [5%Z] [1]).
Proof. exact c30_dot_view_exact_ex. Qed.

