(** * PropertiesWord: the theorems of ClaimsWord.v, restated (generated by tools/genprops.py) *)
From Coq Require Import NArith.
From Verif Require Import Base ModelIndex ModelTensor ModelWord Spec SpecWord Lists IndexFacts.
From Verif Require Import ClaimsWord.
Local Open Scope N_scope.

(** C09: for every tensor without zero dimension whose length fits in a word, in both profiles, the
    position of any index is the mathematical one or an [Err]. *)
Theorem C09_positions :
  forall (M : N) (md : profile) (s idx : list nat), positive s -> fits M s -> fits M idx -> N.of_nat (size s) < M ->
    (exists i, resolves s idx i /\ w_global_index M md (words idx) (words s) None = Ret (Ok (N.of_nat (rm s i)))) \/
    ((forall i, ~ resolves s idx i) /\ exists e, w_global_index M md (words idx) (words s) None = Ret (Err e)).
Proof. exact c09_positions. Qed.
Print Assumptions C09_positions.
Example C09_positions_ex : positive [3; 5]%nat /\ fits 16 [3; 5]%nat /\ fits 16 [2; 4]%nat /\ N.of_nat (size [3; 5]%nat) < 16 /\
  w_global_index 16 Checked (words [2; 4]%nat) (words [3; 5]%nat) None = Ret (Ok 14) /\ w_global_index 16 Wrapping (words [15; 4]%nat) (words [3; 5]%nat) None = Ret (Err ErrView).
Proof. exact c09_positions_ex. Qed.

(** C09: in particular for every tensor the constructor accepted in the dev profile *)
Theorem C09_built_positions :
  forall (M : N) (md : profile) (A : Type) (a : list A) (s idx : list nat), 1 < M -> w_new M Checked a (words s) = Ret tt ->
    positive s -> fits M s -> fits M idx ->
    (exists i, resolves s idx i /\ w_global_index M md (words idx) (words s) None = Ret (Ok (N.of_nat (rm s i))) /\
       exists x, nth_error a (rm s i) = Some x /\ w_get M md a (words s) (words idx) = Ret (Ok x)) \/
    ((forall i, ~ resolves s idx i) /\ exists e, w_global_index M md (words idx) (words s) None = Ret (Err e) /\ w_get M md a (words s) (words idx) = Ret (Err e)).
Proof. exact c09_built_positions. Qed.
Print Assumptions C09_built_positions.
Example C09_built_positions_ex : 1 < 2 ^ 64 /\ w_new (2 ^ 64) Checked [5; 6; 7; 8; 9; 10]%nat (words [2; 3]%nat) = Ret tt /\ positive [2; 3]%nat /\
  fits (2 ^ 64) [2; 3]%nat /\ fits (2 ^ 64) [7; 1; 2]%nat /\ w_get (2 ^ 64) Wrapping [5; 6; 7; 8; 9; 10]%nat (words [2; 3]%nat) (words [7; 1; 2]%nat) = Ret (Ok 10%nat).
Proof. exact c09_built_positions_ex. Qed.

(** C09: positions in views.  In the release profile no index overflows; in the dev profile none for which
    the range start plus the coordinate fits in a word. *)
Theorem C09_view_positions :
  forall (M : N) (md : profile) (s : list nat) (o : list slice_range) (idx : list nat), positive s -> fits M s -> fits M idx -> N.of_nat (size s) < M ->
    valid_ranges o -> window_ok s o ->
    (md = Checked -> forall r x, In r o -> In x idx -> N.of_nat (sr_start r + x) < M) ->
    (exists i, wresolves s o idx i /\ w_global_index M md (words idx) (words s) (Some (word_ranges o)) = Ret (Ok (N.of_nat (rm s i)))) \/
    ((forall i, ~ wresolves s o idx i) /\ exists e, w_global_index M md (words idx) (words s) (Some (word_ranges o)) = Ret (Err e)).
Proof. exact c09_view_positions. Qed.
Print Assumptions C09_view_positions.
Example C09_view_positions_ex : positive [3]%nat /\ fits 8 [3]%nat /\ fits 8 [7]%nat /\ N.of_nat (size [3]%nat) < 8 /\ valid_ranges [mkSR 1%nat 3%nat] /\ window_ok [3%nat] [mkSR 1%nat 3%nat] /\
  w_global_index 8 Wrapping (words [7]%nat) (words [3]%nat) (Some (word_ranges [mkSR 1%nat 3%nat])) = Ret (Err ErrView) /\
  w_global_index 8 Wrapping (words [1]%nat) (words [3]%nat) (Some (word_ranges [mkSR 1%nat 3%nat])) = Ret (Ok 2).
Proof. exact c09_view_positions_ex. Qed.

(** C09: beyond that, in the dev profile, a view index can overflow instead of giving an [Err]: with any
    word size, looking up the largest coordinate in a window that does not start at 0. *)
Theorem C09_view_overflow_refuted :
  ~ forall (M : N) (s : list N) (o : list (N * N)) (idx : list N), 4 <= M -> Forall (fun x => x < M) s -> Forall (fun x => x < M) idx ->
    Forall2 (fun d r => fst r <= snd r /\ snd r <= d) s o -> w_global_index M Checked idx s (Some o) <> Panic PArith.
Proof. exact c09_view_overflow_refuted. Qed.
Print Assumptions C09_view_overflow_refuted.
(** C09: zero dimensions are different: an accepted empty tensor on which looking up an index overflows *)
Theorem C09_zero_dimension_overflows :
  forall (A : Type), w_new (2 ^ 64) Checked (@nil A) [0; 2 ^ 40; 2 ^ 40] = Ret tt /\
    w_global_index (2 ^ 64) Checked [0; 0; 0] [0; 2 ^ 40; 2 ^ 40] None = Panic PArith /\
    w_global_index (2 ^ 64) Wrapping [0; 0; 0] [0; 2 ^ 40; 2 ^ 40] None = Ret (Err ErrView).
Proof. exact c09_zero_dimension_overflows. Qed.
Print Assumptions C09_zero_dimension_overflows.
(** C09: stepping to the next index never overflows for shapes without zero dimension: both profiles
    compute what unbounded arithmetic does ... *)
Theorem C09_increment :
  forall (M : N) (md : profile) (s i : list nat), 1 < M -> fits M s -> positive s -> in_range s i ->
    exists i' more, increment_index i s = Ret (i', more) /\ w_increment_index M md (words i) (words s) = Ret (words i', more).
Proof. exact c09_increment. Qed.
Print Assumptions C09_increment.
Example C09_increment_ex : 1 < 8 /\ fits 8 [2; 7]%nat /\ positive [2; 7]%nat /\ in_range [2; 7]%nat [0; 6]%nat /\
  w_increment_index 8 Checked (words [0; 6]%nat) (words [2; 7]%nat) = Ret ([1; 0], true).
Proof. exact c09_increment_ex. Qed.

(** C09: ... and for a zero dimension the release profile goes on to indices that do not exist: [dim - 1]
    wraps, so that an index iterator over the shape [0] yields one index for every word. *)
Theorem C09_increment_zero_dimension :
  forall (M v : N), v + 1 < M -> w_increment_index M Checked [v] [0] = Panic PArith /\ w_increment_index M Wrapping [v] [0] = Ret ([v + 1], true).
Proof. exact c09_increment_zero_dimension. Qed.
Print Assumptions C09_increment_zero_dimension.
Example C09_increment_zero_dimension_ex : w_increment_index (2 ^ 64) Wrapping [41] [0] = Ret ([42], true).
Proof. exact c09_increment_zero_dimension_ex. Qed.

(** C09: going back from positions to indices divides only: no overflow for any shape and position *)
Theorem C09_tensor_index :
  forall (s : list nat) (g : nat),
    w_tensor_index (N.of_nat g) (words s) =
    match tensor_index g s with Ret (Ok i) => Ret (Ok (words i)) | Ret (Err e) => Ret (Err e) | Panic p => Panic p | NoFuel => NoFuel end.
Proof. exact c09_tensor_index. Qed.
Print Assumptions C09_tensor_index.
Example C09_tensor_index_ex : w_tensor_index 11 (words [3; 4]%nat) = Ret (Ok [2; 3]) /\ w_tensor_index 12 (words [3; 4]%nat) = Ret (Err ErrBig).
Proof. exact c09_tensor_index_ex. Qed.

(** C10: false in the release profile: an empty array is accepted with shape [2^32, 2^32]. *)
Theorem C10_wrapping_refuted :
  ~ forall (A : Type) (a : list A) (s : list N), Forall (fun d => d < 2 ^ 64) s -> w_new (2 ^ 64) Wrapping a s = Ret tt -> N.of_nat (length a) = prod s.
Proof. exact c10_wrapping_refuted. Qed.
Print Assumptions C10_wrapping_refuted.
(** C10: what the release profile checks is the length modulo the word size. *)
Theorem C10_wrapping_exact :
  forall (M : N) (A : Type) (a : list A) (s : list N), 1 < M ->
    w_new M Wrapping a s = Ret tt <-> N.of_nat (length a) = prod s mod M.
Proof. exact c10_wrapping_exact. Qed.
Print Assumptions C10_wrapping_exact.
Example C10_wrapping_exact_ex : 1 < 2 ^ 64 /\ w_new (2 ^ 64) Wrapping [7; 7; 7]%nat [3; 2 ^ 63 + 1; 1] <> Ret tt /\ prod [2 ^ 63 + 3; 2] mod 2 ^ 64 = 6 /\
  w_new (2 ^ 64) Wrapping [1; 2; 3; 4; 5; 6]%nat [2 ^ 63 + 3; 2] = Ret tt.
Proof. exact c10_wrapping_exact_ex. Qed.

(** C10: it holds in the dev profile: [new] accepts exactly the arrays of the right length whose shape
    multiplies without overflow from the left. *)
Theorem C10_checked :
  forall (M : N) (A : Type) (a : list A) (s : list N),
    w_new M Checked a s = Ret tt <-> (N.of_nat (length a) = prod s /\ no_overflow M 1 s).
Proof. exact c10_checked. Qed.
Print Assumptions C10_checked.
Example C10_checked_ex : w_new 16 Checked [1; 2; 3; 4; 5; 6]%nat [2; 3] = Ret tt /\ w_new 16 Checked (@nil nat) [4; 4] = Panic PArith /\
  w_new 16 Checked (@nil nat) [4; 4; 0] = Panic PArith /\ w_new 16 Checked (@nil nat) [0; 4; 4] = Ret tt.
Proof. exact c10_checked_ex. Qed.

(** C10: without zero dimension, a shape is accepted in the dev profile exactly if the product fits. *)
Theorem C10_checked_positive :
  forall (M : N) (A : Type) (a : list A) (s : list N), Forall (fun d => 0 < d) s -> 1 < M ->
    w_new M Checked a s = Ret tt <-> (N.of_nat (length a) = prod s /\ prod s < M).
Proof. exact c10_checked_positive. Qed.
Print Assumptions C10_checked_positive.
Example C10_checked_positive_ex : Forall (fun d => 0 < d) [2; 3] /\ 1 < 16 /\ N.of_nat (length [1; 2; 3; 4; 5; 6]) = prod [2; 3] /\ prod [2; 3] < 16.
Proof. exact c10_checked_positive_ex. Qed.

(** C10: what the wrap-around leads to: every full index of the accepted tensor panics. *)
Theorem C10_wrapped_get_panics :
  forall (A : Type) (i j : N), i < 2 ^ 32 -> j < 2 ^ 32 ->
    w_new (2 ^ 64) Wrapping (@nil A) [2 ^ 32; 2 ^ 32] = Ret tt /\ w_get (2 ^ 64) Wrapping (@nil A) [2 ^ 32; 2 ^ 32] [i; j] = Panic PIndex.
Proof. exact c10_wrapped_get_panics. Qed.
Print Assumptions C10_wrapped_get_panics.
Example C10_wrapped_get_panics_ex : w_get (2 ^ 64) Wrapping (@nil nat) [2 ^ 32; 2 ^ 32] [3; 5] = Panic PIndex.
Proof. exact c10_wrapped_get_panics_ex. Qed.

