(** * PropertiesRound: the theorems of ClaimsRound.v, restated (generated by tools/genprops.py) *)
From Coq Require Import Reals ZArith Lra Permutation.
From Flocq Require Import Core BinarySingleNaN.
From Verif Require Import Base ModelIndex ModelTensor ModelOps ModelJvp ModelPar Spec SpecPar SpecGraph SpecRound
  Lists IndexFacts TensorFacts OpsFacts ClaimsMat ClaimsOps ChanBmm ChanOrder ChanExec RoundFacts.
From Verif Require Import ClaimsRound.
Local Open Scope R_scope.

(** C59: a finite sum is within [(1 + u)^(n-1) - 1] times the sum of the magnitudes of the exact one. *)
Theorem C59_sum :
  forall (prec emax : Z) (P : Prec_gt_0 prec) (E : Prec_lt_emax prec emax) (tanh : float prec emax -> float prec emax)
         (a : list (float prec emax)) (s : list nat) (t : raw (float prec emax)),
    raw_new a s = Ret t ->
    exists y, tl_sum (NT := FloatNum prec emax tanh) (LRaw t) = Ret (mkRaw [y] []) /\
      (is_finite y = true ->
         Forall (fun x => is_finite x = true) a /\
         Rabs (B2R y - rsum (map B2R a)) <= growth prec (length a - 1) * magnitude (map B2R a)).
Proof. exact c59_sum. Qed.
Print Assumptions C59_sum.
Example C59_sum_ex : bits (tl_sum (NT := Num64) (LRaw (mkRaw [f64 1 0; f64 1 (-53); f64 1 (-53)] [3%nat]))) = Ret ([one], []) /\
  bits (tl_sum (NT := Num64) (LRaw (mkRaw [f64 1 (-53); f64 1 (-53); f64 1 0] [3%nat]))) = Ret ([SpecFloat.S754_finite false 4503599627370497 (-52)], []).
Proof. exact c59_sum_ex. Qed.

(** C59: when the magnitudes are not too large the sum is finite. *)
Theorem C59_sum_finite :
  forall (prec emax : Z) (P : Prec_gt_0 prec) (E : Prec_lt_emax prec emax) (tanh : float prec emax -> float prec emax)
         (a : list (float prec emax)) (s : list nat) (t : raw (float prec emax)),
    raw_new a s = Ret t -> Forall (fun x => is_finite x = true) a ->
    (1 + unit_roundoff prec) ^ (length a - 1) * magnitude (map B2R a) < bpow radix2 emax ->
    exists y, tl_sum (NT := FloatNum prec emax tanh) (LRaw t) = Ret (mkRaw [y] []) /\ is_finite y = true.
Proof. exact c59_sum_finite. Qed.
Print Assumptions C59_sum_finite.
Example C59_sum_finite_ex :
  bits (tl_sum (NT := Num64) (LRaw (mkRaw [f64 1 1022; f64 1 1022] [2%nat]))) = Ret ([SpecFloat.S754_finite false 4503599627370496 971], []) /\
  bits (tl_sum (NT := Num64) (LRaw (mkRaw [f64 1 1023; f64 1 1023] [2%nat]))) = Ret ([SpecFloat.S754_infinity false], []).
Proof. exact c59_sum_finite_ex. Qed.

(** C59: [dot]: one more rounding per product, and an absolute error for products near zero. *)
Theorem C59_dot :
  forall (prec emax : Z) (P : Prec_gt_0 prec) (E : Prec_lt_emax prec emax) (tanh : float prec emax -> float prec emax)
         (a b : raw (float prec emax)),
    wf a -> wf b -> shape a = shape b ->
    let p := combine (array a) (array b) in
    exists y, dot_raw (NT := FloatNum prec emax tanh) (LRaw a) (LRaw b) = Ret (mkRaw [y] [1%nat]) /\
      (is_finite y = true ->
         Forall (fun '(x, y) => is_finite x = true /\ is_finite y = true) p /\
         Rabs (B2R y - rsum (products prec emax p)) <=
           growth prec (length p) * magnitude (products prec emax p) + INR (length p) * (1 + unit_roundoff prec) ^ (length p - 1) * tiny_error prec emax).
Proof. exact c59_dot. Qed.
Print Assumptions C59_dot.
Example C59_dot_ex :
  bits (dot_raw (NT := Num64) (LRaw (mkRaw [f64 1 0; f64 1 (-600)] [2%nat])) (LRaw (mkRaw [f64 1 0; f64 1 (-600)] [2%nat]))) = Ret ([one], [1%nat]) /\
  bits (dot_raw (NT := Num64) (LRaw (mkRaw [f64 1 (-600)] [1%nat])) (LRaw (mkRaw [f64 1 (-600)] [1%nat]))) = Ret ([SpecFloat.S754_zero false], [1%nat]).
Proof. exact c59_dot_ex. Qed.

(** C59: [bmm] of two matrices: every finite entry is within the bound of the exact entry. *)
Theorem C59_bmm :
  forall (prec emax : Z) (P : Prec_gt_0 prec) (E : Prec_lt_emax prec emax) (tanh : float prec emax -> float prec emax)
         (l r : tlike (float prec emax)) (n k m : nat) (f g : nat -> nat -> float prec emax),
    let NT := FloatNum prec emax tanh in
    proper l -> proper r -> tl_shape l = [n; k] -> tl_shape r = [k; m] ->
    (forall i t, (i < n)%nat -> (t < k)%nat -> tl_get l [i; t] = Ret (Ok (f i t))) ->
    (forall t j, (t < k)%nat -> (j < m)%nat -> tl_get r [t; j] = Ret (Ok (g t j))) ->
    exists c, bmm_raw l r = Ret c /\ shape c = [n; m] /\
      forall i j, (i < n)%nat -> (j < m)%nat ->
        let p := map (fun t => (f i t, g t j)) (seq 0 k) in
        exists y, raw_get c [i; j] = Ret (Ok y) /\
          (is_finite y = true ->
             Forall (fun '(x, y) => is_finite x = true /\ is_finite y = true) p /\
             Rabs (B2R y - rsum (products prec emax p)) <=
               growth prec k * magnitude (products prec emax p) + INR k * (1 + unit_roundoff prec) ^ (k - 1) * tiny_error prec emax).
Proof. exact c59_bmm. Qed.
Print Assumptions C59_bmm.
Example C59_bmm_ex :
  bits (bmm_raw (NT := Num64) (LRaw (mkRaw [f64 1 0; f64 1 (-53); f64 1 (-53); f64 1 0] [2; 2]%nat)) (LRaw (mkRaw [f64 1 0; f64 1 0] [2; 1]%nat))) =
  Ret ([one; one], [2; 1]%nat).
Proof. exact c59_bmm_ex. Qed.

(** C59: [bmm] with a batch of matrices on the left. *)
Theorem C59_bmm_batch :
  forall (prec emax : Z) (P : Prec_gt_0 prec) (E : Prec_lt_emax prec emax) (tanh : float prec emax -> float prec emax)
         (l r : tlike (float prec emax)) (b n k m : nat) (f : nat -> nat -> nat -> float prec emax) (g : nat -> nat -> float prec emax),
    let NT := FloatNum prec emax tanh in
    proper l -> proper r -> tl_shape l = [b; n; k] -> tl_shape r = [k; m] ->
    (forall c i t, (c < b)%nat -> (i < n)%nat -> (t < k)%nat -> tl_get l [c; i; t] = Ret (Ok (f c i t))) ->
    (forall t j, (t < k)%nat -> (j < m)%nat -> tl_get r [t; j] = Ret (Ok (g t j))) ->
    exists o, bmm_raw l r = Ret o /\ shape o = [b; n; m] /\
      forall c i j, (c < b)%nat -> (i < n)%nat -> (j < m)%nat ->
        let p := map (fun t => (f c i t, g t j)) (seq 0 k) in
        exists y, raw_get o [c; i; j] = Ret (Ok y) /\
          (is_finite y = true ->
             Forall (fun '(x, y) => is_finite x = true /\ is_finite y = true) p /\
             Rabs (B2R y - rsum (products prec emax p)) <=
               growth prec k * magnitude (products prec emax p) + INR k * (1 + unit_roundoff prec) ^ (k - 1) * tiny_error prec emax).
Proof. exact c59_bmm_batch. Qed.
Print Assumptions C59_bmm_batch.
Example C59_bmm_batch_ex :
  bits (bmm_raw (NT := Num64) (LRaw (mkRaw [f64 1 0; f64 1 (-53); f64 1 (-53); f64 1 0] [2; 1; 2]%nat)) (LRaw (mkRaw [f64 1 0; f64 1 0] [2; 1]%nat))) =
  Ret ([one; one], [2; 1; 1]%nat).
Proof. exact c59_bmm_batch_ex. Qed.

(** C44: what does hold, for any arithmetic: each gradient entry is the sum, from zero, of its own
    contributions in some order.  Schedules can only differ in these orders. *)
Theorem C44_some_order :
  forall (T : Type) (NT : Num T) (a b jac : raw T) (n kk m d0 workers : nat) (fifo : bool) (st0 : machine T) (shapes : list nat * list nat) (st : machine T),
    bmm_inputs a b jac n kk m d0 -> bmm_jvp_start [a; b] [jac] = Ret (st0, shapes) ->
    par_run workers fifo (Some st0) (Some st) -> finished st ->
    exists L R, bmm_jvp_finish shapes st = Ret [mkRaw L [d0; n * kk]; mkRaw R [d0; kk * m]]%nat /\
      length L = (d0 * (n * kk))%nat /\ length R = (d0 * (kk * m))%nat /\
      (forall r i k, r < d0 -> i < n -> k < kk -> exists order,
         Permutation order (map (fun j => n_mul (tval jac [r; i * m + j]) (tval b [k; j])) (seq 0 m)) /\
         nth (place (d0 * (n * kk)) (r * (n * kk) + (i * kk + k))) L n_zero = fold_left n_add order n_zero)%nat /\
      (forall r k j, r < d0 -> k < kk -> j < m -> exists order,
         Permutation order (map (fun i => n_mul (tval jac [r; i * m + j]) (tval a [i; k])) (seq 0 n)) /\
         nth (place (d0 * (kk * m)) (r * (kk * m) + (k * m + j))) R n_zero = fold_left n_add order n_zero)%nat.
Proof. exact c44_some_order. Qed.
Print Assumptions C44_some_order.
Example C44_some_order_ex : exists st st', let NT := Num64 in
  bmm_jvp_start [xa; xb] [xj] = Ret (x_start, ([1; 3], [1; 1])%nat) /\
  par_run 1 false (Some x_start) (Some st) /\ finished st /\ par_run 1 false (Some x_start) (Some st') /\ finished st' /\
  right_bits (bmm_jvp_finish ([1; 3], [1; 1])%nat st) = Ret [one] /\
  right_bits (bmm_jvp_finish ([1; 3], [1; 1])%nat st') = Ret [SpecFloat.S754_finite false 4503599627370497 (-52)].
Proof. exact c44_some_order_ex. Qed.

(** C44: with floating point of any format, two finite results for the same entry under two schedules
    differ by at most twice the rounding error of one sum, whatever the schedules. *)
Theorem C44_within_rounding :
  forall (prec emax : Z) (P : Prec_gt_0 prec) (E : Prec_lt_emax prec emax) (tanh : float prec emax -> float prec emax)
         (a b jac : raw (float prec emax)) (n kk m d0 workers workers' : nat) (fifo fifo' : bool)
         (st0 : machine (float prec emax)) (shapes : list nat * list nat) (st st' : machine (float prec emax)),
    let NT := FloatNum prec emax tanh in
    bmm_inputs a b jac n kk m d0 -> bmm_jvp_start [a; b] [jac] = Ret (st0, shapes) ->
    par_run workers fifo (Some st0) (Some st) -> finished st ->
    par_run workers' fifo' (Some st0) (Some st') -> finished st' ->
    exists L R L' R',
      bmm_jvp_finish shapes st = Ret [mkRaw L [d0; n * kk]; mkRaw R [d0; kk * m]]%nat /\
      bmm_jvp_finish shapes st' = Ret [mkRaw L' [d0; n * kk]; mkRaw R' [d0; kk * m]]%nat /\
      (forall r i k, (r < d0)%nat -> (i < n)%nat -> (k < kk)%nat ->
         let terms := map (fun j => n_mul (tval jac [r; i * m + j]%nat) (tval b [k; j])) (seq 0 m) in
         let q := place (d0 * (n * kk)) (r * (n * kk) + (i * kk + k)) in
         let x := nth q L n_zero in let x' := nth q L' n_zero in
         (is_finite x = true -> is_finite x' = true ->
            Rabs (B2R x - B2R x') <= 2 * growth prec (m - 1) * magnitude (map B2R terms)) /\
         (Forall (fun v => is_finite v = true) terms -> (1 + unit_roundoff prec) ^ (m - 1) * magnitude (map B2R terms) < bpow radix2 emax ->
            is_finite x = true /\ is_finite x' = true)) /\
      (forall r k j, (r < d0)%nat -> (k < kk)%nat -> (j < m)%nat ->
         let terms := map (fun i => n_mul (tval jac [r; i * m + j]%nat) (tval a [i; k])) (seq 0 n) in
         let q := place (d0 * (kk * m)) (r * (kk * m) + (k * m + j)) in
         let x := nth q R n_zero in let x' := nth q R' n_zero in
         (is_finite x = true -> is_finite x' = true ->
            Rabs (B2R x - B2R x') <= 2 * growth prec (n - 1) * magnitude (map B2R terms)) /\
         (Forall (fun v => is_finite v = true) terms -> (1 + unit_roundoff prec) ^ (n - 1) * magnitude (map B2R terms) < bpow radix2 emax ->
            is_finite x = true /\ is_finite x' = true)).
Proof. exact c44_within_rounding. Qed.
Print Assumptions C44_within_rounding.
Example C44_within_rounding_ex : exists st st' x x', let NT := Num64 in
  par_run 1 false (Some x_start) (Some st) /\ finished st /\ par_run 1 false (Some x_start) (Some st') /\ finished st' /\
  (let* l := bmm_jvp_finish ([1; 3], [1; 1])%nat st in let* r := vindex l 1 in vindex (array r) 0) = Ret x /\
  (let* l := bmm_jvp_finish ([1; 3], [1; 1])%nat st' in let* r := vindex l 1 in vindex (array r) 0) = Ret x' /\
  is_finite x = true /\ is_finite x' = true /\ B2R x' - B2R x = bpow radix2 (-52).
Proof. exact c44_within_rounding_ex. Qed.

(** C59: under every schedule, a finite gradient entry of [bmm] is within the bound of a sum of products
    of its exact value. *)
Theorem C59_bmm_backward :
  forall (prec emax : Z) (P : Prec_gt_0 prec) (E : Prec_lt_emax prec emax) (tanh : float prec emax -> float prec emax)
         (a b jac : raw (float prec emax)) (n kk m d0 workers : nat) (fifo : bool)
         (st0 : machine (float prec emax)) (shapes : list nat * list nat) (st : machine (float prec emax)),
    let NT := FloatNum prec emax tanh in
    bmm_inputs a b jac n kk m d0 -> bmm_jvp_start [a; b] [jac] = Ret (st0, shapes) ->
    par_run workers fifo (Some st0) (Some st) -> finished st ->
    exists L R, bmm_jvp_finish shapes st = Ret [mkRaw L [d0; n * kk]; mkRaw R [d0; kk * m]]%nat /\
      (forall r i k, (r < d0)%nat -> (i < n)%nat -> (k < kk)%nat ->
         let p := map (fun j => (tval jac [r; i * m + j]%nat, tval b [k; j])) (seq 0 m) in
         let x := nth (place (d0 * (n * kk)) (r * (n * kk) + (i * kk + k))) L n_zero in
         is_finite x = true ->
         Rabs (B2R x - rsum (products prec emax p)) <=
           growth prec m * magnitude (products prec emax p) + INR m * (1 + unit_roundoff prec) ^ (m - 1) * tiny_error prec emax) /\
      (forall r k j, (r < d0)%nat -> (k < kk)%nat -> (j < m)%nat ->
         let p := map (fun i => (tval jac [r; i * m + j]%nat, tval a [i; k])) (seq 0 n) in
         let x := nth (place (d0 * (kk * m)) (r * (kk * m) + (k * m + j))) R n_zero in
         is_finite x = true ->
         Rabs (B2R x - rsum (products prec emax p)) <=
           growth prec n * magnitude (products prec emax p) + INR n * (1 + unit_roundoff prec) ^ (n - 1) * tiny_error prec emax).
Proof. exact c59_bmm_backward. Qed.
Print Assumptions C59_bmm_backward.
Example C59_bmm_backward_ex : exists st, let NT := Num64 in
  bmm_jvp_start [xa; xb] [xj] = Ret (x_start, ([1; 3], [1; 1])%nat) /\ par_run 1 false (Some x_start) (Some st) /\ finished st /\
  right_bits (bmm_jvp_finish ([1; 3], [1; 1])%nat st) = Ret [one].
Proof. exact c59_bmm_backward_ex. Qed.

