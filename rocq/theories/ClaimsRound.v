(** * ClaimsRound: what floating point does to sums and products (C44, C59) *)
From Coq Require Import Reals ZArith Lra Permutation.
From Flocq Require Import Core BinarySingleNaN.
From Verif Require Import Base ModelIndex ModelTensor ModelOps ModelJvp ModelPar Spec SpecPar SpecGraph SpecRound
  Lists IndexFacts TensorFacts OpsFacts ClaimsMat ClaimsOps ChanBmm ChanOrder ChanExec RoundFacts.
Local Open Scope R_scope.

(** *** The examples are in 64-bit format. *)
Global Instance prec64 : Prec_gt_0 53. Proof. reflexivity. Qed.
Global Instance emax64 : Prec_lt_emax 53 1024. Proof. reflexivity. Qed.
(** [m * 2^e], rounded *)
Definition f64 (m e : Z) : float 53 1024 := binary_normalize 53 1024 _ _ mode_NE m e false.
Definition Num64 : Num (float 53 1024) := FloatNum 53 1024 (fun x => x).
(** The value of an outcome, for comparison *)
Definition bits (o : outcome (raw (float 53 1024))) : outcome (list SpecFloat.spec_float * list nat) :=
  match o with Ret t => Ret (map B2SF (array t), shape t) | Panic p => Panic p | NoFuel => NoFuel end.
Definition one : SpecFloat.spec_float := SpecFloat.S754_finite false 4503599627370496 (-52).

(** ** Sums *)

(** C59: a finite sum is within [(1 + u)^(n-1) - 1] times the sum of the magnitudes of the exact one. *)
Lemma c59_sum :
  forall (prec emax : Z) (P : Prec_gt_0 prec) (E : Prec_lt_emax prec emax) (tanh : float prec emax -> float prec emax)
         (a : list (float prec emax)) (s : list nat) (t : raw (float prec emax)),
    raw_new a s = Ret t ->
    exists y, tl_sum (NT := FloatNum prec emax tanh) (LRaw t) = Ret (mkRaw [y] []) /\
      (is_finite y = true ->
         Forall (fun x => is_finite x = true) a /\
         Rabs (B2R y - rsum (map B2R a)) <= growth prec (length a - 1) * magnitude (map B2R a)).
Proof.
  intros prec emax P E tanh a s t H. eexists. split; [exact (c24_sum _ (FloatNum prec emax tanh) a s t H)|]. apply sum_from_zero.
Qed.
(** 1 + 2^-53 + 2^-53 gives 1: both small terms are lost; the exact sum is 1 + 2^-52. *)
Example c59_sum_ex : bits (tl_sum (NT := Num64) (LRaw (mkRaw [f64 1 0; f64 1 (-53); f64 1 (-53)] [3%nat]))) = Ret ([one], []) /\
  bits (tl_sum (NT := Num64) (LRaw (mkRaw [f64 1 (-53); f64 1 (-53); f64 1 0] [3%nat]))) = Ret ([SpecFloat.S754_finite false 4503599627370497 (-52)], []).
Proof. vm_compute. auto. Qed.

(** C59: when the magnitudes are not too large the sum is finite. *)
Lemma c59_sum_finite :
  forall (prec emax : Z) (P : Prec_gt_0 prec) (E : Prec_lt_emax prec emax) (tanh : float prec emax -> float prec emax)
         (a : list (float prec emax)) (s : list nat) (t : raw (float prec emax)),
    raw_new a s = Ret t -> Forall (fun x => is_finite x = true) a ->
    (1 + unit_roundoff prec) ^ (length a - 1) * magnitude (map B2R a) < bpow radix2 emax ->
    exists y, tl_sum (NT := FloatNum prec emax tanh) (LRaw t) = Ret (mkRaw [y] []) /\ is_finite y = true.
Proof.
  intros prec emax P E tanh a s t H HF HM. eexists. split; [exact (c24_sum _ (FloatNum prec emax tanh) a s t H)|]. apply sum_small; auto.
Qed.
(** without the bound it need not be: 2^1023 + 2^1023 *)
Example c59_sum_finite_ex :
  bits (tl_sum (NT := Num64) (LRaw (mkRaw [f64 1 1022; f64 1 1022] [2%nat]))) = Ret ([SpecFloat.S754_finite false 4503599627370496 971], []) /\
  bits (tl_sum (NT := Num64) (LRaw (mkRaw [f64 1 1023; f64 1 1023] [2%nat]))) = Ret ([SpecFloat.S754_infinity false], []).
Proof. vm_compute. auto. Qed.

(** ** Sums of products *)

(** C59: [dot]: one more rounding per product, and an absolute error for products near zero. *)
Lemma c59_dot :
  forall (prec emax : Z) (P : Prec_gt_0 prec) (E : Prec_lt_emax prec emax) (tanh : float prec emax -> float prec emax)
         (a b : raw (float prec emax)),
    wf a -> wf b -> shape a = shape b ->
    let p := combine (array a) (array b) in
    exists y, dot_raw (NT := FloatNum prec emax tanh) (LRaw a) (LRaw b) = Ret (mkRaw [y] [1%nat]) /\
      (is_finite y = true ->
         Forall (fun '(x, y) => is_finite x = true /\ is_finite y = true) p /\
         Rabs (B2R y - rsum (products prec emax p)) <=
           growth prec (length p) * magnitude (products prec emax p) + INR (length p) * (1 + unit_roundoff prec) ^ (length p - 1) * tiny_error prec emax).
Proof.
  intros prec emax P E tanh a b Ha Hb Hs p. eexists.
  split; [exact (proj1 (c29_dot _ (FloatNum prec emax tanh) a b Ha Hb) Hs)|].
  intros F. pose proof (dot_from_zero prec emax p) as D. cbv zeta in D.
  assert (M : map (fun q : float prec emax * float prec emax => Bmult mode_NE (fst q) (snd q)) p = map (fun '(x, y) => Bmult mode_NE x y) p)
    by (apply map_ext; intros []; reflexivity).
  rewrite <- M in D. exact (D F).
Qed.
(** (2^-600)^2 underflows to zero: the error is the absolute one *)
Example c59_dot_ex :
  bits (dot_raw (NT := Num64) (LRaw (mkRaw [f64 1 0; f64 1 (-600)] [2%nat])) (LRaw (mkRaw [f64 1 0; f64 1 (-600)] [2%nat]))) = Ret ([one], [1%nat]) /\
  bits (dot_raw (NT := Num64) (LRaw (mkRaw [f64 1 (-600)] [1%nat])) (LRaw (mkRaw [f64 1 (-600)] [1%nat]))) = Ret ([SpecFloat.S754_zero false], [1%nat]).
Proof. vm_compute. auto. Qed.

(** One entry of a matrix product *)
Lemma entry_error (prec emax : Z) (P : Prec_gt_0 prec) (E : Prec_lt_emax prec emax) (tanh : float prec emax -> float prec emax) (k : nat) (f g : nat -> float prec emax) :
  let NT := FloatNum prec emax tanh in
  let p := map (fun t => (f t, g t)) (seq 0 k) in
  let y := fold_left n_add (map (fun t => n_mul (f t) (g t)) (seq 0 k)) n_zero in
  is_finite y = true ->
  Forall (fun '(x, y) => is_finite x = true /\ is_finite y = true) p /\
  Rabs (B2R y - rsum (products prec emax p)) <=
    growth prec k * magnitude (products prec emax p) + INR k * (1 + unit_roundoff prec) ^ (k - 1) * tiny_error prec emax.
Proof.
  intros NT p y F. pose proof (dot_from_zero prec emax p) as D. cbv zeta in D. unfold p in D at 1 3. rewrite map_map in D.
  assert (L : length p = k) by (unfold p; rewrite map_length, seq_length; reflexivity). rewrite L in D. exact (D F).
Qed.

(** C59: [bmm] of two matrices: every finite entry is within the bound of the exact entry. *)
Lemma c59_bmm :
  forall (prec emax : Z) (P : Prec_gt_0 prec) (E : Prec_lt_emax prec emax) (tanh : float prec emax -> float prec emax)
         (l r : tlike (float prec emax)) (n k m : nat) (f g : nat -> nat -> float prec emax),
    let NT := FloatNum prec emax tanh in
    proper l -> proper r -> tl_shape l = [n; k] -> tl_shape r = [k; m] ->
    (forall i t, (i < n)%nat -> (t < k)%nat -> tl_get l [i; t] = Ret (Ok (f i t))) ->
    (forall t j, (t < k)%nat -> (j < m)%nat -> tl_get r [t; j] = Ret (Ok (g t j))) ->
    exists c, bmm_raw l r = Ret c /\ shape c = [n; m] /\
      forall i j, (i < n)%nat -> (j < m)%nat ->
        let p := map (fun t => (f i t, g t j)) (seq 0 k) in
        exists y, raw_get c [i; j] = Ret (Ok y) /\
          (is_finite y = true ->
             Forall (fun '(x, y) => is_finite x = true /\ is_finite y = true) p /\
             Rabs (B2R y - rsum (products prec emax p)) <=
               growth prec k * magnitude (products prec emax p) + INR k * (1 + unit_roundoff prec) ^ (k - 1) * tiny_error prec emax).
Proof.
  intros prec emax P E tanh l r n k m f g NT Hl Hr Hsl Hsr Hf Hg.
  destruct (c25_bmm_rank2 _ NT l r n k m f g Hl Hr Hsl Hsr Hf Hg) as (c & E1 & E2 & _ & E3). exists c. split; [exact E1|]. split; [exact E2|].
  intros i j Hi Hj p. eexists. split; [exact (E3 i j Hi Hj)|]. exact (entry_error prec emax P E tanh k (f i) (fun t => g t j)).
Qed.
Example c59_bmm_ex :
  bits (bmm_raw (NT := Num64) (LRaw (mkRaw [f64 1 0; f64 1 (-53); f64 1 (-53); f64 1 0] [2; 2]%nat)) (LRaw (mkRaw [f64 1 0; f64 1 0] [2; 1]%nat))) =
  Ret ([one; one], [2; 1]%nat).
Proof. vm_compute. reflexivity. Qed.

(** C59: [bmm] with a batch of matrices on the left. *)
Lemma c59_bmm_batch :
  forall (prec emax : Z) (P : Prec_gt_0 prec) (E : Prec_lt_emax prec emax) (tanh : float prec emax -> float prec emax)
         (l r : tlike (float prec emax)) (b n k m : nat) (f : nat -> nat -> nat -> float prec emax) (g : nat -> nat -> float prec emax),
    let NT := FloatNum prec emax tanh in
    proper l -> proper r -> tl_shape l = [b; n; k] -> tl_shape r = [k; m] ->
    (forall c i t, (c < b)%nat -> (i < n)%nat -> (t < k)%nat -> tl_get l [c; i; t] = Ret (Ok (f c i t))) ->
    (forall t j, (t < k)%nat -> (j < m)%nat -> tl_get r [t; j] = Ret (Ok (g t j))) ->
    exists o, bmm_raw l r = Ret o /\ shape o = [b; n; m] /\
      forall c i j, (c < b)%nat -> (i < n)%nat -> (j < m)%nat ->
        let p := map (fun t => (f c i t, g t j)) (seq 0 k) in
        exists y, raw_get o [c; i; j] = Ret (Ok y) /\
          (is_finite y = true ->
             Forall (fun '(x, y) => is_finite x = true /\ is_finite y = true) p /\
             Rabs (B2R y - rsum (products prec emax p)) <=
               growth prec k * magnitude (products prec emax p) + INR k * (1 + unit_roundoff prec) ^ (k - 1) * tiny_error prec emax).
Proof.
  intros prec emax P E tanh l r b n k m f g NT Hl Hr Hsl Hsr Hf Hg.
  destruct (c25_bmm_rank3 _ NT l r b n k m f g Hl Hr Hsl Hsr Hf Hg) as (c & E1 & E2 & _ & E3). exists c. split; [exact E1|]. split; [exact E2|].
  intros h i j Hh Hi Hj p. eexists. split; [exact (E3 h i j Hh Hi Hj)|]. exact (entry_error prec emax P E tanh k (f h i) (fun t => g t j)).
Qed.
Example c59_bmm_batch_ex :
  bits (bmm_raw (NT := Num64) (LRaw (mkRaw [f64 1 0; f64 1 (-53); f64 1 (-53); f64 1 0] [2; 1; 2]%nat)) (LRaw (mkRaw [f64 1 0; f64 1 0] [2; 1]%nat))) =
  Ret ([one; one], [2; 1; 1]%nat).
Proof. vm_compute. reflexivity. Qed.

(** ** Backward of [bmm], under any schedule *)

(** C44: what does hold, for any arithmetic: each gradient entry is the sum, from zero, of its own
    contributions in some order.  Schedules can only differ in these orders. *)
Lemma c44_some_order :
  forall (T : Type) (NT : Num T) (a b jac : raw T) (n kk m d0 workers : nat) (fifo : bool) (st0 : machine T) (shapes : list nat * list nat) (st : machine T),
    bmm_inputs a b jac n kk m d0 -> bmm_jvp_start [a; b] [jac] = Ret (st0, shapes) ->
    par_run workers fifo (Some st0) (Some st) -> finished st ->
    exists L R, bmm_jvp_finish shapes st = Ret [mkRaw L [d0; n * kk]; mkRaw R [d0; kk * m]]%nat /\
      length L = (d0 * (n * kk))%nat /\ length R = (d0 * (kk * m))%nat /\
      (forall r i k, r < d0 -> i < n -> k < kk -> exists order,
         Permutation order (map (fun j => n_mul (tval jac [r; i * m + j]) (tval b [k; j])) (seq 0 m)) /\
         nth (place (d0 * (n * kk)) (r * (n * kk) + (i * kk + k))) L n_zero = fold_left n_add order n_zero)%nat /\
      (forall r k j, r < d0 -> k < kk -> j < m -> exists order,
         Permutation order (map (fun i => n_mul (tval jac [r; i * m + j]) (tval a [i; k])) (seq 0 n)) /\
         nth (place (d0 * (kk * m)) (r * (kk * m) + (k * m + j))) R n_zero = fold_left n_add order n_zero)%nat.
Proof.
  intros T NT a b jac n kk m d0 w f st0 sh st HI E R F. rewrite (bmm_start_ok a b jac n kk m d0 HI) in E. injection E as <- <-.
  exact (bmm_any_order a b jac n kk m d0 HI w f st R F).
Qed.

(** *** The example: 1, 2^-53 and 2^-53, contributed by three writers. *)
Definition xa : raw (float 53 1024) := mkRaw [f64 1 0; f64 1 (-53); f64 1 (-53)] [3; 1]%nat.
Definition xb : raw (float 53 1024) := mkRaw [f64 1 0] [1; 1]%nat.
Definition xj : raw (float 53 1024) := mkRaw [f64 1 0; f64 1 0; f64 1 0] [1; 3]%nat.
Lemma x_inputs : bmm_inputs xa xb xj 3 1 1 1.
Proof. unfold bmm_inputs, wf. cbn. repeat split; lia. Qed.
Definition x_start : machine (float 53 1024) := @par_init _ (@bmm_tasks _ Num64 xa xb xj 3 1 1 1) (@bmm_arr _ Num64 3 1 1 1).
(** the writers run one after the other, in order or in reverse *)
Definition x_plan (second third : nat) : list choice :=
  times 7 CMain ++ [CBegin second] ++ times 3 (CRun 0) ++ [CBegin third] ++ times 3 (CRun 0) ++ [CBegin 0] ++ times 3 (CRun 0)
  ++ [CBegin 0; CRun 0; CRun 0] ++ [CBegin 0; CRun 0; CRun 0] ++ [CLocal 0] ++ times 4 (CRun 0) ++ [CLocal 0] ++ times 4 (CRun 0).
Definition right_bits (o : outcome (list (raw (float 53 1024)))) : outcome (list SpecFloat.spec_float) :=
  match o with Ret [_; r] => Ret (map B2SF (array r)) | _ => NoFuel end.
Definition x_result (plan : list choice) : option (nat * outcome (list SpecFloat.spec_float)) :=
  option_map (fun st => ((length (m_main st) + length (m_injected st) + length (m_local st) + length (m_running st))%nat,
                         right_bits (bmm_jvp_finish ([1; 3], [1; 1])%nat st))) (@schedule _ Num64 1 false x_start plan).
Lemma x_run (plan : list choice) (r : list SpecFloat.spec_float) : x_result plan = Some (0%nat, Ret r) ->
  exists st, @par_run _ Num64 1 false (Some x_start) (Some st) /\ finished st /\ right_bits (bmm_jvp_finish ([1; 3], [1; 1])%nat st) = Ret r.
Proof.
  unfold x_result. destruct (schedule _ _ _ plan) as [st|] eqn:ES; cbn [option_map]; [|discriminate]. intros H. injection H as H1 H2.
  exists st. split; [eapply schedule_run; eauto|]. split; [|exact H2].
  destruct (m_main st) eqn:E1, (m_injected st) eqn:E2, (m_local st) eqn:E3, (m_running st) eqn:E4; cbn in H1; try lia. repeat split; assumption.
Qed.
Lemma x_runs : exists st st', @par_run _ Num64 1 false (Some x_start) (Some st) /\ finished st /\ @par_run _ Num64 1 false (Some x_start) (Some st') /\ finished st' /\
  right_bits (bmm_jvp_finish ([1; 3], [1; 1])%nat st) = Ret [one] /\
  right_bits (bmm_jvp_finish ([1; 3], [1; 1])%nat st') = Ret [SpecFloat.S754_finite false 4503599627370497 (-52)].
Proof.
  destruct (x_run (x_plan 0 0) [one]) as (st & R & F & E); [vm_compute; reflexivity|].
  destruct (x_run (x_plan 2 1) [SpecFloat.S754_finite false 4503599627370497 (-52)]) as (st' & R' & F' & E'); [vm_compute; reflexivity|].
  exists st, st'. auto 8.
Qed.
Example c44_some_order_ex : exists st st', let NT := Num64 in
  bmm_jvp_start [xa; xb] [xj] = Ret (x_start, ([1; 3], [1; 1])%nat) /\
  par_run 1 false (Some x_start) (Some st) /\ finished st /\ par_run 1 false (Some x_start) (Some st') /\ finished st' /\
  right_bits (bmm_jvp_finish ([1; 3], [1; 1])%nat st) = Ret [one] /\
  right_bits (bmm_jvp_finish ([1; 3], [1; 1])%nat st') = Ret [SpecFloat.S754_finite false 4503599627370497 (-52)].
Proof.
  destruct x_runs as (st & st' & R & F & R' & F' & E & E'). exists st, st'. cbv zeta.
  split; [apply (bmm_start_ok (NT := Num64) xa xb xj 3 1 1 1 x_inputs)|]. auto 8.
Qed.

(** C44: with floating point of any format, two finite results for the same entry under two schedules
    differ by at most twice the rounding error of one sum, whatever the schedules. *)
Lemma c44_within_rounding :
  forall (prec emax : Z) (P : Prec_gt_0 prec) (E : Prec_lt_emax prec emax) (tanh : float prec emax -> float prec emax)
         (a b jac : raw (float prec emax)) (n kk m d0 workers workers' : nat) (fifo fifo' : bool)
         (st0 : machine (float prec emax)) (shapes : list nat * list nat) (st st' : machine (float prec emax)),
    let NT := FloatNum prec emax tanh in
    bmm_inputs a b jac n kk m d0 -> bmm_jvp_start [a; b] [jac] = Ret (st0, shapes) ->
    par_run workers fifo (Some st0) (Some st) -> finished st ->
    par_run workers' fifo' (Some st0) (Some st') -> finished st' ->
    exists L R L' R',
      bmm_jvp_finish shapes st = Ret [mkRaw L [d0; n * kk]; mkRaw R [d0; kk * m]]%nat /\
      bmm_jvp_finish shapes st' = Ret [mkRaw L' [d0; n * kk]; mkRaw R' [d0; kk * m]]%nat /\
      (forall r i k, (r < d0)%nat -> (i < n)%nat -> (k < kk)%nat ->
         let terms := map (fun j => n_mul (tval jac [r; i * m + j]%nat) (tval b [k; j])) (seq 0 m) in
         let q := place (d0 * (n * kk)) (r * (n * kk) + (i * kk + k)) in
         let x := nth q L n_zero in let x' := nth q L' n_zero in
         (is_finite x = true -> is_finite x' = true ->
            Rabs (B2R x - B2R x') <= 2 * growth prec (m - 1) * magnitude (map B2R terms)) /\
         (Forall (fun v => is_finite v = true) terms -> (1 + unit_roundoff prec) ^ (m - 1) * magnitude (map B2R terms) < bpow radix2 emax ->
            is_finite x = true /\ is_finite x' = true)) /\
      (forall r k j, (r < d0)%nat -> (k < kk)%nat -> (j < m)%nat ->
         let terms := map (fun i => n_mul (tval jac [r; i * m + j]%nat) (tval a [i; k])) (seq 0 n) in
         let q := place (d0 * (kk * m)) (r * (kk * m) + (k * m + j)) in
         let x := nth q R n_zero in let x' := nth q R' n_zero in
         (is_finite x = true -> is_finite x' = true ->
            Rabs (B2R x - B2R x') <= 2 * growth prec (n - 1) * magnitude (map B2R terms)) /\
         (Forall (fun v => is_finite v = true) terms -> (1 + unit_roundoff prec) ^ (n - 1) * magnitude (map B2R terms) < bpow radix2 emax ->
            is_finite x = true /\ is_finite x' = true)).
Proof.
  intros prec emax P E tanh a b jac n kk m d0 w w' f f' st0 sh st st' NT HI ES R1 F1 R2 F2.
  destruct (c44_some_order _ NT a b jac n kk m d0 w f st0 sh st HI ES R1 F1) as (L & R & X & _ & _ & XL & XR).
  destruct (c44_some_order _ NT a b jac n kk m d0 w' f' st0 sh st' HI ES R2 F2) as (L' & R' & X' & _ & _ & XL' & XR').
  exists L, R, L', R'. split; [exact X|]. split; [exact X'|].
  assert (G : forall (len : nat) (terms o o' : list (float prec emax)), length terms = len -> Permutation o terms -> Permutation o' terms ->
     let x := fold_left n_add o n_zero in let x' := fold_left n_add o' n_zero in
     (is_finite x = true -> is_finite x' = true -> Rabs (B2R x - B2R x') <= 2 * growth prec (len - 1) * magnitude (map B2R terms)) /\
     (Forall (fun v => is_finite v = true) terms -> (1 + unit_roundoff prec) ^ (len - 1) * magnitude (map B2R terms) < bpow radix2 emax ->
        is_finite x = true /\ is_finite x' = true)).
  { intros len terms o o' HL PO PO' x x'. rewrite <- HL. split; [exact (orders_close prec emax o o' terms PO PO')|].
    intros FT M. assert (K : forall k : list (float prec emax), Permutation k terms -> is_finite (fold_left n_add k n_zero) = true).
    { intros k Q. apply sum_small; [rewrite Q; exact FT|]. rewrite (Permutation_length Q), (magnitude_perm _ _ (Permutation_map _ Q)). exact M. }
    split; apply K; assumption. }
  split.
  - intros r i k Hr Hi Hk terms q x x'. destruct (XL r i k Hr Hi Hk) as (o & PO & EO). destruct (XL' r i k Hr Hi Hk) as (o' & PO' & EO').
    unfold x, x', q. rewrite EO, EO'. apply G; [unfold terms; rewrite map_length; apply seq_length|exact PO|exact PO'].
  - intros r k j Hr Hk Hj terms q x x'. destruct (XR r k j Hr Hk Hj) as (o & PO & EO). destruct (XR' r k j Hr Hk Hj) as (o' & PO' & EO').
    unfold x, x', q. rewrite EO, EO'. apply G; [unfold terms; rewrite map_length; apply seq_length|exact PO|exact PO'].
Qed.
(** the two runs above: both sums are finite and differ by 2^-52 *)
Example c44_within_rounding_ex : exists st st' x x', let NT := Num64 in
  par_run 1 false (Some x_start) (Some st) /\ finished st /\ par_run 1 false (Some x_start) (Some st') /\ finished st' /\
  (let* l := bmm_jvp_finish ([1; 3], [1; 1])%nat st in let* r := vindex l 1 in vindex (array r) 0) = Ret x /\
  (let* l := bmm_jvp_finish ([1; 3], [1; 1])%nat st' in let* r := vindex l 1 in vindex (array r) 0) = Ret x' /\
  is_finite x = true /\ is_finite x' = true /\ B2R x' - B2R x = bpow radix2 (-52).
Proof.
  destruct x_runs as (st & st' & R & F & R' & F' & E & E').
  assert (K : forall st v, right_bits (bmm_jvp_finish ([1; 3], [1; 1])%nat st) = Ret [v] -> exists x : float 53 1024,
    (let* l := bmm_jvp_finish ([1; 3], [1; 1])%nat st in let* r := vindex l 1 in vindex (array r) 0) = Ret x /\ B2SF x = v).
  { intros s v H. destruct (bmm_jvp_finish _ s) as [[|l [|r [|]]]| |]; cbn in H; try discriminate. destruct (array r) as [|x [|? ?]] eqn:EA; cbn in H; try discriminate.
    injection H as H. exists x. split; [|exact H]. cbn. rewrite EA. reflexivity. }
  destruct (K _ _ E) as (x & E1 & E2). destruct (K _ _ E') as (x' & E1' & E2'). exists st, st', x, x'. cbv zeta.
  split; [exact R|]. split; [exact F|]. split; [exact R'|]. split; [exact F'|]. split; [exact E1|]. split; [exact E1'|].
  destruct x as [| | |[] mx ex Hx]; try discriminate E2. destruct x' as [| | |[] mx' ex' Hx']; try discriminate E2'.
  injection E2 as -> ->. injection E2' as -> ->. split; [reflexivity|]. split; [reflexivity|]. unfold B2R, F2R. cbn [Fnum Fexp cond_Zopp].
  rewrite <- Rmult_minus_distr_r, <- minus_IZR. change (Z.pos 4503599627370497 - Z.pos 4503599627370496)%Z with 1%Z. ring.
Qed.

(** C59: under every schedule, a finite gradient entry of [bmm] is within the bound of a sum of products
    of its exact value. *)
Lemma c59_bmm_backward :
  forall (prec emax : Z) (P : Prec_gt_0 prec) (E : Prec_lt_emax prec emax) (tanh : float prec emax -> float prec emax)
         (a b jac : raw (float prec emax)) (n kk m d0 workers : nat) (fifo : bool)
         (st0 : machine (float prec emax)) (shapes : list nat * list nat) (st : machine (float prec emax)),
    let NT := FloatNum prec emax tanh in
    bmm_inputs a b jac n kk m d0 -> bmm_jvp_start [a; b] [jac] = Ret (st0, shapes) ->
    par_run workers fifo (Some st0) (Some st) -> finished st ->
    exists L R, bmm_jvp_finish shapes st = Ret [mkRaw L [d0; n * kk]; mkRaw R [d0; kk * m]]%nat /\
      (forall r i k, (r < d0)%nat -> (i < n)%nat -> (k < kk)%nat ->
         let p := map (fun j => (tval jac [r; i * m + j]%nat, tval b [k; j])) (seq 0 m) in
         let x := nth (place (d0 * (n * kk)) (r * (n * kk) + (i * kk + k))) L n_zero in
         is_finite x = true ->
         Rabs (B2R x - rsum (products prec emax p)) <=
           growth prec m * magnitude (products prec emax p) + INR m * (1 + unit_roundoff prec) ^ (m - 1) * tiny_error prec emax) /\
      (forall r k j, (r < d0)%nat -> (k < kk)%nat -> (j < m)%nat ->
         let p := map (fun i => (tval jac [r; i * m + j]%nat, tval a [i; k])) (seq 0 n) in
         let x := nth (place (d0 * (kk * m)) (r * (kk * m) + (k * m + j))) R n_zero in
         is_finite x = true ->
         Rabs (B2R x - rsum (products prec emax p)) <=
           growth prec n * magnitude (products prec emax p) + INR n * (1 + unit_roundoff prec) ^ (n - 1) * tiny_error prec emax).
Proof.
  intros prec emax P E tanh a b jac n kk m d0 w f st0 sh st NT HI ES R1 F1.
  destruct (c44_some_order _ NT a b jac n kk m d0 w f st0 sh st HI ES R1 F1) as (L & R & X & _ & _ & XL & XR).
  exists L, R. split; [exact X|].
  assert (G : forall (len : nat) (g h : nat -> float prec emax) o, Permutation o (map (fun j => n_mul (g j) (h j)) (seq 0 len)) ->
     let p := map (fun j => (g j, h j)) (seq 0 len) in let x := fold_left n_add o n_zero in is_finite x = true ->
     Rabs (B2R x - rsum (products prec emax p)) <= growth prec len * magnitude (products prec emax p) + INR len * (1 + unit_roundoff prec) ^ (len - 1) * tiny_error prec emax).
  { intros len g h o PO p x FX.
    assert (PO' : Permutation o (map (fun '(x, y) => Bmult mode_NE x y) p)) by (unfold p; rewrite map_map; exact PO).
    apply Permutation_map_inv in PO' as (p' & EP & PP). unfold x in FX |- *. rewrite EP in FX |- *.
    destruct (dot_from_zero prec emax p' FX) as [_ B].
    assert (PQ : Permutation (products prec emax p) (products prec emax p')) by (apply Permutation_map, PP).
    rewrite (rsum_perm _ _ PQ), (magnitude_perm _ _ PQ).
    assert (LP : length p' = len) by (rewrite <- (Permutation_length PP); unfold p; rewrite map_length; apply seq_length).
    rewrite <- LP. exact B. }
  split.
  - intros r i k Hr Hi Hk p x. destruct (XL r i k Hr Hi Hk) as (o & PO & EO). unfold x. rewrite EO.
    exact (G m (fun j => tval jac [r; i * m + j]%nat) (fun j => tval b [k; j]) o PO).
  - intros r k j Hr Hk Hj p x. destruct (XR r k j Hr Hk Hj) as (o & PO & EO). unfold x. rewrite EO.
    exact (G n (fun i => tval jac [r; i * m + j]%nat) (fun i => tval a [i; k]) o PO).
Qed.
Example c59_bmm_backward_ex : exists st, let NT := Num64 in
  bmm_jvp_start [xa; xb] [xj] = Ret (x_start, ([1; 3], [1; 1])%nat) /\ par_run 1 false (Some x_start) (Some st) /\ finished st /\
  right_bits (bmm_jvp_finish ([1; 3], [1; 1])%nat st) = Ret [one].
Proof.
  destruct x_runs as (st & st' & R & F & R' & F' & E & E'). exists st. cbv zeta.
  split; [apply (bmm_start_ok (NT := Num64) xa xb xj 3 1 1 1 x_inputs)|]. auto.
Qed.
