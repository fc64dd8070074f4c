(** * PropertiesError: the theorems of ClaimsError.v, restated (generated by tools/genprops.py) *)
From Coq Require Import Reals ZArith QArith Qreals Qabs Qminmax Lia Lra.
From Flocq Require Import Core BinarySingleNaN.
From Verif Require Import Base ModelIndex ModelTensor ModelOps ModelJvp ModelGraph ModelNN ModelMain Spec SpecGraph SpecReal SpecParam SpecRound SpecError
  Lists ParamFacts RoundFacts BranchFacts ErrorFacts IntervalFacts RealInst ProgFacts ClaimsGrad ClaimsParam Instances.
From Verif Require Import ClaimsError.
Local Open Scope nat_scope.

(** C79: a bound, computed along with the values, on the error of everything a float program computes.  [q] is the float
    program [p] with, for every input number, the real number it stands for and a bound on the difference; [z] is the
    same program over the real numbers.  If the run of [q] finds the sign of every input of [abs] and [relu] to be
    known, the float program succeeds, and every value and every gradient entry it computes is finite and within the
    bound found by [q] of what [z] computes, unless the run of [q] found that something may have overflowed. *)
Theorem C79_running_error :
  forall (prec emax : Z) (P : Prec_gt_0 prec) (E : Prec_lt_emax prec emax) (tau : R) (ftanh : float prec emax -> float prec emax)
         (p : list (cmd (float prec emax))) (q : list (cmd bounded)) (z : list (cmd R)) (t : state bounded),
    (forall f, is_finite f = true -> is_finite (ftanh f) = true /\ (Rabs (B2R (ftanh f) - tanh (B2R f)) <= tau)%R) ->
    Forall2 (rel_cmd (starts prec emax)) p q -> Forall2 (rel_cmd (fun x b => x = val b)) z q ->
    run (NT := ErrNum prec emax tau) q init_state = Ret t -> signs_known (sign_known emax) (nodes (hp t)) ->
    exists s r, run (NT := FloatNum prec emax ftanh) p init_state = Ret s /\ run (NT := RNum) z init_state = Ret r /\
      rel_state (within prec emax) s t /\ rel_state (fun x b => x = val b) r t.
Proof. exact c79_running_error. Qed.
Print Assumptions C79_running_error.
Example C79_running_error_ex : exists t : state bounded,
  (forall f, is_finite f = true -> is_finite (x_flat f) = true /\ (Rabs (B2R (x_flat f) - tanh (B2R f)) <= Q2R 1)%R) /\
  Forall2 (rel_cmd (starts 24 128)) (x_rel x_f) (x_rel (x_b (1 # 1000))) /\ Forall2 (rel_cmd (fun x b => x = val b)) (x_rel IZR) (x_rel (x_b (1 # 1000))) /\
  run (NT := ErrNum 24 128 (Q2R 1)) (x_rel (x_b (1 # 1000))) init_state = Ret t /\ signs_known (sign_known 128) (nodes (hp t)) /\
  exists g, var_grad t 0 = Some g /\ 0 < length (array g) /\ Forall (fun b => err b <= Q2R (1 # 20) /\ mag b <= Q2R (100 # 1))%R (array g).
Proof. exact c79_running_error_ex. Qed.

(** C79, refuted without known signs: rounding can turn a negative sum into zero, and then [relu] has derivative 1 instead of 0. *)
Theorem C79_unknown_signs_refuted :
  ~ forall (prec emax : Z) (P : Prec_gt_0 prec) (E : Prec_lt_emax prec emax) (tau : R) (ftanh : float prec emax -> float prec emax)
           (p : list (cmd (float prec emax))) (q : list (cmd bounded)) (t : state bounded),
      (forall f, is_finite f = true -> is_finite (ftanh f) = true /\ (Rabs (B2R (ftanh f) - tanh (B2R f)) <= tau)%R) ->
      Forall2 (rel_cmd (starts prec emax)) p q -> run (NT := ErrNum prec emax tau) q init_state = Ret t ->
      exists s, run (NT := FloatNum prec emax ftanh) p init_state = Ret s /\ rel_state (within prec emax) s t.
Proof. exact c79_unknown_signs_refuted. Qed.
Print Assumptions C79_unknown_signs_refuted.
Example C79_unknown_signs_refuted_ex :
  x_bits (x_show (run (NT := FloatNum 24 128 x_flat) (x_lost x_f) init_state)) =
    x_bits (Ret (map (map x_f) [[-16777216]; [-1]; [16777216]; [-16777216]; [0]; [0]; [0]]%Z, map (option_map (map x_f)) [Some [1]; Some [1]; Some [1]; Some [1]; Some [1]; Some [1]; Some [1]]%Z)) /\
  x_show (run (NT := ZNum) (x_lost (fun z => z)) init_state) =
    Ret ([[-16777216]; [-1]; [16777216]; [-16777217]; [-1]; [0]; [0]]%Z, [Some [0]; Some [0]; Some [0]; Some [0]; Some [0]; Some [1]; Some [1]]%Z).
Proof. exact c79_unknown_signs_refuted_ex. Qed.

(** C79: the gradients of a float program are derivatives up to the computed bound.  [y] is a variable whose tensor
    [backward] differentiates exactly over the real numbers (the conditions of C31).  The float program followed by
    [backward] succeeds, and every entry of the gradient of the leaf [CNew a sh] that it computes is within the bound of the
    derivative, with respect to this entry, of the value that the program would compute without rounding. *)
Theorem C79_gradient :
  forall (prec emax : Z) (P : Prec_gt_0 prec) (E : Prec_lt_emax prec emax) (tau : R) (ftanh : float prec emax -> float prec emax)
         (p : list (cmd (float prec emax))) (q : list (cmd bounded)) (p1 p2 : list (cmd R)) (a : list R) (sh : list nat)
         (r : state R) (t : state bounded) (y root : nat),
    (forall f, is_finite f = true -> is_finite (ftanh f) = true /\ (Rabs (B2R (ftanh f) - tanh (B2R f)) <= tau)%R) ->
    Forall2 (rel_cmd (starts prec emax)) p q -> Forall2 (rel_cmd (fun x b => x = val b)) (p1 ++ CNew a sh :: p2) q ->
    forallb differentiable (p1 ++ CNew a sh :: p2) = true -> run (p1 ++ CNew a sh :: p2) init_state = Ret r ->
    nonempty (nodes (hp r)) -> matrices_only (nodes (hp r)) ->
    nth_error (env r) y = Some root -> root_ok (nodes (hp r)) root -> no_kinks (nodes (hp r)) root ->
    run (NT := ErrNum prec emax tau) (q ++ [CBackward y]) init_state = Ret t -> signs_known (sign_known emax) (nodes (hp t)) ->
    exists s, run (NT := FloatNum prec emax ftanh) (p ++ [CBackward y]) init_state = Ret s /\
      forall g i b, var_grad t (length p1) = Some g -> nth_error (array g) i = Some b ->
        exists g' f d, var_grad s (length p1) = Some g' /\ nth_error (array g') i = Some f /\
          (i < length a -> program_derivative (fun x => p1 ++ CNew (list_set a i (nth i a 0%R + x)%R) sh :: p2) y d) /\
          ((mag b < bpow radix2 emax)%R -> is_finite f = true /\ (Rabs (B2R f - d) <= err b)%R).
Proof. exact c79_gradient. Qed.
Print Assumptions C79_gradient.
Example C79_gradient_ex : exists (r : state R) (t : state bounded),
  Forall2 (rel_cmd (starts 24 128)) (x_leaf x_f) (x_leaf (x_b (1 # 1000))) /\
  Forall2 (rel_cmd (fun x b => x = val b)) ([] ++ CNew [1; 2]%R [1; 2] :: [CScalar 5%R; CAdd 0 1; CRelu 2; CSum 3]) (x_leaf (x_b (1 # 1000))) /\
  forallb differentiable ([] ++ CNew [1; 2]%R [1; 2] :: [CScalar 5%R; CAdd 0 1; CRelu 2; CSum 3]) = true /\
  run ([] ++ CNew [1; 2]%R [1; 2] :: [CScalar 5%R; CAdd 0 1; CRelu 2; CSum 3]) init_state = Ret r /\
  nonempty (nodes (hp r)) /\ matrices_only (nodes (hp r)) /\ nth_error (env r) 4 = Some 4 /\ root_ok (nodes (hp r)) 4 /\ no_kinks (nodes (hp r)) 4 /\
  run (NT := ErrNum 24 128 (Q2R 1)) (x_leaf (x_b (1 # 1000)) ++ [CBackward 4]) init_state = Ret t /\ signs_known (sign_known 128) (nodes (hp t)) /\
  exists g, var_grad t 0 = Some g /\ 0 < length (array g) /\ Forall (fun b => err b <= Q2R (1 # 100000) /\ mag b <= Q2R (2 # 1))%R (array g).
Proof. exact c79_gradient_ex. Qed.

(** C79: the conditions can be checked by computing with rational numbers.  If the run with rational intervals decides all signs, so
    does the run with real numbers, and its values, errors and magnitudes are within the intervals. *)
Theorem C79_checker :
  forall (prec emax : Z) (P : Prec_gt_0 prec) (E : Prec_lt_emax prec emax) (tau : Q) (q : list (cmd bounded)) (c : list (cmd ival)) (t : state ival),
    (0 <= Q2R tau)%R -> Forall2 (rel_cmd enclosed) q c ->
    run (NT := IntNum prec emax tau) c init_state = Ret t -> signs_known (fun a => idecided emax a = true) (nodes (hp t)) ->
    exists t', run (NT := ErrNum prec emax (Q2R tau)) q init_state = Ret t' /\ signs_known (sign_known emax) (nodes (hp t')) /\ rel_state enclosed t' t.
Proof. exact c79_checker. Qed.
Print Assumptions C79_checker.
Example C79_checker_ex :
  Forall2 (rel_cmd enclosed) (x_rel (x_b (1 # 1000))) (x_rel (x_i (1 # 1000))) /\
  x_passes (idecided 128) (x_small (1 # 20) (100 # 1)) (run (NT := IntNum 24 128 1) (x_rel (x_i (1 # 1000))) init_state) = true /\
  x_passes (idecided 128) (fun _ => true) (run (NT := IntNum 24 128 1) (x_lost (x_i 0)) init_state) = false.
Proof. exact c79_checker_ex. Qed.

(** C79, the same for the training program *)
Theorem C79_checker_main :
  forall (prec emax : Z) (P : Prec_gt_0 prec) (E : Prec_lt_emax prec emax) (tau : Q) (inp hid out rounds : nat)
         (one step : bounded) (w1 b1 w2 b2 w3 b3 input : list bounded) (one' step' : ival) (w1' b1' w2' b2' w3' b3' input' : list ival) (k : heap ival) (n : mlp ival),
    (0 <= Q2R tau)%R ->
    Forall2 enclosed (one :: step :: w1) (one' :: step' :: w1') -> Forall2 enclosed b1 b1' -> Forall2 enclosed w2 w2' -> Forall2 enclosed b2 b2' ->
    Forall2 enclosed w3 w3' -> Forall2 enclosed b3 b3' -> Forall2 enclosed input input' ->
    main_program (NT := IntNum prec emax tau) inp hid out rounds one' step' w1' b1' w2' b2' w3' b3' input' = Ret (k, n) ->
    signs_known (fun a => idecided emax a = true) (nodes k) ->
    exists h m, main_program (NT := ErrNum prec emax (Q2R tau)) inp hid out rounds one step w1 b1 w2 b2 w3 b3 input = Ret (h, m) /\
      signs_known (sign_known emax) (nodes h) /\ rel_heap enclosed h k /\ map weights m = map weights n /\ map bias m = map bias n.
Proof. exact c79_checker_main. Qed.
Print Assumptions C79_checker_main.
Example C79_checker_main_ex :
  Forall2 enclosed (x_b 0 10 :: x_b 0 1 :: [x_b (1 # 1000) 1]) (x_i 0 10 :: x_i 0 1 :: [x_i (1 # 1000) 1]) /\
  match main_program (NT := IntNum 24 128 1) 1 1 1 1 (x_i 0 10) (x_i 0 1) [x_i (1 # 1000) 1] [x_i 0 1] [x_i 0 1] [x_i 0 1] [x_i 0 1] [x_i 0 0] [x_i 0 3] with
  | Ret (k, n) => signs_check (idecided 128) (nodes k) && (2 <? length n) | _ => false end = true.
Proof. exact c79_checker_main_ex. Qed.

(** C79, for the training program of main.rs: whatever the initial weights are, if the signs of all inputs of [relu] and
    [abs] are known, the weights after training are within the bounds of those that exact training would give. *)
Theorem C79_main :
  forall (prec emax : Z) (P : Prec_gt_0 prec) (E : Prec_lt_emax prec emax) (tau : R) (ftanh : float prec emax -> float prec emax)
         (inp hid out rounds : nat) (one step : float prec emax) (w1 b1 w2 b2 w3 b3 input : list (float prec emax))
         (one' step' : bounded) (w1' b1' w2' b2' w3' b3' input' : list bounded) (k : heap bounded) (n : mlp bounded),
    (forall f, is_finite f = true -> is_finite (ftanh f) = true /\ (Rabs (B2R (ftanh f) - tanh (B2R f)) <= tau)%R) ->
    Forall2 (starts prec emax) (one :: step :: w1) (one' :: step' :: w1') -> Forall2 (starts prec emax) b1 b1' ->
    Forall2 (starts prec emax) w2 w2' -> Forall2 (starts prec emax) b2 b2' ->
    Forall2 (starts prec emax) w3 w3' -> Forall2 (starts prec emax) b3 b3' -> Forall2 (starts prec emax) input input' ->
    main_program (NT := ErrNum prec emax tau) inp hid out rounds one' step' w1' b1' w2' b2' w3' b3' input' = Ret (k, n) ->
    signs_known (sign_known emax) (nodes k) ->
    exists h m h' m',
      main_program (NT := FloatNum prec emax ftanh) inp hid out rounds one step w1 b1 w2 b2 w3 b3 input = Ret (h, m) /\
      main_program (NT := RNum) inp hid out rounds (val one') (val step') (map val w1') (map val b1') (map val w2') (map val b2') (map val w3') (map val b3') (map val input') = Ret (h', m') /\
      map weights m = map weights n /\ map bias m = map bias n /\ map weights m' = map weights n /\ map bias m' = map bias n /\
      rel_heap (within prec emax) h k /\ rel_heap (fun x b => x = val b) h' k.
Proof. exact c79_main. Qed.
Print Assumptions C79_main.
Example C79_main_ex : exists (k : heap bounded) (n : mlp bounded),
  Forall2 (starts 24 128) (x_f 10 :: x_f 1 :: [x_f 1]) (x_b 0 10 :: x_b 0 1 :: [x_b (1 # 1000) 1]) /\
  main_program (NT := ErrNum 24 128 (Q2R 1)) 1 1 1 1 (x_b 0 10) (x_b 0 1) [x_b (1 # 1000) 1] [x_b 0 1] [x_b 0 1] [x_b 0 1] [x_b 0 1] [x_b 0 0] [x_b 0 3] = Ret (k, n) /\
  signs_known (sign_known 128) (nodes k).
Proof. exact c79_main_ex. Qed.

