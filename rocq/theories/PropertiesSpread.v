(** * PropertiesSpread: the theorems of ClaimsSpread.v, restated (generated by tools/genprops.py) *)
From Coq Require Import Reals ZArith QArith Qreals Qabs Lia Lra.
From Flocq Require Import Core BinarySingleNaN.
From Verif Require Import Base ModelIndex ModelTensor ModelOps ModelJvp ModelGraph ModelNN ModelMain ModelPar ModelSched Spec SpecGraph SpecReal SpecParam SpecRound SpecSched SpecError SpecSpread
  Lists GraphFacts ParamFacts RoundFacts BranchFacts RoomFacts ErrorFacts IntervalFacts SpreadFacts SpreadInterval SchedFacts SchedBranch RealInst ProgFacts ClaimsGrad ClaimsParam ClaimsError ClaimsRoom ClaimsSched Instances.
From Verif Require Import ClaimsSpread.
Local Open Scope nat_scope.

(** C81: a bound on the rounding error of everything a float program computes that holds whatever the thread schedule and
    whatever the number of workers.  [q] is the float program [p] with, for every input number, the real number it
    stands for and a bound on the difference; [z] is the same program over the real numbers.  If the run of [q] finds the
    sign of every input of [abs] and [relu] to be known, the float program succeeds under every schedule, and every value and
    every gradient entry it computes is finite and within the bound found by [q] of what [z] computes, unless the
    run of [q] found that something may have overflowed. *)
Theorem C81_any_order :
  forall (prec emax : Z) (P : Prec_gt_0 prec) (E : Prec_lt_emax prec emax) (tau : R) (ftanh : float prec emax -> float prec emax) (workers : nat) (fifo : bool)
         (p : list (cmd (float prec emax))) (q : list (cmd spread)) (z : list (cmd R)) (t : state spread) (o : outcome (state (float prec emax))),
    (forall f, is_finite f = true -> is_finite (ftanh f) = true /\ (Rabs (B2R (ftanh f) - tanh (B2R f)) <= tau)%R) ->
    Forall2 (rel_cmd (begins prec emax)) p q -> Forall2 (rel_cmd (fun x b => x = sval b)) z q ->
    run (NT := SpreadNum prec emax tau) q init_state = Ret t -> signs_known (sign_sure prec emax) (nodes (hp t)) ->
    run_any (NT := FloatNum prec emax ftanh) workers fifo p init_state o ->
    exists s r, o = Ret s /\ run (NT := RNum) z init_state = Ret r /\
      rel_state (near prec emax) s t /\ rel_state (fun x b => x = sval b) r t.
Proof. exact c81_any_order. Qed.
Print Assumptions C81_any_order.
Example C81_any_order_ex : exists t : state spread,
  Forall2 (rel_cmd (begins 24 128)) (x_back x_f) (x_back (x_sp 0)) /\ Forall2 (rel_cmd (fun x b => x = sval b)) (x_back IZR) (x_back (x_sp 0)) /\
  run (NT := SpreadNum 24 128 (Q2R 1)) (x_back (x_sp 0)) init_state = Ret t /\ signs_known (sign_sure 24 128) (nodes (hp t)) /\
  (exists o, run_any (NT := FloatNum 24 128 x_flat) 2 true (x_back x_f) init_state o) /\
  exists g, var_grad t 1 = Some g /\ 0 < length (array g) /\ Forall (fun b => slack 24 b <= Q2R (513 # 1) /\ fits 24 128 b)%R (array g).
Proof. exact c81_any_order_ex. Qed.

(** C81: two runs of the same program, with whatever schedules and numbers of workers, differ by at most twice the bound. *)
Theorem C81_schedules_agree :
  forall (prec emax : Z) (P : Prec_gt_0 prec) (E : Prec_lt_emax prec emax) (tau eps : R) (ftanh : float prec emax -> float prec emax) (workers workers' : nat) (fifo fifo' : bool)
         (p : list (cmd (float prec emax))) (q : list (cmd spread)) (t : state spread) (o o' : outcome (state (float prec emax))),
    (forall f, is_finite f = true -> is_finite (ftanh f) = true /\ (Rabs (B2R (ftanh f) - tanh (B2R f)) <= tau)%R) ->
    Forall2 (rel_cmd (begins prec emax)) p q -> run (NT := SpreadNum prec emax tau) q init_state = Ret t -> signs_known (sign_sure prec emax) (nodes (hp t)) ->
    everywhere (fun b => fits prec emax b /\ slack prec b <= eps)%R t ->
    run_any (NT := FloatNum prec emax ftanh) workers fifo p init_state o -> run_any (NT := FloatNum prec emax ftanh) workers' fifo' p init_state o' ->
    exists s s', o = Ret s /\ o' = Ret s' /\
      rel_state (fun f g => is_finite f = true /\ is_finite g = true /\ Rabs (B2R f - B2R g) <= 2 * eps)%R s s'.
Proof. exact c81_schedules_agree. Qed.
Print Assumptions C81_schedules_agree.
Example C81_schedules_agree_ex : exists t : state spread,
  Forall2 (rel_cmd (begins 24 128)) (x_rel x_f) (x_rel (x_sp 0)) /\
  run (NT := SpreadNum 24 128 (Q2R 1)) (x_rel (x_sp 0)) init_state = Ret t /\ signs_known (sign_sure 24 128) (nodes (hp t)) /\
  everywhere (fun b => fits 24 128 b /\ slack 24 b <= Q2R (1 # 10000))%R t /\
  (exists o, run_any (NT := FloatNum 24 128 x_flat) 2 true (x_rel x_f) init_state o) /\ (exists o, run_any (NT := FloatNum 24 128 x_flat) 5 true (x_rel x_f) init_state o).
Proof. exact c81_schedules_agree_ex. Qed.

(** C81: under any schedule the gradients of a float program are derivatives up to the bound.  [y] is a variable whose tensor
    [backward] differentiates exactly over the real numbers (the conditions of C31).  However the threads are
    scheduled, the float program followed by [backward] succeeds, and every entry of the gradient of the leaf [CNew a sh] is within
    the bound of the derivative, with respect to this entry, of the value that the program would compute without rounding. *)
Theorem C81_gradient :
  forall (prec emax : Z) (P : Prec_gt_0 prec) (E : Prec_lt_emax prec emax) (tau : R) (ftanh : float prec emax -> float prec emax) (workers : nat) (fifo : bool)
         (p : list (cmd (float prec emax))) (q : list (cmd spread)) (p1 p2 : list (cmd R)) (a : list R) (sh : list nat)
         (r : state R) (t : state spread) (y root : nat) (o : outcome (state (float prec emax))),
    (forall f, is_finite f = true -> is_finite (ftanh f) = true /\ (Rabs (B2R (ftanh f) - tanh (B2R f)) <= tau)%R) ->
    Forall2 (rel_cmd (begins prec emax)) p q -> Forall2 (rel_cmd (fun x b => x = sval b)) (p1 ++ CNew a sh :: p2) q ->
    forallb differentiable (p1 ++ CNew a sh :: p2) = true -> run (p1 ++ CNew a sh :: p2) init_state = Ret r ->
    nonempty (nodes (hp r)) -> matrices_only (nodes (hp r)) ->
    nth_error (env r) y = Some root -> root_ok (nodes (hp r)) root -> no_kinks (nodes (hp r)) root ->
    run (NT := SpreadNum prec emax tau) (q ++ [CBackward y]) init_state = Ret t -> signs_known (sign_sure prec emax) (nodes (hp t)) ->
    run_any (NT := FloatNum prec emax ftanh) workers fifo (p ++ [CBackward y]) init_state o ->
    exists s, o = Ret s /\
      forall g i b, var_grad t (length p1) = Some g -> nth_error (array g) i = Some b ->
        exists g' f d, var_grad s (length p1) = Some g' /\ nth_error (array g') i = Some f /\
          (i < length a -> program_derivative (fun x => p1 ++ CNew (list_set a i (nth i a 0%R + x)%R) sh :: p2) y d) /\
          (fits prec emax b -> is_finite f = true /\ (Rabs (B2R f - d) <= slack prec b)%R).
Proof. exact c81_gradient. Qed.
Print Assumptions C81_gradient.
Example C81_gradient_ex : exists (r : state R) (t : state spread),
  Forall2 (rel_cmd (begins 24 128)) (x_leaf x_f) (x_leaf (x_sp (1 # 1000))) /\
  Forall2 (rel_cmd (fun x b => x = sval b)) ([] ++ CNew [1; 2]%R [1; 2] :: [CScalar 5%R; CAdd 0 1; CRelu 2; CSum 3]) (x_leaf (x_sp (1 # 1000))) /\
  forallb differentiable ([] ++ CNew [1; 2]%R [1; 2] :: [CScalar 5%R; CAdd 0 1; CRelu 2; CSum 3]) = true /\
  run ([] ++ CNew [1; 2]%R [1; 2] :: [CScalar 5%R; CAdd 0 1; CRelu 2; CSum 3]) init_state = Ret r /\
  nonempty (nodes (hp r)) /\ matrices_only (nodes (hp r)) /\ nth_error (env r) 4 = Some 4 /\ root_ok (nodes (hp r)) 4 /\ no_kinks (nodes (hp r)) 4 /\
  run (NT := SpreadNum 24 128 (Q2R 1)) (x_leaf (x_sp (1 # 1000)) ++ [CBackward 4]) init_state = Ret t /\ signs_known (sign_sure 24 128) (nodes (hp t)) /\
  (exists o, run_any (NT := FloatNum 24 128 x_flat) 3 true (x_leaf x_f ++ [CBackward 4]) init_state o) /\
  exists g, var_grad t 0 = Some g /\ 0 < length (array g) /\ Forall (fun b => slack 24 b <= Q2R (1 # 100000) /\ reach 24 b <= Q2R (2 # 1) /\ peak b <= Q2R (2 # 1))%R (array g).
Proof. exact c81_gradient_ex. Qed.

(** C81: the conditions can be checked by computing with rational numbers. *)
Theorem C81_checker :
  forall (prec emax : Z) (P : Prec_gt_0 prec) (E : Prec_lt_emax prec emax) (tau : Q) (q : list (cmd spread)) (c : list (cmd sival)) (t : state sival),
    (0 <= Q2R tau)%R -> Forall2 (rel_cmd covers) q c ->
    run (NT := SivalNum prec emax tau) c init_state = Ret t -> signs_known (fun a => sdecided prec emax a = true) (nodes (hp t)) ->
    exists t', run (NT := SpreadNum prec emax (Q2R tau)) q init_state = Ret t' /\ signs_known (sign_sure prec emax) (nodes (hp t')) /\ rel_state covers t' t.
Proof. exact c81_checker. Qed.
Print Assumptions C81_checker.
Example C81_checker_ex :
  Forall2 (rel_cmd covers) (x_rel (x_sp (1 # 1000))) (x_rel (x_si (1 # 1000))) /\
  s_passes (sdecided 24 128) (s_small (1 # 20) (100 # 1)) 0 (run (NT := SivalNum 24 128 1) (x_rel (x_si (1 # 1000))) init_state) = true /\
  s_passes (sdecided 24 128) (fun _ => true) 0 (run (NT := SivalNum 24 128 1) (x_lost (x_si 0)) init_state) = false.
Proof. exact c81_checker_ex. Qed.

(** C81, the same for the training program *)
Theorem C81_checker_main :
  forall (prec emax : Z) (P : Prec_gt_0 prec) (E : Prec_lt_emax prec emax) (tau : Q) (inp hid out rounds : nat)
         (one step : spread) (w1 b1 w2 b2 w3 b3 input : list spread) (one' step' : sival) (w1' b1' w2' b2' w3' b3' input' : list sival) (k : heap sival) (n : mlp sival),
    (0 <= Q2R tau)%R ->
    Forall2 covers (one :: step :: w1) (one' :: step' :: w1') -> Forall2 covers b1 b1' -> Forall2 covers w2 w2' -> Forall2 covers b2 b2' ->
    Forall2 covers w3 w3' -> Forall2 covers b3 b3' -> Forall2 covers input input' ->
    main_program (NT := SivalNum prec emax tau) inp hid out rounds one' step' w1' b1' w2' b2' w3' b3' input' = Ret (k, n) ->
    signs_known (fun a => sdecided prec emax a = true) (nodes k) ->
    exists h m, main_program (NT := SpreadNum prec emax (Q2R tau)) inp hid out rounds one step w1 b1 w2 b2 w3 b3 input = Ret (h, m) /\
      signs_known (sign_sure prec emax) (nodes h) /\ rel_heap covers h k /\ map weights m = map weights n /\ map bias m = map bias n.
Proof. exact c81_checker_main. Qed.
Print Assumptions C81_checker_main.
Example C81_checker_main_ex :
  Forall2 covers (x_sp 0 10 :: x_sp 0 1 :: [x_sp (1 # 1000) 1]) (x_si 0 10 :: x_si 0 1 :: [x_si (1 # 1000) 1]) /\
  match main_program (NT := SivalNum 24 128 1) 1 1 1 1 (x_si 0 10) (x_si 0 1) [x_si (1 # 1000) 1] [x_si 0 1] [x_si 0 1] [x_si 0 1] [x_si 0 1] [x_si 0 0] [x_si 0 3] with
  | Ret (k, n) => signs_check (sdecided 24 128) (nodes k) && (2 <? length n) | _ => false end = true.
Proof. exact c81_checker_main_ex. Qed.

(** C81, for the training program of main.rs: whatever the initial weights, the thread schedules and the number of workers, if the
    signs of all inputs of [relu] and [abs] are known, training succeeds and the weights after it are within the
    bounds of those that exact training would give. *)
Theorem C81_main :
  forall (prec emax : Z) (P : Prec_gt_0 prec) (E : Prec_lt_emax prec emax) (tau : R) (ftanh : float prec emax -> float prec emax) (workers : nat) (fifo : bool)
         (inp hid out rounds : nat) (one step : float prec emax) (w1 b1 w2 b2 w3 b3 input : list (float prec emax))
         (one' step' : spread) (w1' b1' w2' b2' w3' b3' input' : list spread) (k : heap spread) (n : mlp spread) (o : outcome (heap (float prec emax) * mlp (float prec emax))),
    (forall f, is_finite f = true -> is_finite (ftanh f) = true /\ (Rabs (B2R (ftanh f) - tanh (B2R f)) <= tau)%R) ->
    Forall2 (begins prec emax) (one :: step :: w1) (one' :: step' :: w1') -> Forall2 (begins prec emax) b1 b1' ->
    Forall2 (begins prec emax) w2 w2' -> Forall2 (begins prec emax) b2 b2' ->
    Forall2 (begins prec emax) w3 w3' -> Forall2 (begins prec emax) b3 b3' -> Forall2 (begins prec emax) input input' ->
    main_program (NT := SpreadNum prec emax tau) inp hid out rounds one' step' w1' b1' w2' b2' w3' b3' input' = Ret (k, n) ->
    signs_known (sign_sure prec emax) (nodes k) ->
    main_program_any (NT := FloatNum prec emax ftanh) workers fifo inp hid out rounds one step w1 b1 w2 b2 w3 b3 input o ->
    exists h m h' m', o = Ret (h, m) /\
      main_program (NT := RNum) inp hid out rounds (sval one') (sval step') (map sval w1') (map sval b1') (map sval w2') (map sval b2') (map sval w3') (map sval b3') (map sval input') = Ret (h', m') /\
      map weights m = map weights n /\ map bias m = map bias n /\ map weights m' = map weights n /\ map bias m' = map bias n /\
      rel_heap (near prec emax) h k /\ rel_heap (fun x b => x = sval b) h' k.
Proof. exact c81_main. Qed.
Print Assumptions C81_main.
Example C81_main_ex : exists (k : heap spread) (n : mlp spread),
  Forall2 (begins 24 128) (x_f 10 :: x_f 1 :: [x_f 1]) (x_sp 0 10 :: x_sp 0 1 :: [x_sp (1 # 1000) 1]) /\
  main_program (NT := SpreadNum 24 128 (Q2R 1)) 1 1 1 1 (x_sp 0 10) (x_sp 0 1) [x_sp (1 # 1000) 1] [x_sp 0 1] [x_sp 0 1] [x_sp 0 1] [x_sp 0 1] [x_sp 0 0] [x_sp 0 3] = Ret (k, n) /\
  signs_known (sign_sure 24 128) (nodes k) /\
  exists o, main_program_any (NT := FloatNum 24 128 x_flat) 4 true 1 1 1 1 (x_f 10) (x_f 1) [x_f 1] [x_f 1] [x_f 1] [x_f 1] [x_f 1] [x_f 0] [x_f 3] o.
Proof. exact c81_main_ex. Qed.

(** C81: whole numbers.  If the bounds of C69 stay within 2^prec, the float program computes exactly what the program over the
    integers computes under every schedule: then there is only one outcome. *)
Theorem C81_whole_numbers :
  forall (prec emax : Z) (P : Prec_gt_0 prec) (E : Prec_lt_emax prec emax) (tanh : float prec emax -> float prec emax) (workers : nat) (fifo : bool)
         (bounds : list (cmd (Z * Z))) (q : list (cmd Z)) (p : list (cmd (float prec emax))) (s : state (Z * Z)) (o : outcome (state (float prec emax))),
    let exactly := fun z f => is_finite f = true /\ B2R f = IZR z in
    Forall2 (rel_cmd (fun xb z => fst xb = z)) bounds q ->
    Forall2 (rel_cmd (fun xb f => snd xb = Z.abs (fst xb) /\ exactly (fst xb) f)) bounds p ->
    (forall c, In c bounds -> ~ In KTanh (needs c)) ->
    run (NT := BoundNum) bounds init_state = Ret s -> everywhere (fun xb => snd xb <= 2 ^ prec)%Z s ->
    run_any (NT := FloatNum prec emax tanh) workers fifo p init_state o ->
    exists t u, run q init_state = Ret t /\ o = Ret u /\ rel_state exactly t u.
Proof. exact c81_whole_numbers. Qed.
Print Assumptions C81_whole_numbers.
Example C81_whole_numbers_ex :
  Forall2 (rel_cmd (fun xb z => fst xb = z)) (x_absrelu (fun z => (z, Z.abs z))) (x_absrelu (fun z => z)) /\
  (exists s, run (NT := BoundNum) (x_absrelu (fun z => (z, Z.abs z))) init_state = Ret s) /\
  (exists o, run_any (NT := FloatNum 24 128 (fun x => x)) 3 true (x_absrelu x_f) init_state o) /\
  x_show (run (NT := BoundNum) (x_absrelu (fun z => (z, Z.abs z))) init_state) =
    Ret ([[(1, 1); (-2, 2); (3, 3); (4, 4)]; [(5, 5); (6, 6)]; [(-7, 17); (39, 39)]; [(0, 0); (39, 39)]; [(40, 40)]; [(-40, 40)]; [(-40, 40); (-1, 79)]; [(40, 40); (1, 79)]; [(41, 119)]]%Z,
         [Some [(0, 5); (0, 6); (-5, 5); (-6, 6)]; Some [(-3, 4); (-4, 6)]; Some [(0, 1); (-1, 1)]; Some [(-1, 1); (-1, 1)]; Some [(2, 2)]; Some [(-2, 2)]; Some [(-1, 1); (-1, 1)]; Some [(1, 1); (1, 1)]; Some [(1, 1); (1, 1)]]%Z).
Proof. exact c81_whole_numbers_ex. Qed.

