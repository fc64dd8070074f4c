(** * PropertiesSched: the theorems of ClaimsSched.v, restated (generated by tools/genprops.py) *)
From Coq Require Import ZArith Lia.
From Flocq Require Import BinarySingleNaN.
From Verif Require Import Base ModelIndex ModelTensor ModelOps ModelJvp ModelGraph ModelNN ModelMain ModelPar ModelSched SpecParam SpecSched
  ParamFacts RoomFacts ParFacts ChanBmm SchedFacts Instances FloatInst ClaimsParam ClaimsPar.
From Verif Require Import ClaimsSched.
Local Open Scope nat_scope.

(** C80: with exact addition, a program gives the same values and the same gradients under every thread schedule, with
    any number of workers: what its matrix products and their backward passes do concurrently is never seen. *)
Theorem C80_exact :
  forall (T : Type) (NT : Num T) (workers : nat) (fifo : bool) (p : list (cmd T)) (r : outcome (state T)),
    (forall x y : T, n_add x y = n_add y x) -> (forall x y z : T, n_add (n_add x y) z = n_add x (n_add y z)) ->
    run_any workers fifo p init_state r -> alike (rel_state eq) r (run p init_state).
Proof. exact c80_exact. Qed.
Print Assumptions C80_exact.
Example C80_exact_ex : (exists r, run_any (NT := ZNum) 3 true (x_back (fun z => z)) init_state r) /\
  x_show (run (NT := ZNum) (x_back (fun z => z)) init_state) =
    Ret ([[2 ^ 30; 1; - 2 ^ 30]; [1]; [2 ^ 30; 1; - 2 ^ 30]; [1]]%Z, [Some [1; 1; 1]; Some [1]; Some [1; 1; 1]; Some [1; 1; 1]]%Z).
Proof. exact c80_exact_ex. Qed.

(** C80: whatever the arithmetic - floats included - the schedule cannot be seen in what a program does: two runs of
    the same calls either both panic or both end with the same tensors and gradients in place, of the same
    shapes and with the same histories.  (Which of several panics is passed on is left open.) *)
Theorem C80_same_course :
  forall (A B : Type) (NA : Num A) (NB : Num B) (workers : nat) (fifo : bool) (p : list (cmd A)) (q : list (cmd B)) (r : outcome (state A)),
    Forall2 (rel_cmd (fun _ _ => True)) p q -> run_any workers fifo p init_state r -> alike (rel_state (fun _ _ => True)) r (run q init_state).
Proof. exact c80_same_course. Qed.
Print Assumptions C80_same_course.
Example C80_same_course_ex :
  Forall2 (rel_cmd (fun _ _ => True)) (x_back x_float) (x_back (fun z => z)) /\
  (exists r, run_any (NT := F32Num x_tanh) 2 true (x_back x_float) init_state r) /\
  (exists r, run_any (NT := F32Num x_tanh) 2 true (x_back x_float ++ [CBackward 2]) init_state r) /\
  run (NT := ZNum) (x_back (fun z => z) ++ [CBackward 2]) init_state = Panic PAssert.
Proof. exact c80_same_course_ex. Qed.

(** C80: there is always a run that ends: no program can be stuck for ever because of the pool, whatever its
    number of workers, as long as jobs start in the order in which they were spawned. *)
Theorem C80_possible :
  forall (T : Type) (NT : Num T) (workers : nat) (p : list (cmd T)) (s : state T),
    1 <= workers -> exists r, run_any workers true p s r.
Proof. exact c80_possible. Qed.
Print Assumptions C80_possible.
Example C80_possible_ex : forall r, run_any (NT := ZNum) 1 true (x_back (fun z => z)) init_state r ->
  exists s, r = Ret s /\ option_map array (grads (hp s) 1) = Some [1%Z].
Proof. exact c80_possible_ex. Qed.

(** C80: with one worker, any arithmetic - floats included - gives the values and gradients of the sequential reading,
    bit for bit. *)
Theorem C80_one_worker :
  forall (T : Type) (NT : Num T) (p : list (cmd T)) (r : outcome (state T)),
    run_any 1 true p init_state r -> alike (rel_state eq) r (run p init_state).
Proof. exact c80_one_worker. Qed.
Print Assumptions C80_one_worker.
Example C80_one_worker_ex :
  (exists r, run_any (NT := F32Num x_tanh) 1 true (x_back x_float) init_state r) /\
  x_show (run (NT := F32Num x_tanh) (x_back x_float) init_state) =
    Ret (map (map x_float) [[2 ^ 30; 1; - 2 ^ 30]; [1]; [2 ^ 30; 1; - 2 ^ 30]; [0]]%Z,
         map (option_map (map x_float)) [Some [1; 1; 1]; Some [0]; Some [1; 1; 1]; Some [1; 1; 1]]%Z).
Proof. exact c80_one_worker_ex. Qed.

Theorem C80_main_exact :
  forall (T : Type) (NT : Num T) (workers : nat) (fifo : bool) (inp hid out rounds : nat) (one step : T) (w1 b1 w2 b2 w3 b3 input : list T) (r : outcome (heap T * mlp T)),
    (forall x y : T, n_add x y = n_add y x) -> (forall x y z : T, n_add (n_add x y) z = n_add x (n_add y z)) ->
    main_program_any workers fifo inp hid out rounds one step w1 b1 w2 b2 w3 b3 input r ->
    alike (same_net eq) r (main_program inp hid out rounds one step w1 b1 w2 b2 w3 b3 input).
Proof. exact c80_main_exact. Qed.
Print Assumptions C80_main_exact.
Example C80_main_exact_ex :
  (exists r, main_program_any (NT := ZNum) 2 true 1 2 1 2 1%Z 1%Z [1; 2]%Z [0; 0]%Z [1; 0; 0; 1]%Z [1; 1]%Z [1; 1]%Z [0]%Z [3]%Z r) /\
  (forall o, o = main_program (NT := ZNum) 1 2 1 2 1%Z 1%Z [1; 2]%Z [0; 0]%Z [1; 0; 0; 1]%Z [1; 1]%Z [1; 1]%Z [0]%Z [3]%Z -> match o with Ret (h, m) => map weights m = [54; 60; 66] | _ => False end).
Proof. exact c80_main_exact_ex. Qed.

(** C80: ... and with floats it takes the same steps under every schedule, with whatever random numbers it starts. *)
Theorem C80_main_same_course :
  forall (A B : Type) (NA : Num A) (NB : Num B) (workers : nat) (fifo : bool) (inp hid out rounds : nat) (one step : A) (one' step' : B)
         (w1 b1 w2 b2 w3 b3 input : list A) (w1' b1' w2' b2' w3' b3' input' : list B) (r : outcome (heap A * mlp A)),
    map (@length A) [w1; b1; w2; b2; w3; b3; input] = map (@length B) [w1'; b1'; w2'; b2'; w3'; b3'; input'] ->
    main_program_any workers fifo inp hid out rounds one step w1 b1 w2 b2 w3 b3 input r ->
    alike (same_net (fun _ _ => True)) r (main_program inp hid out rounds one' step' w1' b1' w2' b2' w3' b3' input').
Proof. exact c80_main_same_course. Qed.
Print Assumptions C80_main_same_course.
Example C80_main_same_course_ex :
  (exists r, main_program_any (NT := F32Num x_tanh) 2 true 1 2 1 2 (x_float 1) (x_float 1) (map x_float [1; 2]%Z) (map x_float [0; 0]%Z) (map x_float [1; 0; 0; 1]%Z) (map x_float [1; 1]%Z) (map x_float [1; 1]%Z) [x_float 0] [x_float 3] r) /\
  (forall r, main_program_any (NT := F32Num x_tanh) 2 true 1 2 1 2 (x_float 1) (x_float 1) (map x_float [1; 2]%Z) (map x_float [0; 0]%Z) (map x_float [1; 0; 0; 1]%Z) (map x_float [1; 1]%Z) (map x_float [1; 1]%Z) [x_float 0] [x_float 3] r ->
    exists h m, r = Ret (h, m) /\ map weights m = [54; 60; 66]).
Proof. exact c80_main_same_course_ex. Qed.

Theorem C80_floats_refuted :
  ~ (forall (tanh : f32 -> f32) (workers : nat) (p : list (cmd f32)) (r r' : outcome (state f32)), let NT := F32Num tanh in
       run_any workers true p init_state r -> run_any workers true p init_state r' -> alike (rel_state eq) r r').
Proof. exact c80_floats_refuted. Qed.
Print Assumptions C80_floats_refuted.
Example C80_floats_refuted_ex : let NT := F32Num x_tanh in exists s s', run_any 2 true (x_back x_float) init_state (Ret s) /\ run_any 2 true (x_back x_float) init_state (Ret s') /\
  option_map array (grads (hp s) 1) = Some [x_float 0] /\ option_map array (grads (hp s') 1) = Some [x_float 1].
Proof. exact c80_floats_refuted_ex. Qed.

