(** * PropertiesCrash: the theorems of ClaimsCrash.v, restated (generated by tools/genprops.py) *)
From Coq Require Import ZArith.
From Verif Require Import Base ModelIndex ModelTensor ModelOps ModelJvp ModelGraph ModelCrash Spec SpecDual SpecGraph SpecCrash
  Lists GradRing FuelFacts GraphFacts ProgFacts BackFacts Instances CrashFacts.
From Verif Require Import ClaimsCrash.


(** C61 is false: a [backward] that panics may have changed gradients. *)
Theorem C61_atomic_refuted :
  ~ (forall (T : Type) (NT : Num T) (s : state T) (c : cmd T) (p : panic), reach any s ->
       snd (exec_left s c) = Panic p -> forall x, var_grad (fst (exec_left s c)) x = var_grad s x).
Proof. exact c61_atomic_refuted. Qed.
Print Assumptions C61_atomic_refuted.
Example C61_atomic_refuted_ex :
  exists s : state Z, run x_prog init_state = Ret s /\ var_grad s 0 = None /\
    snd (exec_left s (CBackward 4)) = Panic PAssert /\ var_grad (fst (exec_left s (CBackward 4))) 0 = Some (mkRaw [1; 1]%Z [2]).
Proof. exact c61_atomic_refuted_ex. Qed.

(** C61: the calls end as in a program without guards, in the same state when they do not panic; ... *)
Theorem C61_agrees :
  forall (T : Type) (NT : Num T) (s : state T) (c : cmd T),
    (forall s', exec s c = Ret s' <-> exec_left s c = (s', Ret tt)) /\
    (forall p, exec s c = Panic p <-> snd (exec_left s c) = Panic p).
Proof. exact c61_agrees. Qed.
Print Assumptions C61_agrees.
Example C61_agrees_ex : exists s : state Z, run x_prog init_state = Ret s /\ exec s (CBackward 4) = Panic PAssert /\
  snd (exec_left s (CBackward 4)) = Panic PAssert /\ snd (exec_left s (CBackward 3)) = Ret tt.
Proof. exact c61_agrees_ex. Qed.

(** ... every call other than [backward] that panics leaves everything as it was; ... *)
Theorem C61_other_calls :
  forall (T : Type) (NT : Num T) (s : state T) (c : cmd T) (p : panic),
    (forall x, c <> CBackward x) -> snd (exec_left s c) = Panic p -> fst (exec_left s c) = s.
Proof. exact c61_other_calls. Qed.
Print Assumptions C61_other_calls.
Example C61_other_calls_ex : exists s : state Z, run [CNew [1; 2]%Z [2]; CNew [3; 4; 5]%Z [3]] init_state = Ret s /\
  exists p, snd (exec_left s (CSub 0 1)) = Panic p.
Proof. exact c61_other_calls_ex. Qed.

(** ... a [backward] that panics leaves all tensors, the gradient of the root and those of tensors the root was not
    computed from; no gradient disappears, and those it leaves are well formed. *)
Theorem C61_backward_left :
  forall (T : Type) (NT : Num T) (s : state T) (r : nat), reach_guarded any s ->
    let h' := fst (backward_left (hp s) r) in
    nodes h' = nodes (hp s) /\ grads h' r = grads (hp s) r /\
    (forall j, ~ uses (nodes (hp s)) r j -> grads h' j = grads (hp s) j) /\
    (forall j, grads (hp s) j <> None -> grads h' j <> None) /\
    (forall j g, grads h' j = Some g -> wf g).
Proof. exact c61_backward_left. Qed.
Print Assumptions C61_backward_left.
Example C61_backward_left_ex : exists s : state Z, run x_prog init_state = Ret s /\
  snd (backward_left (hp s) 4) = Panic PAssert /\ grads (fst (backward_left (hp s) 4)) 1 = None /\ grads (fst (backward_left (hp s) 4)) 2 = Some (mkRaw [1]%Z [1]).
Proof. exact c61_backward_left_ex. Qed.

(** C61: after any number of caught panics every tensor is well formed and was computed from earlier ones, gradients have
    the shape of their tensor (or, for sums, of what was summed), and no call runs forever. *)
Theorem C61_invariants :
  forall (T : Type) (NT : Num T) (s : state T), reach_guarded tidy s ->
    recorded (nodes (hp s)) /\ Forall (fun i => i < length (nodes (hp s))) (env s) /\
    (forall n g, grads (hp s) n = Some g -> wf g /\ n < length (nodes (hp s)) /\
       (shape g = shape (vof (nodes (hp s)) n) \/ exists i, fn_of (nodes (hp s)) n = Some (KSum, [i]) /\ shape g = shape (vof (nodes (hp s)) i))) /\
    forall c, snd (exec_left s c) <> NoFuel.
Proof. exact c61_invariants. Qed.
Print Assumptions C61_invariants.
Example C61_invariants_ex : var_grad (run_guarded (x_prog ++ [CBackward 4; CAdd 0 3; CBackward 4; CSum 1; CBackward 5]) init_state) 0 = Some (mkRaw [2; 2]%Z [2]) /\
  var_grad (run_guarded (x_prog ++ [CBackward 4; CBmm 0 3; CBackward 4; CSum 1; CBackward 5]) init_state) 1 = Some (mkRaw [1; 1]%Z [2]).
Proof. exact c61_invariants_ex. Qed.

(** C61: what worked before works after a caught panic: [backward] still succeeds on the roots C41 names. *)
Theorem C61_still_works :
  forall (T : Type) (NT : Num T) (s : state T) (r : nat), reach_guarded tidy s ->
    nonempty (nodes (hp s)) -> matrices_only (nodes (hp s)) ->
    size (shape (vof (nodes (hp s)) r)) = 1 -> accepts (nodes (hp s)) r -> snd (backward_left (hp s) r) = Ret tt.
Proof. exact c61_still_works. Qed.
Print Assumptions C61_still_works.
Example C61_still_works_ex : let s := run_guarded (x_prog ++ [CBackward 4]) init_state in
  size (shape (vof (nodes (hp s)) 3)) = 1 /\ accepts (nodes (hp s)) 3 /\ snd (backward_left (hp s) 3) = Ret tt /\ grads (hp s) 3 <> None.
Proof. exact c61_still_works_ex. Qed.

(** C61: [zero_grad] on what the root was computed from undoes the damage: the heap is as if [backward] had not been called. *)
Theorem C61_recover :
  forall (T : Type) (NT : Num T) (s : state T) (r : nat) (ws : list nat), reach_guarded any s ->
    (forall j, uses (nodes (hp s)) r j -> j <> r -> In j ws) ->
    same_heap (zero_all ws (fst (backward_left (hp s) r))) (zero_all ws (hp s)).
Proof. exact c61_recover. Qed.
Print Assumptions C61_recover.
Example C61_recover_ex : exists s : state Z, run x_prog init_state = Ret s /\
  grads (fst (backward_left (hp s) 4)) 0 <> None /\ grads (zero_all [0; 1; 2; 3] (fst (backward_left (hp s) 4))) 0 = None.
Proof. exact c61_recover_ex. Qed.

