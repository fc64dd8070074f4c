(** * PropertiesUsize: the theorems of ClaimsUsize.v, restated (generated by tools/genprops.py) *)
From Coq Require Import ZArith.
From Verif Require Import Base ModelIndex ModelTensor ModelOps ModelJvp ModelGraph ModelUsize Spec SpecDual SpecGraph Lists IndexFacts GraphFacts ProgFacts UsizeFacts UsizeSmall Instances.
From Verif Require Import ClaimsUsize.


(** C86: with overflow checks, a program does what the model with unbounded numbers does, or panics because a [usize]
    overflowed. *)
Theorem C86_checked :
  forall (M : nat) (T : Type) (NT : Num T) (p : list (cmd T)) (s : state T),
    @u_run (checked M) T NT p s = run p s \/ @u_run (checked M) T NT p s = Panic PArith.
Proof. exact c86_checked. Qed.
Print Assumptions C86_checked.
Example C86_checked_ex : exists s, @u_run (checked 8) Z ZNum [CNew [1; 2; 3; 4]%Z [2; 2]; CSum 0; CBackward 1] init_state = Ret s /\
  run (T := Z) [CNew [1; 2; 3; 4]%Z [2; 2]; CTanh 0] init_state <> Panic PArith /\ @u_run (checked 8) Z ZNum [CNew [1; 2; 3; 4]%Z [2; 2]; CTanh 0; CSum 1; CBackward 2] init_state = Panic PArith.
Proof. exact c86_checked_ex. Qed.

(** C86: if a program returns with overflow checks, it returns the same without them, and so does the model. *)
Theorem C86_wrapping :
  forall (M : nat) (T : Type) (NT : Num T) (p : list (cmd T)) (s s' : state T),
    @u_run (checked M) T NT p s = Ret s' -> @u_run (wrapping M) T NT p s = Ret s' /\ run p s = Ret s'.
Proof. exact c86_wrapping. Qed.
Print Assumptions C86_wrapping.
Example C86_wrapping_ex : exists s, @u_run (checked 32) Z ZNum [CNew [1; 2; 3; 4]%Z [2; 2]; CRelu 0; CBmm 0 1; CSum 2; CBackward 3] init_state = Ret s.
Proof. exact c86_wrapping_ex. Qed.

(** C86: as long as no tensor has more than B elements (none is empty), and B * B is below the number of words, nothing
    overflows: with or without checks, the program does what the model does, through every index, offset, product of
    dimensions and jacobian of forward and backward pass. *)
Theorem C86_small :
  forall (M B : nat) (T : Type) (NT : Num T) (p : list (cmd T)) (s : state T),
    B * B < M -> Forall tidy p -> Forall (fun c => forall x y o, c <> CMulView x y o) p ->
    run p init_state = Ret s -> Forall (fun nd => positive (shape (n_val nd)) /\ size (shape (n_val nd)) <= B) (nodes (hp s)) ->
    @u_run (checked M) T NT p init_state = Ret s /\ @u_run (wrapping M) T NT p init_state = Ret s.
Proof. exact c86_small. Qed.
Print Assumptions C86_small.
Example C86_small_ex : exists s, 4 * 4 < 17 /\ run (T := Z) [CNew [1; 2; 3; 4]%Z [2; 2]; CBmm 0 0; CTanh 1; CSum 2; CBackward 3; CViewSum 0 [mkSR 0 1; mkSR 1 2]] init_state = Ret s /\
  Forall (fun nd => positive (shape (n_val nd)) /\ size (shape (n_val nd)) <= 4) (nodes (hp s)) /\ grads (hp s) 0 <> None /\
  @u_run (checked 16) Z ZNum [CNew [1; 2; 3; 4]%Z [2; 2]; CBmm 0 0; CTanh 1; CSum 2; CBackward 3] init_state = Panic PArith.
Proof. exact c86_small_ex. Qed.

(** C86: so with words of w bits, tensors of up to 2^b elements are safe if 2 * b < w: up to 2^31 elements on a 64-bit machine. *)
Theorem C86_bits :
  forall (w b : nat) (T : Type) (NT : Num T) (p : list (cmd T)) (s : state T),
    2 * b < w -> Forall tidy p -> Forall (fun c => forall x y o, c <> CMulView x y o) p ->
    run p init_state = Ret s -> Forall (fun nd => positive (shape (n_val nd)) /\ size (shape (n_val nd)) <= 2 ^ b) (nodes (hp s)) ->
    @u_run (checked (2 ^ w)) T NT p init_state = Ret s /\ @u_run (wrapping (2 ^ w)) T NT p init_state = Ret s.
Proof. exact c86_bits. Qed.
Print Assumptions C86_bits.
Example C86_bits_ex : exists s, 2 * 2 < 64 /\ run (T := Z) [CNew [1; -2; 3]%Z [3]; CAbs 0; CAdd 0 1; CSum 2] init_state = Ret s /\
  Forall (fun nd => positive (shape (n_val nd)) /\ size (shape (n_val nd)) <= 2 ^ 2) (nodes (hp s)).
Proof. exact c86_bits_ex. Qed.

(** C86: without checks a program can return where the model panics: a tensor with no elements and dimensions [2; 2^(w-1)]. *)
Theorem C86_wrapping_always_refuted :
  forall w : nat, 2 <= w -> ~ forall (p : list (cmd Z)) (s : state Z), @u_run (wrapping (2 ^ w)) Z ZNum p init_state = Ret s -> run p init_state = Ret s.
Proof. exact c86_wrapping_always_refuted. Qed.
Print Assumptions C86_wrapping_always_refuted.
