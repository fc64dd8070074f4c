(** * PropertiesMachine: the theorems of ClaimsMachine.v, restated (generated by tools/genprops.py) *)
From Coq Require Import ZArith Reals.
From Coq Require String.
From Verif Require Import Base ModelIndex ModelTensor ModelOps ModelJvp ModelGraph ModelUsize ModelRust ModelKernel ModelMachine Spec SpecGraph SpecReal Lists
  RealInst FuelFacts BackFacts ProgFacts UsizeFacts HandleProg ClaimsGrad ClaimsUsize ClaimsRust MachineFacts RustLim MachineLim RustRel RustMono Instances UsizeSmall.
From Verif Require Import ClaimsMachine.
Import String.StringSyntax.
Local Open Scope string_scope.

(** C88: every program of API calls, its calculations done by the statements of the source: with enough turns for the loops it
    ends, and with overflow checks what it returns is what it returns without them and what the model says; and if the model
    returns, it returns the same or panics because a [usize] overflowed. *)
Theorem C88_programs :
  forall (T : Type) (NT : Num T) (p : list (cmd T)),
    exists N0 : nat, forall N : nat, N0 <= N ->
      (forall s, m_run (U := unbounded) N p init_state = Ret s <-> ModelGraph.run p init_state = Ret s) /\
      forall M : nat,
        m_run (U := checked M) N p init_state <> NoFuel /\
        (forall s, m_run (U := checked M) N p init_state = Ret s ->
           m_run (U := wrapping M) N p init_state = Ret s /\ ModelGraph.run p init_state = Ret s) /\
        (forall s, ModelGraph.run p init_state = Ret s ->
           m_run (U := checked M) N p init_state = Ret s \/ m_run (U := checked M) N p init_state = Panic PArith).
Proof. exact c88_programs. Qed.
Print Assumptions C88_programs.
Example C88_programs_ex :
  let p := [CNew [1; 2; 3; 4]%Z [2; 2]; CRelu 0; CBmm 0 1; CSum 2; CBackward 3; CViewSum 0 [mkSR 0 1; mkSR 1 2]] in
  match m_run (U := checked 32) 20 p init_state, ModelGraph.run p init_state with
  | Ret s, Ret s' => nodes (hp s) = nodes (hp s') /\ grads (hp s) 0 = grads (hp s') 0 /\ grads (hp s) 0 <> None
  | _, _ => False
  end.
Proof. exact c88_programs_ex. Qed.

(** C88: each rule of a derivative as it stands in the source, with the closures its operation passes. *)
Theorem C88_rules :
  forall (T : Type) (NT : Num T) (k : opk) (tensors outer : list (raw T)),
    exists N0 : nat, forall N M : nat, N0 <= N ->
      (forall l, (exists w, ModelKernel.run (U := unbounded) N (op_closures k) (op_rule k) [VTens tensors; VTens outer] = Ret (VTens l, w))
                 <-> jvp k tensors outer = Ret l) /\
      (forall l w, ModelKernel.run (U := checked M) N (op_closures k) (op_rule k) [VTens tensors; VTens outer] = Ret (VTens l, w) ->
         ModelKernel.run (U := wrapping M) N (op_closures k) (op_rule k) [VTens tensors; VTens outer] = Ret (VTens l, w) /\
         jvp k tensors outer = Ret l).
Proof. exact c88_rules. Qed.
Print Assumptions C88_rules.
Example C88_rules_ex :
  ModelKernel.run (T := Z) (U := checked 256) 20 (op_closures KBmm) (op_rule KBmm)
    [VTens [mkRaw [1; 2; 3; 4]%Z [2; 2]; mkRaw [5; 6; 7; 8]%Z [2; 2]]; VTens [mkRaw [1; 1; 1; 1]%Z [1; 4]]]
  = Ret (VTens [mkRaw [11; 15; 11; 15]%Z [1; 4]; mkRaw [4; 4; 6; 6]%Z [1; 4]], VTens [mkRaw [1; 2; 3; 4]%Z [2; 2]; mkRaw [5; 6; 7; 8]%Z [2; 2]]) /\
  ModelKernel.run (T := Z) (U := checked 256) 20 (op_closures KAbs) (op_rule KAbs) [VTens [mkRaw [3; -4]%Z [2]]; VTens [mkRaw [10; 100]%Z [1; 2]]]
  = Ret (VTens [mkRaw [10; -100]%Z [1; 2]], VTens [mkRaw [3; -4]%Z [2]]).
Proof. exact c88_rules_ex. Qed.

(** C88: more turns for the loops change nothing in a program that ended, of the small language or of API calls. *)
Theorem C88_more_turns :
  forall (U : usize_ops) (T : Type) (NT : Num T) (N N' : nat), N <= N' ->
    (forall (E : fenv) (ds : list (string * func)) (f : string) (args : list val),
       call (link N E ds) f args = NoFuel \/ call (link N E ds) f args = call (link N' E ds) f args) /\
    (forall (p : list (cmd T)) (s : state T), m_run N p s = NoFuel \/ m_run N p s = m_run N' p s).
Proof. exact c88_more_turns. Qed.
Print Assumptions C88_more_turns.
Example C88_more_turns_ex :
  let p := [CNew [1; 2; 3; 4]%Z [2; 2]; CAdd 0 0; CSum 1] in
  m_run (U := checked 64) 2 p init_state = NoFuel /\ m_run (U := checked 64) 5 p init_state <> NoFuel.
Proof. exact c88_more_turns_ex. Qed.

(** C88: so whatever the statements return with overflow checks, however many turns they had, is what they return without the
    checks and what the model says. *)
Theorem C88_never_wrong :
  forall (T : Type) (NT : Num T) (M N : nat) (p : list (cmd T)) (s : state T),
    m_run (U := checked M) N p init_state = Ret s -> m_run (U := wrapping M) N p init_state = Ret s /\ ModelGraph.run p init_state = Ret s.
Proof. exact c88_never_wrong. Qed.
Print Assumptions C88_never_wrong.
Example C88_never_wrong_ex :
  let p := [CNew [1; 2; 3; 4]%Z [2; 2]; CAbs 0; CBmm 0 1; CSum 2; CBackward 3] in
  match m_run (U := checked 40) 20 p init_state with Ret s => grads (hp s) 1 <> None | _ => False end.
Proof. exact c88_never_wrong_ex. Qed.

(** C88: so with real numbers the statements of the source, run with overflow checks, leave in a tensor of a program of
    differentiable calls the derivative of the program's result with respect to the tensor's elements. *)
Theorem C88_gradient :
  forall (M N : nat) (p1 p2 : list (cmd R)) (a : list R) (sh : list nat) (y r : nat) (st st' : state R),
    forallb differentiable (p1 ++ CNew a sh :: p2) = true ->
    m_run (U := checked M) N (p1 ++ CNew a sh :: p2) init_state = Ret st -> m_run (U := checked M) N [CBackward y] st = Ret st' ->
    nonempty (nodes (hp st)) -> matrices_only (nodes (hp st)) ->
    nth_error (ModelGraph.env st) y = Some r -> root_ok (nodes (hp st)) r -> no_kinks (nodes (hp st)) r ->
    forall q, q < length a ->
      program_derivative (fun t => p1 ++ CNew (list_set a q (nth q a 0 + t)%R) sh :: p2) y (grad_entry st' (length p1) q).
Proof. exact c88_gradient. Qed.
Print Assumptions C88_gradient.
Example C88_gradient_ex : exists st st' : state R,
  forallb differentiable ([] ++ CNew [1; 2]%R [1; 2] :: [CTanh 0; CSum 1]) = true /\
  m_run (U := checked 64) 20 ([] ++ CNew [1; 2]%R [1; 2] :: [CTanh 0; CSum 1]) init_state = Ret st /\
  m_run (U := checked 64) 20 [CBackward 2] st = Ret st' /\
  nonempty (nodes (hp st)) /\ matrices_only (nodes (hp st)) /\ nth_error (ModelGraph.env st) 2 = Some 2 /\ root_ok (nodes (hp st)) 2 /\ no_kinks (nodes (hp st)) 2.
Proof. exact c88_gradient_ex. Qed.

(** C88: and no program overflows on words that are wide enough for it: then, with and without overflow checks, the statements return
    exactly when the model does, and the same. *)
Theorem C88_wide_words :
  forall (T : Type) (NT : Num T) (p : list (cmd T)),
    exists N0 : nat, forall N : nat, N0 <= N ->
      exists M0 : nat, forall M : nat, M0 <= M ->
        (forall s, m_run (U := checked M) N p init_state = Ret s <-> ModelGraph.run p init_state = Ret s) /\
        (forall s, ModelGraph.run p init_state = Ret s -> m_run (U := wrapping M) N p init_state = Ret s).
Proof. exact c88_wide_words. Qed.
Print Assumptions C88_wide_words.
Example C88_wide_words_ex :
  let p := [CNew [1; 2; 3; 4]%Z [2; 2]; CBmm 0 0; CTanh 1; CSum 2; CBackward 3] in
  m_run (U := checked 16) 20 p init_state = Panic PArith /\
  match m_run (U := checked 40) 20 p init_state with Ret s => grads (hp s) 0 <> None | _ => False end.
Proof. exact c88_wide_words_ex. Qed.

(** C88: the same for any program of the small language. *)
Theorem C88_wide_any :
  forall (T : Type) (NT : Num T) (N : nat) (E : fenv) (ds : list (string * func)) (f : string) (args : list val),
    exists M0 : nat, forall M : nat, M0 <= M ->
      call (link (U := checked M) N E ds) f args = call (link (U := unbounded) N E ds) f args.
Proof. exact c88_wide_any. Qed.
Print Assumptions C88_wide_any.
Example C88_wide_any_ex :
  let double := ("double", mkFn ["x"] (SReturn (EMul (EVar "x") (ENum 2)))) in
  call (T := Z) (link (U := checked 8) 5 (fun _ => None) [double]) "double" [VNum 4] = Panic PArith /\
  call (T := Z) (link (U := checked 9) 5 (fun _ => None) [double]) "double" [VNum 4] = Ret (VNum 8, VNum 4).
Proof. exact c88_wide_any_ex. Qed.

