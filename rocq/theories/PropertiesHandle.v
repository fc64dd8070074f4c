(** * PropertiesHandle: the theorems of ClaimsHandle.v, restated (generated by tools/genprops.py) *)
From Coq Require Import ZArith Relation_Operators Operators_Properties.
From Verif Require Import Base ModelIndex ModelTensor ModelOps ModelJvp ModelGraph ModelHandle Spec SpecDual SpecGraph SpecHandle
  Lists FuelFacts HandleFacts HandleProg HandleCycle HandleTerm Instances.
From Verif Require Import ClaimsHandle.


(** C54: a program that uses gradients as values ends, with gradients as tensors, exactly as it does with
    gradients as values: in the same panic, or with the same data in every variable and the same gradient in
    every unmarked one. *)
Theorem C54_gradients_as_values :
  forall (T : Type) (NT : Num T) (p : list (cmd T)), values_only [] p ->
    match run p init_state, h_run p h_init with
    | Ret s, Ret hs =>
      length (henv hs) = length (env s) /\
      forall x, hvar_value hs x = var_value s x /\ (marked (marks p) x = false -> hvar_grad hs x = var_grad s x)
    | Panic a, Panic b => a = b
    | _, _ => False
    end.
Proof. exact c54_gradients_as_values. Qed.
Print Assumptions C54_gradients_as_values.
Example C54_gradients_as_values_ex :
  let p := [CNew [5]%Z [1; 1]; CNew [3]%Z [1; 1]; CScalar 1%Z;
            CBmm 0 1; CAbs 3; CSum 4; CBackward 5; CGrad 0; CMul 6 2; CSub 0 7;
            CBmm 8 1; CAbs 9; CSum 10; CBackward 11; CGrad 8; CMul 12 2; CSub 8 13] in
  values_only [] p /\ marked (marks p) 8 = false /\
  exists hs, h_run p h_init = Ret hs /\ hvar_value hs 8 = Ret (mkRaw [2]%Z [1; 1]) /\ hvar_value hs 14 = Ret (mkRaw [-1]%Z [1; 1]) /\
    hvar_grad hs 8 = Some (mkRaw [3]%Z [1; 1]).
Proof. exact c54_gradients_as_values_ex. Qed.

(** The restriction is needed: [backward] on a gradient works in the code if the gradient is a sum. *)
Theorem C54_all_programs_refuted :
  ~ (forall (T : Type) (NT : Num T) (p : list (cmd T)) (hs : hstate T), h_run p h_init = Ret hs ->
       exists s, run p init_state = Ret s).
Proof. exact c54_all_programs_refuted. Qed.
Print Assumptions C54_all_programs_refuted.
Example C54_all_programs_refuted_ex :
  let p := [CScalar 1%Z; CScalar 2%Z; CUpdateGrad 0 1; CUpdateGrad 0 1; CGrad 0; CBackward 2] in
  run p init_state = Panic PUnwrap /\
  exists hs, h_run p h_init = Ret hs /\ hvar_grad hs 1 = Some (mkRaw [2]%Z []).
Proof. exact c54_all_programs_refuted_ex. Qed.

(** C55: [grad()] gives the gradient at the time of the call, or panics if there is none; *)
Theorem C55_grad_is_current :
  forall (T : Type) (NT : Num T) (s s' : hstate T) (x : nat), h_exec s (CGrad x) = Ret s' ->
    exists g, henv s' = henv s ++ [g] /\ hhp s' = hhp s /\
      (exists i, nth_error (henv s) x = Some i /\ hgrads (hhp s) i = Some g) /\
      forall v, hvar_grad s x = Some v -> hvar_value s' (length (henv s)) = Ret v.
Proof. exact c55_grad_is_current. Qed.
Print Assumptions C55_grad_is_current.
Example C55_grad_is_current_ex :
  exists s : hstate Z, h_run [CNew [1; 2]%Z [2]; CSum 0; CBackward 1; CGrad 0] h_init = Ret s /\ hvar_value s 2 = Ret (mkRaw [1; 1]%Z [2]).
Proof. exact c55_grad_is_current_ex. Qed.

(** no later call changes its data (or those of any other tensor), whatever happens to the gradient. *)
Theorem C55_grad_is_a_snapshot :
  forall (T : Type) (NT : Num T) (p : list (cmd T)) (s s' : hstate T), h_run p s = Ret s' ->
    forall x v, hvar_value s x = Ret v -> hvar_value s' x = Ret v.
Proof. exact c55_grad_is_a_snapshot. Qed.
Print Assumptions C55_grad_is_a_snapshot.
Example C55_grad_is_a_snapshot_ex :
  exists s : hstate Z, h_run [CNew [1; 2]%Z [2]; CSum 0; CBackward 1; CGrad 0; CBackward 1; CGrad 0; CZeroGrad 0] h_init = Ret s /\
    hvar_value s 2 = Ret (mkRaw [1; 1]%Z [2]) /\ hvar_value s 3 = Ret (mkRaw [2; 2]%Z [2]) /\ hvar_grad s 0 = None.
Proof. exact c55_grad_is_a_snapshot_ex. Qed.

(** C56 is false: the second contribution makes the gradient a sum that refers to the first. *)
Theorem C56_gradients_have_no_history_refuted :
  ~ (forall (T : Type) (NT : Num T) (p : list (cmd T)) (hs : hstate T) (x i g : nat) (nd : node T),
       forallb (fun c => negb (sets_grad c)) p = true -> h_run p h_init = Ret hs ->
       nth_error (henv hs) x = Some i -> hgrads (hhp hs) i = Some g -> nth_error (hnodes (hhp hs)) g = Some nd -> n_fn nd = None).
Proof. exact c56_gradients_have_no_history_refuted. Qed.
Print Assumptions C56_gradients_have_no_history_refuted.
Example C56_gradients_have_no_history_refuted_ex :
  exists hs : hstate Z, h_run [CNew [1; 2]%Z [2]; CSum 0; CBackward 1; CBackward 1] h_init = Ret hs /\
    hgrads (hhp hs) 0 = Some 5 /\
    map n_fn (hnodes (hhp hs)) = [None; None; Some (KSum, [0]); None; None; Some (KAdd, [3; 4])].
Proof. exact c56_gradients_have_no_history_refuted_ex. Qed.

(** What holds: the gradient refers, through its history, to everything contributed since the cell was last
    empty, so none of it is freed, and each contribution after the first adds one more tensor. *)
Theorem C56_contributions_are_kept :
  forall (T : Type) (NT : Num T) (i : nat) (js : list nat) (h h' : hheap T),
    foldM (fun h j => h_update_grad h i j) js h = Ret h' -> js <> [] ->
    exists g, hgrads h' i = Some g /\ Forall (uses (hnodes h') g) js /\
      (forall o, hgrads h i = Some o -> uses (hnodes h') g o) /\
      length (hnodes h) + length js <= length (hnodes h') + match hgrads h i with None => 1 | Some _ => 0 end.
Proof. exact c56_contributions_are_kept. Qed.
Print Assumptions C56_contributions_are_kept.
Example C56_contributions_are_kept_ex :
  exists h : hheap Z,
    foldM (fun h j => h_update_grad h 0 j) [1; 2; 1] (mkHH (map (fun z => mkNode (raw_scalar z) None) [7; 8; 9]%Z) (fun _ => None)) = Ret h /\
    hgrads h 0 = Some 4 /\ map n_fn (hnodes h) = [None; None; None; Some (KAdd, [1; 2]); Some (KAdd, [3; 1])].
Proof. exact c56_contributions_are_kept_ex. Qed.

(** C57: without [update_grad] calls, tensors never refer to each other in a cycle, however gradients of
    gradients are taken: reference counting frees all memory. *)
Theorem C57_no_reference_cycles :
  forall (T : Type) (NT : Num T) (p : list (cmd T)) (s : hstate T),
    forallb (fun c => negb (sets_grad c)) p = true -> h_run p h_init = Ret s -> no_cycles (hhp s).
Proof. exact c57_no_reference_cycles. Qed.
Print Assumptions C57_no_reference_cycles.
Example C57_no_reference_cycles_ex :
  exists s : hstate Z,
    h_run [CNew [1; 2]%Z [2]; CSum 0; CBackward 1; CBackward 1; CGrad 0; CSum 2; CBackward 3; CGrad 1; CNeg 4; CSum 5; CBackward 6] h_init = Ret s /\
    holds (hhp s) 0 3 /\ points (hhp s) 0 5.
Proof. exact c57_no_reference_cycles_ex. Qed.

(** One [update_grad] by hand creates no cycle either, unless the tensor given refers to the receiver; *)
Theorem C57_update_grad :
  forall (T : Type) (NT : Num T) (p : list (cmd T)) (s s' : hstate T) (x y i j : nat),
    forallb (fun c => negb (sets_grad c)) p = true -> h_run p h_init = Ret s ->
    nth_error (henv s) x = Some i -> nth_error (henv s) y = Some j -> ~ holds (hhp s) j i ->
    h_exec s (CUpdateGrad x y) = Ret s' -> no_cycles (hhp s').
Proof. exact c57_update_grad. Qed.
Print Assumptions C57_update_grad.
Example C57_update_grad_ex :
  exists s : hstate Z, h_run [CScalar 1%Z; CNeg 0; CUpdateGrad 1 0] h_init = Ret s /\ hgrads (hhp s) 1 = Some 0.
Proof. exact c57_update_grad_ex. Qed.

(** then it does: memory that is never freed. *)
Theorem C57_with_update_grad_refuted :
  ~ (forall (T : Type) (NT : Num T) (p : list (cmd T)) (s : hstate T), h_run p h_init = Ret s -> no_cycles (hhp s)).
Proof. exact c57_with_update_grad_refuted. Qed.
Print Assumptions C57_with_update_grad_refuted.
Example C57_with_update_grad_refuted_ex :
  exists s : hstate Z, h_run [CScalar 1%Z; CNeg 0; CUpdateGrad 0 1] h_init = Ret s /\ points (hhp s) 0 1 /\ points (hhp s) 1 0.
Proof. exact c57_with_update_grad_refuted_ex. Qed.

(** C41: every program ends, in a result or in a panic; also with gradients as tensors, when it takes
    gradients of gradients or builds reference cycles by [update_grad]. *)
Theorem C41_programs_terminate :
  forall (T : Type) (NT : Num T) (p : list (cmd T)), run p init_state <> NoFuel /\ h_run p h_init <> NoFuel.
Proof. exact c41_programs_terminate. Qed.
Print Assumptions C41_programs_terminate.
Example C41_programs_terminate_ex :
  exists s : hstate Z, h_run [CScalar 3%Z; CNeg 0; CUpdateGrad 0 1; CUpdateGrad 0 0; CGrad 0; CBackward 2; CGrad 0] h_init = Ret s /\ hvar_grad s 0 <> None.
Proof. exact c41_programs_terminate_ex. Qed.

