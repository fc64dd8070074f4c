(** * ClaimsHandle: proofs of C54-C57 *)
From Coq Require Import ZArith Relation_Operators Operators_Properties.
From Verif Require Import Base ModelIndex ModelTensor ModelOps ModelJvp ModelGraph ModelHandle Spec SpecDual SpecGraph SpecHandle
  Lists FuelFacts HandleFacts HandleProg HandleCycle HandleTerm Instances.

(** ** C54 *)

(** C54: a program that uses gradients as values ends, with gradients as tensors, exactly as it does with
    gradients as values: in the same panic, or with the same data in every variable and the same gradient in
    every unmarked one. *)
Lemma c54_gradients_as_values :
  forall (T : Type) (NT : Num T) (p : list (cmd T)), values_only [] p ->
    match run p init_state, h_run p h_init with
    | Ret s, Ret hs =>
      length (henv hs) = length (env s) /\
      forall x, hvar_value hs x = var_value s x /\ (marked (marks p) x = false -> hvar_grad hs x = var_grad s x)
    | Panic a, Panic b => a = b
    | _, _ => False
    end.
Proof.
  intros T NT p V. pose proof (run_rel p [] _ _ _ _ srel_init V) as R.
  assert (NF : run p (init_state (T:=T)) <> NoFuel) by (apply run_nf; intros i nd k ins E; destruct i; discriminate).
  destruct (run p init_state) as [s|a|]; cbn [rel_out] in R; [|rewrite R; reflexivity|congruence].
  destruct R as (hs & -> & f & st & [R1 R2 R3 R4 R5]). split; [rewrite R2, map_length; reflexivity|].
  intros x. unfold hvar_value, var_value, hvar_grad, var_grad, vindex. rewrite R2, nth_error_map.
  destruct (nth_error (env s) x) as [i|] eqn:Ex; cbn [option_map bind]; [|split; reflexivity].
  assert (Li : i < length (nodes (hp s))) by (rewrite Forall_forall in R3; apply R3; eapply nth_error_In; eauto).
  destruct R1 as [HS HC]. split.
  - destruct (nth_error (nodes (hp s)) i) as [nd|] eqn:En; [|apply nth_error_None in En; lia].
    destruct (s_node _ _ _ _ HS i nd En) as (hn & E1 & E2 & _). unfold hget, vindex. rewrite En, E1. cbn. rewrite E2. reflexivity.
  - intros M. specialize (HC i Li (R5 x i Ex M)). destruct (grads (hp s) i) as [g|].
    + destruct HC as (j & hn & E1 & E2 & E3). rewrite E1, E2. cbn. rewrite E3. reflexivity.
    + rewrite HC. reflexivity.
Qed.
(** Two rounds of gradient descent on |w*3| by hand: [w := w - step * w.grad()] *)
Example c54_gradients_as_values_ex :
  let p := [CNew [5]%Z [1; 1]; CNew [3]%Z [1; 1]; CScalar 1%Z;
            CBmm 0 1; CAbs 3; CSum 4; CBackward 5; CGrad 0; CMul 6 2; CSub 0 7;
            CBmm 8 1; CAbs 9; CSum 10; CBackward 11; CGrad 8; CMul 12 2; CSub 8 13] in
  values_only [] p /\ marked (marks p) 8 = false /\
  exists hs, h_run p h_init = Ret hs /\ hvar_value hs 8 = Ret (mkRaw [2]%Z [1; 1]) /\ hvar_value hs 14 = Ret (mkRaw [-1]%Z [1; 1]) /\
    hvar_grad hs 8 = Some (mkRaw [3]%Z [1; 1]).
Proof. vm_compute. repeat split. eexists. repeat split. Qed.

(** The restriction is needed: [backward] on a gradient works in the code if the gradient is a sum. *)
Lemma c54_all_programs_refuted :
  ~ (forall (T : Type) (NT : Num T) (p : list (cmd T)) (hs : hstate T), h_run p h_init = Ret hs ->
       exists s, run p init_state = Ret s).
Proof.
  intros H.
  specialize (H Z ZNum [CScalar 1%Z; CScalar 2%Z; CUpdateGrad 0 1; CUpdateGrad 0 1; CGrad 0; CBackward 2]).
  destruct (h_run [CScalar 1%Z; CScalar 2%Z; CUpdateGrad 0 1; CUpdateGrad 0 1; CGrad 0; CBackward 2] h_init) as [hs|p|] eqn:E;
    [|discriminate|discriminate].
  destruct (H hs eq_refl) as [s Es]. vm_compute in Es. discriminate.
Qed.
(** It reaches the tensor that [update_grad] was given, twice. *)
Example c54_all_programs_refuted_ex :
  let p := [CScalar 1%Z; CScalar 2%Z; CUpdateGrad 0 1; CUpdateGrad 0 1; CGrad 0; CBackward 2] in
  run p init_state = Panic PUnwrap /\
  exists hs, h_run p h_init = Ret hs /\ hvar_grad hs 1 = Some (mkRaw [2]%Z []).
Proof. vm_compute. split; [reflexivity|]. eexists. split; reflexivity. Qed.

(** ** C55 *)

(** C55: [grad()] gives the gradient at the time of the call, or panics if there is none; *)
Lemma c55_grad_is_current :
  forall (T : Type) (NT : Num T) (s s' : hstate T) (x : nat), h_exec s (CGrad x) = Ret s' ->
    exists g, henv s' = henv s ++ [g] /\ hhp s' = hhp s /\
      (exists i, nth_error (henv s) x = Some i /\ hgrads (hhp s) i = Some g) /\
      forall v, hvar_grad s x = Some v -> hvar_value s' (length (henv s)) = Ret v.
Proof.
  intros T NT s s' x E. cbn [h_exec] in E. apply bind_inv in E as (i & Ei & E). apply bind_inv in E as (g & Eg & E). injection E as <-.
  unfold vindex in Ei. destruct (nth_error (henv s) x) as [i'|] eqn:Ex; [|discriminate]. injection Ei as ->.
  unfold h_grad in Eg. destruct (hgrads (hhp s) i) as [g'|] eqn:Eg'; [|discriminate]. injection Eg as ->.
  exists g. cbn. split; [reflexivity|]. split; [reflexivity|]. split; [eauto|].
  intros v Ev. unfold hvar_grad in Ev. rewrite Ex, Eg' in Ev. unfold hvar_value, vindex. cbn.
  rewrite nth_error_app2, Nat.sub_diag by lia. cbn. destruct (nth_error (hnodes (hhp s)) g) as [nd|]; [|discriminate]. cbn in *. congruence.
Qed.
Example c55_grad_is_current_ex :
  exists s : hstate Z, h_run [CNew [1; 2]%Z [2]; CSum 0; CBackward 1; CGrad 0] h_init = Ret s /\ hvar_value s 2 = Ret (mkRaw [1; 1]%Z [2]).
Proof. eexists. split; [vm_compute; reflexivity|reflexivity]. Qed.

(** no later call changes its data (or those of any other tensor), whatever happens to the gradient. *)
Lemma c55_grad_is_a_snapshot :
  forall (T : Type) (NT : Num T) (p : list (cmd T)) (s s' : hstate T), h_run p s = Ret s' ->
    forall x v, hvar_value s x = Ret v -> hvar_value s' x = Ret v.
Proof.
  intros T NT p s s' E x v Ev. apply run_hext in E as [[e X] [e' E']]. unfold hvar_value, vindex in *.
  destruct (nth_error (henv s) x) as [i|] eqn:Ex; [|discriminate]. cbn [bind] in Ev.
  destruct (nth_error (hnodes (hhp s)) i) as [nd|] eqn:En; [|discriminate]. cbn [bind] in Ev.
  rewrite E', nth_error_app1, Ex by (eapply nth_lt; eauto). cbn [bind]. rewrite X, nth_error_app1, En by (eapply nth_lt; eauto). exact Ev.
Qed.
Example c55_grad_is_a_snapshot_ex :
  exists s : hstate Z, h_run [CNew [1; 2]%Z [2]; CSum 0; CBackward 1; CGrad 0; CBackward 1; CGrad 0; CZeroGrad 0] h_init = Ret s /\
    hvar_value s 2 = Ret (mkRaw [1; 1]%Z [2]) /\ hvar_value s 3 = Ret (mkRaw [2; 2]%Z [2]) /\ hvar_grad s 0 = None.
Proof. eexists. split; [vm_compute; reflexivity|]. split; [reflexivity|]. split; reflexivity. Qed.

(** ** C56 *)

(** C56 is false: the second contribution makes the gradient a sum that refers to the first. *)
Lemma c56_gradients_have_no_history_refuted :
  ~ (forall (T : Type) (NT : Num T) (p : list (cmd T)) (hs : hstate T) (x i g : nat) (nd : node T),
       forallb (fun c => negb (sets_grad c)) p = true -> h_run p h_init = Ret hs ->
       nth_error (henv hs) x = Some i -> hgrads (hhp hs) i = Some g -> nth_error (hnodes (hhp hs)) g = Some nd -> n_fn nd = None).
Proof.
  intros H.
  pose (p := [CNew [1; 2]%Z [2]; CSum 0; CBackward 1; CBackward 1]).
  destruct (h_run p h_init) as [hs|a|] eqn:E; [|discriminate|discriminate].
  specialize (H Z ZNum p hs 0 0 5 (mkNode (mkRaw [2; 2]%Z [2]) (Some (KAdd, [3; 4]))) eq_refl E).
  vm_compute in E. injection E as <-. specialize (H eq_refl eq_refl eq_refl). discriminate.
Qed.
Example c56_gradients_have_no_history_refuted_ex :
  exists hs : hstate Z, h_run [CNew [1; 2]%Z [2]; CSum 0; CBackward 1; CBackward 1] h_init = Ret hs /\
    hgrads (hhp hs) 0 = Some 5 /\
    map n_fn (hnodes (hhp hs)) = [None; None; Some (KSum, [0]); None; None; Some (KAdd, [3; 4])].
Proof. eexists. split; [vm_compute; reflexivity|]. split; reflexivity. Qed.

(** What holds: the gradient refers, through its history, to everything contributed since the cell was last
    empty, so none of it is freed, and each contribution after the first adds one more tensor. *)
Lemma c56_contributions_are_kept :
  forall (T : Type) (NT : Num T) (i : nat) (js : list nat) (h h' : hheap T),
    foldM (fun h j => h_update_grad h i j) js h = Ret h' -> js <> [] ->
    exists g, hgrads h' i = Some g /\ Forall (uses (hnodes h') g) js /\
      (forall o, hgrads h i = Some o -> uses (hnodes h') g o) /\
      length (hnodes h) + length js <= length (hnodes h') + match hgrads h i with None => 1 | Some _ => 0 end.
Proof.
  intros T NT i js h h' E Hn. destruct (updates_keep i js h h' E) as (_ & A & B & D & L).
  destruct (D (or_introl Hn)) as [g Eg]. exists g. repeat split; auto.
Qed.
Example c56_contributions_are_kept_ex :
  exists h : hheap Z,
    foldM (fun h j => h_update_grad h 0 j) [1; 2; 1] (mkHH (map (fun z => mkNode (raw_scalar z) None) [7; 8; 9]%Z) (fun _ => None)) = Ret h /\
    hgrads h 0 = Some 4 /\ map n_fn (hnodes h) = [None; None; None; Some (KAdd, [1; 2]); Some (KAdd, [3; 1])].
Proof. eexists. split; [vm_compute; reflexivity|]. split; reflexivity. Qed.

(** ** C57 *)

(** C57: without [update_grad] calls, tensors never refer to each other in a cycle, however gradients of
    gradients are taken: reference counting frees all memory. *)
Lemma c57_no_reference_cycles :
  forall (T : Type) (NT : Num T) (p : list (cmd T)) (s : hstate T),
    forallb (fun c => negb (sets_grad c)) p = true -> h_run p h_init = Ret s -> no_cycles (hhp s).
Proof. intros T NT p s Hp E. apply (run_acyclic p _ _ Hp good_init E). Qed.
Example c57_no_reference_cycles_ex :
  exists s : hstate Z,
    h_run [CNew [1; 2]%Z [2]; CSum 0; CBackward 1; CBackward 1; CGrad 0; CSum 2; CBackward 3; CGrad 1; CNeg 4; CSum 5; CBackward 6] h_init = Ret s /\
    holds (hhp s) 0 3 /\ points (hhp s) 0 5.
Proof.
  eexists. split; [vm_compute; reflexivity|]. split; [|right; split; [cbn; lia|reflexivity]].
  eapply rt_trans; [apply rt_step; right; split; [cbn; lia|reflexivity]|]. apply rt_step. left. do 3 eexists. split; [reflexivity|]. split; [reflexivity|]. cbn; auto.
Qed.

(** One [update_grad] by hand creates no cycle either, unless the tensor given refers to the receiver; *)
Lemma c57_update_grad :
  forall (T : Type) (NT : Num T) (p : list (cmd T)) (s s' : hstate T) (x y i j : nat),
    forallb (fun c => negb (sets_grad c)) p = true -> h_run p h_init = Ret s ->
    nth_error (henv s) x = Some i -> nth_error (henv s) y = Some j -> ~ holds (hhp s) j i ->
    h_exec s (CUpdateGrad x y) = Ret s' -> no_cycles (hhp s').
Proof.
  intros T NT p s s' x y i j Hp E Ei Ej NH E'. destruct (run_acyclic p _ _ Hp good_init E) as (C & NC & HE).
  cbn [h_exec] in E'. unfold vindex in E'. rewrite Ei, Ej in E'. cbn [bind] in E'. apply bind_inv in E' as (h & E1 & E2). injection E2 as <-. cbn.
  rewrite Forall_forall in HE. apply (update_acyclic (hhp s) h i j); auto; apply HE; eapply nth_error_In; eauto.
Qed.
Example c57_update_grad_ex :
  exists s : hstate Z, h_run [CScalar 1%Z; CNeg 0; CUpdateGrad 1 0] h_init = Ret s /\ hgrads (hhp s) 1 = Some 0.
Proof. eexists. split; [vm_compute; reflexivity|reflexivity]. Qed.

(** then it does: memory that is never freed. *)
Lemma c57_with_update_grad_refuted :
  ~ (forall (T : Type) (NT : Num T) (p : list (cmd T)) (s : hstate T), h_run p h_init = Ret s -> no_cycles (hhp s)).
Proof.
  intros H. destruct (h_run [CScalar 1%Z; CUpdateGrad 0 0] h_init) as [s|a|] eqn:E; [|discriminate|discriminate].
  specialize (H Z ZNum _ s E 0 0). vm_compute in E. injection E as <-. apply H; [right; split; [cbn; lia|reflexivity]|apply rt_refl].
Qed.
Example c57_with_update_grad_refuted_ex :
  exists s : hstate Z, h_run [CScalar 1%Z; CNeg 0; CUpdateGrad 0 1] h_init = Ret s /\ points (hhp s) 0 1 /\ points (hhp s) 1 0.
Proof.
  eexists. split; [vm_compute; reflexivity|]. split; [right; split; [cbn; lia|reflexivity]|].
  left. do 3 eexists. split; [reflexivity|]. split; [reflexivity|]. cbn; auto.
Qed.

(** ** C41 for whole programs *)

(** C41: every program ends, in a result or in a panic; also with gradients as tensors, when it takes
    gradients of gradients or builds reference cycles by [update_grad]. *)
Lemma c41_programs_terminate :
  forall (T : Type) (NT : Num T) (p : list (cmd T)), run p init_state <> NoFuel /\ h_run p h_init <> NoFuel.
Proof.
  intros T NT p. split; [apply run_nf|apply h_run_nf]; intros n nd k ins E; destruct n; discriminate.
Qed.
Example c41_programs_terminate_ex :
  exists s : hstate Z, h_run [CScalar 3%Z; CNeg 0; CUpdateGrad 0 1; CUpdateGrad 0 0; CGrad 0; CBackward 2; CGrad 0] h_init = Ret s /\ hvar_grad s 0 <> None.
Proof. eexists. split; [vm_compute; reflexivity|]. vm_compute; discriminate. Qed.
