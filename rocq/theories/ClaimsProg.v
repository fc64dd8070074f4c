(** * ClaimsProg: proofs of C39-C42, C52 *)
From Coq Require Import ZArith Ring.
From Verif Require Import Base ModelIndex ModelTensor ModelOps ModelJvp ModelGraph Spec SpecDual SpecGraph
  Lists IndexFacts TensorFacts OpsFacts Sums JvpFacts Dual ClaimsMat Adjoint GradRing FuelFacts GraphFacts ProgFacts BackFacts ClaimsGraph Instances.

(** ** What a forward operation adds to the heap *)
Section Adds.
Context {T : Type} {NT : Num T}.
Implicit Types (h : heap T) (ops : list nat).

Definition adds h ops (r : outcome (heap T * nat)) : Prop := forall h' i, r = Ret (h', i) ->
  extends h h' /\ grads_kept h h' /\ length (nodes h) <= i < length (nodes h') /\
  forall j k ins, length (nodes h) <= j -> fn_of (nodes h') j = Some (k, ins) ->
    Forall (fun m => In m ops \/ length (nodes h) <= m) ins.

Lemma adds_bind A h ops (m : outcome A) F : (forall a, m = Ret a -> adds h ops (F a)) -> adds h ops (let* a := m in F a).
Proof. intros H h' i E. apply bind_Ret_inv in E as (a & Ea & E). exact (H a Ea h' i E). Qed.

Lemma adds_panic h ops p : adds h ops (Panic p).
Proof. intros h' i E. discriminate. Qed.

Lemma adds_alloc h ops v fn g : (forall k ins, fn = Some (k, ins) -> Forall (fun m => In m ops) ins) ->
  adds h ops (Ret (alloc h v fn g)).
Proof.
  intros H h' i E. apply Ret_inj in E. unfold alloc in E. injection E as <- <-. cbn [nodes grads].
  split; [eexists; reflexivity|]. split; [|split].
  - intros j Hj. cbn [grads]. apply upd_other. lia.
  - rewrite app_length. cbn. lia.
  - intros j k ins Hj. unfold fn_of. cbn [nodes]. rewrite nth_error_app2 by auto. destruct (j - length (nodes h)) as [|q].
    + cbn. intros E. eapply Forall_impl; [|apply (H k ins E)]. auto.
    + cbn. destruct q; discriminate.
Qed.

Lemma adds_then h h1 ops ops1 r n : adds h ops (Ret (h1, n)) -> adds h1 ops1 r ->
  (forall m, In m ops1 -> In m ops \/ length (nodes h) <= m) -> adds h ops r.
Proof.
  intros H1 H2 HO h' i E. destruct (H1 h1 n eq_refl) as (X1 & K1 & L1 & F1). destruct (H2 h' i E) as (X2 & K2 & L2 & F2).
  pose proof (extends_length _ _ X1) as B1. pose proof (extends_length _ _ X2) as B2.
  split; [eapply extends_trans; eauto|]. split; [|split].
  - intros j Hj. rewrite K2, K1 by lia. reflexivity.
  - lia.
  - intros j k ins Hj Ef. destruct (Nat.lt_ge_cases j (length (nodes h1))) as [Hl|Hl].
    + destruct X2 as [e Xe]. rewrite Xe, fn_app_old in Ef by auto. eauto.
    + eapply Forall_impl; [|apply (F2 j k ins Hl Ef)]. intros m [Hm|Hm]; [auto|right; lia].
Qed.

Lemma adds_neg h i : adds h [i] (op_neg h i).
Proof.
  unfold op_neg. apply adds_bind. intros a _. apply adds_bind. intros t _. apply adds_alloc. intros k ins [= _ <-]. repeat constructor.
Qed.
Lemma adds_add h i j : adds h [i; j] (op_add h i j).
Proof.
  unfold op_add. apply adds_bind. intros a _. apply adds_bind. intros b _. apply adds_bind. intros t _. apply adds_alloc. intros k ins [= _ <-].
  apply Forall_forall. auto.
Qed.

Ltac step := repeat (apply adds_bind; intros ? ?).
Ltac leaf := apply adds_alloc; intros ? ? E; inversion E; subst; apply Forall_forall; cbn; auto.

Lemma adds_forward (s : state T) c : forward c = true ->
  exists r ops, adds (hp s) ops r /\ exec s c = push s r /\
    forall m, In m ops -> exists x, In x (operands c) /\ nth_error (env s) x = Some m.
Proof.
  assert (V1 : forall c x f, operands c = [x] -> exec s c = (let* i := vindex (env s) x in push s (f i)) -> (forall i, adds (hp s) [i] (f i)) ->
    exists r ops, adds (hp s) ops r /\ exec s c = push s r /\ forall m, In m ops -> exists x, In x (operands c) /\ nth_error (env s) x = Some m).
  { intros c0 x f Ho Ee Hf. rewrite Ee, Ho. destruct (vindex (env s) x) as [i|p|] eqn:Ev; cbn [bind].
    - exists (f i), [i]. split; [apply Hf|]. split; [reflexivity|]. intros m [<-|[]]. exists x. split; [left; reflexivity|]. apply env_get in Ev. exact Ev.
    - exists (Panic p), []. split; [apply adds_panic|]. split; [reflexivity|]. intros m [].
    - exists NoFuel, []. split; [intros h' i E; discriminate|]. split; [reflexivity|]. intros m []. }
  assert (V2 : forall c x y f, operands c = [x; y] -> exec s c = (let* i := vindex (env s) x in let* j := vindex (env s) y in push s (f i j)) -> (forall i j, adds (hp s) [i; j] (f i j)) ->
    exists r ops, adds (hp s) ops r /\ exec s c = push s r /\ forall m, In m ops -> exists x, In x (operands c) /\ nth_error (env s) x = Some m).
  { intros c0 x y f Ho Ee Hf. rewrite Ee, Ho. destruct (vindex (env s) x) as [i|p|] eqn:Ev; cbn [bind].
    - destruct (vindex (env s) y) as [j|p|] eqn:Ew; cbn [bind].
      + exists (f i j), [i; j]. split; [apply Hf|]. split; [reflexivity|]. apply env_get in Ev. apply env_get in Ew.
        intros m [<-|[<-|[]]]; [exists x|exists y]; cbn; auto.
      + exists (Panic p), []. split; [apply adds_panic|]. split; [reflexivity|]. intros m [].
      + exists NoFuel, []. split; [intros h' n E; discriminate|]. split; [reflexivity|]. intros m [].
    - exists (Panic p), []. split; [apply adds_panic|]. split; [reflexivity|]. intros m [].
    - exists NoFuel, []. split; [intros h' n E; discriminate|]. split; [reflexivity|]. intros m []. }
  intros Hf. destruct c as [a sh|sh x|x|n|x y|x y|x|x y|x|x|x|x|x y|x y|x y|x|x|x o|x o|x y o|x y o|x y|x|x]; try discriminate Hf; clear Hf.
  - exists (op_new (hp s) a sh), []. split; [unfold op_new; step; leaf|]. split; [reflexivity|]. intros m [].
  - exists (op_filler (hp s) sh x), []. split; [unfold op_filler; step; leaf|]. split; [reflexivity|]. intros m [].
  - exists (op_scalar (hp s) x), []. split; [unfold op_scalar; step; leaf|]. split; [reflexivity|]. intros m [].
  - exists (op_from (hp s) n), []. split; [unfold op_from; step; leaf|]. split; [reflexivity|]. intros m [].
  - apply (V2 _ x y (op_add (hp s))); [reflexivity|reflexivity|]. apply adds_add.
  - apply (V2 _ x y (op_sub (hp s))); [reflexivity|reflexivity|]. intros i j. unfold op_sub. apply adds_bind. intros [h1 nj] E.
    apply (adds_then (hp s) h1 [i; j] [i; nj] _ nj).
    + intros h' i' E'. apply Ret_inj in E'. injection E' as <- <-. destruct (adds_neg (hp s) j h1 nj E) as (A1 & A2 & A3 & A4).
      split; [exact A1|]. split; [exact A2|]. split; [exact A3|]. intros q k ins Hq Ef. eapply Forall_impl; [|apply (A4 q k ins Hq Ef)].
      intros m [[<-|[]]|Hm]; cbn; auto.
    + apply adds_add.
    + intros m [<-|[<-|[]]]; [left; cbn; auto|]. right. destruct (adds_neg (hp s) j h1 nj E) as (_ & _ & A3 & _). lia.
  - apply (V1 _ x (op_neg (hp s))); [reflexivity|reflexivity|]. apply adds_neg.
  - apply (V2 _ x y (op_mul (hp s))); [reflexivity|reflexivity|]. intros i j. unfold op_mul. step. leaf.
  - apply (V1 _ x (op_abs (hp s))); [reflexivity|reflexivity|]. intros i. unfold op_abs. step. leaf.
  - apply (V1 _ x (op_relu (hp s))); [reflexivity|reflexivity|]. intros i. unfold op_relu. step. leaf.
  - apply (V1 _ x (op_tanh (hp s))); [reflexivity|reflexivity|]. intros i. unfold op_tanh. step. leaf.
  - apply (V1 _ x (op_sum (hp s))); [reflexivity|reflexivity|]. intros i. unfold op_sum. step. leaf.
  - apply (V2 _ x y (op_bmm (hp s))); [reflexivity|reflexivity|]. intros i j. unfold op_bmm. step. leaf.
  - apply (V2 _ x y (op_dot (hp s))); [reflexivity|reflexivity|]. intros i j. unfold op_dot. step. leaf.
  - apply (V2 _ x y (op_dot_method (hp s))); [reflexivity|reflexivity|]. intros i j. apply adds_panic.
  - apply (V1 _ x (op_deep_clone (hp s))); [reflexivity|reflexivity|]. intros i. unfold op_deep_clone. step. leaf.
  - apply (V1 _ x (op_grad (hp s))); [reflexivity|reflexivity|]. intros i. unfold op_grad. step. leaf.
  - apply (V1 _ x (fun i => op_view_to_tensor (hp s) i o)); [reflexivity|reflexivity|]. intros i. unfold op_view_to_tensor. step. leaf.
  - apply (V1 _ x (fun i => op_view_sum (hp s) i o)); [reflexivity|reflexivity|]. intros i. unfold op_view_sum. step. leaf.
  - apply (V2 _ x y (fun i j => op_mul_view (hp s) i j o)); [reflexivity|reflexivity|]. intros i j. unfold op_mul_view. step. leaf.
  - apply (V2 _ x y (fun i j => op_bmm_view (hp s) i j o)); [reflexivity|reflexivity|]. intros i j. unfold op_bmm_view.
    apply adds_bind. intros a _. apply adds_bind. intros b _. apply adds_bind. intros v _. apply adds_bind. intros t _. apply adds_bind. intros r _.
    apply (adds_then (hp s) (fst (alloc (hp s) r None None)) [i; j] [i; length (nodes (hp s))] _ (length (nodes (hp s)))).
    + change (Ret (fst (alloc (hp s) r None None), length (nodes (hp s)))) with (Ret (alloc (hp s) r None None)). leaf.
    + cbn [alloc fst]. leaf.
    + intros m [<-|[<-|[]]]; [left; cbn; auto|right; lia].
Qed.

(** All calls: nodes only grow *)
Lemma backward_nodes (h h' : heap T) i : backward h i = Ret h' -> nodes h' = nodes h.
Proof. intros E. apply backward_unfold in E as (nd & k & ins & _ & _ & _ & E & _). exact E. Qed.

Lemma exec_extends (s s' : state T) c : exec s c = Ret s' -> extends (hp s) (hp s').
Proof.
  intros E. destruct (forward c) eqn:Hf.
  - destruct (adds_forward s c Hf) as (r & ops & A & Er & _). rewrite Er in E. unfold push in E. apply bind_Ret_inv in E as ([h' i] & E1 & E).
    apply Ret_inj in E. subst s'. exact (proj1 (A h' i E1)).
  - assert (X : nodes (hp s') = nodes (hp s) -> extends (hp s) (hp s')) by (intros En; exists []; rewrite app_nil_r; exact En).
    apply X. destruct c; try discriminate Hf; cbn [exec] in E.
    + apply bind_Ret_inv in E as (i & _ & E). apply bind_Ret_inv in E as (j & _ & E). apply bind_Ret_inv in E as (h' & E1 & E). apply Ret_inj in E. subst s'.
      unfold op_update_grad in E1. apply bind_Ret_inv in E1 as (g & _ & E1). apply bind_Ret_inv in E1 as (gr & _ & E1). apply Ret_inj in E1. subst h'. reflexivity.
    + apply bind_Ret_inv in E as (i & _ & E). apply Ret_inj in E. subst s'. reflexivity.
    + apply bind_Ret_inv in E as (i & _ & E). apply bind_Ret_inv in E as (h' & E1 & E). apply Ret_inj in E. subst s'. cbn [hp]. eapply backward_nodes; eauto.
Qed.

Lemma run_extends (p : list (cmd T)) : forall s s', run p s = Ret s' -> extends (hp s) (hp s').
Proof.
  unfold run. induction p as [|c p IH]; intros s s' E; cbn [foldM] in E; [injection E as <-; apply extends_refl|].
  apply bind_Ret_inv in E as (s1 & E1 & E). eapply extends_trans; [eapply exec_extends; eauto|eauto].
Qed.

End Adds.

(** ** C39 *)

(** C39, data: no call whatsoever changes the data, shape or history of an existing tensor. *)
Lemma c39_tensors_never_change :
  forall (T : Type) (NT : Num T) (p : list (cmd T)) (s s' : state T),
    run p s = Ret s' ->
    forall i nd, nth_error (nodes (hp s)) i = Some nd -> nth_error (nodes (hp s')) i = Some nd.
Proof.
  intros T NT p s s' E i nd En. destruct (run_extends p s s' E) as [e ->]. rewrite nth_error_app1; [exact En|]. apply nth_error_Some. congruence.
Qed.
Example c39_tensors_never_change_ex :
  exists s : state Z, run [CNew [1; 2]%Z [2]; CRelu 0; CSum 1; CBackward 2; CNeg 0; CZeroGrad 0] init_state = Ret s /\
    nth_error (nodes (hp s)) 0 = Some (mkNode (mkRaw [1; 2]%Z [2]) None).
Proof. eexists. split; [vm_compute; reflexivity|reflexivity]. Qed.

(** C39, forward calls change no existing gradient; [zero_grad] and [update_grad] change only the one of the
    tensor they are called on. *)
Lemma c39_forward_keeps_gradients :
  forall (T : Type) (NT : Num T) (c : cmd T) (s s' : state T),
    exec s c = Ret s' -> forward c = true -> forall i, i < length (nodes (hp s)) -> grads (hp s') i = grads (hp s) i.
Proof.
  intros T NT c s s' E Hf i Hi. destruct (adds_forward s c Hf) as (r & ops & A & Er & _). rewrite Er in E. unfold push in E.
  apply bind_Ret_inv in E as ([h' j] & E1 & E). apply Ret_inj in E. subst s'. exact (proj1 (proj2 (A h' j E1)) i Hi).
Qed.
Example c39_forward_keeps_gradients_ex :
  exists s : state Z, run [CNew [1; 2]%Z [2]; CSum 0; CBackward 1; CTanh 0; CSum 2; CAdd 0 0] init_state = Ret s /\
    var_grad s 0 = Some (mkRaw [1; 1]%Z [2]).
Proof. eexists. split; [vm_compute; reflexivity|reflexivity]. Qed.

Lemma c39_update_and_zero_grad :
  forall (T : Type) (NT : Num T) (s s' : state T) (x y i : nat),
    nth_error (env s) x = Some i -> exec s (CUpdateGrad x y) = Ret s' \/ exec s (CZeroGrad x) = Ret s' ->
    forall j, j <> i -> grads (hp s') j = grads (hp s) j.
Proof.
  intros T NT s s' x y i Ei [E|E] j Hj; cbn [exec] in E; rewrite (vindex_some _ _ _ _ Ei) in E; cbn [bind] in E.
  - apply bind_Ret_inv in E as (k & _ & E). apply bind_Ret_inv in E as (h' & E1 & E). apply Ret_inj in E. subst s'.
    unfold op_update_grad in E1. apply bind_Ret_inv in E1 as (g & _ & E1). apply bind_Ret_inv in E1 as (gr & E2 & E1). apply Ret_inj in E1. subst h'.
    cbn [hp grads]. destruct (update_grad_inv _ _ _ _ E2) as [Q _]. auto.
  - apply Ret_inj in E. subst s'. cbn [hp grads zero_grad]. apply upd_other. exact Hj.
Qed.
Example c39_update_and_zero_grad_ex :
  exists s : state Z, run [CNew [1; 2]%Z [2]; CNew [3; 4]%Z [2]; CUpdateGrad 0 1; CUpdateGrad 1 0; CZeroGrad 1] init_state = Ret s /\
    var_grad s 0 = Some (mkRaw [3; 4]%Z [2]) /\ var_grad s 1 = None.
Proof. eexists. split; [vm_compute; reflexivity|]. split; reflexivity. Qed.

(** C39, [backward] changes only gradients of tensors its root was computed from, and not the root's. *)
Lemma c39_backward_touches_ancestors :
  forall (T : Type) (NT : Num T) (s : state T) (r : nat) (h' : heap T),
    reach any s -> backward (hp s) r = Ret h' ->
    nodes h' = nodes (hp s) /\ grads h' r = grads (hp s) r /\
    forall j, ~ uses (nodes (hp s)) r j -> grads h' j = grads (hp s) j.
Proof.
  intros T NT s r h' R E. destruct (reach_inv _ _ R) as [Hi _]. destruct (backward_effect _ _ _ Hi E) as (_ & Q1 & Q2 & Q3 & _). auto.
Qed.
Example c39_backward_touches_ancestors_ex :
  exists s : state Z, run [CNew [1; 2]%Z [2]; CNew [3; 4]%Z [2]; CTanh 0; CSum 2; CBackward 3] init_state = Ret s /\
    var_grad s 1 = None /\ var_grad s 0 <> None.
Proof. eexists. split; [vm_compute; reflexivity|]. split; [reflexivity|]. vm_compute. discriminate. Qed.

(** ** C40 *)

(** C40 is false with views: [&x * &view], where [x] has rank 0, copies the array the view looks into. *)
Lemma c40_well_formed_refuted :
  ~ (forall (T : Type) (NT : Num T) (p : list (cmd T)) (s : state T), run p init_state = Ret s ->
       forall i nd, nth_error (nodes (hp s)) i = Some nd -> length (array (n_val nd)) = product (shape (n_val nd))).
Proof.
  intros H. specialize (H Z ZNum [CScalar 2%Z; CNew [1; 2]%Z [2]; CMulView 0 1 [mkSR 0 1]] _ eq_refl 2 _ eq_refl). discriminate H.
Qed.
Example c40_well_formed_refuted_ex :
  exists s : state Z, run [CScalar 2%Z; CNew [1; 2]%Z [2]; CMulView 0 1 [mkSR 0 1]] init_state = Ret s /\
    var_value s 2 = Ret (mkRaw [2; 4]%Z [1]).
Proof. eexists. split; [vm_compute; reflexivity|reflexivity]. Qed.

(** In every other program every tensor is well formed and was computed from earlier ones. *)
Lemma c40_well_formed :
  forall (T : Type) (NT : Num T) (s : state T), reach any s ->
    (forall i nd, nth_error (nodes (hp s)) i = Some nd ->
       length (array (n_val nd)) = product (shape (n_val nd)) /\
       forall k ins, n_fn nd = Some (k, ins) ->
         Forall (fun j => j < i) ins /\ fwd k (map (vof (nodes (hp s))) ins) = Ret (n_val nd)) /\
    (forall i g, grads (hp s) i = Some g -> length (array g) = product (shape g)) /\
    Forall (fun i => i < length (nodes (hp s))) (env s).
Proof.
  intros T NT s R. destruct (reach_inv _ _ R) as [[HR HW] He]. split; [|split; [|exact He]].
  - intros i nd En. destruct (HR i nd En) as [W F]. rewrite product_size. auto.
  - intros i g E. rewrite product_size. exact (proj1 (HW i g E)).
Qed.
Example c40_well_formed_ex :
  exists s : state Z, run [CNew [1; 2; 3; 4]%Z [2; 2]; CBmm 0 0; CAdd 0 1] init_state = Ret s /\
    nth_error (nodes (hp s)) 2 = Some (mkNode (mkRaw [8; 12; 18; 26]%Z [2; 2]) (Some (KAdd, [0; 1]))).
Proof. eexists. split; [vm_compute; reflexivity|reflexivity]. Qed.

Lemma run_reach (T : Type) (NT : Num T) (ok : cmd T -> Prop) (p : list (cmd T)) : forall s s' : state T, reach ok s -> Forall ok p ->
  Forall (fun c => forall x y o, c <> CMulView x y o) p -> run p s = Ret s' -> reach ok s'.
Proof.
  unfold run. induction p as [|c p IH]; intros s s' R H1 H2 E; cbn [foldM] in E; [congruence|].
  inversion H1; inversion H2; subst. apply bind_Ret_inv in E as (s1 & E1 & E). apply (IH s1 s'); auto.
  apply (reach_step ok s c); auto. intros x y o ->. match goal with H : forall x y o, _ <> _ |- _ => destruct (H x y o eq_refl) end.
Qed.

(** ... in particular in every program that does not multiply by views. *)
Lemma c40_programs_without_view_products :
  forall (T : Type) (NT : Num T) (p : list (cmd T)) (s : state T),
    Forall (fun c => forall x y o, c <> CMulView x y o) p -> run p init_state = Ret s ->
    forall i nd, nth_error (nodes (hp s)) i = Some nd ->
      length (array (n_val nd)) = product (shape (n_val nd)) /\
      forall k ins, n_fn nd = Some (k, ins) -> Forall (fun j => j < i) ins.
Proof.
  intros T NT p s H E i nd En.
  assert (R : reach any s).
  { apply (run_reach T NT any p init_state); auto; [constructor|]. apply Forall_forall. intros; exact I. }
  destruct (c40_well_formed T NT s R) as (Q & _). destruct (Q i nd En) as [Q1 Q2]. split; [exact Q1|]. intros k ins Ef. apply (Q2 k ins Ef).
Qed.
Example c40_programs_without_view_products_ex :
  exists s : state Z, run [CNew [1; 2; 3; 4]%Z [2; 2]; CViewSum 0 [mkSR 0 2; mkSR 1 2]; CSub 0 1] init_state = Ret s /\
    var_value s 2 = Ret (mkRaw [-5; -4; -3; -2]%Z [2; 2]).
Proof. eexists. split; [vm_compute; reflexivity|reflexivity]. Qed.

(** ** C41 *)

(** C41: on every reachable graph [backward] terminates; it fails at once when the root does not have one
    element or has no history, and only then: in all other cases the outcome is the traversal's. *)
Lemma c41_backward_terminates :
  forall (T : Type) (NT : Num T) (s : state T) (r : nat), reach any s -> backward (hp s) r <> NoFuel.
Proof. intros T NT s r R. apply nf_backward, recorded_backrefs. apply (reach_inv _ _ R). Qed.
Example c41_backward_terminates_ex :
  exists s : state Z, run [CNew [1; 2]%Z [2]; CTanh 0; CAdd 1 1; CAdd 2 2; CSum 3; CBackward 4] init_state = Ret s.
Proof. vm_compute. eexists. reflexivity. Qed.

Lemma c41_fails_at_once :
  forall (T : Type) (NT : Num T) (h : heap T) (r : nat) (nd : node T), nth_error (nodes h) r = Some nd ->
    (length (array (n_val nd)) <> 1 -> backward h r = Panic PAssert) /\
    (length (array (n_val nd)) = 1 -> n_fn nd = None -> backward h r = Panic PUnwrap) /\
    (length (array (n_val nd)) = 1 -> forall k ins, n_fn nd = Some (k, ins) ->
       backward h r = let* gr := compute_jvp (S (length (nodes h))) (nodes h) k ins [raw_scalar n_one] (grads h) in
                      Ret (mkHeap (nodes h) gr)).
Proof.
  intros T NT h r nd En. unfold backward, hget. rewrite (vindex_some _ _ _ _ En). cbn [bind]. split; [|split].
  - intros H. apply Nat.eqb_neq in H. rewrite H. reflexivity.
  - intros H Hf. rewrite H, Hf. reflexivity.
  - intros H k ins Hf. rewrite H, Hf. reflexivity.
Qed.
Example c41_fails_at_once_ex :
  exists s : state Z, run [CNew [1; 2]%Z [2]; CTanh 0; CScalar 3%Z] init_state = Ret s /\
    backward (hp s) 1 = Panic PAssert /\ backward (hp s) 2 = Panic PUnwrap.
Proof. eexists. split; [vm_compute; reflexivity|]. split; reflexivity. Qed.

(** It succeeds, whatever gradients were accumulated before, for every one-element root of a graph of
    non-empty tensors and matrices that does not use [dot] below the root and does not end in [abs] or
    [bmm] ... *)
Lemma c41_backward_succeeds :
  forall (T : Type) (NT : Num T) (s : state T) (r : nat), reach tidy s ->
    nonempty (nodes (hp s)) -> matrices_only (nodes (hp s)) ->
    size (shape (vof (nodes (hp s)) r)) = 1 -> accepts (nodes (hp s)) r -> exists h', backward (hp s) r = Ret h'.
Proof.
  intros T NT s r R HN HM H1 HA. destruct (reach_inv _ _ R) as [Hi _].
  assert (HA' := HA). destruct HA' as (k & ins & Ef & _).
  destruct (root_succeeds (nodes (hp s)) (graph_ok_of _ (proj1 Hi) HN HM) r k ins (grads (hp s)) H1 HA Ef (gr_ok_of _ Hi (shapes_reach s R) HN)) as (gr' & E & _).
  exists (mkHeap (nodes (hp s)) gr'). apply (backward_compute _ _ k ins); auto.
  unfold vof in *. destruct (nth_error (nodes (hp s)) r) as [nd|] eqn:En; [|reflexivity]. destruct (proj1 Hi r nd En) as [W _]. unfold wf in W. congruence.
Qed.
Example c41_backward_succeeds_ex :
  exists s : state Z, run [CNew [1; 2; 3; 4]%Z [2; 2]; CBmm 0 0; CRelu 1; CAbs 2; CSum 3; CNeg 4; CBackward 5] init_state = Ret s.
Proof. vm_compute. eexists. reflexivity. Qed.

(** ... hence for all graphs of [+], [-], [neg], [relu], [tanh]. *)
Lemma c41_elementwise_succeeds :
  forall (T : Type) (NT : Num T) (s : state T) (r : nat), reach tidy s ->
    nonempty (nodes (hp s)) -> matrices_only (nodes (hp s)) ->
    size (shape (vof (nodes (hp s)) r)) = 1 -> fn_of (nodes (hp s)) r <> None -> elementwise (nodes (hp s)) r ->
    exists h', backward (hp s) r = Ret h'.
Proof.
  intros T NT s r R HN HM H1 Hf HE. apply c41_backward_succeeds; auto.
  destruct (fn_of (nodes (hp s)) r) as [[k ins]|] eqn:Ef; [|congruence]. exists k, ins. split; [exact Ef|].
  assert (ND : no_dot (nodes (hp s)) r).
  { intros m ins' U E. destruct (HE m KDot ins' U E) as [Q|[Q|[Q|Q]]]; discriminate. }
  destruct (HE r k ins (uses_refl _ _) Ef) as [-> | [-> | [-> | ->]]]; exact ND.
Qed.
Example c41_elementwise_succeeds_ex :
  exists s : state Z, run [CNew [1]%Z [1]; CNew [4]%Z [1; 1]; CSub 0 1; CTanh 2; CRelu 3; CNeg 4; CAdd 5 0; CBackward 6] init_state = Ret s.
Proof. vm_compute. eexists. reflexivity. Qed.

(** ** C42 *)

(** C42 is false *)
Lemma c42_one_element_roots_refuted :
  ~ (forall (T : Type) (NT : Num T) (s : state T) (r : nat) (nd : node T), reach tidy s -> nonempty (nodes (hp s)) ->
       nth_error (nodes (hp s)) r = Some nd -> length (array (n_val nd)) = 1 ->
       (exists ins, n_fn nd = Some (KBmm, ins) \/ n_fn nd = Some (KAbs, ins) \/ n_fn nd = Some (KDot, ins)) ->
       exists h', backward (hp s) r = Ret h').
Proof.
  intros H.
  assert (E : exists s : state Z, run [CNew [2]%Z [1]; CAbs 0] init_state = Ret s /\ nonempty (nodes (hp s)) /\
    nth_error (nodes (hp s)) 1 = Some (mkNode (mkRaw [2]%Z [1]) (Some (KAbs, [0]))) /\ backward (hp s) 1 = Panic PAssert).
  { eexists. split; [reflexivity|]. split; [|split; reflexivity]. intros n Hn. destruct n as [|[|n]]; [repeat constructor|repeat constructor|cbn in Hn; lia]. }
  destruct E as (s & E & HN & E1 & EB).
  assert (R : reach tidy s).
  { apply (run_reach Z ZNum tidy [CNew [2]%Z [1]; CAbs 0] init_state); auto; [constructor| |]; repeat constructor; intros; discriminate. }
  destruct (H Z ZNum s 1 _ R HN E1 eq_refl) as [h' Eh]; [|congruence]. exists [0]. cbn. auto.
Qed.
Example c42_one_element_roots_refuted_ex :
  run [CNew [2]%Z [1]; CAbs 0; CBackward 1] init_state = Panic PAssert /\
  run [CNew [2]%Z [1; 1]; CBmm 0 0; CBackward 1] init_state = Panic PIndex /\
  run [CNew [2; 3]%Z [2]; CNeg 0; CDot 1 0; CBackward 2] init_state = Panic PAssert /\
  run [CNew [2; 3]%Z [2]; CDot 0 0; CNeg 1; CBackward 2] init_state = Panic PAssert.
Proof. split; [reflexivity|]. split; [reflexivity|]. split; reflexivity. Qed.

(** [abs]: always fails, *)
Lemma c42_abs_root_fails :
  forall (T : Type) (NT : Num T) (s : state T) (r : nat) (ins : list nat), reach any s ->
    fn_of (nodes (hp s)) r = Some (KAbs, ins) -> backward (hp s) r = Panic PAssert.
Proof.
  intros T NT s r ins R Ef. destruct (reach_inv _ _ R) as [[HR _] _]. unfold fn_of in Ef.
  destruct (nth_error (nodes (hp s)) r) as [nd|] eqn:En; [|discriminate]. destruct (HR r nd En) as [W F]. destruct (F _ _ Ef) as [Hl EF].
  unfold backward, hget. rewrite (vindex_some _ _ _ _ En). cbn [bind]. destruct (length (array (n_val nd)) =? 1); [|reflexivity]. cbn [assert bind].
  rewrite Ef. cbn [unwrap_opt bind]. cbn [compute_jvp].
  destruct ins as [|i [|j ins]]; cbn [fwd map] in EF; try discriminate.
  inversion Hl; subst. assert (Hi : i < length (nodes (hp s))) by (apply nth_error_Some in En || (assert (r < length (nodes (hp s))) by (apply nth_error_Some; congruence); lia)).
  destruct (nth_error (nodes (hp s)) i) as [x|] eqn:Ex; [|apply nth_error_None in Ex; lia].
  cbn [mapM]. rewrite (vindex_some _ _ _ _ Ex). reflexivity.
Qed.
Example c42_abs_root_fails_ex :
  run [CNew [2]%Z [1; 1]; CTanh 0; CAbs 1; CBackward 2] init_state = Panic PAssert.
Proof. reflexivity. Qed.

(** [bmm]: always fails, *)
Lemma c42_bmm_root_fails :
  forall (T : Type) (NT : Num T) (s : state T) (r : nat) (ins : list nat), reach any s ->
    fn_of (nodes (hp s)) r = Some (KBmm, ins) -> exists p, backward (hp s) r = Panic p.
Proof.
  intros T NT s r ins R Ef. destruct (reach_inv _ _ R) as [[HR _] _]. unfold fn_of in Ef.
  destruct (nth_error (nodes (hp s)) r) as [nd|] eqn:En; [|discriminate]. destruct (HR r nd En) as [W F]. destruct (F _ _ Ef) as [Hl EF].
  assert (Hr : r < length (nodes (hp s))) by (apply nth_error_Some; congruence).
  unfold backward, hget. rewrite (vindex_some _ _ _ _ En). cbn [bind]. destruct (length (array (n_val nd)) =? 1); [|eexists; reflexivity]. cbn [assert bind].
  rewrite Ef. cbn [unwrap_opt bind]. cbn [compute_jvp].
  destruct ins as [|i [|j [|l ins]]]; cbn [fwd map] in EF; try discriminate.
  inversion Hl as [|? ? Hi Hl']. inversion Hl' as [|? ? Hj _]. subst.
  destruct (nth_error (nodes (hp s)) i) as [x|] eqn:Ex; [|apply nth_error_None in Ex; lia].
  destruct (nth_error (nodes (hp s)) j) as [y|] eqn:Ey; [|apply nth_error_None in Ey; lia].
  cbn [mapM]. rewrite (vindex_some _ _ _ _ Ex), (vindex_some _ _ _ _ Ey). cbn [bind map].
  cbn [jvp]. unfold bmm_jvp. cbn [two_one bind].
  destruct (vindex (shape (n_val x)) 1) as [a1|p|] eqn:E1; cbn [bind]; [|eexists; reflexivity|destruct (nf_vindex _ _ _ E1)].
  destruct (vindex (shape (n_val y)) 0) as [b0|p|] eqn:E2; cbn [bind]; [|eexists; reflexivity|destruct (nf_vindex _ _ _ E2)].
  destruct (a1 =? b0); [|eexists; reflexivity]. cbn [assert bind].
  destruct (vindex (shape (n_val x)) 0) as [a0|p|] eqn:E3; cbn [bind]; [|eexists; reflexivity|destruct (nf_vindex _ _ _ E3)].
  destruct (vindex (shape (n_val y)) 1) as [b1|p|] eqn:E4; cbn [bind]; [|eexists; reflexivity|destruct (nf_vindex _ _ _ E4)].
  eexists. reflexivity.
Qed.
Example c42_bmm_root_fails_ex :
  run [CNew [2; 3]%Z [1; 2]; CNew [2; 3]%Z [2; 1]; CBmm 0 1; CBackward 2] init_state = Panic PIndex.
Proof. reflexivity. Qed.

(** [dot]: works for leaves and for computed rows [1, n]. *)
Lemma c42_dot_root_succeeds :
  forall (T : Type) (NT : Num T) (s : state T) (r i j : nat), reach tidy s ->
    nonempty (nodes (hp s)) -> matrices_only (nodes (hp s)) ->
    fn_of (nodes (hp s)) r = Some (KDot, [i; j]) ->
    Forall (fun i => fn_of (nodes (hp s)) i = None \/
                     (no_dot (nodes (hp s)) i /\ exists N, shape (vof (nodes (hp s)) i) = [1; N])) [i; j] ->
    exists h', backward (hp s) r = Ret h'.
Proof.
  intros T NT s r i j R HN HM Ef HF. apply c41_backward_succeeds; auto; [|exists KDot, [i; j]; auto].
  destruct (reach_inv _ _ R) as [[HR _] _]. unfold fn_of in Ef. unfold vof.
  destruct (nth_error (nodes (hp s)) r) as [nd|] eqn:En; [|discriminate]. destruct (HR r nd En) as [W F]. destruct (F _ _ Ef) as [Hl EF].
  cbn [fwd map] in EF. unfold dot_raw in EF. apply bind_Ret_inv in EF as (u & _ & EF). apply bind_Ret_inv in EF as (v & _ & EF).
  apply (f_equal (fun o => match o with Ret t => shape t | _ => [] end)) in EF. unfold raw_new in EF. cbn in EF. rewrite <- EF. reflexivity.
Qed.
Example c42_dot_root_succeeds_ex :
  exists s : state Z, run [CNew [2; 3]%Z [1; 2]; CNew [2; 3]%Z [1; 2]; CNeg 0; CDot 1 2; CBackward 3] init_state = Ret s /\
    var_grad s 0 = Some (mkRaw [-2; -3]%Z [1; 2]) /\ var_grad s 1 = Some (mkRaw [-2; -3]%Z [1; 2]).
Proof. eexists. split; [vm_compute; reflexivity|]. split; reflexivity. Qed.

(** ** C52 *)

(** C52: the clone has the same data and shape, no gradient and no history, so in every later heap the
    traversal ends at it. *)
Lemma c52_deep_clone :
  forall (T : Type) (NT : Num T) (s s1 : state T) (x i : nat) (nd : node T),
    nth_error (env s) x = Some i -> nth_error (nodes (hp s)) i = Some nd -> wf (n_val nd) ->
    exec s (CDeepClone x) = Ret s1 ->
    exists c, env s1 = env s ++ [c] /\ c = length (nodes (hp s)) /\
      nth_error (nodes (hp s1)) c = Some (mkNode (mkRaw (array (n_val nd)) (shape (n_val nd))) None) /\
      grads (hp s1) c = None /\
      forall (p : list (cmd T)) (s2 : state T) (m : nat), run p s1 = Ret s2 -> uses (nodes (hp s2)) c m -> m = c.
Proof.
  intros T NT s s1 x i nd Ei En W E. cbn [exec] in E. rewrite (vindex_some _ _ _ _ Ei) in E. cbn [bind] in E.
  unfold op_deep_clone, hget in E. rewrite (vindex_some _ _ _ _ En) in E. cbn [bind] in E. unfold push in E.
  apply bind_Ret_inv in E as ([h' c] & E1 & E). apply Ret_inj in E. subst s1. apply bind_Ret_inv in E1 as (t & Et & E1).
  apply Ret_inj in E1. unfold alloc in E1. injection E1 as <- <-. exists (length (nodes (hp s))). cbn [env hp nodes grads].
  assert (Ht : t = mkRaw (array (n_val nd)) (shape (n_val nd))).
  { cbn in Et. injection Et as <-. destruct (n_val nd). reflexivity. }
  split; [reflexivity|]. split; [reflexivity|]. split; [|split].
  - rewrite nth_error_app2, Nat.sub_diag by auto. cbn. rewrite Ht. reflexivity.
  - apply upd_same.
  - intros p s2 m Er U. destruct (run_extends p _ _ Er) as [e Xe]. cbn [hp nodes] in Xe.
    inversion U as [|? k ins q ? Ef _ _]; [reflexivity|]. exfalso. rewrite Xe in Ef. rewrite fn_app_old in Ef by (rewrite app_length; cbn; lia).
    unfold fn_of in Ef. rewrite nth_error_app2, Nat.sub_diag in Ef by auto. discriminate.
Qed.
Example c52_deep_clone_ex :
  exists s : state Z, run [CNew [2; 3]%Z [2]; CNeg 0; CDeepClone 1; CTanh 2; CSum 3; CBackward 4] init_state = Ret s /\
    var_grad s 0 = None /\ var_grad s 1 = None /\ var_grad s 2 <> None.
Proof. eexists. split; [vm_compute; reflexivity|]. split; [reflexivity|]. split; [reflexivity|]. vm_compute. discriminate. Qed.

(** C52, isolation: whatever the program does with the clone and with tensors made later, including
    [backward] calls, it leaves the original and all other earlier tensors with their data, history and gradients. *)
Section Isolate.
Context {T : Type} {NT : Num T}.
Variables (N k0 : nat).

Definition isolated (s : state T) : Prop :=
  N <= length (nodes (hp s)) /\ k0 <= length (env s) /\
  (forall x i, k0 <= x -> nth_error (env s) x = Some i -> N <= i) /\
  (forall j k ins, N <= j -> fn_of (nodes (hp s)) j = Some (k, ins) -> Forall (fun m => N <= m) ins).

Lemma isolated_uses s n m : isolated s -> uses (nodes (hp s)) n m -> N <= n -> N <= m.
Proof.
  intros (_ & _ & _ & H) U. induction U as [n|n k ins i m Ef Hin U IH]; intros Hn; [exact Hn|]. apply IH.
  pose proof (H n k ins Hn Ef) as F. rewrite Forall_forall in F. auto.
Qed.

Lemma isolated_step s s' c : inv s -> isolated s -> Forall (fun x => k0 <= x) (operands c) -> exec s c = Ret s' ->
  isolated s' /\ forall i, i < N -> grads (hp s') i = grads (hp s) i.
Proof.
  intros Hi (H1 & H2 & H3 & H4) Ho E. destruct (forward c) eqn:Hf.
  - destruct (adds_forward s c Hf) as (r & ops & A & Er & Hops). rewrite Er in E. unfold push in E.
    apply bind_Ret_inv in E as ([h' i] & E1 & E). apply Ret_inj in E. subst s'. destruct (A h' i E1) as (X & K & L & F). cbn [hp env].
    pose proof (extends_length _ _ X) as B.
    split; [split; [|split; [|split]]|].
    + cbn [hp]. lia.
    + cbn [env]. rewrite app_length. lia.
    + cbn [env]. intros x j Hx Ej. destruct (Nat.lt_ge_cases x (length (env s))) as [Hl|Hl].
      * rewrite nth_error_app1 in Ej by auto. eauto.
      * rewrite nth_error_app2 in Ej by auto. destruct (x - length (env s)) as [|q]; cbn in Ej; [injection Ej as <-; lia|destruct q; discriminate].
    + cbn [hp]. intros j k ins Hj Ef. destruct (Nat.lt_ge_cases j (length (nodes (hp s)))) as [Hl|Hl].
      * destruct X as [e Xe]. rewrite Xe, fn_app_old in Ef by auto. eauto.
      * eapply Forall_impl; [|apply (F j k ins Hl Ef)]. intros m [Hm|Hm]; [|lia]. destruct (Hops m Hm) as (x & Hx & Ex).
        rewrite Forall_forall in Ho. eauto.
    + intros j Hj. apply K. lia.
  - assert (Z : forall h', nodes h' = nodes (hp s) -> (forall i, i < N -> grads h' i = grads (hp s) i) ->
      isolated (mkState h' (env s)) /\ forall i, i < N -> grads (hp (mkState h' (env s))) i = grads (hp s) i).
    { intros h' En Eg. split; [|exact Eg]. unfold isolated. cbn [hp env]. rewrite En. auto. }
    destruct c; try discriminate Hf; cbn [exec] in E.
    + apply bind_Ret_inv in E as (i & Ei & E). apply bind_Ret_inv in E as (j & _ & E). apply bind_Ret_inv in E as (h' & E1 & E). apply Ret_inj in E. subst s'.
      unfold op_update_grad in E1. apply bind_Ret_inv in E1 as (g & _ & E1). apply bind_Ret_inv in E1 as (gr & E2 & E1). apply Ret_inj in E1. subst h'.
      apply Z; [reflexivity|]. intros q Hq. cbn [grads]. destruct (update_grad_inv _ _ _ _ E2) as [Q _]. apply Q. apply env_get in Ei.
      inversion Ho; subst. assert (N <= i) by eauto. lia.
    + apply bind_Ret_inv in E as (i & Ei & E). apply Ret_inj in E. subst s'. apply Z; [reflexivity|]. intros q Hq. cbn [grads zero_grad].
      apply upd_other. apply env_get in Ei. inversion Ho; subst. assert (N <= i) by eauto. lia.
    + apply bind_Ret_inv in E as (i & Ei & E). apply bind_Ret_inv in E as (h' & E1 & E). apply Ret_inj in E. subst s'.
      destruct (backward_effect (hp s) h' i (proj1 Hi) E1) as (_ & Q1 & Q2 & _). apply Z; [exact Q1|]. intros q Hq. apply Q2. intros U.
      apply env_get in Ei. inversion Ho; subst. assert (N <= i) by eauto.
      pose proof (isolated_uses s i q (conj H1 (conj H2 (conj H3 H4))) U). lia.
Qed.

Lemma isolated_run (p : list (cmd T)) : forall s s', inv s -> isolated s ->
  Forall (fun c => Forall (fun x => k0 <= x) (operands c) /\ forall x y o, c <> CMulView x y o) p -> run p s = Ret s' ->
  isolated s' /\ forall i, i < N -> grads (hp s') i = grads (hp s) i.
Proof.
  unfold run. induction p as [|c p IH]; intros s s' Hi H Hp E; cbn [foldM] in E; [injection E as <-; auto|].
  inversion Hp as [|? ? [Ho Hm] Hp']; subst. apply bind_Ret_inv in E as (s1 & E1 & E).
  destruct (isolated_step s s1 c Hi H Ho E1) as [H1 G1].
  assert (Hi1 : inv s1). { apply (exec_inv s s1 c Hi); auto. intros x y o Ec. destruct (Hm x y o Ec). }
  destruct (IH s1 s' Hi1 H1 Hp' E) as [H2 G2]. split; [exact H2|]. intros i Hlt. rewrite G2, G1 by auto. reflexivity.
Qed.
End Isolate.

Lemma c52_isolation :
  forall (T : Type) (NT : Num T) (s s1 s2 : state T) (x : nat) (p : list (cmd T)),
    reach any s -> exec s (CDeepClone x) = Ret s1 ->
    Forall (fun c => Forall (fun y => length (env s) <= y) (operands c) /\ forall x y o, c <> CMulView x y o) p ->
    run p s1 = Ret s2 ->
    forall y, y < length (env s) -> var_value s2 y = var_value s y /\ var_grad s2 y = var_grad s y.
Proof.
  intros T NT s s1 s2 x p R E Hp Er y Hy. destruct (reach_inv _ _ R) as [Hi He].
  assert (HI : isolated (length (nodes (hp s))) (length (env s)) s).
  { split; [lia|]. split; [lia|]. split.
    - intros z i Hz Ez. assert (z < length (env s)) by (apply nth_error_Some; congruence). lia.
    - intros j k ins Hj Ef. unfold fn_of in Ef. destruct (nth_error (nodes (hp s)) j) eqn:Ej; [|discriminate].
      assert (j < length (nodes (hp s))) by (apply nth_error_Some; congruence). lia. }
  (* the clone itself *)
  assert (S1 : isolated (length (nodes (hp s))) (length (env s)) s1 /\ forall i, i < length (nodes (hp s)) -> grads (hp s1) i = grads (hp s) i).
  { assert (E' := E). cbn [exec] in E'. apply bind_Ret_inv in E' as (i & Ei & E'). unfold push in E'. apply bind_Ret_inv in E' as ([h' c] & E1 & E').
    apply Ret_inj in E'. subst s1. unfold op_deep_clone in E1. apply bind_Ret_inv in E1 as (a & _ & E1). apply bind_Ret_inv in E1 as (t & _ & E1).
    assert (A : adds (hp s) [] (Ret (alloc (hp s) t None None))) by (apply adds_alloc; intros k ins Q; discriminate).
    destruct (A h' c E1) as (X & K & L & F). pose proof (extends_length _ _ X). cbn [hp env].
    split; [|exact K]. split; [cbn [hp]; lia|]. split; [cbn [env]; rewrite app_length; lia|]. split; cbn [hp env].
    - intros z j Hz Ez. rewrite nth_error_app2 in Ez by auto. destruct (z - length (env s)) as [|q]; cbn in Ez; [injection Ez as <-; lia|destruct q; discriminate].
    - intros j k ins Hj Ef. eapply Forall_impl; [|apply (F j k ins Hj Ef)]. intros m [[]|Hm]. exact Hm. }
  assert (Hi1 : inv s1). { apply (exec_inv s s1 (CDeepClone x) (conj Hi He)); auto. intros; discriminate. }
  destruct S1 as [S1 G1]. destruct (isolated_run _ _ p s1 s2 Hi1 S1 Hp Er) as [_ G2].
  assert (EE : exists e, env s2 = env s ++ e).
  { assert (EX : forall c (a b : state T), exec a c = Ret b -> exists e, env b = env a ++ e).
    { intros c a b Ec. destruct (forward c) eqn:Hf.
      - destruct (adds_forward a c Hf) as (r & ops & _ & Er' & _). rewrite Er' in Ec. unfold push in Ec. apply bind_Ret_inv in Ec as ([h' i] & _ & Ec).
        apply Ret_inj in Ec. subst b. eexists. reflexivity.
      - exists []. rewrite app_nil_r. destruct c; try discriminate Hf; cbn [exec] in Ec; repeat (apply bind_Ret_inv in Ec as (? & _ & Ec)); apply Ret_inj in Ec; subst b; reflexivity. }
    destruct (EX _ _ _ E) as [e1 E1].
    assert (RX : forall p (a b : state T), run p a = Ret b -> exists e, env b = env a ++ e).
    { unfold run. induction p0 as [|c q IH]; intros a b Eq; cbn [foldM] in Eq; [injection Eq as <-; exists []; symmetry; apply app_nil_r|].
      apply bind_Ret_inv in Eq as (a1 & Ea & Eq). destruct (EX _ _ _ Ea) as [e Xe]. destruct (IH _ _ Eq) as [e' Xe']. exists (e ++ e'). rewrite Xe', Xe, app_assoc. reflexivity. }
    destruct (RX _ _ _ Er) as [e2 E2]. exists (e1 ++ e2). rewrite E2, E1, app_assoc. reflexivity. }
  destruct EE as [e EE]. destruct (nth_error (env s) y) as [i|] eqn:Ei; [|apply nth_error_None in Ei; lia].
  assert (Hlt : i < length (nodes (hp s))) by (rewrite Forall_forall in He; apply He; eapply nth_error_In; eauto).
  assert (Ei2 : nth_error (env s2) y = Some i) by (rewrite EE, nth_error_app1; auto).
  split.
  - unfold var_value. rewrite (vindex_some _ _ _ _ Ei), (vindex_some _ _ _ _ Ei2). cbn [bind]. unfold hget.
    assert (XX : extends (hp s) (hp s2)) by (eapply extends_trans; [eapply exec_extends; eauto|eapply run_extends; eauto]).
    destruct XX as [e' ->]. destruct (nth_error (nodes (hp s)) i) as [nd|] eqn:En; [|apply nth_error_None in En; lia].
    rewrite (vindex_some _ _ _ _ En). rewrite (vindex_some _ (nodes (hp s) ++ e') _ nd); [reflexivity|]. rewrite nth_error_app1; auto.
  - unfold var_grad. rewrite Ei, Ei2. rewrite G2, G1 by auto. reflexivity.
Qed.
Example c52_isolation_ex :
  exists s : state Z, run [CNew [2; 3]%Z [2]; CSum 0; CBackward 1; CDeepClone 0; CTanh 2; CSum 3; CBackward 4; CBackward 4] init_state = Ret s /\
    var_grad s 0 = Some (mkRaw [1; 1]%Z [2]) /\ var_value s 0 = Ret (mkRaw [2; 3]%Z [2]).
Proof. eexists. split; [vm_compute; reflexivity|]. split; reflexivity. Qed.
