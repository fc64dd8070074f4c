(** * ClaimsLocal: [backward] depends only on what its root was computed from *)
From Coq Require Import ZArith Reals Lra.
From Verif Require Import Base ModelIndex ModelTensor ModelOps ModelJvp ModelGraph Spec SpecDual SpecGraph SpecFlow SpecLocal
  Lists IndexFacts TensorFacts FuelFacts GraphFacts ProgFacts BackFacts FlowFacts ClaimsProg Instances RealInst SpecReal GradReal ClaimsGrad LocalFacts LocalReal.

(** C85: Take two programs' states, in which what [r] was computed from is the same up to the names of the tensors.  [backward] panics
    alike in both, or gives the same gradients, whatever else there is in the two states ... *)
Lemma c85_ancestors_only :
  forall (T : Type) (NT : Num T) (ok : cmd T -> Prop) (s s' : state T) (f : nat -> nat) (r : nat), reach ok s -> reach ok s' ->
    r < length (nodes (hp s)) -> same_history f (hp s) (hp s') r ->
    same_gradients f (hp s) r (backward (hp s) r) (backward (hp s') (f r)).
Proof. intros T NT ok s s' f r R R' Hr H. destruct (reach_inv _ _ R) as [HI _]. destruct (reach_inv _ _ R') as [HI' _]. apply local; auto. Qed.
Example c85_ancestors_only_ex : exists (s s' : state Z) (f : nat -> nat), reach tidy s /\ reach tidy s' /\
  2 < length (nodes (hp s)) /\ f 2 = 4 /\ same_history f (hp s) (hp s') 2 /\
  (exists h h', backward (hp s) 2 = Ret h /\ backward (hp s') 4 = Ret h' /\ grads h 0 = Some (mkRaw [4; 6]%Z [1; 2]) /\ grads h' 1 = Some (mkRaw [4; 6]%Z [1; 2])).
Proof.
  destruct (run [CNew [2; 3]%Z [1; 2]; CNeg 0; CDot 1 1] init_state) as [s| |] eqn:E; [|vm_compute in E; discriminate|vm_compute in E; discriminate].
  destruct (run [CNew []%Z [0]; CNew [2; 3]%Z [1; 2]; CScalar 7%Z; CNeg 1; CDot 3 3; CAdd 2 4] init_state) as [s'| |] eqn:E'; [|vm_compute in E'; discriminate|vm_compute in E'; discriminate].
  exists s, s', (fun n => match n with 0 => 1 | S m => 2 + n end).
  split; [eapply (run_reach Z _ tidy _ init_state); [apply reach_init| | |exact E]; repeat constructor; intros x y; try discriminate; intros; discriminate|].
  split; [eapply (run_reach Z _ tidy _ init_state); [apply reach_init| | |exact E']; repeat constructor; intros x y; try discriminate; intros; discriminate|].
  vm_compute in E, E'. injection E as <-. injection E' as <-. cbn [hp]. split; [cbn; lia|]. split; [reflexivity|]. split.
  - match goal with |- same_history _ (mkHeap ?ns ?gr) _ 2 => assert (U : forall n, uses ns 2 n -> n = 0 \/ n = 1 \/ n = 2) end.
    { intros n Q. inversion Q as [|? ? ? ? ? E1 H1 Q1]; subst; [lia|]. cbn in E1. injection E1 as <- <-. destruct H1 as [<-|[<-|[]]]; inversion Q1 as [|? ? ? ? ? E2 H2 Q2]; subst; try lia; cbn in E2; injection E2 as <- <-; destruct H2 as [<-|[]]; inversion Q2 as [|? ? ? ? ? E3 H3 Q3]; subst; try lia; discriminate. }
    constructor.
    + intros n nd Hn En. destruct n as [|[|[|n]]]; cbn in En; try (destruct n; discriminate); injection En as <-; reflexivity.
    + intros n m _ _ Q. destruct n, m; lia.
    + intros n Hn. destruct (U n Hn) as [-> |[-> | ->]]; reflexivity.
  - do 2 eexists. split; [vm_compute; reflexivity|]. split; [vm_compute; reflexivity|]. split; reflexivity.
Qed.

(** ... so tensors made in the meantime, with or without [r], do not matter, ... *)
Lemma c85_work_in_between :
  forall (T : Type) (NT : Num T) (ok : cmd T -> Prop) (p : list (cmd T)) (s s' : state T) (r : nat), reach ok s ->
    Forall (fun c => forward c = true /\ forall x y o, c <> CMulView x y o) p -> run p s = Ret s' -> r < length (nodes (hp s)) ->
    same_gradients (fun n => n) (hp s) r (backward (hp s) r) (backward (hp s') r).
Proof.
  intros T NT ok p s s' r R HP E Hr. pose proof (reach_inv _ _ R) as I.
  assert (H : inv s' /\ extends (hp s) (hp s') /\ grads_kept (hp s) (hp s')).
  { clear R Hr. unfold run in E. revert s I E. induction HP as [|c p [Hf Hm] HP IH]; intros s I E; cbn [foldM] in E.
    - apply Ret_inj in E. subst s'. split; [exact I|]. split; [exists []; symmetry; apply app_nil_r|intros i Hi; reflexivity].
    - apply bind_Ret_inv in E as (s1 & E1 & E). destruct (exec_forward s s1 c I Hf) as (I1 & X1 & K1 & _); [intros x y o Q; destruct (Hm x y o Q)|exact E1|].
      destruct (IH s1 I1 E) as (I2 & X2 & K2). split; [exact I2|]. split; [eapply extends_trans; eauto|].
      intros i Hi. pose proof (extends_length _ _ X1). rewrite K2 by lia. apply K1. exact Hi. }
  destruct H as ([HI' _] & [ext X] & K). destruct I as [HI _].
  apply (local (fun n => n)); auto. constructor.
  - intros n nd U En. rewrite X, nth_error_app1 by (apply nth_error_Some; congruence). rewrite En. f_equal. unfold renamed. destruct nd as [v [[k ins]|]]; cbn; [rewrite map_id|]; reflexivity.
  - auto.
  - intros n U. apply K. exact (LocalFacts.uses_lt _ r n (proj1 HI) Hr U).
Qed.
Example c85_work_in_between_ex : exists s s' : state Z, run [CNew [2; 3]%Z [1; 2]; CNeg 0; CDot 1 1] init_state = Ret s /\
  run [CNew []%Z [0]; CAdd 2 2] s = Ret s' /\
  (exists h h', backward (hp s) 2 = Ret h /\ backward (hp s') 2 = Ret h' /\ grads h 0 = Some (mkRaw [4; 6]%Z [1; 2]) /\ grads h' 0 = Some (mkRaw [4; 6]%Z [1; 2])).
Proof.
  do 2 eexists. split; [vm_compute; reflexivity|]. split; [vm_compute; reflexivity|]. do 2 eexists.
  split; [vm_compute; reflexivity|]. split; [vm_compute; reflexivity|]. split; reflexivity.
Qed.

Lemma heap_flow (T : Type) (NT : Num T) (h : heap T) (r : nat) : heap_inv h -> shapes_ok h -> nonempty (nodes h) ->
    ((exists h', backward h r = Ret h') <->
     size (shape (vof (nodes h) r)) = 1 /\ fn_of (nodes h) r <> None /\ gets_through (nodes h) r []).
Proof.
  intros Hi HS HN. 
  pose proof (graph_any_of _ _ _ (proj1 Hi) HN) as HG. pose proof (gr_ok_of _ Hi HS HN) as Hgr.
  split.
  - intros [h' E]. unfold backward, hget in E. apply bind_Ret_inv in E as (nd & En & E).
    assert (Q : nth_error (nodes h) r = Some nd) by (unfold vindex in En; destruct (nth_error (nodes h) r); [injection En as <-; reflexivity|discriminate]).
    apply bind_Ret_inv in E as (u & Ea & E). apply assert_inv in Ea. apply Nat.eqb_eq in Ea.
    destruct (n_fn nd) as [[k ins]|] eqn:Ef; [|discriminate]. cbn [unwrap_opt bind] in E. apply bind_Ret_inv in E as (gr & E & _).
    destruct (proj1 Hi r nd Q) as [W _]. unfold wf in W.
    assert (Ev : vof (nodes h) r = n_val nd) by (unfold vof; rewrite Q; reflexivity).
    assert (Efn : fn_of (nodes h) r = Some (k, ins)) by (unfold fn_of; rewrite Q; exact Ef).
    assert (S1 : size (shape (vof (nodes h) r)) = 1) by (rewrite Ev; congruence).
    split; [exact S1|]. split; [congruence|].
    apply (flow_only _ HG _ r k ins (raw_scalar n_one) _ _ Efn) in E; auto; [reflexivity|left; cbn; auto].
  - intros (S1 & Hf & HT). destruct (fn_of (nodes h) r) as [[k ins]|] eqn:Ef; [|congruence].
    assert (Hr : r < length (nodes h)) by (apply nth_error_Some; unfold fn_of in Ef; destruct (nth_error (nodes h) r); congruence).
    destruct (flow_succeeds _ HG (S (length (nodes h))) r k ins (raw_scalar n_one) (grads h)) as (gr' & E & _); auto; [reflexivity|].
    exists (mkHeap (nodes h) gr'). apply (backward_compute _ _ k ins); auto.
    unfold vof in *. destruct (nth_error (nodes h) r) as [nd|] eqn:En; [|reflexivity]. destruct (proj1 Hi r nd En) as [W _]. unfold wf in W. congruence.
Qed.

(** ... [backward] succeeds exactly if its gradients get through (C77) even if there are empty tensors elsewhere, ... *)
Lemma c85_succeeds_exactly :
  forall (T : Type) (NT : Num T) (s : state T) (r : nat), reach tidy s -> nonempty_above (nodes (hp s)) r ->
    ((exists h', backward (hp s) r = Ret h') <->
     size (shape (vof (nodes (hp s)) r)) = 1 /\ fn_of (nodes (hp s)) r <> None /\ gets_through (nodes (hp s)) r []).
Proof.
  intros T NT s r R HN. destruct (reach_inv _ _ R) as [HI _]. pose proof (shapes_reach s R) as HS. assert (HR := proj1 HI).
  destruct (Nat.lt_ge_cases r (length (nodes (hp s)))) as [Hr|Hr].
  - pose proof (pruned_backward (hp s) r HI Hr) as SB.
    pose proof (heap_flow T NT (pruned_heap (hp s) r) r (pruned_inv _ r HI Hr) (pruned_shapes _ r HI HS Hr) (pruned_nonempty _ r HR Hr HN)) as Q.
    cbn [nodes pruned_heap] in Q. pose proof (uses_refl (nodes (hp s)) r) as U.
    rewrite (pruned_through _ r HR Hr r [] U), (pruned_fn _ r HR Hr r U), (pruned_vof _ r HR Hr r U) in Q. rewrite <- Q.
    destruct (backward (hp s) r), (backward (pruned_heap (hp s) r) r); cbn [same_gradients] in SB; try contradiction; split; intros [h' E]; try discriminate; eauto.
  - apply nth_error_None in Hr. split; [intros [h' E]|intros (_ & Hf & _)].
    + unfold backward, hget, vindex in E. rewrite Hr in E. discriminate.
    + unfold fn_of in Hf. rewrite Hr in Hf. congruence.
Qed.
Example c85_succeeds_exactly_ex : exists s : state Z, run [CNew []%Z [0]; CNew [2; 3]%Z [1; 2]; CNeg 1; CDot 2 2] init_state = Ret s /\
  (exists h', backward (hp s) 3 = Ret h') /\ ~ nonempty (nodes (hp s)) /\ nonempty_above (nodes (hp s)) 3.
Proof.
  eexists. split; [vm_compute; reflexivity|]. split; [eexists; vm_compute; reflexivity|]. cbn [hp]. split.
  - intros N. specialize (N 0 ltac:(cbn; lia)). inversion N. lia.
  - match goal with |- nonempty_above ?ns 3 => assert (W : forall a b, uses ns a b -> a = b \/ exists k ins i, fn_of ns a = Some (k, ins) /\ In i ins /\ uses ns i b) end.
    { intros a b Q. destruct Q as [|n k ins i m E H Q]; [auto|right; exists k, ins, i; auto]. }
    intros n Q. apply W in Q as [<-|(k & ins & i & E & H & Q)]; [cbn; repeat constructor; lia|]. cbn in E. injection E as <- <-.
    destruct H as [<-|[<-|[]]]; (apply W in Q as [<-|(k & ins & i & E & H & Q)]; [cbn; repeat constructor; lia|]; cbn in E; injection E as <- <-; destruct H as [<-|[]];
      apply W in Q as [<-|(k & ins & i & E & H & Q)]; [cbn; repeat constructor; lia|discriminate]).
Qed.

(** ... and gives the gradient (C31) even if there are empty tensors and products of batches elsewhere. *)
Lemma c85_gradient :
  forall (s : state R) (r l : nat), reach tidy s -> nonempty_above (nodes (hp s)) r -> matrices_above (nodes (hp s)) r ->
    root_ok (nodes (hp s)) r -> no_kinks (nodes (hp s)) r ->
    l < length (nodes (hp s)) -> l <> r -> (forall ins, fn_of (nodes (hp s)) l <> Some (KSum, ins)) ->
    exists h', backward (hp s) r = Ret h' /\
      forall p, p < size (shape (vof (nodes (hp s)) l)) -> forall d,
        partial_derivative (nodes (hp s)) r l p d <-> gentry (grads h') l p = (gentry (grads (hp s)) l p + d)%R.
Proof. intros s r l R HN HM Hroot HK Hl Hlr Hsum. destruct (reach_inv _ _ R) as [HI _]. apply local_gradient; auto. apply shapes_reach. exact R. Qed.
Example c85_gradient_ex : exists s : state R, reach tidy s /\ nonempty_above (nodes (hp s)) 7 /\ matrices_above (nodes (hp s)) 7 /\
  root_ok (nodes (hp s)) 7 /\ no_kinks (nodes (hp s)) 7 /\ 4 < length (nodes (hp s)) /\ ~ nonempty (nodes (hp s)) /\ ~ matrices_only (nodes (hp s)).
Proof.
  eexists. split; [eapply (run_reach R RNum tidy [CNew [] [0]; CNew [1%R] [1; 1; 1]; CNew [1%R] [1; 1]; CBmm 1 2; CNew [1%R; 2%R] [1; 2]; CScalar (-5)%R; CAdd 4 5; CSum 6] init_state); [apply reach_init| | |vm_compute; reflexivity]|].
  - repeat constructor; intros x y; discriminate.
  - repeat constructor; intros x y o; discriminate.
  - set (ns := nodes _).
    assert (U : forall n, uses ns 7 n -> n = 4 \/ n = 5 \/ n = 6 \/ n = 7).
    { assert (W : forall a b, uses ns a b -> a = b \/ exists k ins i, fn_of ns a = Some (k, ins) /\ In i ins /\ uses ns i b).
      { intros a b Q. destruct Q as [|n k ins i m E H Q]; [auto|right; exists k, ins, i; auto]. }
      intros n Q. apply W in Q as [<-|(k & ins & i & E & H & Q)]; [auto|]. cbn in E. injection E as <- <-. destruct H as [<-|[]].
      apply W in Q as [<-|(k & ins & i & E & H & Q)]; [auto|]. cbn in E. injection E as <- <-.
      destruct H as [<-|[<-|[]]]; apply W in Q as [<-|(k & ins & i & E & H & Q)]; auto; discriminate. }
    split; [|split; [|split; [|split; [|split; [|split]]]]].
    + intros n Hn. destruct (U n Hn) as [-> |[-> |[-> | ->]]]; cbn; repeat constructor; lia.
    + intros n ins Hn E. destruct (U n Hn) as [-> |[-> |[-> | ->]]]; discriminate.
    + split; [reflexivity|]. exists KSum, [6]. split; [reflexivity|]. apply (top_sum _ _ 6); [cbn; lia|reflexivity|].
      eapply (plain_op _ _ KAdd); [cbn; lia|reflexivity|discriminate|discriminate|discriminate|].
      intros i [<-|[<-|[]]]; apply plain_leaf; cbn; auto; lia.
    + intros n k ins i Hn E Hk Hin. destruct (U n Hn) as [-> |[-> |[-> | ->]]]; cbn in E; try discriminate; injection E as <- <-; destruct Hk; discriminate.
    + cbn. lia.
    + intros N. specialize (N 0 ltac:(cbn; lia)). inversion N. lia.
    + intros N. specialize (N 3 _ eq_refl). inversion N. discriminate.
Qed.
