(** * ClaimsFrozen: backward at the kinks of abs and relu (C82) *)
From Coq Require Import Reals Lra.
From Verif Require Import Base ModelIndex ModelTensor ModelOps ModelJvp ModelGraph Spec SpecDual SpecGraph
  Lists IndexFacts TensorFacts OpsFacts Sums JvpFacts Dual ClaimsMat Adjoint GradRing RealInst SpecReal OpDeriv GradReal
  FuelFacts GraphFacts ProgFacts BackFacts ClaimsGraph ClaimsProg ClaimsVjp SimFacts ClaimsGrad SpecFrozen FrozenFacts.
Local Open Scope R_scope.

(** *** The example: [(|x| - |-x|).sum()] at [x = 0] *)
Definition cancel : list (cmd R) := [CNew [0] [1; 1]%nat; CNeg 0; CAbs 0; CAbs 1; CSub 2 3; CSum 4].
Lemma cancel_state : exists s : state R, run cancel init_state = Ret s /\ reach tidy s /\ nonempty (nodes (hp s)) /\ matrices_only (nodes (hp s)) /\
  root_ok (nodes (hp s)) 6 /\ length (nodes (hp s)) = 7%nat /\ grads (hp s) 0%nat = None /\ fn_of (nodes (hp s)) 0 = None /\
  size (shape (vof (nodes (hp s)) 0)) = 1%nat /\ partial_derivative (nodes (hp s)) 6 0 0 0 /\ frozen_derivative (nodes (hp s)) 6 0 0 2.
Proof.
  eexists. split; [vm_compute; reflexivity|]. split; [|split; [|split; [|split; [|split; [|split; [|split; [|split; [|split]]]]]]]].
  - eapply (run_reach R RNum tidy cancel init_state); [apply reach_init| | |reflexivity]; unfold cancel.
    + repeat constructor; intros x y; discriminate.
    + repeat constructor; intros x y o; discriminate.
  - intros n Hn. cbn [hp nodes] in *. do 7 (destruct n as [|n]; [cbn; repeat constructor; lia|]). cbn in Hn. lia.
  - intros n ins F. cbn [hp nodes] in *. do 7 (destruct n as [|n]; [cbn in F; try discriminate F|]). destruct n; discriminate F.
  - cbn [hp nodes]. set (ns := [_; _; _; _; _; _; _]). split; [reflexivity|]. exists KSum, [5%nat]. split; [reflexivity|].
    assert (P : forall n, (n < 6)%nat -> plain ns n).
    { intros n. induction n as [n IH] using lt_wf_ind. intros Hn. destruct n as [|[|[|[|[|[|n]]]]]]; [..|lia].
      - apply plain_leaf; [cbn; lia|reflexivity].
      - eapply (plain_op _ _ KNeg); [cbn; lia|reflexivity|discriminate|discriminate|discriminate|]. intros i [<-|[]]; apply IH; lia.
      - eapply (plain_op _ _ KAbs); [cbn; lia|reflexivity|discriminate|discriminate|discriminate|]. intros i [<-|[]]; apply IH; lia.
      - eapply (plain_op _ _ KAbs); [cbn; lia|reflexivity|discriminate|discriminate|discriminate|]. intros i [<-|[]]; apply IH; lia.
      - eapply (plain_op _ _ KNeg); [cbn; lia|reflexivity|discriminate|discriminate|discriminate|]. intros i [<-|[]]; apply IH; lia.
      - eapply (plain_op _ _ KAdd); [cbn; lia|reflexivity|discriminate|discriminate|discriminate|]. intros i [<-|[<-|[]]]; apply IH; lia. }
    apply (top_sum _ _ 5); [cbn; lia|reflexivity|]. apply P. lia.
  - reflexivity.
  - reflexivity.
  - reflexivity.
  - reflexivity.
  - cbn [hp nodes]. eexists. split; [intros t; cbv -[Rplus Rmult Rminus Ropp Rabs IZR Rge_dec Rlt_dec]; reflexivity|].
    exists (fun _ => 0). split; [|apply derivable_pt_lim_const]. intros t. eexists. cbn [nth_error]. do 2 f_equal. f_equal.
    rewrite Rabs_Ropp. ring.
  - cbn [hp nodes]. eexists. split; [intros t; cbv -[Rplus Rmult Rminus Ropp Rabs IZR Rge_dec Rlt_dec]; reflexivity|].
    exists (fun t => 2 * t). split.
    + intros t. eexists. cbn [nth_error]. do 2 f_equal. f_equal. 
      change R0 with 0. destruct (Rge_dec 0 0) as [_|H]; [|exfalso; apply H; lra].
      destruct (Rge_dec (- 0) 0) as [_|H]; [|exfalso; apply H; lra]. ring.
    + apply (eq_ind (2 * 1 + 0 * 0) (fun d => derivable_pt_lim _ 0 d)); [|ring]. apply (D_mult (fun _ => 2) (fun t => t)); [apply D_const|apply derivable_pt_lim_id].
Qed.

(** C82: whatever the values, kinks included, [backward] goes through, and what it adds to an entry of a gradient
    is the derivative of the computation in which [abs] and [relu] keep their branches: at 0, [abs] is
    the identity and so is [relu]. *)
Lemma c82_backward_keeps_branches :
  forall (s : state R) (r l : nat), reach tidy s -> nonempty (nodes (hp s)) -> matrices_only (nodes (hp s)) ->
    root_ok (nodes (hp s)) r ->
    (l < length (nodes (hp s)))%nat -> l <> r -> (forall ins, fn_of (nodes (hp s)) l <> Some (KSum, ins)) ->
    exists h', backward (hp s) r = Ret h' /\
      forall p, (p < size (shape (vof (nodes (hp s)) l)))%nat -> forall d,
        frozen_derivative (nodes (hp s)) r l p d <-> gentry (grads h') l p = gentry (grads (hp s)) l p + d.
Proof.
  intros s r l HR HN HM Hroot Hl Hlr Hsum. set (ns := nodes (hp s)) in *.
  pose proof (reach_inv _ _ HR) as [HI _].
  assert (HG : graph_ok ns) by (apply graph_ok_of; auto; apply HI).
  assert (HGR : gr_ok ns (grads (hp s))) by (apply gr_ok_of; auto; apply shapes_reach; auto).
  assert (H1 := Hroot). destruct H1 as (Hsz & k & ins & Ef & _).
  destruct (backward_frozen ns (grads (hp s)) r k ins l HG HGR Hroot Ef Hl Hlr Hsum) as (gr' & Ec & HGR' & Hd).
  destruct (op_ok ns HG r k ins Ef) as (Hr & _).
  exists (mkHeap ns gr'). split.
  { apply (backward_compute (hp s) r k ins gr'); auto. fold ns. destruct (vof_ok ns HG r Hr) as [W _]. unfold wf in W. rewrite W. exact Hsz. }
  intros p Hp. cbn [grads]. destruct (Hd p Hp) as (d0 & vs & E0 & RE & L & SF & _ & _ & _ & D).
  assert (HD : frozen_derivative ns r l p d0).
  { exists vs. split; [exact RE|]. exists (fun t => nth 0 (array (vnth (vs t) r)) 0). split; [|exact D].
    intros t. exists (shape (vnth (vs t) r)). rewrite nth_error_vnth by (rewrite L; lia). f_equal.
    destruct (SF t r Hr) as [W S']. apply one_element; [exact W|]. rewrite S'. exact Hsz. }
  intros d. split.
  - intros (vs' & R' & f & Hf & Df). rewrite E0. f_equal. symmetry. eapply uniqueness_limite; [exact Df|].
    eapply derivable_pt_lim_ext; [|exact D]. intros t. destruct (Hf t) as (sh & Hf'). specialize (R' t). rewrite (RE t) in R'. injection R' as R'. rewrite <- R' in Hf'.
    rewrite nth_error_vnth in Hf' by (rewrite L; lia). injection Hf' as ->. reflexivity.
  - intros E. rewrite E0 in E. assert (d0 = d) by lra. subst. exact HD.
Qed.
Example c82_backward_keeps_branches_ex : exists (s : state R) h', run cancel init_state = Ret s /\ reach tidy s /\ backward (hp s) 6 = Ret h' /\
  gentry (grads h') 0 0 = 2.
Proof.
  destruct cancel_state as (s & E & HR & HN & HM & Hroot & L & G0 & F0 & S0 & _ & FD).
  destruct (c82_backward_keeps_branches s 6 0 HR HN HM Hroot ltac:(lia) ltac:(lia) ltac:(congruence)) as (h' & B & Q).
  exists s, h'. split; [exact E|]. split; [exact HR|]. split; [exact B|]. apply Q in FD; [|lia]. rewrite FD. unfold gentry. rewrite G0. cbn. lra.
Qed.

(** C82: away from the kinks, keeping the branches makes no difference. *)
Lemma c82_away_from_kinks :
  forall (s : state R) (r l : nat), reach tidy s -> nonempty (nodes (hp s)) -> matrices_only (nodes (hp s)) ->
    root_ok (nodes (hp s)) r -> no_kinks (nodes (hp s)) r ->
    (l < length (nodes (hp s)))%nat -> l <> r -> (forall ins, fn_of (nodes (hp s)) l <> Some (KSum, ins)) ->
    forall p, (p < size (shape (vof (nodes (hp s)) l)))%nat -> forall d,
      frozen_derivative (nodes (hp s)) r l p d <-> partial_derivative (nodes (hp s)) r l p d.
Proof.
  intros s r l HR HN HM Hroot HK Hl Hlr Hsum p Hp d.
  destruct (c82_backward_keeps_branches s r l HR HN HM Hroot Hl Hlr Hsum) as (h' & B & Q).
  destruct (c31_backward_is_gradient s r l HR HN HM Hroot HK Hl Hlr Hsum) as (h2 & B2 & Q2).
  rewrite B in B2. apply Ret_inj in B2. subst h2. rewrite (Q p Hp d), (Q2 p Hp d). reflexivity.
Qed.
Example c82_away_from_kinks_ex : exists (s : state R), reach tidy s /\ nonempty (nodes (hp s)) /\ matrices_only (nodes (hp s)) /\
  root_ok (nodes (hp s)) 3%nat /\ no_kinks (nodes (hp s)) 3%nat /\ (1 < length (nodes (hp s)))%nat.
Proof. exact c31_backward_is_gradient_ex. Qed.

Lemma sum_env (p : list (cmd R)) x st : forallb graph_cmd p = true -> run (p ++ [CSum x]) init_state = Ret st ->
  (exists l, nth_error (env st) x = Some l /\ x <> length p) /\
  forall v l r, nth_error (env st) v = Some l -> v <> length p -> nth_error (env st) (length p) = Some r ->
    l <> r /\ (l < length (nodes (hp st)))%nat /\ (forall ins, fn_of (nodes (hp st)) l <> Some (KSum, ins)) /\ grads (hp st) l = None.
Proof.
  intros Hp E0. assert (E := E0). rewrite run_app in E. apply bind_Ret_inv in E as (s1 & E1 & E). unfold run in E. cbn [foldM] in E. apply bind_Ret_inv in E as (s2 & E2 & E). apply Ret_inj in E. subst s2.
  destruct (run_diff_inv p _ _ inv_init (graph_diff p Hp) E1) as (I1 & L1 & _). cbn [env init_state length] in L1.
  assert (N1 : no_sum_dot (nodes (hp s1))) by (eapply run_nsd; eauto; intros n k ins H; destruct n; discriminate H).
  cbn [exec] in E2. apply bind_Ret_inv in E2 as (i & Ei & E2).
  assert (Hx : (x < length (env s1))%nat) by (apply vindex_ret in Ei; apply nth_error_Some; congruence).
  unfold push in E2. apply bind_Ret_inv in E2 as ([h2 r'] & Es & E2). apply Ret_inj in E2.
  unfold op_sum in Es. apply bind_Ret_inv in Es as (nd & End & Es). apply bind_Ret_inv in Es as (v & Ev & Es). apply Ret_inj in Es.
  unfold alloc in Es. injection Es as Eh Er.
  assert (NE : nodes (hp st) = nodes (hp s1) ++ [mkNode v (Some (KSum, [i]))]) by (subst st h2; reflexivity).
  assert (EE : env st = env s1 ++ [r']) by (subst st; reflexivity).
  assert (HD : forallb differentiable (p ++ [CSum x]) = true) by (rewrite forallb_app, (graph_diff _ Hp); reflexivity).
  destruct (run_diff_inv _ _ _ inv_init HD E0) as (_ & _ & _ & Q).
  split. { exists i. rewrite EE, nth_error_app1 by auto. split; [apply vindex_ret; exact Ei|lia]. }
  intros w l r Hw Hne Hr. assert (Hl : In l (env s1)).
  { rewrite EE in Hw. destruct (Nat.lt_ge_cases w (length (env s1))) as [H|H]; [rewrite nth_error_app1 in Hw by auto; eapply nth_error_In; eauto|].
    rewrite nth_error_app2 in Hw by auto. destruct (w - length (env s1))%nat eqn:Ew; [lia|]. destruct n; discriminate Hw. }
  rewrite EE, nth_error_app2 in Hr by lia. rewrite L1, Nat.add_0_l, Nat.sub_diag in Hr. injection Hr as <-.
  destruct I1 as [_ I1]. rewrite Forall_forall in I1. specialize (I1 l Hl).
  assert (F : forall ins, fn_of (nodes (hp st)) l <> Some (KSum, ins)).
  { intros ins F. rewrite NE, fn_app_old in F by auto. destruct (N1 _ _ _ F). congruence. }
  split; [lia|]. split; [rewrite NE, app_length; lia|]. split; [exact F|].
  destruct (grads (hp st) l) as [g|] eqn:Eg; [|reflexivity]. exfalso.
  destruct (Q ltac:(intros j g' H; discriminate H) l g Eg) as (j & Ej). exact (F _ Ej).
Qed.

(** C82: the same for programs: leaves, [+], [-], [neg], [relu], [tanh], [abs] and [bmm] (of matrices of at
    most 32 entries), then [sum] and [backward]. *)
Lemma c82_sum_programs :
  forall (p : list (cmd R)) (x : nat) (st : state R),
    forallb graph_cmd p = true -> run (p ++ [CSum x]) init_state = Ret st ->
    nonempty (nodes (hp st)) -> matrices_only (nodes (hp st)) -> small_bmm (nodes (hp st)) ->
    exists r st', nth_error (env st) (length p) = Some r /\ exec st (CBackward (length p)) = Ret st' /\
      forall v l, nth_error (env st) v = Some l -> v <> length p ->
        forall q, (q < size (shape (vof (nodes (hp st)) l)))%nat -> frozen_derivative (nodes (hp st)) r l q (grad_entry st' v q).
Proof.
  intros p x st Hp E HN HM HS. destruct (sum_root p x st Hp E HS) as (r & Er & Hroot).
  destruct (sum_env p x st Hp E) as ((l0 & El0 & Hx) & HE).
  assert (HD : forallb differentiable (p ++ [CSum x]) = true) by (rewrite forallb_app, (graph_diff _ Hp); reflexivity).
  assert (HR : reach tidy st) by (destruct (diff_tidy _ HD); eapply run_reach; eauto; apply reach_init).
  destruct (HE x l0 r El0 Hx Er) as (A1 & A2 & A3 & A4).
  destruct (c82_backward_keeps_branches st r l0 HR HN HM Hroot A2 A1 A3) as (h' & B & _).
  exists r, (mkState h' (env st)). split; [exact Er|]. split. { cbn [exec]. rewrite (vindex_some _ _ _ _ Er). cbn [bind]. rewrite B. reflexivity. }
  intros v l El Hv q Hq. destruct (HE v l r El Hv Er) as (B1 & B2 & B3 & B4).
  destruct (c82_backward_keeps_branches st r l HR HN HM Hroot B2 B1 B3) as (h2 & B' & Q). rewrite B in B'. apply Ret_inj in B'. subst h2.
  apply (Q q Hq). unfold grad_entry, var_grad. cbn [env hp]. rewrite El. unfold gentry. rewrite B4. cbn [n_zero RNum]. destruct (grads h' l); lra.
Qed.
Example c82_sum_programs_ex : exists st st' : state R,
  forallb graph_cmd [CNew [0; 0] [1; 2]%nat; CRelu 0; CAbs 1] = true /\ run ([CNew [0; 0] [1; 2]%nat; CRelu 0; CAbs 1] ++ [CSum 2]) init_state = Ret st /\
  exec st (CBackward 3) = Ret st' /\ grad_entry st' 0 1 = 1.
Proof.
  assert (E : exists st : state R, run ([CNew [0; 0] [1; 2]%nat; CRelu 0; CAbs 1] ++ [CSum 2]) init_state = Ret st /\
    nonempty (nodes (hp st)) /\ matrices_only (nodes (hp st)) /\ small_bmm (nodes (hp st)) /\ nth_error (env st) 0 = Some 0%nat /\ nth_error (env st) 3 = Some 3%nat /\
    size (shape (vof (nodes (hp st)) 0)) = 2%nat /\ frozen_derivative (nodes (hp st)) 3 0 1 1).
  { eexists. split; [cbn -[Rplus Rmult Rminus Ropp Rabs]; reflexivity|]. cbn [hp nodes]. split; [|split; [|split; [|split; [|split; [|split]]]]].
    - intros n Hn. do 4 (destruct n as [|n]; [cbn; repeat constructor; lia|]). cbn in Hn. lia.
    - intros n ins F. do 4 (destruct n as [|n]; [cbn in F; try discriminate F|]). destruct n; discriminate F.
    - intros n ins F. do 4 (destruct n as [|n]; [cbn in F; try discriminate F|]). destruct n; discriminate F.
    - reflexivity.
    - reflexivity.
    - reflexivity.
    - eexists. split; [intros t; cbv -[Rplus Rmult Rminus Ropp Rabs IZR Rge_dec Rlt_dec]; reflexivity|].
      exists (fun t => t). split; [|apply derivable_pt_lim_id]. intros t. eexists. cbn [nth_error]. do 2 f_equal. f_equal. change R0 with 0.
      destruct (Rlt_dec 0 0) as [H|_]; [lra|]. destruct (Rge_dec 0 0) as [_|H]; [|exfalso; apply H; lra]. ring. }
  destruct E as (st & E & HN & HM & HS & E0 & E3 & S0 & FD).
  destruct (c82_sum_programs [CNew [0; 0] [1; 2]%nat; CRelu 0; CAbs 1] 2 st eq_refl E HN HM HS) as (r & st' & Er & EB & Q). cbn [length] in Er, EB, Q. rewrite E3 in Er. injection Er as <-.
  exists st, st'. split; [reflexivity|]. split; [exact E|]. split; [exact EB|].
  specialize (Q 0%nat 0%nat E0 ltac:(lia) 1%nat ltac:(rewrite S0; lia)).
  destruct Q as (vs & R1 & f & Hf & Df), FD as (vs' & R2 & f' & Hf' & Df').
  eapply uniqueness_limite; [exact Df|]. eapply derivable_pt_lim_ext; [|exact Df']. intros t.
  destruct (Hf t) as (sh & A), (Hf' t) as (sh' & A'). specialize (R1 t). rewrite (R2 t) in R1. injection R1 as R1. rewrite R1 in A'. rewrite A in A'. injection A' as -> _. reflexivity.
Qed.

(** C82: so at a kink [backward] can be wrong even where the computed function has a derivative: [|x| - |-x|]
    is constant, and the gradient at 0 is 2. *)
Lemma c82_derivative_if_there_is_one_refuted :
  ~ forall (s : state R) (r l : nat), reach tidy s -> nonempty (nodes (hp s)) -> matrices_only (nodes (hp s)) ->
    root_ok (nodes (hp s)) r ->
    (l < length (nodes (hp s)))%nat -> l <> r -> (forall ins, fn_of (nodes (hp s)) l <> Some (KSum, ins)) ->
    exists h', backward (hp s) r = Ret h' /\
      forall p, (p < size (shape (vof (nodes (hp s)) l)))%nat -> forall d,
        partial_derivative (nodes (hp s)) r l p d -> gentry (grads h') l p = gentry (grads (hp s)) l p + d.
Proof.
  intros H. destruct cancel_state as (s & E & HR & HN & HM & Hroot & L & G0 & F0 & S0 & PD & FD).
  destruct (H s 6%nat 0%nat HR HN HM Hroot ltac:(lia) ltac:(lia) ltac:(congruence)) as (h' & B & Q).
  destruct (c82_backward_keeps_branches s 6 0 HR HN HM Hroot ltac:(lia) ltac:(lia) ltac:(congruence)) as (h2 & B2 & Q2).
  rewrite B in B2. apply Ret_inj in B2. subst h2. apply Q in PD; [|lia]. apply Q2 in FD; [|lia]. rewrite PD in FD. lra.
Qed.
