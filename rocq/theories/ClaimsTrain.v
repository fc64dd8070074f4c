(** * ClaimsTrain: the training loop is gradient descent (C53) *)
From Coq Require Import Reals Lra.
From Verif Require Import Base ModelIndex ModelTensor ModelOps ModelJvp ModelGraph ModelNN Spec SpecDual SpecGraph SpecNN
  Lists IndexFacts TensorFacts OpsFacts Sums JvpFacts Dual ClaimsMat Adjoint GradRing RealInst SpecReal SpecTrain OpDeriv GradReal
  FuelFacts GraphFacts ProgFacts BackFacts ClaimsProg SimFacts NNFacts ClaimsNN ClaimsGrad TrainFacts.
Local Open Scope R_scope.

Lemma nth_error_ext' {A} (a b : list A) : (forall j, nth_error a j = nth_error b j) -> a = b.
Proof.
  revert b. induction a as [|x a IH]; intros [|y b] H; [reflexivity|exact (False_rect _ ltac:(specialize (H O); discriminate))|exact (False_rect _ ltac:(specialize (H O); discriminate))|].
  pose proof (H O) as H0. injection H0 as ->. f_equal. apply IH. intros j. exact (H (S j)).
Qed.

Lemma net_eq (a b : net) : map (fun '(o, _, _, F) => (o, F)) a = map (fun '(o, _, _, F) => (o, F)) b -> net_parameters a = net_parameters b -> a = b.
Proof.
  revert b. induction a as [|[[[o W] bi] F] a IH]; intros [|[[[o' W'] bi'] F'] b] E1 E2; try discriminate; [reflexivity|].
  cbn [map net_parameters] in *. injection E1 as -> -> E1. injection E2 as -> -> E2. rewrite (IH b E1 E2). reflexivity.
Qed.

Lemma gd_step_det step n i X Y ls a b : gd_step step n i X Y ls a -> gd_step step n i X Y ls b -> a = b.
Proof.
  intros (A1 & A2 & A3) (B1 & B2 & B3). apply net_eq; [congruence|].
  assert (L : map (@length R) (net_parameters a) = map (@length R) (net_parameters b)) by congruence.
  assert (LA : length (net_parameters a) = length (net_parameters ls)) by (rewrite <- (map_length (@length R) (net_parameters a)), A2, map_length; reflexivity).
  apply nth_error_ext'. intros j. destruct (nth_error (net_parameters ls) j) as [P|] eqn:EP.
  - assert (Ha : exists Pa, nth_error (net_parameters a) j = Some Pa /\ length Pa = length P).
    { assert (Q := f_equal (fun l => nth_error l j) A2). cbn beta in Q. rewrite !nth_error_map, EP in Q. destruct (nth_error (net_parameters a) j) as [Pa|]; [|discriminate]. injection Q as Q. eauto. }
    assert (Hb : exists Pb, nth_error (net_parameters b) j = Some Pb /\ length Pb = length P).
    { assert (Q := f_equal (fun l => nth_error l j) B2). cbn beta in Q. rewrite !nth_error_map, EP in Q. destruct (nth_error (net_parameters b) j) as [Pb|]; [|discriminate]. injection Q as Q. eauto. }
    destruct Ha as (Pa & Ea & La). destruct Hb as (Pb & Eb & Lb). rewrite Ea, Eb. f_equal.
    apply (nth_ext _ _ 0 0); [congruence|]. intros q Hq. rewrite La in Hq.
    destruct (A3 j P Pa EP Ea q Hq) as (d & D1 & ->). destruct (B3 j P Pb EP Eb q Hq) as (d' & D2 & ->). rewrite (uniqueness_limite _ _ _ _ D1 D2). reflexivity.
  - apply nth_error_None in EP. assert (LB : length (net_parameters b) = length (net_parameters a)) by (rewrite <- (map_length (@length R) (net_parameters b)), <- L, map_length; reflexivity).
    rewrite (proj2 (nth_error_None _ j)), (proj2 (nth_error_None _ j)) by lia. reflexivity.
Qed.

Definition relu_fn (x : R) : R := if n_lt x n_zero then n_zero else x.
Lemma relu_deriv x : 0 < x -> derivable_pt_lim relu_fn x 1.
Proof.
  intros Hx eps He. destruct (derivable_pt_lim_id x eps He) as [d Hd].
  assert (Hm : 0 < Rmin d x) by (apply Rmin_pos; [apply cond_pos|auto]). exists (mkposreal _ Hm). intros t Ht L. cbn in L.
  pose proof (Rmin_l d x). pose proof (Rmin_r d x).
  assert (E : forall z, 0 < z -> relu_fn z = z) by (intros z Hz; unfold relu_fn, n_lt; cbn; destruct (Rlt_dec z 0); lra).
  assert (L1 := L). apply Rabs_def2 in L1 as [L1 L2]. rewrite !E by lra. apply (Hd t Ht). unfold id. lra.
Qed.

(** C53: where training can start: after any program, with parameters and data that are leaves. *)
Lemma c53_ready_start :
  forall (s : state R) (data : list nat) (m : mlp R) (i : nat) (ls : net), reach tidy s ->
    nonempty (nodes (hp s)) -> matrices_only (nodes (hp s)) -> net_params (vof (nodes (hp s))) i m ls ->
    NoDup (mlp_params m) -> (forall p, In p (mlp_params m) -> ~ In p data) ->
    (forall q, In q (data ++ mlp_params m) -> (q < length (nodes (hp s)))%nat /\ fn_of (nodes (hp s)) q = None) ->
    (forall p, In p (mlp_params m) -> grads (hp s) p = None) ->
    ready (hp s) data m i ls.
Proof.
  intros s data m i ls HR HN HM NP ND HD HL HG. pose proof (reach_inv _ _ HR) as [HI _].
  assert (LF : forall q z, In q (data ++ mlp_params m) -> uses (nodes (hp s)) q z -> z = q).
  { intros q z Hq U. destruct (HL q Hq) as [_ Ef]. inversion U; subst; [reflexivity|congruence]. }
  constructor; auto.
  - apply gr_ok_of; auto. apply shapes_reach; auto.
  - intros q Hq. destruct (HL q Hq). apply plain_leaf; auto.
  - intros q Hq n k ins z U Ef. rewrite (LF q n Hq U) in Ef. destruct (HL q Hq). congruence.
  - intros p q Hp Hq Hne U. apply Hne. symmetry. eapply LF; eauto.
Qed.

(** *** Examples: one layer with one output, one input row *)
Definition layer_prog (X W : list R) (b y : R) (i : nat) : list (cmd R) := [CNew X [1%nat; i]; CNew [y] [1; 1]%nat; CNew W [i; 1%nat]; CNew [b] [1; 1]%nat].
Lemma layer_ready a F X W b y i : act_fn a F -> length X = i -> length W = i -> (0 < i)%nat ->
  exists s, run (layer_prog X W b y i) init_state = Ret s /\ reach tidy s /\
    nodes (hp s) = [mkNode (mkRaw X [1%nat; i]) None; mkNode (mkRaw [y] [1; 1]%nat) None; mkNode (mkRaw W [i; 1%nat]) None; mkNode (mkRaw [b] [1; 1]%nat) None] /\
    (forall n, grads (hp s) n = None) /\
    ready (hp s) [0; 1]%nat [linear_new 2 3 (Some a)] i [(1%nat, W, [b], F)].
Proof.
  intros HA LX LW Hi.
  assert (E : exists s, run (layer_prog X W b y i) init_state = Ret s /\
    nodes (hp s) = [mkNode (mkRaw X [1%nat; i]) None; mkNode (mkRaw [y] [1; 1]%nat) None; mkNode (mkRaw W [i; 1%nat]) None; mkNode (mkRaw [b] [1; 1]%nat) None] /\
    (forall n, grads (hp s) n = None)).
  { unfold run, layer_prog. cbn [foldM exec]. unfold op_new, raw_new, assert.
    replace (product [1%nat; i] =? length X)%nat with true by (symmetry; apply Nat.eqb_eq; cbn; lia).
    replace (product [i; 1%nat] =? length W)%nat with true by (symmetry; apply Nat.eqb_eq; cbn; lia).
    eexists. split; [reflexivity|]. split; [reflexivity|]. intros n. cbn. unfold upd. repeat (destruct (n =? _)%nat; [reflexivity|]). reflexivity. }
  destruct E as (s & E & EN & EG). exists s. split; [exact E|].
  assert (HR : reach tidy s).
  { refine (run_reach _ _ tidy _ init_state s (reach_init _) _ _ E); unfold layer_prog; repeat constructor; intros; discriminate. }
  split; [exact HR|]. split; [exact EN|]. split; [exact EG|].
  apply c53_ready_start; auto.
  - rewrite EN. intros n Hn. destruct n as [|[|[|[|n]]]]; cbn in Hn |- *; try lia; repeat constructor; lia.
  - rewrite EN. intros n ins Ef. destruct n as [|[|[|[|n]]]]; cbn in Ef; try discriminate. destruct n; discriminate.
  - rewrite EN. pose (l := linear_new 2 3 (Some a)). change W with (array (vof [mkNode (mkRaw X [1%nat; i]) None; mkNode (mkRaw [y] [1; 1]%nat) None; mkNode (mkRaw W [i; 1%nat]) None; mkNode (mkRaw [b] [1; 1]%nat) None] (weights l))) at 2.
    change [b] with (array (vof [mkNode (mkRaw X [1%nat; i]) None; mkNode (mkRaw [y] [1; 1]%nat) None; mkNode (mkRaw W [i; 1%nat]) None; mkNode (mkRaw [b] [1; 1]%nat) None] (bias l))) at 2.
    constructor; auto; try (unfold wf; cbn; lia). constructor.
  - repeat constructor; cbn; lia.
  - cbn. lia.
  - rewrite EN. cbn. intros q Hq. assert (q = 0 \/ q = 1 \/ q = 2 \/ q = 3)%nat as [->|[->|[->| ->]]] by lia; cbn; split; auto; lia.
Qed.

Example c53_ready_start_ex : exists (s : state R), reach tidy s /\ nonempty (nodes (hp s)) /\ matrices_only (nodes (hp s)) /\
  net_params (vof (nodes (hp s))) 2 [linear_new 2 3 (Some op_relu)] [(1%nat, [1; 1], [1], relu_fn)] /\
  (forall q, In q ([0; 1] ++ [2; 3])%nat -> (q < length (nodes (hp s)))%nat /\ fn_of (nodes (hp s)) q = None) /\
  ready (hp s) [0; 1]%nat [linear_new 2 3 (Some op_relu)] 2 [(1%nat, [1; 1], [1], relu_fn)].
Proof.
  destruct (layer_ready op_relu _ [1; 2] [1; 1] 1 0 2 act_relu eq_refl eq_refl ltac:(lia)) as (s & E & HR & EN & EG & RD). exists s.
  split; [exact HR|]. split; [exact (rd_nonempty _ _ _ _ _ RD)|]. split; [exact (rd_matrices _ _ _ _ _ RD)|]. split; [exact (rd_net _ _ _ _ _ RD)|].
  split; [|exact RD]. rewrite EN. intros q Hq. assert (q = 0 \/ q = 1 \/ q = 2 \/ q = 3)%nat as [->|[->|[->| ->]]] by (cbn in Hq; lia); cbn; split; auto; lia.
Qed.

(** C53: one round of the training loop - [forward], [(res - y).abs().sum()], [backward], [sgd_step] - is
    one step of gradient descent on the loss as a function of the parameters, and leaves a heap in which the
    next round can start.  Layers of any number, activations none, relu, tanh, abs, neg; weight matrices and
    layer inputs of at most 32 entries. *)
Lemma c53_training_step :
  forall (step : R) (h : heap R) (data : list nat) (m : mlp R) (i : nat) (ls : net) (x y n : nat),
    ready h data m i ls -> In x data -> In y data ->
    shape (vof (nodes h) x) = [n; i] -> shape (vof (nodes h) y) = [n; net_out i (outputs ls)] -> (0 < n)%nat ->
    small_net n i ls ->
    smooth n i ls (entries i (array (vof (nodes h) x))) (entries (net_out i (outputs ls)) (array (vof (nodes h) y))) ->
    exists h' m' ls', train_step m (raw_scalar step) h x y = Ret (h', m') /\ ready h' data m' i ls' /\ extends h h' /\
      gd_step step n i (entries i (array (vof (nodes h) x))) (entries (net_out i (outputs ls)) (array (vof (nodes h) y))) ls ls'.
Proof. exact round_ok. Qed.
Example c53_training_step_ex : exists (h : heap R) (data : list nat) (m : mlp R) (ls : net), ready h data m 2 ls /\ In 0%nat data /\ In 1%nat data /\
  shape (vof (nodes h) 0) = [1; 2]%nat /\ shape (vof (nodes h) 1) = [1; net_out 2 (outputs ls)]%nat /\ small_net 1 2 ls /\
  smooth 1 2 ls (entries 2 (array (vof (nodes h) 0))) (entries (net_out 2 (outputs ls)) (array (vof (nodes h) 1))) /\
  outputs ls = [1%nat] /\ net_parameters ls = [[1; 1]; [1]].
Proof.
  destruct (layer_ready op_relu _ [1; 2] [1; 1] 1 0 2 act_relu eq_refl eq_refl ltac:(lia)) as (s & E & HR & EN & EG & RD).
  exists (hp s), [0; 1]%nat, [linear_new 2 3 (Some op_relu)], [(1%nat, [1; 1], [1], relu_fn)].
  split; [exact RD|]. split; [cbn; auto|]. split; [cbn; auto|]. rewrite EN. split; [reflexivity|]. split; [reflexivity|].
  split; [cbn; lia|]. split; [|split; reflexivity].
  assert (P : forall r c, (r < 1)%nat -> (c < 1)%nat -> layer_val 2 1 [1; 1] [1] (fun x => x) (entries 2 [1; 2]) r c = 4).
  { intros r c Hr Hc. assert (r = 0%nat) by lia. assert (c = 0%nat) by lia. subst. cbv. lra. }
  split.
  - cbn [smooth_net]. split; [|exact I]. intros r c Hr Hc. cbn [array vof nth n_val]. cbn. 
    change (exists d, derivable_pt_lim relu_fn (layer_val 2 1 [1; 1] [1] (fun x => x) (entries 2 [1; 2]) r c) d). rewrite P by lia.
    exists 1. apply relu_deriv. lra.
  - cbn [net_out outputs map net_val]. intros r c Hr Hc. assert (r = 0%nat) by lia. assert (c = 0%nat) by lia. subst.
    change (relu_fn (layer_val 2 1 [1; 1] [1] (fun x => x) (entries 2 [1; 2]) 0 0) <> 0). rewrite P by lia. unfold relu_fn. cbn. destruct (Rlt_dec 4 0); lra.
Qed.

(** C53: any number of rounds, on any samples: the loop computes what gradient descent computes. *)
Lemma c53_training :
  forall (step : R) (samples : list (nat * nat)) (data : list nat) (i : nat) (h : heap R) (m : mlp R) (ls ls' : net),
    ready h data m i ls -> (forall x y, In (x, y) samples -> In x data /\ In y data) ->
    descent step i (vof (nodes h)) samples ls ls' ->
    exists h' m', train m (raw_scalar step) h samples = Ret (h', m') /\ ready h' data m' i ls'.
Proof.
  intros step samples data i h m ls ls' RD HD DS.
  assert (G : forall v ls ls', descent step i v samples ls ls' -> forall h m, ready h data m i ls -> (forall q, In q data -> vof (nodes h) q = v q) ->
    exists h' m', train m (raw_scalar step) h samples = Ret (h', m') /\ ready h' data m' i ls').
  { clear h m ls ls' RD DS. intros v ls ls' DS. unfold train. induction DS as [ls|x y n samples ls ls1 ls' Sx Sy Hn SM SMO GD DS IH]; intros h m RD HV.
    - exists h, m. cbn [foldM]. auto.
    - destruct (HD x y ltac:(cbn; auto)) as [Hx Hy]. rewrite <- (HV x Hx) in Sx, SMO, GD. rewrite <- (HV y Hy) in Sy, SMO, GD.
      destruct (c53_training_step step h data m i ls x y n RD Hx Hy Sx Sy Hn SM SMO) as (h1 & m1 & ls1' & E & RD1 & X1 & GD1).
      assert (ls1' = ls1) by (eapply gd_step_det; eauto). subst ls1'.
      cbn [foldM]. rewrite E. cbn [bind]. apply IH; auto.
      + intros a b Hab. apply HD. cbn. auto.
      + intros q Hq. rewrite (vof_ext h h1); auto. apply plain_lt. apply (rd_plain _ _ _ _ _ RD). apply in_or_app. auto. }
  exact (G _ ls ls' DS h m RD (fun q _ => eq_refl)).
Qed.

(** one step on [x = [1; 2]], [y = 0] with weights [w1; w2] and bias [b] *)
Lemma tiny_step w1 w2 b : 0 < w1 + 2 * w2 + b ->
  gd_step (1/8) 1 2 (entries 2 [1; 2]) (entries 1 [0]) [(1%nat, [w1; w2], [b], fun x => x)] [(1%nat, [w1 - 1/8; w2 - 2/8], [b - 1/8], fun x => x)].
Proof.
  intros HP. split; [reflexivity|]. split; [reflexivity|].
  assert (D : forall k f, (forall t, f t = Rabs (w1 + 2 * w2 + b + k * t)) -> derivable_pt_lim f 0 k).
  { intros k f Hf. apply (D_ext (fun t => Rabs (w1 + 2 * w2 + b + k * t))); [intros t; symmetry; apply Hf|].
    apply (eq_ind (1 * (0 + (k * 1 + 0 * 0))) (fun d => derivable_pt_lim _ 0 d)); [|ring]. apply (D_comp Rabs (fun t => w1 + 2 * w2 + b + k * t)).
    - apply D_plus; [apply D_const|]. apply (D_mult (fun _ => k) (fun t => t)); [apply D_const|apply derivable_pt_lim_id].
    - apply Rabs_derive_1. lra. }
  intros j P P' E E' q Hq. destruct j as [|[|j]]; cbn in E, E'; [| |destruct j; discriminate]; injection E as <-; injection E' as <-; cbn in Hq.
  - destruct q as [|[|q]]; [| |lia].
    + exists 1. split; [|cbn; lra]. apply D. intros t. cbv -[Rplus Rmult Rminus Ropp Rabs IZR]. rewrite !Rplus_0_l. f_equal. ring.
    + exists 2. split; [|cbn; lra]. apply D. intros t. cbv -[Rplus Rmult Rminus Ropp Rabs IZR]. rewrite !Rplus_0_l. f_equal. ring.
  - destruct q as [|q]; [|lia]. exists 1. split; [|cbn; lra]. apply D. intros t. cbv -[Rplus Rmult Rminus Ropp Rabs IZR]. rewrite !Rplus_0_l. f_equal. ring.
Qed.

Example c53_training_ex : exists (h : heap R) (data : list nat) (m : mlp R) (ls ls' : net), ready h data m 2 ls /\
  (forall x y, In (x, y) [(0, 1); (0, 1)]%nat -> In x data /\ In y data) /\
  descent (1/8) 2 (vof (nodes h)) [(0, 1); (0, 1)]%nat ls ls' /\ net_parameters ls = [[1; 1]; [1]] /\
  net_parameters ls' = [[1 - 1/8 - 1/8; 1 - 2/8 - 2/8]; [1 - 1/8 - 1/8]].
Proof.
  destruct (layer_ready _ _ [1; 2] [1; 1] 1 0 2 act_none eq_refl eq_refl ltac:(lia)) as (s & E & HR & EN & EG & RD).
  exists (hp s), [0; 1]%nat. eexists. exists [(1%nat, [1; 1], [1], fun x => x)], [(1%nat, [1 - 1/8 - 1/8; 1 - 2/8 - 2/8], [1 - 1/8 - 1/8], fun x => x)].
  split; [exact RD|]. split; [intros x y [H|[H|[]]]; injection H as <- <-; cbn; auto|]. split; [|split; reflexivity]. rewrite EN.
  assert (SM : forall w1 w2 b, 0 < w1 + 2 * w2 + b -> smooth 1 2 [(1%nat, [w1; w2], [b], fun x => x)] (entries 2 [1; 2]) (entries 1 [0])).
  { intros w1 w2 b HP. split.
    - cbn [smooth_net]. split; [|exact I]. intros. exists 1. apply derivable_pt_lim_id.
    - intros r c Hr Hc. cbn in Hc. assert (r = 0%nat) by lia. assert (c = 0%nat) by lia. subst. cbv -[Rplus Rmult Rminus Ropp Rabs IZR]. lra. }
  eapply (descent_cons _ _ _ 0 1 1); [reflexivity|reflexivity|lia|cbn; lia|apply SM; lra|apply tiny_step; lra|].
  eapply (descent_cons _ _ _ 0 1 1); [reflexivity|reflexivity|lia|cbn; lia|apply SM; lra|apply tiny_step; lra|]. constructor.
Qed.

(** C53: with a weight matrix of 33 entries the step is not the gradient step: [W.grad] is shuffled (C33). *)
Definition sparse : list R := 1 :: repeat 0 32.
Lemma c53_large_refuted :
  ~ forall (step : R) (h : heap R) (data : list nat) (m : mlp R) (i : nat) (ls : net) (x y n : nat),
    ready h data m i ls -> In x data -> In y data ->
    shape (vof (nodes h) x) = [n; i] -> shape (vof (nodes h) y) = [n; net_out i (outputs ls)] -> (0 < n)%nat ->
    smooth n i ls (entries i (array (vof (nodes h) x))) (entries (net_out i (outputs ls)) (array (vof (nodes h) y))) ->
    exists h' m' ls', train_step m (raw_scalar step) h x y = Ret (h', m') /\ ready h' data m' i ls' /\ extends h h' /\
      gd_step step n i (entries i (array (vof (nodes h) x))) (entries (net_out i (outputs ls)) (array (vof (nodes h) y))) ls ls'.
Proof.
  intros H. destruct (layer_ready _ _ sparse (repeat 0 33) 1 0 33 act_none eq_refl eq_refl ltac:(lia)) as (s & E & HR & EN & EG & RD).
  specialize (H 1 (hp s) [0; 1]%nat _ 33%nat _ 0%nat 1%nat 1%nat RD ltac:(cbn; auto) ltac:(cbn; auto)).
  rewrite EN in H. specialize (H eq_refl eq_refl ltac:(lia)).
  destruct H as (h' & m' & ls' & E' & RD' & _ & G1 & G2 & G3).
  { split.
    - cbn [smooth_net]. split; [|exact I]. intros. exists 1. apply derivable_pt_lim_id.
    - intros r c Hr Hc. cbn in Hc. assert (r = 0%nat) by lia. assert (c = 0%nat) by lia. subst. cbv -[Rplus Rmult Rminus Ropp Rabs IZR]. lra. }
  assert (NP := rd_net _ _ _ _ _ RD'). clear RD RD' EN EG HR.
  vm_compute in E. apply Ret_inj in E. subst s.
  destruct ls' as [|[[[o W'] b'] F'] [|? ?]]; [discriminate G1| |discriminate G1].
  specialize (G3 0%nat _ _ eq_refl eq_refl 0%nat ltac:(cbn; lia)). destruct G3 as (d & Dd & Ed).
  assert (d = 1).
  { eapply uniqueness_limite; [exact Dd|]. apply (D_ext (fun t => Rabs (1 + t))).
    - intros t. cbv -[Rplus Rmult Rminus Ropp Rabs IZR]. rewrite !Rplus_0_l. f_equal. ring.
    - apply (eq_ind (1 * (0 + 1)) (fun d => derivable_pt_lim _ 0 d)); [|ring]. apply (D_comp Rabs (fun t => 1 + t)); [apply D_plus; [apply D_const|apply derivable_pt_lim_id]|]. apply Rabs_derive_1. lra. }
  subst d. clear G1 G2 Dd. inversion NP as [|? l mm ? ? ? HA W1 S1 W2 S2 Hi Ho NP' P1 P2 P3]. subst.
  vm_compute in E'. apply Ret_inj in E'. injection E' as <- <- _. clear - Ed. cbv -[Rplus Rmult Rminus Ropp Rabs R0 R1 Rge_dec] in Ed.
  match type of Ed with context [if ?b then R1 else ?c] => generalize (if b then R1 else c) Ed; clear Ed; intros u Ed end.
  change R0 with 0 in Ed. change R1 with 1 in Ed. ring_simplify in Ed. lra.
Qed.
