(** * ClaimsKeep: training from any parameters, kinks included (C83) *)
From Coq Require Import Reals Lra.
From Verif Require Import Base ModelIndex ModelTensor ModelOps ModelJvp ModelGraph ModelNN Spec SpecDual SpecGraph SpecNN
  Lists IndexFacts TensorFacts OpsFacts Sums JvpFacts Dual ClaimsMat Adjoint GradRing RealInst SpecReal SpecTrain SpecDescent SpecFrozen SpecKeep OpDeriv GradReal
  FuelFacts GraphFacts ProgFacts BackFacts ClaimsProg SimFacts NNFacts ClaimsNN ClaimsGrad TrainFacts ClaimsTrain DescentFacts FrozenFacts KeepFacts.
Local Open Scope R_scope.

(** C83: one round of the training loop from any parameters, also where the loss has no derivative: the
    parameters move along the derivative of the loss in which relu and abs keep the branch they take there. *)
Lemma c83_training_step_anywhere :
  forall (step : R) (h : heap R) (data : list nat) (m : mlp R) (i : nat) (ls : net) (x y n : nat),
    ready h data m i ls -> In x data -> In y data ->
    shape (vof (nodes h) x) = [n; i] -> shape (vof (nodes h) y) = [n; net_out i (outputs ls)] -> (0 < n)%nat ->
    small_net n i ls ->
    exists h' m' ls', train_step m (raw_scalar step) h x y = Ret (h', m') /\ ready h' data m' i ls' /\ extends h h' /\
      kept_step step n i (entries i (array (vof (nodes h) x))) (entries (net_out i (outputs ls)) (array (vof (nodes h) y))) ls ls'.
Proof. exact round_any. Qed.

(** on [x = [1; 2]], target [y], weights [1; 1], bias 1: the output is 4 *)
Definition four : net := [(1%nat, [1; 1], [1], fun x => x)].
Lemma four_ready y : exists (h : heap R) (m : mlp R), ready h [0; 1]%nat m 2 four /\
  vof (nodes h) 0 = mkRaw [1; 2] [1; 2]%nat /\ vof (nodes h) 1 = mkRaw [y] [1; 1]%nat.
Proof.
  destruct (layer_ready _ _ [1; 2] [1; 1] 1 y 2 act_none eq_refl eq_refl ltac:(lia)) as (s & E & HR & EN & EG & RD).
  exists (hp s). eexists. split; [exact RD|]. rewrite EN. auto.
Qed.

(** the whole of a kept step of a net with one output and no activation *)
Lemma four_kept step ls' : kept_step step 1 2 (entries 2 [1; 2]) (entries 1 [4]) four ls' ->
  ls' = [(1%nat, [1 - step * 1; 1 - step * 2], [1 - step * 1], fun x => x)].
Proof.
  intros (A1 & A2 & Ks & HK & H). inversion HK as [|? K ? Ks' K1 K2]; subst. inversion K2; subst. apply keeps_id in K1 as ->.
  apply net_eq; [exact A1|]. cbn [net_parameters four map] in *.
  assert (L : exists P0 P1, net_parameters ls' = [P0; P1] /\ length P0 = 2%nat /\ length P1 = 1%nat).
  { destruct (net_parameters ls') as [|P0 [|P1 [|]]]; cbn in A2; try discriminate. injection A2 as L0 L1. eauto. }
  destruct L as (P0 & P1 & E & L0 & L1). rewrite E in H |- *.
  assert (D : forall f k d, (forall t, f t = k * t) -> derivable_pt_lim f 0 d -> d = k).
  { intros f k d Hf Hd. apply (uniqueness_limite f 0); [exact Hd|]. apply (D_ext (fun t => k * t)); [auto|].
    apply (eq_ind (k * 1 + 0 * 0) (fun d => derivable_pt_lim _ 0 d)); [|ring]. apply (D_mult (fun _ => k) (fun t => t)); [apply D_const|apply derivable_pt_lim_id]. }
  assert (B : forall x, abs_branch (0 + 1 * 1 + 2 * 1 + 1 - 4) x = x).
  { intros x. unfold abs_branch. cbn. change R0 with 0. destruct (Rge_dec _ 0); [reflexivity|lra]. }
  destruct P0 as [|p0 [|p1 [|]]]; try discriminate L0. destruct P1 as [|p2 [|]]; try discriminate L1.
  assert (E0 : p0 = 1 - step * 1).
  { destruct (H 0%nat _ _ eq_refl eq_refl 0%nat ltac:(cbn; lia)) as (d & Hd & E0). apply D with (k := 1) in Hd; [subst d; exact E0|]. intros t.
    unfold kept_loss. cbn -[abs_branch Rplus Rmult Rminus]. rewrite B. ring. }
  assert (E1 : p1 = 1 - step * 2).
  { destruct (H 0%nat _ _ eq_refl eq_refl 1%nat ltac:(cbn; lia)) as (d & Hd & E1). apply D with (k := 2) in Hd; [subst d; exact E1|]. intros t.
    unfold kept_loss. cbn -[abs_branch Rplus Rmult Rminus]. rewrite B. ring. }
  assert (E2 : p2 = 1 - step * 1).
  { destruct (H 1%nat _ _ eq_refl eq_refl 0%nat ltac:(cbn; lia)) as (d & Hd & E2). apply D with (k := 1) in Hd; [subst d; exact E2|]. intros t.
    unfold kept_loss. cbn -[abs_branch Rplus Rmult Rminus]. rewrite B. ring. }
  subst. reflexivity.
Qed.

Example c83_training_step_anywhere_ex : exists (h : heap R) (data : list nat) (m : mlp R) (ls : net), ready h data m 2 ls /\ In 0%nat data /\ In 1%nat data /\
  shape (vof (nodes h) 0) = [1; 2]%nat /\ shape (vof (nodes h) 1) = [1; net_out 2 (outputs ls)]%nat /\ small_net 1 2 ls /\
  (* the loss has a kink here *)
  net_loss 1 2 ls (entries 2 (array (vof (nodes h) 0))) (entries 1 (array (vof (nodes h) 1))) = 0 /\
  ~ smooth 1 2 ls (entries 2 (array (vof (nodes h) 0))) (entries (net_out 2 (outputs ls)) (array (vof (nodes h) 1))) /\
  outputs ls = [1%nat] /\ net_parameters ls = [[1; 1]; [1]].
Proof.
  destruct (four_ready 4) as (h & m & RD & V0 & V1). exists h, [0; 1]%nat, m, four. rewrite V0, V1.
  split; [exact RD|]. split; [cbn; auto|]. split; [cbn; auto|]. split; [reflexivity|]. split; [reflexivity|]. split; [cbn; lia|].
  assert (E : net_val 2 four (entries 2 [1; 2]) 0 0 - entries 1 [4] 0 0 = 0) by (cbn -[Rplus Rmult Rminus]; lra).
  split; [|split; [|split; reflexivity]].
  - unfold net_loss, abs_loss. cbn [array net_out outputs four map]. cbn [sumn seq map fold_left]. change (0 + (0 + Rabs (net_val 2 four (entries 2 [1; 2]) 0 0 - entries 1 [4] 0 0)) = 0). rewrite E, Rabs_R0. lra.
  - intros [_ H]. exact (H 0%nat 0%nat ltac:(lia) ltac:(cbn; lia) (Rminus_diag_uniq _ _ E)).
Qed.

(** C83: any number of rounds from any parameters: the loop never fails, and every round is such a step. *)
Lemma c83_training_anywhere :
  forall (step : R) (samples : list (nat * nat)) (data : list nat) (i : nat) (h : heap R) (m : mlp R) (ls : net),
    ready h data m i ls -> Forall (sample_ok data (vof (nodes h)) i ls) samples ->
    exists h' m' ls', train m (raw_scalar step) h samples = Ret (h', m') /\ ready h' data m' i ls' /\ extends h h' /\
      kept_descent step i (vof (nodes h)) samples ls ls'.
Proof. intros step samples data i h m ls RD HS. exact (train_any step data i samples h m ls RD HS). Qed.
Example c83_training_anywhere_ex : exists (h : heap R) (m : mlp R) (data : list nat), ready h data m 2 four /\
  Forall (sample_ok data (vof (nodes h)) 2 four) [(0, 1); (0, 1); (0, 1)]%nat.
Proof.
  destruct (four_ready 4) as (h & m & RD & V0 & V1). exists h, m, [0; 1]%nat. split; [exact RD|].
  assert (S : sample_ok [0; 1]%nat (vof (nodes h)) 2 four (0, 1)%nat).
  { split; [cbn; auto|]. split; [cbn; auto|]. exists 1%nat. cbn [fst snd]. rewrite V0, V1. split; [lia|]. split; [reflexivity|]. split; [reflexivity|cbn; lia]. }
  auto.
Qed.

(** C83: where the branches are taken the kept loss is the loss. *)
Lemma c83_kept_loss_is_the_loss :
  forall (n i : nat) (ls : net) (Ks : list (R -> R -> R)) (X Y : nat -> nat -> R),
    Forall2 keeps (map snd ls) Ks -> kept_loss n i ls ls Ks X Y = net_loss n i ls X Y.
Proof. exact kept_loss_self. Qed.
Example c83_kept_loss_is_the_loss_ex : Forall2 keeps (map snd [(1%nat, [1; -1], [0], relu_fn)]) [relu_branch] /\
  kept_loss 1 2 [(1%nat, [1; -1], [0], relu_fn)] [(1%nat, [1; -1], [0], relu_fn)] [relu_branch] (entries 2 [1; 1]) (entries 1 [3]) = 3.
Proof.
  assert (HK : Forall2 keeps (map snd [(1%nat, [1; -1], [0], relu_fn)]) [relu_branch]) by (constructor; [exact keeps_relu|constructor]).
  split; [exact HK|]. rewrite (kept_loss_self _ _ _ _ _ _ HK). unfold net_loss, abs_loss. cbn -[Rplus Rmult Rminus relu_fn]. unfold relu_fn, n_lt, n_zero, RNum. change R0 with 0. unfold layer_val. cbn -[Rplus Rmult Rminus Rlt_dec]. change R0 with 0.
  match goal with |- context [Rlt_dec ?a ?b] => destruct (Rlt_dec a b) end; rewrite Rabs_left; lra.
Qed.

(** C83: a network that fits its sample does not stay: at loss 0 the step is taken all the same, along the
    right-hand branch of the absolute value, and the loss becomes positive. *)
Lemma c83_fitted_network_stays_refuted :
  ~ forall (step : R) (h : heap R) (data : list nat) (m : mlp R) (i : nat) (ls : net) (x y n : nat),
    0 < step -> ready h data m i ls -> In x data -> In y data ->
    shape (vof (nodes h) x) = [n; i] -> shape (vof (nodes h) y) = [n; net_out i (outputs ls)] -> (0 < n)%nat ->
    small_net n i ls -> computes_loss m h x y 0 ->
    exists h' m', train_step m (raw_scalar step) h x y = Ret (h', m') /\ computes_loss m' h' x y 0.
Proof.
  intros H. destruct (four_ready 4) as (h & m & RD & V0 & V1).
  assert (E : net_val 2 four (entries 2 [1; 2]) 0 0 - entries 1 [4] 0 0 = 0) by (cbn -[Rplus Rmult Rminus]; lra).
  assert (C0 : computes_loss m h 0 1 0).
  { assert (Q := loss_computed h [0; 1]%nat m 2 four 0 1 1 RD ltac:(cbn; auto) ltac:(cbn; auto)). rewrite V0, V1 in Q. specialize (Q eq_refl eq_refl ltac:(lia)).
    replace 0 with (net_loss 1 2 four (entries 2 [1; 2]) (entries 1 [4])); [exact Q|]. unfold net_loss, abs_loss. cbn [sumn seq map fold_left net_out outputs four].
    change (0 + (0 + Rabs (net_val 2 four (entries 2 [1; 2]) 0 0 - entries 1 [4] 0 0)) = 0). rewrite E, Rabs_R0. lra. }
  destruct (round_any 1 h [0; 1]%nat m 2 four 0 1 1 RD ltac:(cbn; auto) ltac:(cbn; auto)) as (h1 & m1 & ls1 & T1 & RD1 & X1 & KS); rewrite ?V0, ?V1; try reflexivity; [lia|cbn; lia|].
  assert (Q0 := H 1 h [0; 1]%nat m 2%nat four 0%nat 1%nat 1%nat Rlt_0_1 RD ltac:(cbn; auto) ltac:(cbn; auto)). rewrite V0, V1 in Q0.
  destruct (Q0 eq_refl eq_refl ltac:(lia) ltac:(cbn; lia) C0) as (h' & m' & T & C).
  rewrite T1 in T. apply Ret_inj in T. injection T as <- <-.
  rewrite V0, V1 in KS. apply four_kept in KS. subst ls1.
  assert (W0 : vof (nodes h1) 0 = mkRaw [1; 2] [1; 2]%nat).
  { rewrite (vof_ext h h1); auto. apply plain_lt. apply (rd_plain _ _ _ _ _ RD). cbn. auto. }
  assert (W1 : vof (nodes h1) 1 = mkRaw [4] [1; 1]%nat).
  { rewrite (vof_ext h h1); auto. apply plain_lt. apply (rd_plain _ _ _ _ _ RD). cbn. auto. }
  assert (Q := loss_computed h1 [0; 1]%nat m1 2 _ 0 1 1 RD1 ltac:(cbn; auto) ltac:(cbn; auto)). rewrite W0, W1 in Q. specialize (Q eq_refl eq_refl ltac:(lia)).
  pose proof (computes_loss_det _ _ _ _ _ _ C Q) as Z. cbn -[Rplus Rmult Rminus] in Z. rewrite Rabs_left in Z; lra.
Qed.
