(** * ClaimsDescent: a small training step decreases the loss (C58) *)
From Coq Require Import Reals Lra.
From Verif Require Import Base ModelIndex ModelTensor ModelOps ModelJvp ModelGraph ModelNN Spec SpecDual SpecGraph SpecNN
  Lists Sums RealInst SpecReal SpecTrain SpecDescent OpDeriv GradReal GraphFacts ProgFacts NNFacts TrainFacts ClaimsTrain DescentFacts.
Local Open Scope R_scope.

(** *** The example: one linear layer, [x = [1; 2]], [y = 0], weights [1; 1], bias [1]; the loss is 4. *)
Definition tiny : net := [(1%nat, [1; 1], [1], fun x => x)].
Definition tiny_g (j q : nat) : R := match j, q with O, O => 1 | O, _ => 2 | _, _ => 1 end.

Lemma tiny_gradient : is_gradient 1 2 (entries 2 [1; 2]) (entries 1 [0]) tiny tiny_g.
Proof.
  assert (D : forall k f, (forall t, f t = Rabs (4 + k * t)) -> derivable_pt_lim f 0 k).
  { intros k f Hf. apply (D_ext (fun t => Rabs (4 + k * t))); [intros t; symmetry; apply Hf|].
    apply (eq_ind (1 * (0 + (k * 1 + 0 * 0))) (fun d => derivable_pt_lim _ 0 d)); [|ring]. apply (D_comp Rabs (fun t => 4 + k * t)).
    - apply D_plus; [apply D_const|]. apply (D_mult (fun _ => k) (fun t => t)); [apply D_const|apply derivable_pt_lim_id].
    - apply Rabs_derive_1. lra. }
  intros j P q E Hq. destruct j as [|[|j]]; cbn in E; [| |destruct j; discriminate]; injection E as <-; cbn in Hq.
  - destruct q as [|[|q]]; [| |lia]; cbn [tiny_g]; apply D; intros t; cbv -[Rplus Rmult Rminus Ropp Rabs IZR]; rewrite !Rplus_0_l; f_equal; ring.
  - destruct q as [|q]; [|lia]. cbn [tiny_g]; apply D; intros t; cbv -[Rplus Rmult Rminus Ropp Rabs IZR]; rewrite !Rplus_0_l; f_equal; ring.
Qed.
Lemma tiny_norm : norm2 tiny tiny_g = 6.
Proof. cbv -[Rplus Rmult Rminus Ropp Rabs IZR]. change R0 with 0. change R1 with 1. ring. Qed.
Lemma tiny_smooth : smooth 1 2 tiny (entries 2 [1; 2]) (entries 1 [0]).
Proof.
  split.
  - cbn [smooth_net tiny]. split; [|exact I]. intros. exists 1. apply derivable_pt_lim_id.
  - intros r c Hr Hc. cbn in Hc. assert (r = 0%nat) by lia. assert (c = 0%nat) by lia. subst. cbv -[Rplus Rmult Rminus Ropp Rabs IZR]. lra.
Qed.
Lemma tiny_ready : exists (h : heap R) (m : mlp R), ready h [0; 1]%nat m 2 tiny /\
  vof (nodes h) 0 = mkRaw [1; 2] [1; 2]%nat /\ vof (nodes h) 1 = mkRaw [0] [1; 1]%nat.
Proof.
  destruct (layer_ready _ _ [1; 2] [1; 1] 1 0 2 act_none eq_refl eq_refl ltac:(lia)) as (s & E & HR & EN & EG & RD).
  exists (hp s). eexists. split; [exact RD|]. rewrite EN. split; reflexivity.
Qed.

(** C58: the loss the loop computes is the sum of the absolute differences of the network's outputs and the
    targets; no condition on sizes or kinks. *)
Lemma c58_loss_value :
  forall (h : heap R) (data : list nat) (m : mlp R) (i : nat) (ls : net) (x y n : nat),
    ready h data m i ls -> In x data -> In y data ->
    shape (vof (nodes h) x) = [n; i] -> shape (vof (nodes h) y) = [n; net_out i (outputs ls)] -> (0 < n)%nat ->
    computes_loss m h x y (net_loss n i ls (entries i (array (vof (nodes h) x))) (entries (net_out i (outputs ls)) (array (vof (nodes h) y)))).
Proof. exact loss_computed. Qed.
Example c58_loss_value_ex : exists (h : heap R) (m : mlp R), ready h [0; 1]%nat m 2 tiny /\ computes_loss m h 0 1 4.
Proof.
  destruct tiny_ready as (h & m & RD & E0 & E1). exists h, m. split; [exact RD|].
  pose proof (c58_loss_value h [0; 1]%nat m 2 tiny 0 1 1 RD ltac:(cbn; auto) ltac:(cbn; auto)) as H. rewrite E0, E1 in H.
  specialize (H eq_refl eq_refl ltac:(lia)). apply (eq_ind _ (computes_loss m h 0 1) H).
  cbv -[Rplus Rmult Rminus Ropp Rabs IZR]. rewrite Rabs_right; lra.
Qed.

(** C58: to first order, a step of size [step] changes the loss by [- step] times the sum of the squares of
    the partial derivatives. *)
Lemma c58_first_order :
  forall (h : heap R) (data : list nat) (m : mlp R) (i : nat) (ls : net) (x y n : nat) (g : nat -> nat -> R),
    ready h data m i ls -> In x data -> In y data ->
    shape (vof (nodes h) x) = [n; i] -> shape (vof (nodes h) y) = [n; net_out i (outputs ls)] -> (0 < n)%nat ->
    small_net n i ls ->
    smooth n i ls (entries i (array (vof (nodes h) x))) (entries (net_out i (outputs ls)) (array (vof (nodes h) y))) ->
    is_gradient n i (entries i (array (vof (nodes h) x))) (entries (net_out i (outputs ls)) (array (vof (nodes h) y))) ls g ->
    forall eps, 0 < eps -> exists delta, 0 < delta /\ forall step, step <> 0 -> Rabs step < delta ->
      exists h' m' before after, train_step m (raw_scalar step) h x y = Ret (h', m') /\
        computes_loss m h x y before /\ computes_loss m' h' x y after /\
        Rabs ((after - before) / step + norm2 ls g) < eps.
Proof. exact round_first_order. Qed.
Example c58_first_order_ex : exists (h : heap R) (m : mlp R), ready h [0; 1]%nat m 2 tiny /\
  shape (vof (nodes h) 0) = [1; 2]%nat /\ shape (vof (nodes h) 1) = [1; net_out 2 (outputs tiny)]%nat /\ small_net 1 2 tiny /\
  smooth 1 2 tiny (entries 2 (array (vof (nodes h) 0))) (entries (net_out 2 (outputs tiny)) (array (vof (nodes h) 1))) /\
  is_gradient 1 2 (entries 2 (array (vof (nodes h) 0))) (entries (net_out 2 (outputs tiny)) (array (vof (nodes h) 1))) tiny tiny_g /\
  norm2 tiny tiny_g = 6.
Proof.
  destruct tiny_ready as (h & m & RD & E0 & E1). exists h, m. rewrite E0, E1. split; [exact RD|]. split; [reflexivity|]. split; [reflexivity|].
  split; [cbn; lia|]. split; [exact tiny_smooth|]. split; [exact tiny_gradient|exact tiny_norm].
Qed.

(** C58: where the gradient is not zero, every small enough step decreases the loss, by at least half of what
    the first order predicts. *)
Lemma c58_step_decreases_loss :
  forall (h : heap R) (data : list nat) (m : mlp R) (i : nat) (ls : net) (x y n : nat) (g : nat -> nat -> R),
    ready h data m i ls -> In x data -> In y data ->
    shape (vof (nodes h) x) = [n; i] -> shape (vof (nodes h) y) = [n; net_out i (outputs ls)] -> (0 < n)%nat ->
    small_net n i ls ->
    smooth n i ls (entries i (array (vof (nodes h) x))) (entries (net_out i (outputs ls)) (array (vof (nodes h) y))) ->
    is_gradient n i (entries i (array (vof (nodes h) x))) (entries (net_out i (outputs ls)) (array (vof (nodes h) y))) ls g ->
    0 < norm2 ls g ->
    exists delta, 0 < delta /\ forall step, 0 < step < delta ->
      exists h' m' before after, train_step m (raw_scalar step) h x y = Ret (h', m') /\
        computes_loss m h x y before /\ computes_loss m' h' x y after /\ after < before - step * (norm2 ls g / 2).
Proof. exact round_decreases. Qed.
Example c58_step_decreases_loss_ex : exists (h : heap R) (m : mlp R) delta, 0 < delta /\ forall step, 0 < step < delta ->
  exists h' m' after, train_step m (raw_scalar step) h 0 1 = Ret (h', m') /\ computes_loss m' h' 0 1 after /\ after < 4 - step * 3.
Proof.
  destruct tiny_ready as (h & m & RD & E0 & E1). exists h, m.
  pose proof (c58_step_decreases_loss h [0; 1]%nat m 2 tiny 0 1 1 tiny_g RD ltac:(cbn; auto) ltac:(cbn; auto)) as H. rewrite E0, E1 in H.
  destruct H as (delta & Hd & H); [reflexivity|reflexivity|lia|cbn; lia|exact tiny_smooth|exact tiny_gradient|rewrite tiny_norm; lra|].
  exists delta. split; [exact Hd|]. intros step Hs. destruct (H step Hs) as (h' & m' & before & after & T & B & A & L). exists h', m', after.
  split; [exact T|]. split; [exact A|]. rewrite tiny_norm in L. pose proof (c58_loss_value h [0; 1]%nat m 2 tiny 0 1 1 RD ltac:(cbn; auto) ltac:(cbn; auto)) as B'.
  rewrite E0, E1 in B'. specialize (B' eq_refl eq_refl ltac:(lia)). rewrite (computes_loss_det _ _ _ _ _ _ B B') in L.
  assert (net_loss 1 2 tiny (entries 2 [1; 2]) (entries 1 [0]) = 4) as E by (cbv -[Rplus Rmult Rminus Ropp Rabs IZR]; rewrite Rabs_right; lra).
  cbn [array outputs map net_out tiny] in L. fold tiny in L. rewrite E in L. lra.
Qed.

(** C58: every smooth loss has a gradient, so the hypothesis above can always be met. *)
Lemma c58_gradient_exists :
  forall (n i : nat) (X Y : nat -> nat -> R) (ls : net), smooth n i ls X Y -> exists g, is_gradient n i X Y ls g.
Proof. intros n i X Y ls. apply gradient_exists. Qed.
Example c58_gradient_exists_ex : smooth 1 2 tiny (entries 2 [1; 2]) (entries 1 [0]) /\ is_gradient 1 2 (entries 2 [1; 2]) (entries 1 [0]) tiny tiny_g.
Proof. split; [exact tiny_smooth|exact tiny_gradient]. Qed.

(** C58: a step that is not small can increase the loss. *)
Lemma c58_any_step_refuted :
  ~ forall (h : heap R) (data : list nat) (m : mlp R) (i : nat) (ls : net) (x y n : nat) (g : nat -> nat -> R) (step : R),
    ready h data m i ls -> In x data -> In y data ->
    shape (vof (nodes h) x) = [n; i] -> shape (vof (nodes h) y) = [n; net_out i (outputs ls)] -> (0 < n)%nat ->
    small_net n i ls ->
    smooth n i ls (entries i (array (vof (nodes h) x))) (entries (net_out i (outputs ls)) (array (vof (nodes h) y))) ->
    is_gradient n i (entries i (array (vof (nodes h) x))) (entries (net_out i (outputs ls)) (array (vof (nodes h) y))) ls g ->
    0 < norm2 ls g -> 0 < step ->
    exists h' m' before after, train_step m (raw_scalar step) h x y = Ret (h', m') /\
        computes_loss m h x y before /\ computes_loss m' h' x y after /\ after < before.
Proof.
  intros H. destruct tiny_ready as (h & m & RD & E0 & E1).
  specialize (H h [0; 1]%nat m 2%nat tiny 0%nat 1%nat 1%nat tiny_g 2 RD ltac:(cbn; auto) ltac:(cbn; auto)).
  pose proof (loss_after 2 h [0; 1]%nat m 2 tiny 0 1 1 RD ltac:(cbn; auto) ltac:(cbn; auto)) as LA.
  pose proof (c58_loss_value h [0; 1]%nat m 2 tiny 0 1 1 RD ltac:(cbn; auto) ltac:(cbn; auto)) as B'.
  rewrite E0, E1 in H, LA, B'. cbn [array shape outputs map net_out tiny] in H, LA, B'. fold tiny in H, LA, B'.
  destruct H as (h' & m' & before & after & T & B & A & L); [reflexivity|reflexivity|lia|cbn; lia|exact tiny_smooth|exact tiny_gradient|rewrite tiny_norm; lra|lra|].
  destruct LA as (h2 & m2 & ls' & T2 & GD & A2); [reflexivity|reflexivity|lia|cbn; lia|exact tiny_smooth|].
  rewrite T2 in T. apply Ret_inj in T. injection T as <- <-.
  specialize (B' eq_refl eq_refl ltac:(lia)). rewrite (computes_loss_det _ _ _ _ _ _ B B'), (computes_loss_det _ _ _ _ _ _ A A2) in L.
  rewrite (gd_step_moves 2 1 2 _ _ tiny ls' tiny_g (fun j q => - tiny_g j q) tiny_gradient ltac:(auto) GD) in L.
  assert (E : net_loss 1 2 tiny (entries 2 [1; 2]) (entries 1 [0]) = 4) by (cbv -[Rplus Rmult Rminus Ropp Rabs IZR]; rewrite Rabs_right; lra).
  assert (E' : net_loss 1 2 (move tiny (fun j q => - tiny_g j q) 2) (entries 2 [1; 2]) (entries 1 [0]) = 8) by (cbv -[Rplus Rmult Rminus Ropp Rabs IZR]; rewrite Rabs_left; lra).
  lra.
Qed.
