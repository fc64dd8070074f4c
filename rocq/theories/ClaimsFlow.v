(** * ClaimsFlow: [backward] succeeds exactly if its gradients get through *)
From Coq Require Import ZArith.
From Verif Require Import Base ModelIndex ModelTensor ModelOps ModelJvp ModelGraph Spec SpecDual SpecGraph SpecFlow
  Lists IndexFacts TensorFacts FuelFacts GraphFacts ProgFacts BackFacts FlowFacts ClaimsProg Instances.

(** C77: [backward] succeeds exactly if the root has one element and a history, and the gradients get through to the leaves ... *)
Lemma c77_backward_exactly :
  forall (T : Type) (NT : Num T) (s : state T) (r : nat), reach tidy s -> nonempty (nodes (hp s)) ->
    ((exists h', backward (hp s) r = Ret h') <->
     size (shape (vof (nodes (hp s)) r)) = 1 /\ fn_of (nodes (hp s)) r <> None /\ gets_through (nodes (hp s)) r []).
Proof.
  intros T NT s r R HN. destruct (reach_inv _ _ R) as [Hi _].
  pose proof (graph_any_of _ _ _ (proj1 Hi) HN) as HG. pose proof (gr_ok_of _ Hi (shapes_reach s R) HN) as Hgr.
  split.
  - intros [h' E]. unfold backward, hget in E. apply bind_Ret_inv in E as (nd & En & E).
    assert (Q : nth_error (nodes (hp s)) r = Some nd) by (unfold vindex in En; destruct (nth_error (nodes (hp s)) r); [injection En as <-; reflexivity|discriminate]).
    apply bind_Ret_inv in E as (u & Ea & E). apply assert_inv in Ea. apply Nat.eqb_eq in Ea.
    destruct (n_fn nd) as [[k ins]|] eqn:Ef; [|discriminate]. cbn [unwrap_opt bind] in E. apply bind_Ret_inv in E as (gr & E & _).
    destruct (proj1 Hi r nd Q) as [W _]. unfold wf in W.
    assert (Ev : vof (nodes (hp s)) r = n_val nd) by (unfold vof; rewrite Q; reflexivity).
    assert (Efn : fn_of (nodes (hp s)) r = Some (k, ins)) by (unfold fn_of; rewrite Q; exact Ef).
    assert (S1 : size (shape (vof (nodes (hp s)) r)) = 1) by (rewrite Ev; congruence).
    split; [exact S1|]. split; [congruence|].
    apply (flow_only _ HG _ r k ins (raw_scalar n_one) _ _ Efn) in E; auto; [reflexivity|left; cbn; auto].
  - intros (S1 & Hf & HT). destruct (fn_of (nodes (hp s)) r) as [[k ins]|] eqn:Ef; [|congruence].
    assert (Hr : r < length (nodes (hp s))) by (apply nth_error_Some; unfold fn_of in Ef; destruct (nth_error (nodes (hp s)) r); congruence).
    destruct (flow_succeeds _ HG (S (length (nodes (hp s)))) r k ins (raw_scalar n_one) (grads (hp s))) as (gr' & E & _); auto; [reflexivity|].
    exists (mkHeap (nodes (hp s)) gr'). apply (backward_compute _ _ k ins); auto.
    unfold vof in *. destruct (nth_error (nodes (hp s)) r) as [nd|] eqn:En; [|reflexivity]. destruct (proj1 Hi r nd En) as [W _]. unfold wf in W. congruence.
Qed.
Example c77_backward_exactly_ex :
  (exists s : state Z, run [CNew [2; 3]%Z [1; 2]; CNeg 0; CAbs 1; CDot 2 2; CBackward 3] init_state = Ret s /\
     gets_through (nodes (hp s)) 3 []) /\
  run [CNew [2; 3]%Z [1; 2]; CNeg 0; CDot 1 1; CDot 2 2; CBackward 3] init_state = Panic PAssert /\
  (exists s : state Z, run [CNew [2; 3]%Z [1; 1; 2]; CTanh 0; CTanh 1; CDot 2 2; CBackward 3] init_state = Ret s) /\
  run [CNew [2; 3]%Z [1; 1; 2]; CNeg 0; CTanh 1; CDot 2 2; CBackward 3] init_state = Panic PAssert.
Proof.
  split.
  { eexists. split; [vm_compute; reflexivity|]. cbn [nodes hp].
    set (ns := [_; _; _; _]).
    assert (L2 : gets_through ns 2 [1; 2]).
    { apply (gt_op ns 2 KAbs [1] [1; 2] [[1; 2]]); [reflexivity|apply (ho_abs [1; 2])|].
      constructor; [|constructor]. apply (gt_op ns 1 KNeg [0] [1; 2] [[1; 2]]); [reflexivity|apply (ho_neg [1; 2]); left; reflexivity|].
      constructor; [|constructor]. apply gt_leaf. reflexivity. }
    apply (gt_op ns 3 KDot [2; 2] [] [[1; 2]; [1; 2]]); [reflexivity|apply (ho_dot [1; 2])|]. constructor; [exact L2|constructor; [exact L2|constructor]].
  }
  split; [vm_compute; reflexivity|]. split; [eexists; vm_compute; reflexivity|]. vm_compute. reflexivity. Qed.

(** ... otherwise it panics; ... *)
Lemma c77_panics_otherwise :
  forall (T : Type) (NT : Num T) (s : state T) (r : nat), reach tidy s -> nonempty (nodes (hp s)) ->
    ((exists p, backward (hp s) r = Panic p) <->
     size (shape (vof (nodes (hp s)) r)) <> 1 \/ fn_of (nodes (hp s)) r = None \/ ~ gets_through (nodes (hp s)) r []).
Proof.
  intros T NT s r R HN. pose proof (c77_backward_exactly T NT s r R HN) as HE. destruct (reach_inv _ _ R) as [Hi _].
  assert (NF : backward (hp s) r <> NoFuel) by (apply nf_backward; apply recorded_backrefs; apply Hi).
  destruct (backward (hp s) r) as [h'|p|] eqn:E; [| |congruence].
  - destruct (proj1 HE) as (S1 & Hf & HT); [eauto|]. split; [intros [p Q]; discriminate|]. intros [Q|[Q|Q]]; contradiction.
  - split; [intros _|eauto]. destruct (Nat.eq_dec (size (shape (vof (nodes (hp s)) r))) 1) as [S1|]; [|auto]. right.
    destruct (fn_of (nodes (hp s)) r) as [fn|] eqn:Ef; [|auto]. right. intros HT. destruct (proj2 HE) as [h' Q]; [|discriminate]. split; [exact S1|]. split; [congruence|exact HT].
Qed.
Example c77_panics_otherwise_ex :
  run [CNew [2; 3]%Z [2]; CNeg 0; CDot 0 1; CBackward 2] init_state = Panic PAssert /\
  run [CNew [2; 3]%Z [2; 1]; CNew [4; 5]%Z [1; 2]; CBmm 1 0; CBackward 2] init_state = Panic PIndex /\
  run [CNew [2]%Z [1]; CBackward 0] init_state = Panic PUnwrap.
Proof. split; [vm_compute; reflexivity|]. split; vm_compute; reflexivity. Qed.

(** ... so it only depends on the shapes and the operations, not on the elements, nor on gradients stored before. *)
Lemma c77_shapes_only :
  forall (T U : Type) (NT : Num T) (NU : Num U) (s : state T) (s' : state U) (r : nat), reach tidy s -> reach tidy s' ->
    nonempty (nodes (hp s)) -> length (nodes (hp s)) = length (nodes (hp s')) ->
    (forall i, shape (vof (nodes (hp s)) i) = shape (vof (nodes (hp s')) i) /\ fn_of (nodes (hp s)) i = fn_of (nodes (hp s')) i) ->
    ((exists h, backward (hp s) r = Ret h) <-> (exists h, backward (hp s') r = Ret h)).
Proof.
  intros T U NT NU s s' r R R' HN HL HS.
  assert (HN' : nonempty (nodes (hp s'))) by (intros i Hi; rewrite <- (proj1 (HS i)); apply HN; lia).
  rewrite (c77_backward_exactly T NT s r R HN), (c77_backward_exactly U NU s' r R' HN').
  rewrite (proj1 (HS r)), (proj2 (HS r)).
  assert (D1 : gets_through (nodes (hp s)) r [] -> gets_through (nodes (hp s')) r []) by (apply gets_through_same; exact HS).
  assert (D2 : gets_through (nodes (hp s')) r [] -> gets_through (nodes (hp s)) r []) by (apply gets_through_same; intros i; destruct (HS i); auto).
  tauto.
Qed.
Example c77_shapes_only_ex :
  (exists s : state Z, run [CNew [2; 3]%Z [2]; CTanh 0; CSum 1; CBackward 2; CBackward 2] init_state = Ret s) /\
  (exists s : state Z, run [CNew [-7; 0]%Z [2]; CTanh 0; CSum 1; CBackward 2] init_state = Ret s).
Proof. split; eexists; vm_compute; reflexivity. Qed.

(** C78: A product of a batch of matrices can be differentiated. False: the sum of one cannot. *)
Lemma c78_batches_refuted :
  ~ forall (T : Type) (NT : Num T) (s : state T) (r n i j : nat), reach tidy s -> nonempty (nodes (hp s)) ->
      fn_of (nodes (hp s)) r = Some (KSum, [n]) -> fn_of (nodes (hp s)) n = Some (KBmm, [i; j]) ->
      fn_of (nodes (hp s)) i = None -> fn_of (nodes (hp s)) j = None -> exists h', backward (hp s) r = Ret h'.
Proof.
  intros H.
  assert (E : exists s : state Z, run [CNew [1; 2; 3; 4]%Z [2; 1; 2]; CNew [5; 6]%Z [2; 1]; CBmm 0 1; CSum 2] init_state = Ret s /\
    nonempty (nodes (hp s)) /\ fn_of (nodes (hp s)) 3 = Some (KSum, [2]) /\ fn_of (nodes (hp s)) 2 = Some (KBmm, [0; 1]) /\
    fn_of (nodes (hp s)) 0 = None /\ fn_of (nodes (hp s)) 1 = None /\ backward (hp s) 3 = Panic PAssert).
  { eexists. split; [vm_compute; reflexivity|]. split.
    - intros n Hn. cbn [nodes hp length] in *. do 4 (destruct n as [|n]; [vm_compute; repeat constructor|]). lia.
    - split; [reflexivity|]. split; [reflexivity|]. split; [reflexivity|]. split; [reflexivity|]. vm_compute. reflexivity. }
  destruct E as (s & E & HN & F3 & F2 & F0 & F1 & B). destruct (H Z _ s 3 2 0 1) as [h' Q]; auto; [|congruence].
  eapply run_reach; [apply reach_init| | |exact E]; repeat constructor; intros; discriminate.
Qed.

(** C78: [backward] panics wherever its root was computed from a product with a left factor of three or more dimensions, ... *)
Lemma c78_panics :
  forall (T : Type) (NT : Num T) (s : state T) (r n i j : nat), reach tidy s -> nonempty (nodes (hp s)) ->
    uses (nodes (hp s)) r n -> fn_of (nodes (hp s)) n = Some (KBmm, [i; j]) ->
    3 <= length (shape (vof (nodes (hp s)) i)) -> size (shape (vof (nodes (hp s)) i)) <> 1 ->
    exists p, backward (hp s) r = Panic p.
Proof.
  intros T NT s r n i j R HN U Fn L3 S1. apply (c77_panics_otherwise T NT s r R HN). right. right. intros HT.
  destruct (gets_through_uses _ _ _ _ _ U _ HT) as [g HT']. inversion HT' as [|? k ins ? gs E HH FF]; subst; [congruence|].
  rewrite Fn in E. injection E as <- <-. cbn [map] in HH.
  assert (O : forall q, size (repeat 1 q) = 1) by (induction q; cbn [repeat size]; lia).
  inversion HH as [| | | | | | | |n' k' m' E1|q m R3 E1|q R3 E1| | |]; subst.
  - match goal with Q : [n'; k'] = _ |- _ => rewrite <- Q in L3 end. cbn in L3. lia.
  - match goal with Q : repeat 1 q = _ |- _ => rewrite <- Q, O in S1 end. congruence.
  - match goal with Q : repeat 1 q = _ |- _ => rewrite <- Q, O in S1 end. congruence.
Qed.
Example c78_panics_ex :
  run [CNew [1; 2; 3; 4]%Z [2; 1; 2]; CNew [5; 6]%Z [2; 1]; CBmm 0 1; CTanh 2; CSum 3; CBackward 4] init_state = Panic PAssert.
Proof. vm_compute. reflexivity. Qed.

(** ... unless that factor has a single element: the sum of such a product can be differentiated exactly then. *)
Lemma c78_sum_exactly :
  forall (T : Type) (NT : Num T) (s : state T) (r n i j : nat), reach tidy s -> nonempty (nodes (hp s)) ->
    fn_of (nodes (hp s)) r = Some (KSum, [n]) -> fn_of (nodes (hp s)) n = Some (KBmm, [i; j]) ->
    fn_of (nodes (hp s)) i = None -> fn_of (nodes (hp s)) j = None -> 3 <= length (shape (vof (nodes (hp s)) i)) ->
    ((exists h', backward (hp s) r = Ret h') <-> size (shape (vof (nodes (hp s)) i)) = 1).
Proof.
  intros T NT s r n i j R HN Fr Fn Fi Fj L3. split.
  - intros [h' E]. destruct (Nat.eq_dec (size (shape (vof (nodes (hp s)) i))) 1) as [|S1]; [assumption|].
    destruct (c78_panics T NT s r n i j R HN) as [p Q]; auto; [|congruence]. eapply uses_step; [exact Fr|left; reflexivity|constructor].
  - intros S1. destruct (reach_inv _ _ R) as [Hi _]. pose proof (graph_any_of _ _ _ (proj1 Hi) HN) as HG.
    destruct (op_any _ HG _ _ _ Fr) as (_ & _ & [Hs|(Q & _)]); [|discriminate]. destruct (op_any _ HG _ _ _ Fn) as (_ & _ & Hb).
    set (a := vof (nodes (hp s)) i) in *. set (b := vof (nodes (hp s)) j) in *. set (y := vof (nodes (hp s)) n) in *.
    assert (Ea : shape a = repeat 1 (length (shape a))) by (apply size_one_ones; exact S1).
    assert (D : exists m, shape b = [1; m] /\ size (shape y) = m).
    { destruct Hb as [Hb|(_ & a' & b' & E & _ & _ & _ & _ & _ & MM)].
      - exfalso. cbn [map] in Hb. inversion Hb; subst. unfold a in L3. match goal with Q : shape _ = [_; _] |- _ => rewrite Q in L3 end. cbn in L3. lia.
      - cbn [map] in E. injection E as <- <-. fold a b in MM. inversion MM as [n' k m E1 E2 E3|d n' k m E1 E2 E3|ones n' k m Ho Hf E1 E2 E3].
        + rewrite <- E1 in L3. cbn in L3. lia.
        + rewrite <- E1 in S1. cbn [size] in S1. exists m. assert (d = 1 /\ n' = 1 /\ k = 1) as (-> & -> & ->) by (rewrite Nat.mul_1_r in S1; apply Nat.eq_mul_1 in S1 as [? S1]; apply Nat.eq_mul_1 in S1; tauto). split; [reflexivity|cbn; lia].
        + rewrite <- E1 in Ea. apply (f_equal (fun l => last l 0)) in Ea. rewrite app_length in Ea. cbn [length] in Ea.
          replace (length ones + 2) with (S (length ones) + 1) in Ea by lia. rewrite repeat_app in Ea. cbn [repeat] in Ea. rewrite last_last in Ea.
          replace (ones ++ [n'; k]) with ((ones ++ [n']) ++ [k]) in Ea by (rewrite <- app_assoc; reflexivity). rewrite last_last in Ea. subst k.
          exists m. split; [reflexivity|cbn; lia]. }
    destruct D as (m & Eb & Ey).
    apply (c77_backward_exactly T NT s r R HN). split; [inversion Hs; reflexivity|]. split; [congruence|].
    apply (gt_op _ r KSum [n] [] [[1; size (shape y)]]); [exact Fr|apply ho_sum|]. constructor; [|constructor].
    rewrite Ey. apply (gt_op _ n KBmm [i; j] [1; m] [[1; 1]; [1; m]]); [exact Fn| |].
    + cbn [map]. fold a b. rewrite Ea, Eb. apply ho_bmm_ones. exact L3.
    + constructor; [apply gt_leaf; exact Fi|]. constructor; [apply gt_leaf; exact Fj|constructor].
Qed.
Example c78_sum_exactly_ex :
  exists s : state Z, run [CNew [3]%Z [1; 1; 1]; CNew [5; 6]%Z [1; 2]; CBmm 0 1; CSum 2; CBackward 3; CGrad 0; CGrad 1] init_state = Ret s /\
    env s = [0; 1; 2; 3; 4; 5] /\
    vof (nodes (hp s)) 4 = mkRaw [11%Z] [1; 1; 1] /\ vof (nodes (hp s)) 5 = mkRaw [3; 3]%Z [1; 2].
Proof. eexists. vm_compute. repeat split. Qed.
