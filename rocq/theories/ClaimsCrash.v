(** * ClaimsCrash: what panics leave behind (C61) *)
From Coq Require Import ZArith.
From Verif Require Import Base ModelIndex ModelTensor ModelOps ModelJvp ModelGraph ModelCrash Spec SpecDual SpecGraph SpecCrash
  Lists GradRing FuelFacts GraphFacts ProgFacts BackFacts Instances CrashFacts.

(** *** [sum(x) + dot(x, y)]: the history of the sum is walked first, that of [dot] panics. *)
Definition x_prog : list (cmd Z) := [CNew [1; 2]%Z [2]; CNew [3; 4]%Z [2]; CDot 0 1; CSum 0; CAdd 3 2].

(** C61 is false: a [backward] that panics may have changed gradients. *)
Lemma c61_atomic_refuted :
  ~ (forall (T : Type) (NT : Num T) (s : state T) (c : cmd T) (p : panic), reach any s ->
       snd (exec_left s c) = Panic p -> forall x, var_grad (fst (exec_left s c)) x = var_grad s x).
Proof.
  intros H.
  assert (R : forall p s, run p init_state = Ret s -> (forall x y o, ~ In (CMulView x y o) p) -> reach any (s : state Z)).
  { intros p. induction p as [|c p IH] using rev_ind; intros s E Hn; [injection E as <-; constructor|].
    unfold run in E. rewrite foldM_app in E. apply bind_Ret_inv in E as (s1 & E1 & E). cbn [foldM] in E. apply bind_Ret_inv in E as (s2 & E2 & E). apply Ret_inj in E. subst s2.
    eapply reach_step; [apply IH; [exact E1|]|exact I|exact E2|].
    - intros x y o Hin. apply (Hn x y o), in_or_app. auto.
    - intros x y o ->. destruct (Hn x y o). apply in_or_app. right. left. reflexivity. }
  destruct (run x_prog init_state) as [s| |] eqn:E; [|discriminate E..].
  assert (Rs : reach any s) by (eapply R; [exact E|]; cbn; intros x y o Q; repeat (destruct Q as [Q|Q]; [discriminate Q|]); exact Q).
  vm_compute in E. injection E as <-. specialize (H Z ZNum _ (CBackward 4) PAssert Rs eq_refl 0). vm_compute in H. discriminate H.
Qed.
Example c61_atomic_refuted_ex :
  exists s : state Z, run x_prog init_state = Ret s /\ var_grad s 0 = None /\
    snd (exec_left s (CBackward 4)) = Panic PAssert /\ var_grad (fst (exec_left s (CBackward 4))) 0 = Some (mkRaw [1; 1]%Z [2]).
Proof. eexists. split; [vm_compute; reflexivity|]. repeat split. Qed.

(** C61: the calls end as in a program without guards, in the same state when they do not panic; ... *)
Lemma c61_agrees :
  forall (T : Type) (NT : Num T) (s : state T) (c : cmd T),
    (forall s', exec s c = Ret s' <-> exec_left s c = (s', Ret tt)) /\
    (forall p, exec s c = Panic p <-> snd (exec_left s c) = Panic p).
Proof.
  intros T NT s c. rewrite exec_agrees. destruct (exec_left s c) as [s1 [[]|p1|]]; cbn [bind snd]; split; intros; split; intros E; try discriminate; try congruence.
Qed.
Example c61_agrees_ex : exists s : state Z, run x_prog init_state = Ret s /\ exec s (CBackward 4) = Panic PAssert /\
  snd (exec_left s (CBackward 4)) = Panic PAssert /\ snd (exec_left s (CBackward 3)) = Ret tt.
Proof. eexists. split; [vm_compute; reflexivity|]. repeat split. Qed.

(** ... every call other than [backward] that panics leaves everything as it was; ... *)
Lemma c61_other_calls :
  forall (T : Type) (NT : Num T) (s : state T) (c : cmd T) (p : panic),
    (forall x, c <> CBackward x) -> snd (exec_left s c) = Panic p -> fst (exec_left s c) = s.
Proof.
  intros T NT s c p Hb. rewrite exec_left_other by exact Hb. destruct (exec s c) as [s'|q|]; cbn [fst snd]; intros E; [discriminate E|reflexivity|reflexivity].
Qed.
Example c61_other_calls_ex : exists s : state Z, run [CNew [1; 2]%Z [2]; CNew [3; 4; 5]%Z [3]] init_state = Ret s /\
  exists p, snd (exec_left s (CSub 0 1)) = Panic p.
Proof. eexists. split; [vm_compute; reflexivity|]. eexists. vm_compute. reflexivity. Qed.

(** ... a [backward] that panics leaves all tensors, the gradient of the root and those of tensors the root was not
    computed from; no gradient disappears, and those it leaves are well formed. *)
Lemma c61_backward_left :
  forall (T : Type) (NT : Num T) (s : state T) (r : nat), reach_guarded any s ->
    let h' := fst (backward_left (hp s) r) in
    nodes h' = nodes (hp s) /\ grads h' r = grads (hp s) r /\
    (forall j, ~ uses (nodes (hp s)) r j -> grads h' j = grads (hp s) j) /\
    (forall j, grads (hp s) j <> None -> grads h' j <> None) /\
    (forall j g, grads h' j = Some g -> wf g).
Proof.
  intros T NT s r R. assert (Hi : inv s) by (induction R as [|s c R IH Hok Hm]; [apply inv_init|apply (exec_left_inv s c IH Hm)]).
  destruct (left_effect (hp s) r (proj1 Hi)) as (Q1 & Q2 & Q3 & Q4 & Q5 & _). cbn zeta. repeat split; auto. intros j g E. apply (proj2 Q1 j g E).
Qed.
Example c61_backward_left_ex : exists s : state Z, run x_prog init_state = Ret s /\
  snd (backward_left (hp s) 4) = Panic PAssert /\ grads (fst (backward_left (hp s) 4)) 1 = None /\ grads (fst (backward_left (hp s) 4)) 2 = Some (mkRaw [1]%Z [1]).
Proof. eexists. split; [vm_compute; reflexivity|]. repeat split. Qed.

(** C61: after any number of caught panics every tensor is well formed and was computed from earlier ones, gradients have
    the shape of their tensor (or, for sums, of what was summed), and no call runs forever. *)
Lemma c61_invariants :
  forall (T : Type) (NT : Num T) (s : state T), reach_guarded tidy s ->
    recorded (nodes (hp s)) /\ Forall (fun i => i < length (nodes (hp s))) (env s) /\
    (forall n g, grads (hp s) n = Some g -> wf g /\ n < length (nodes (hp s)) /\
       (shape g = shape (vof (nodes (hp s)) n) \/ exists i, fn_of (nodes (hp s)) n = Some (KSum, [i]) /\ shape g = shape (vof (nodes (hp s)) i))) /\
    forall c, snd (exec_left s c) <> NoFuel.
Proof.
  intros T NT s R. assert (Hi : inv s /\ shapes_ok (hp s)).
  { induction R as [|s c R [IH1 IH2] Hok Hm]; [split; [apply inv_init|intros n g E; discriminate]|]. split; [apply (exec_left_inv s c IH1 Hm)|apply left_shapes; auto]. }
  destruct Hi as [[[HR HG] HE] HS]. split; [exact HR|]. split; [exact HE|]. split.
  - intros n g E. destruct (HG n g E) as [W L]. split; [exact W|]. split; [exact L|]. destruct (HS n g E) as [Q|(i & Q1 & _ & Q2)]; eauto.
  - intros c E. apply (nf_exec s c (recorded_backrefs _ HR)). rewrite exec_agrees. destruct (exec_left s c) as [s1 st]. cbn [snd] in E. rewrite E. reflexivity.
Qed.
Example c61_invariants_ex : var_grad (run_guarded (x_prog ++ [CBackward 4; CAdd 0 3; CBackward 4; CSum 1; CBackward 5]) init_state) 0 = Some (mkRaw [2; 2]%Z [2]) /\
  var_grad (run_guarded (x_prog ++ [CBackward 4; CBmm 0 3; CBackward 4; CSum 1; CBackward 5]) init_state) 1 = Some (mkRaw [1; 1]%Z [2]).
Proof. split; vm_compute; reflexivity. Qed.

(** C61: what worked before works after a caught panic: [backward] still succeeds on the roots C41 names. *)
Lemma c61_still_works :
  forall (T : Type) (NT : Num T) (s : state T) (r : nat), reach_guarded tidy s ->
    nonempty (nodes (hp s)) -> matrices_only (nodes (hp s)) ->
    size (shape (vof (nodes (hp s)) r)) = 1 -> accepts (nodes (hp s)) r -> snd (backward_left (hp s) r) = Ret tt.
Proof.
  intros T NT s r R HN HM H1 HA. assert (Hi : inv s /\ shapes_ok (hp s)).
  { clear - R. induction R as [|s c R [IH1 IH2] Hok Hm]; [split; [apply inv_init|intros n g E; discriminate]|]. split; [apply (exec_left_inv s c IH1 Hm)|apply left_shapes; auto]. }
  destruct Hi as [[Hi _] HS]. assert (HA' := HA). destruct HA' as (k & ins & Ef & _).
  destruct (root_succeeds (nodes (hp s)) (graph_ok_of _ (proj1 Hi) HN HM) r k ins (grads (hp s)) H1 HA Ef (gr_ok_of _ Hi HS HN)) as (gr' & E & _).
  assert (B : backward (hp s) r = Ret (mkHeap (nodes (hp s)) gr')).
  { apply (backward_compute _ _ k ins); auto. unfold vof in *. destruct (nth_error (nodes (hp s)) r) as [nd|] eqn:En; [|reflexivity].
    destruct (proj1 Hi r nd En) as [W _]. unfold wf in W. congruence. }
  rewrite backward_agrees in B. destruct (backward_left (hp s) r) as [h' [[]|p|]]; [reflexivity|discriminate B..].
Qed.
Example c61_still_works_ex : let s := run_guarded (x_prog ++ [CBackward 4]) init_state in
  size (shape (vof (nodes (hp s)) 3)) = 1 /\ accepts (nodes (hp s)) 3 /\ snd (backward_left (hp s) 3) = Ret tt /\ grads (hp s) 3 <> None.
Proof.
  vm_compute. repeat split; [|discriminate]. exists KSum, [0]. split; [reflexivity|]. intros m ins U E.
  inversion U as [|? k ins' i ? Ef Hi U']; subst; [discriminate E|]. cbn in Ef. injection Ef as <- <-. destruct Hi as [<-|[]].
  inversion U' as [|? k ins' i ? Ef Hi U'']; subst; [discriminate E|discriminate Ef].
Qed.

(** C61: [zero_grad] on what the root was computed from undoes the damage: the heap is as if [backward] had not been called. *)
Lemma c61_recover :
  forall (T : Type) (NT : Num T) (s : state T) (r : nat) (ws : list nat), reach_guarded any s ->
    (forall j, uses (nodes (hp s)) r j -> j <> r -> In j ws) ->
    same_heap (zero_all ws (fst (backward_left (hp s) r))) (zero_all ws (hp s)).
Proof.
  intros T NT s r ws R HW.
  destruct (c61_backward_left T NT s r R) as (Q1 & Q2 & Q3 & _). cbn zeta in *.
  assert (Z1 : forall ws (h : heap T), nodes (zero_all ws h) = nodes h).
  { intros ws'. induction ws' as [|w ws' IH]; intros h; [reflexivity|]. exact (IH (zero_grad h w)). }
  assert (Z2 : forall ws (h : heap T) j, grads (zero_all ws h) j = if in_dec Nat.eq_dec j ws then None else grads h j).
  { intros ws'. induction ws' as [|w ws' IH]; intros h j; [reflexivity|]. cbn [zero_all fold_left]. change (fold_left zero_grad ws' (zero_grad h w)) with (zero_all ws' (zero_grad h w)).
    rewrite IH. cbn [grads zero_grad]. unfold upd. destruct (in_dec Nat.eq_dec j ws') as [Hin|Hin]; destruct (in_dec Nat.eq_dec j (w :: ws')) as [Hin'|Hin'].
    - reflexivity. - destruct Hin'. right. exact Hin.
    - destruct Hin' as [->|Hin']; [rewrite Nat.eqb_refl; reflexivity|contradiction].
    - destruct (Nat.eqb_spec j w) as [->|]; [destruct Hin'; left; reflexivity|reflexivity]. }
  split; [rewrite !Z1; exact Q1|]. intros j. rewrite !Z2. destruct (in_dec Nat.eq_dec j ws) as [Hin|Hin]; [reflexivity|].
  destruct (Nat.eq_dec j r) as [->|Hne]; [exact Q2|]. apply Q3. intros U. exact (Hin (HW j U Hne)).
Qed.
Example c61_recover_ex : exists s : state Z, run x_prog init_state = Ret s /\
  grads (fst (backward_left (hp s) 4)) 0 <> None /\ grads (zero_all [0; 1; 2; 3] (fst (backward_left (hp s) 4))) 0 = None.
Proof. eexists. split; [vm_compute; reflexivity|]. split; [discriminate|reflexivity]. Qed.
