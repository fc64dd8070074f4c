(** * ClaimsApi: programs over the whole public interface (C62) and copies of tensors (C63) *)
From Coq Require Import ZArith.
From Verif Require Import Base ModelIndex ModelTensor ModelOps ModelJvp ModelGraph ModelApi Spec SpecDual SpecGraph SpecApi
  Lists TensorFacts GradRing FuelFacts GraphFacts ProgFacts BackFacts Instances ApiFacts CopyFacts.

(** *** [RawTensor]s, views and tensors in one program: a view of [w] reshaped and used in [bmm], a sum
    through [RawTensor], a copy. *)
Definition a_prog : list (call Z) :=
  [ARc (CNew [1; 2]%Z [2; 1]); ARc (CNew [3; 4]%Z [1; 2]); ADeref 1; ABmm 0 2; ASum 3; ASlice 1 [mkSR 0 1; mkSR 1 2]; AReshape 5 [1; 1]; ABmm 6 6; ASum 2; AClone 2].
Definition a_end : astate Z := match a_run a_prog a_init with Some (Ret a) => a | _ => a_init end.
Lemma a_end_run : a_run a_prog a_init = Some (Ret a_end).
Proof. vm_compute. reflexivity. Qed.
Lemma a_end_reach : a_reach any_call a_end.
Proof. eapply run_reach; [|constructor|exact a_end_run]. intros; exact I. Qed.

(** C62: whatever public function is called, on a tensor, a [RawTensor] or a view: the values the program
    holds read as before, and gradients change only by [update_grad], [zero_grad] and [backward]. *)
Lemma c62_values_kept : forall (T : Type) (NT : Num T) (a : astate T) (c : call T) (a' : astate T),
  a_reach any_call a -> a_exec a c = Some (Ret a') ->
  (exists e, aenv a' = aenv a ++ e) /\ (forall v, In v (aenv a) -> as_like (ahp a') v = as_like (ahp a) v) /\
  (changes_grads c = false -> forall v, In v (aenv a) -> grads (ahp a') (tensor_of v) = grads (ahp a) (tensor_of v)).
Proof. intros T NT a c a'.
  intros R E. pose proof (reach_env _ _ R) as Hok. destruct (effect_all a c a' Hok E) as ((e & E1) & _ & e' & E2 & _).
  split; [exists e'; exact E2|]. split.
  - intros v Hv. unfold env_ok in Hok. rewrite Forall_forall in Hok. specialize (Hok v Hv).
    destruct v as [i|i|i s o]; cbn [tensor_of as_like] in *; unfold hget, vindex; rewrite E1, nth_error_app1 by exact Hok; reflexivity.
  - intros Hc v Hv. destruct (exec_grows a c a' Hok Hc E) as ((_ & K & _) & _). apply K. unfold env_ok in Hok. rewrite Forall_forall in Hok. exact (Hok v Hv).
Qed.
Example c62_values_kept_ex : a_reach any_call a_end /\ exists a', a_exec a_end (ABmm 5 1) = Some (Ret a') /\ as_like (ahp a') (VRc 1) = Ret (LRaw (mkRaw [3; 4]%Z [1; 2])).
Proof. split; [exact a_end_reach|]. eexists. split; vm_compute; reflexivity. Qed.

(** C62: those three calls change gradients of tensors their receiver was computed from, and nothing else. *)
Lemma c62_gradient_calls : forall (T : Type) (NT : Num T) (a : astate T) (c : call T) (a' : astate T),
  changes_grads c = true -> a_exec a c = Some (Ret a') ->
  nodes (ahp a') = nodes (ahp a) /\ aenv a' = aenv a /\
  exists x v, nth_error (aenv a) x = Some v /\
    ((exists y, c = AUpdateGrad x y) \/ c = AZeroGrad x \/ c = ABackward x) /\
    forall j, ~ uses (nodes (ahp a)) (tensor_of v) j -> grads (ahp a') j = grads (ahp a) j.
Proof. intros T NT a c a'. exact (exec_cells a c a'). Qed.
Example c62_gradient_calls_ex : exists a', a_exec a_end (ABackward 4) = Some (Ret a') /\
  grads (ahp a') 0 = Some (mkRaw [7; 7]%Z [2; 1]) /\ grads (ahp a') 1 = None.
Proof. eexists. split; [vm_compute; reflexivity|]. split; vm_compute; reflexivity. Qed.

(** C62: every program that type-checks ends: with a state or with a panic. *)
Lemma c62_terminates : forall (T : Type) (NT : Num T) (p : list (call T)),
  a_run p a_init <> Some NoFuel.
Proof. intros T NT p. apply run_ends; [constructor|]. intros n nd k ins E. destruct n; discriminate. Qed.
Example c62_terminates_ex : a_run a_prog a_init = Some (Ret a_end) /\ a_run (a_prog ++ [ADotMethod 0 1]) a_init = Some (Panic PTodo).
Proof. split; [exact a_end_run|vm_compute; reflexivity]. Qed.

(** C62: no tensor is computed from itself. *)
Lemma c62_acyclic : forall (T : Type) (NT : Num T) (a : astate T),
  a_reach any_call a -> forall n m, uses (nodes (ahp a)) n m -> m <= n /\ (uses (nodes (ahp a)) m n -> m = n).
Proof. intros T NT a.
  intros R. pose proof (reach_back _ _ R) as B.
  assert (L : forall n m, uses (nodes (ahp a)) n m -> m <= n).
  { intros n m U. induction U as [|n k ins i m E Hi U IH]; [lia|]. unfold fn_of in E. destruct (nth_error (nodes (ahp a)) n) as [nd|] eqn:En; [|discriminate].
    pose proof (B n nd k ins En E) as Q. rewrite Forall_forall in Q. specialize (Q i Hi). lia. }
  intros n m U. split; [apply L, U|]. intros U'. pose proof (L _ _ U). pose proof (L _ _ U'). lia.
Qed.
Example c62_acyclic_ex : a_reach any_call a_end /\ uses (nodes (ahp a_end)) 4 0.
Proof. split; [exact a_end_reach|]. eapply (uses_step _ 4 KSum [3] 3); [reflexivity|left; reflexivity|]. eapply (uses_step _ 3 KBmm [0; 2] 0); [reflexivity|left; reflexivity|constructor]. Qed.

(** C62 is false in one respect: a program can make a tensor whose array does not fit its shape, by
    [RawTensor::default()] or by scaling a view. *)
Lemma c62_well_formed_refuted :
  ~ (forall (T : Type) (NT : Num T) (a : astate T), a_reach any_call a -> forall n nd, nth_error (nodes (ahp a)) n = Some nd -> wf (n_val nd)).
Proof.
  intros H. destruct (a_run [ARawDefault; AToTensor 0] (a_init : astate Z)) as [[a| |]|] eqn:E; [|vm_compute in E; discriminate E..].
  assert (R : a_reach any_call a) by (eapply run_reach; [|constructor|exact E]; intros; exact I).
  vm_compute in E. injection E as <-. specialize (H Z ZNum _ R 1 _ eq_refl). vm_compute in H. discriminate H.
Qed.
Example c62_well_formed_refuted_ex : exists a : astate Z,
  a_run [ARc (CNew [1; 2; 3; 4]%Z [2; 2]); ASlice 0 [mkSR 0 1; mkSR 0 2]; ARightScalar 1 5%Z] a_init = Some (Ret a) /\
  as_like (ahp a) (VRaw 1) = Ret (LRaw (mkRaw [5; 10; 15; 20]%Z [1; 2])).
Proof. eexists. split; vm_compute; reflexivity. Qed.

(** C62: without those two, every tensor is well formed and has the value its recorded history
    evaluates to. *)
Lemma c62_well_formed_partial : forall (T : Type) (NT : Num T) (a : astate T),
  a_reach careful a -> forall n nd, nth_error (nodes (ahp a)) n = Some nd ->
  wf (n_val nd) /\ (forall g, grads (ahp a) n = Some g -> wf g) /\
  forall k ins, n_fn nd = Some (k, ins) -> Forall (fun i => i < n) ins /\ fwd k (map (vof (nodes (ahp a))) ins) = Ret (n_val nd).
Proof. intros T NT a.
  intros R n nd E. destruct (careful_reach a R) as [HR HG]. destruct (HR n nd E) as [W Q]. split; [exact W|]. split; [|exact Q].
  intros g Eg. exact (proj1 (HG n g Eg)).
Qed.
Lemma a_end_careful : a_reach careful_tidy a_end.
Proof.
  assert (Q : forall p q, a_prog = p ++ q -> forall a, a_run p a_init = Some (Ret a) -> a_reach careful_tidy a).
  { intros p. induction p as [|c p IH] using rev_ind; intros q Ep a E; [injection E as <-; constructor|]. rewrite <- app_assoc in Ep. cbn [app] in Ep.
    rewrite run_app in E. destruct (a_run p a_init) as [[a1| |]|] eqn:E1; try discriminate. cbn [a_run] in E. destruct (a_exec a1 c) as [[a2| |]|] eqn:E2; try discriminate. injection E as <-.
    eapply ar_step; [eapply IH; [exact Ep|reflexivity]| |exact E2].
    assert (Hin : In c a_prog) by (rewrite Ep; apply in_or_app; right; left; reflexivity).
    cbn in Hin. repeat (destruct Hin as [<-|Hin]; [split; [exact I|discriminate]|]). destruct Hin. }
  apply (Q a_prog []); [symmetry; apply app_nil_r|exact a_end_run].
Qed.
Lemma a_tidy_careful (T : Type) (NT : Num T) (a : astate T) : a_reach careful_tidy a -> a_reach careful a.
Proof. induction 1 as [|a c a' R IH [H _] E]; [constructor|eapply ar_step; eassumption]. Qed.
Example c62_well_formed_partial_ex : a_reach careful a_end /\ exists nd, nth_error (nodes (ahp a_end)) 3 = Some nd /\ n_fn nd = Some (KBmm, [0; 2]) /\ n_val nd = mkRaw [3; 4; 6; 8]%Z [2; 2].
Proof. split; [apply a_tidy_careful, a_end_careful|]. eexists. split; [vm_compute; reflexivity|]. split; reflexivity. Qed.

(** C62: and without [update_grad] by the program, a gradient has the shape of its tensor, unless that is
    a scalar. *)
Lemma c62_gradient_shapes : forall (T : Type) (NT : Num T) (a : astate T),
  a_reach careful_tidy a -> forall n nd g, nth_error (nodes (ahp a)) n = Some nd ->
  grads (ahp a) n = Some g -> shape g = shape (n_val nd) \/ shape (n_val nd) = [].
Proof. intros T NT a.
  intros R n nd g E Eg. destruct (shapes_kept a R) as [_ Q]. assert (Hn : n < length (nodes (ahp a))) by (apply nth_error_Some; congruence).
  specialize (Q n g Hn Eg). unfold vof in Q. rewrite E in Q. exact Q.
Qed.
Example c62_gradient_shapes_ex : a_reach careful_tidy a_end /\ exists nd, nth_error (nodes (ahp a_end)) 4 = Some nd /\
  grads (ahp a_end) 4 = Some (mkRaw [1; 1; 1; 1]%Z [2; 2]) /\ shape (n_val nd) = [].
Proof. split; [exact a_end_careful|]. eexists. split; [vm_compute; reflexivity|]. split; vm_compute; reflexivity. Qed.

(** C62: the programs of ModelGraph are among these: such a program reaches the same heap and ends in the
    same panic through the whole interface. *)
Lemma c62_includes : forall (T : Type) (NT : Num T) (p : list (cmd T)) (s : state T),
  run p init_state = Ret s ->
  exists q a at_, a_run q a_init = Some (Ret a) /\ holds a s at_ /\
    forall c e, Forall (fun x => x < length (env s)) (operands c) -> exec s c = Panic e -> exists q', a_run (q ++ q') a_init = Some (Panic e).
Proof. intros T NT p s.
  intros E. destruct (run_in_api p s E) as (q & a & at_ & Ea & H). exists q, a, at_. split; [exact Ea|]. split; [exact H|].
  intros c e Hop Ec. assert (Hok : env_ok a) by (eapply env_ok_run; [|exact Ea]; constructor).
  pose proof (exec_in_api a s at_ c H Hok Hop) as M. rewrite Ec in M. cbn [matches] in M. exists (calls_for a at_ c). rewrite run_app, Ea. exact M.
Qed.
Example c62_includes_ex : exists s : state Z, run [CNew [1; 2; 3; 4]%Z [2; 2]; CViewSum 0 [mkSR 0 1; mkSR 0 2]; CSum 0; CBackward 2] init_state = Ret s /\
  vof (nodes (hp s)) 1 = mkRaw [3]%Z [] /\ grads (hp s) 0 = Some (mkRaw [1; 1; 1; 1]%Z [2; 2]) /\ exec s (CDotMethod 0 0) = Panic PTodo.
Proof. eexists. split; [vm_compute; reflexivity|]. split; [|split]; vm_compute; reflexivity. Qed.

(** C62: the value of the result of a call is a function of the values of the operands: their kinds
    ([RcTensor], [RawTensor], view), histories and gradients make no difference.  The call panics if that
    function does, and only then (unless an operand is a view: [x.bmm(&view)] copies the view first). *)
Lemma c62_meaning : forall (T : Type) (NT : Num T) (a : astate T) (c : call T) (r : outcome (astate T)) (ls : list (tlike T)) (m : outcome (tlike T)),
  a_exec a c = Some r -> api_reads a c ls -> api_means c ls = Some m ->
  (forall a', r = Ret a' -> exists v l, aenv a' = aenv a ++ [v] /\ as_like (ahp a') v = Ret l /\ m = Ret l) /\
  (forall e, m = Panic e -> r = Panic e) /\
  (forall l, m = Ret l -> Forall (fun l => exists t, l = LRaw t) ls -> exists a', r = Ret a').
Proof. intros T NT a c r ls m E R M. apply (exec_means a c r ls m E R M). Qed.
Example c62_meaning_ex :
  exists a', a_exec a_end (ASub 0 1) = Some a' /\ api_reads a_end (ASub 0 1) [LRaw (mkRaw [1; 2]%Z [2; 1]); LRaw (mkRaw [3; 4]%Z [1; 2])] /\
    api_means (ASub 0 1) [LRaw (mkRaw [1; 2]%Z [2; 1]); LRaw (mkRaw [3; 4]%Z [1; 2])] = Some (Ret (LRaw (mkRaw [-2; -3; -1; -2]%Z [2; 2]))).
Proof.
  eexists. split; [reflexivity|]. split; [|vm_compute; reflexivity].
  repeat constructor; eexists; (split; [vm_compute; reflexivity|vm_compute; reflexivity]).
Qed.

(** C62: [bmm] with a view, sliced or reshaped, is [bmm] with the tensor made from the view. *)
Lemma c62_bmm_view : forall (T : Type) (NT : Num T) (a r : raw T) (v : view T),
  tl_to_tensor (LView v) = Ret r -> bmm_raw (LRaw a) (LView v) = bmm_raw (LRaw a) (LRaw r).
Proof. intros T NT a r v. exact (bmm_view_any a r v). Qed.
Example c62_bmm_view_ex :
  let v := mkView (mkRaw [1; 2; 3; 4]%Z [2; 2]) [2; 2] [mkSR 0 2; mkSR 0 2] in
  tl_to_tensor (LView v) = Ret (mkRaw [1; 2; 3; 4]%Z [2; 2]) /\
  bmm_raw (LRaw (mkRaw [1; 1]%Z [1; 2])) (LView v) = Ret (mkRaw [4; 6]%Z [1; 2]).
Proof. split; vm_compute; reflexivity. Qed.

(** *** [x], [w] and [&*w] *)
Definition c_calls : list (call Z) := [ARc (CNew [1; 2]%Z [1; 2]); ARc (CNew [3; 4]%Z [2; 1]); ADeref 1].
Definition c_start : astate Z := match a_run c_calls a_init with Some (Ret a) => a | _ => a_init end.
Definition c_end (w : nat) : astate Z := match a_run [ABmm 0 w; ASum 3; ABackward 4] c_start with Some (Ret a) => a | _ => a_init end.

(** C63 is false: which of several handles to the same data is used decides whether a tensor gets a
    gradient. In [x.bmm(&*w)] the right operand is a [RawTensor], of which a hidden copy is recorded, and
    the gradient goes to that copy. *)
Lemma c63_copies_refuted :
  ~ (forall (T : Type) (NT : Num T) (a a1 b1 : astate T) (x w d : nat), a_reach any_call a ->
       forall i, nth_error (aenv a) w = Some (VRc i) -> nth_error (aenv a) d = Some (VRaw i) -> let z := length (aenv a) in
       a_run [ABmm x w; ASum z; ABackward (S z)] a = Some (Ret a1) -> a_run [ABmm x d; ASum z; ABackward (S z)] a = Some (Ret b1) ->
       grads (ahp a1) i = grads (ahp b1) i).
Proof.
  intros H.
  assert (R : a_reach any_call c_start) by (eapply (run_reach _ c_calls); [|constructor|vm_compute; reflexivity]; intros; exact I).
  specialize (H Z ZNum c_start (c_end 1) (c_end 2) 0 1 2 R 1 eq_refl eq_refl). cbv zeta in H.
  specialize (H ltac:(vm_compute; reflexivity) ltac:(vm_compute; reflexivity)). vm_compute in H. discriminate H.
Qed.

Example c63_copies_refuted_ex :
  exists a b : astate Z,
    a_run [ARc (CNew [1; 2]%Z [1; 2]); ARc (CNew [3; 4]%Z [2; 1]); ADeref 1; ABmm 0 1; ASum 3; ABackward 4] a_init = Some (Ret a) /\ grads (ahp a) 1 = Some (mkRaw [1; 2]%Z [2; 1]) /\
    a_run [ARc (CNew [1; 2]%Z [1; 2]); ARc (CNew [3; 4]%Z [2; 1]); ADeref 1; ABmm 0 2; ASum 3; ABackward 4] a_init = Some (Ret b) /\ grads (ahp b) 1 = None.
Proof. do 2 eexists. split; [vm_compute; reflexivity|]. split; [vm_compute; reflexivity|]. split; vm_compute; reflexivity. Qed.

(** C63: what does hold: let one history have several copies of a tensor where the other has a single one.
    Then the gradient of the single one is the sum of those of its copies, and it has one exactly when
    one of them has. *)
Lemma c63_copies_partial : forall (T : Type) (NT : Num T) (f : nat -> nat) (h2 h1 h2' h1' : heap T) (i n : nat) (nd : node T),
  is_ring T ->
  unshares f (nodes h2) (nodes h1) -> heap_inv h2 -> heap_inv h1 ->
  backward h2 i = Ret h2' -> backward h1 (f i) = Ret h1' -> nth_error (nodes h1) n = Some nd ->
  grads h1 n = None -> (forall m, In m (occurrences f (nodes h2) n) -> grads h2 m = None) ->
  (grads h1' n = None <-> forall m, In m (occurrences f (nodes h2) n) -> grads h2' m = None) /\
  forall p, p < size (shape (n_val nd)) -> gentry (grads h1') n p = lsum (map (fun m => gentry (grads h2') m p) (occurrences f (nodes h2) n)).
Proof. intros T NT f h2 h1 h2' h1' i n nd. intros RT. exact (unshared_sum RT f h2 h1 h2' h1' i n nd). Qed.

(** *** [w + w] and [w + copy of w] *)
Definition one_w : astate Z := match a_run [ARc (CNew [3; 4]%Z [2]); AAdd 0 0; ASum 1] a_init with Some (Ret a) => a | _ => a_init end.
Definition two_w : astate Z := match a_run [ARc (CNew [3; 4]%Z [2]); ADeref 0; AToTensor 1; AAdd 0 2; ASum 3] a_init with Some (Ret a) => a | _ => a_init end.
Definition w_of (n : nat) : nat := n - 1.
Lemma w_careful (p : list (call Z)) : (forall c, In c p -> match c with ARawDefault | ALeftScalar _ _ | ARightScalar _ _ | AMul _ _ => False | _ => True end) ->
  forall a, a_run p a_init = Some (Ret a) -> a_reach careful a.
Proof.
  induction p as [|c p IH] using rev_ind; intros Hp a E; [injection E as <-; constructor|].
  rewrite run_app in E. destruct (a_run p a_init) as [[a1| |]|] eqn:E1; try discriminate. cbn [a_run] in E. destruct (a_exec a1 c) as [[a2| |]|] eqn:E2; try discriminate. injection E as <-.
  eapply ar_step; [eapply IH; [|reflexivity]| |exact E2].
  - intros c' Hc'. apply Hp, in_or_app. left. exact Hc'.
  - specialize (Hp c). destruct c; cbn [careful]; try exact I; exfalso; apply Hp, in_or_app; right; left; reflexivity.
Qed.
Lemma one_w_inv : heap_inv (ahp one_w).
Proof.
  apply careful_reach. apply (w_careful [ARc (CNew [3; 4]%Z [2]); AAdd 0 0; ASum 1]); [|vm_compute; reflexivity].
  intros c Hin. cbn in Hin. repeat (destruct Hin as [<-|Hin]; [exact I|]). destruct Hin.
Qed.
Lemma two_w_inv : heap_inv (ahp two_w).
Proof.
  apply careful_reach. apply (w_careful [ARc (CNew [3; 4]%Z [2]); ADeref 0; AToTensor 1; AAdd 0 2; ASum 3]); [|vm_compute; reflexivity].
  intros c Hin. cbn in Hin. repeat (destruct Hin as [<-|Hin]; [exact I|]). destruct Hin.
Qed.
Lemma w_unshares : unshares w_of (nodes (ahp two_w)) (nodes (ahp one_w)).
Proof.
  intros n nd E. vm_compute in E. destruct n as [|[|[|[|n]]]]; try (injection E as <-; eexists; vm_compute; repeat split; reflexivity). destruct n; discriminate.
Qed.
Example c63_copies_partial_ex : is_ring Z /\ unshares w_of (nodes (ahp two_w)) (nodes (ahp one_w)) /\ heap_inv (ahp two_w) /\ heap_inv (ahp one_w) /\
  exists h2' h1', backward (ahp two_w) 3 = Ret h2' /\ backward (ahp one_w) (w_of 3) = Ret h1' /\
    occurrences w_of (nodes (ahp two_w)) 0 = [0; 1] /\ grads h2' 0 = Some (mkRaw [1; 1]%Z [2]) /\ grads h2' 1 = Some (mkRaw [1; 1]%Z [2]) /\ grads h1' 0 = Some (mkRaw [2; 2]%Z [2]).
Proof.
  split; [exact Z_is_ring|]. split; [exact w_unshares|]. split; [exact two_w_inv|]. split; [exact one_w_inv|].
  do 2 eexists. split; [vm_compute; reflexivity|]. split; [vm_compute; reflexivity|]. repeat split; vm_compute; reflexivity.
Qed.

(** C63: in any arithmetic, a tensor with no other copy gets the same gradient in both. *)
Lemma c63_unique : forall (T : Type) (NT : Num T) (f : nat -> nat) (h2 h1 h2' h1' : heap T) (i m : nat),
  unshares f (nodes h2) (nodes h1) -> heap_inv h2 -> heap_inv h1 ->
  backward h2 i = Ret h2' -> backward h1 (f i) = Ret h1' -> m < length (nodes h2) ->
  (forall m', m' < length (nodes h2) -> f m' = f m -> m' = m) -> grads h1 (f m) = grads h2 m -> grads h1' (f m) = grads h2' m.
Proof. intros T NT f h2 h1 h2' h1' i m. exact (unshared_exact f h2 h1 h2' h1' i m). Qed.
Example c63_unique_ex : unshares w_of (nodes (ahp two_w)) (nodes (ahp one_w)) /\ heap_inv (ahp two_w) /\ heap_inv (ahp one_w) /\
  exists h2' h1', backward (ahp two_w) 3 = Ret h2' /\ backward (ahp one_w) (w_of 3) = Ret h1' /\
    (forall m', m' < length (nodes (ahp two_w)) -> w_of m' = w_of 2 -> m' = 2) /\ grads h2' 2 = Some (mkRaw [1; 1]%Z [2]) /\ grads h1' 1 = Some (mkRaw [1; 1]%Z [2]).
Proof.
  split; [exact w_unshares|]. split; [exact two_w_inv|]. split; [exact one_w_inv|].
  do 2 eexists. split; [vm_compute; reflexivity|]. split; [vm_compute; reflexivity|]. split; [intros m' _; unfold w_of; lia|]. split; vm_compute; reflexivity.
Qed.

(** C63: [backward] of a copy of a tensor does what [backward] of the tensor does. *)
Lemma c63_backward_of_copy : forall (T : Type) (NT : Num T) (h h' : heap T) (i j : nat),
  op_copy h i = Ret (h', j) -> backward h' j = backward h' i.
Proof. intros T NT h h' i j. exact (copy_backward h h' i j). Qed.
Example c63_backward_of_copy_ex : exists h' h'' : heap Z, op_copy (ahp one_w) 2 = Ret (h', 3) /\ backward h' 3 = Ret h'' /\ grads h'' 0 = Some (mkRaw [2; 2]%Z [2]).
Proof. do 2 eexists. split; [vm_compute; reflexivity|]. split; vm_compute; reflexivity. Qed.

(** C63: which calls record a history. Arithmetic on [RcTensor]s does, except [*]; [clone], [to_tensor],
    [tensor], [slice], [reshape] pass it on, except [to_tensor] of a view; all else, in particular
    arithmetic on a [RawTensor] or a view, makes a tensor without history. *)
Lemma c63_history : forall (T : Type) (NT : Num T) (a : astate T) (c : call T) (a' : astate T),
  a_exec a c = Some (Ret a') -> changes_grads c = false ->
  exists v', aenv a' = aenv a ++ [v'] /\
    (tracked a c -> fn_of (nodes (ahp a')) (tensor_of v') <> None) /\
    (forall v, passes_on a c = Some v -> fn_of (nodes (ahp a')) (tensor_of v') = fn_of (nodes (ahp a)) (tensor_of v)) /\
    (~ tracked a c -> passes_on a c = None -> (forall x, c <> AGrad x) -> fn_of (nodes (ahp a')) (tensor_of v') = None).
Proof. intros T NT a c a'.
  intros E Hc. destruct (exec_history a c a' E Hc) as (v' & E1 & E2 & E3 & E4). exists v'. split; [exact E1|]. split; [exact E2|]. split; [exact E3|]. intros H1 H2 _. exact (E4 H1 H2).
Qed.
Example c63_history_ex : exists a1 a2 : astate Z,
  a_exec two_w (AAdd 0 2) = Some (Ret a1) /\ tracked two_w (AAdd 0 2) /\ fn_of (nodes (ahp a1)) 4 = Some (KAdd, [0; 1]) /\
  a_exec two_w (AAdd 1 2) = Some (Ret a2) /\ ~ tracked two_w (AAdd 1 2) /\ fn_of (nodes (ahp a2)) 4 = None.
Proof.
  do 2 eexists. split; [vm_compute; reflexivity|]. split; [exists 0; reflexivity|]. split; [vm_compute; reflexivity|]. split; [vm_compute; reflexivity|].
  split; [intros [j Q]; vm_compute in Q; discriminate|vm_compute; reflexivity].
Qed.
