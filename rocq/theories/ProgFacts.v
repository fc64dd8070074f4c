(** * ProgFacts: invariants of programs *)
From Verif Require Import Base ModelIndex ModelTensor ModelOps ModelJvp ModelGraph Spec SpecDual SpecGraph
  Lists IndexFacts TensorFacts OpsFacts JvpFacts FuelFacts ClaimsTensor GraphFacts.

Section ProgFacts.
Context {T : Type} {NT : Num T}.

(** New gradients: only those [sum] presets *)
Definition preset (h h' : heap T) : Prop := forall j g, length (nodes h) <= j -> grads h' j = Some g ->
  exists i, fn_of (nodes h') j = Some (KSum, [i]) /\ i < j /\ g = raw_filler (shape (vof (nodes h') i)) n_one.

Lemma env_get (s : state T) x i : vindex (env s) x = Ret i -> nth_error (env s) x = Some i.
Proof. apply vindex_ret. Qed.

Definition inv (s : state T) : Prop := heap_inv (hp s) /\ Forall (fun i => i < length (nodes (hp s))) (env s).

Lemma inv_init : inv init_state.
Proof. split; [split|]; [|intros i g E; discriminate|constructor]. intros n nd E. destruct n; discriminate. Qed.

Lemma inv_env s x i : inv s -> vindex (env s) x = Ret i -> i < length (nodes (hp s)).
Proof. intros [_ H] E. apply vindex_ret, nth_error_In in E. rewrite Forall_forall in H. auto. Qed.

Definition made (h : heap T) (r : outcome (heap T * nat)) : Prop := forall h' i, r = Ret (h', i) ->
  heap_inv h' /\ extends h h' /\ grads_kept h h' /\ length (nodes h) <= i /\ i < length (nodes h') /\
  preset h h'.

Lemma preset_none h h' i : heap_inv h' -> length (nodes h') = S (length (nodes h)) -> i = length (nodes h) -> grads h' i = None -> preset h h'.
Proof.
  intros [_ H] L -> E j g Hj Eg. destruct (H j g Eg) as [_ Lj]. assert (j = length (nodes h)) by lia. congruence.
Qed.

Lemma made_alloc h v fn : heap_inv h -> wf v ->
  (forall k ins, fn = Some (k, ins) -> Forall (fun i => i < length (nodes h)) ins /\ fwd k (map (vof (nodes h)) ins) = Ret v) ->
  made h (Ret (alloc h v fn None)).
Proof.
  intros Hh Hv Hf h' i E. apply Ret_inj in E. assert (Ei : i = length (nodes h)) by (unfold alloc in E; injection E; auto).
  assert (M : makes h h' i v fn None) by (apply alloc_makes; auto; discriminate).
  destruct M as (M1 & M2 & M3 & M4 & M5 & M6 & M7 & M8). split; [exact M1|]. split; [exact M2|]. split; [exact M3|]. split; [exact M4|]. split; [lia|].
  apply (preset_none h h' i); auto. lia.
Qed.

Lemma made_bind A h (m : outcome A) F : (forall a, m = Ret a -> made h (F a)) -> made h (let* a := m in F a).
Proof. intros H h' i E. apply bind_Ret_inv in E as (a & Ea & E). exact (H a Ea h' i E). Qed.

Lemma raw_new_wf (a : list T) s t : raw_new a s = Ret t -> wf t.
Proof. intros E. apply raw_new_inv in E as [-> L]. exact L. Qed.

Lemma made_leaf h v : heap_inv h -> wf v -> made h (Ret (alloc h v None None)).
Proof. intros Hh Hv. apply made_alloc; auto; discriminate. Qed.

Lemma made_op1 h k i (nd : node T) v : heap_inv h -> hget h i = Ret nd -> fwd k [n_val nd] = Ret v ->
  made h (Ret (alloc h v (Some (k, [i])) None)).
Proof.
  intros Hh E Ek. pose proof (hget_wf h i nd Hh E) as W. apply hget_inv in E as (_ & L & Ev).
  apply made_alloc; auto.
  - eapply fwd_wf; [|exact Ek]. auto.
  - intros k' ins' E'. injection E' as <- <-. split; [auto|]. cbn [map]. rewrite Ev. exact Ek.
Qed.

Lemma made_op2 h k i j (a b : node T) v : heap_inv h -> hget h i = Ret a -> hget h j = Ret b -> fwd k [n_val a; n_val b] = Ret v ->
  made h (Ret (alloc h v (Some (k, [i; j])) None)).
Proof.
  intros Hh Ea Eb Ek. pose proof (hget_wf h i a Hh Ea) as Wa. pose proof (hget_wf h j b Hh Eb) as Wb.
  apply hget_inv in Ea as (_ & La & Eva). apply hget_inv in Eb as (_ & Lb & Evb).
  apply made_alloc; auto.
  - eapply fwd_wf; [|exact Ek]. auto.
  - intros k' ins' E'. injection E' as <- <-. split; [auto|]. cbn [map]. rewrite Eva, Evb. exact Ek.
Qed.

Lemma made_then h h1 (r : outcome (heap T * nat)) :
  made h1 r -> extends h h1 -> grads_kept h h1 -> heap_inv h1 -> preset h h1 -> made h r.
Proof.
  intros M X K I N h' i E. destruct (M h' i E) as (M1 & M2 & M3 & M4 & M5 & M6).
  pose proof (extends_length h h1 X) as L. pose proof (extends_length h1 h' M2) as L'.
  split; [exact M1|]. split; [eapply extends_trans; eauto|]. split; [intros j Hj; rewrite M3 by lia; apply K; auto|].
  split; [lia|]. split; [exact M5|]. intros j g Hj Eg.
  destruct (Nat.lt_ge_cases j (length (nodes h1))) as [Hlt|Hge]; [|apply M6; auto].
  rewrite M3 in Eg by auto. destruct (N j g Hj Eg) as (i0 & Ei & Li & Eg'). exists i0. destruct M2 as [e ->].
  rewrite fn_app_old, vof_app_old by lia. auto.
Qed.

Lemma made_add h i j : heap_inv h -> made h (op_add h i j).
Proof.
  intros Hh. apply made_bind. intros a Ea. apply made_bind. intros b Eb. apply made_bind. intros t Et. apply (made_op2 h KAdd i j a b); auto.
Qed.
Lemma made_neg h i : heap_inv h -> made h (op_neg h i).
Proof. intros Hh. apply made_bind. intros a Ea. apply made_bind. intros t Et. apply (made_op1 h KNeg i a); auto. Qed.

Lemma made_forward (h : heap T) (s : state T) c : inv s -> h = hp s -> forward c = true ->
  (forall x y o, c = CMulView x y o -> exists v, var_value s x = Ret v /\ shape v <> []) ->
  exists r, made h r /\ exec s c = push s r.
Proof.
  intros [Hh He] -> Hf Hm.
  assert (Hp : forall p, made (hp s) (Panic p)) by (intros p h' i E; discriminate).
  assert (Hn : made (hp s) NoFuel) by (intros h' i E; discriminate).
  assert (V : forall x (F : nat -> outcome (heap T * nat)), (forall i, made (hp s) (F i)) ->
    exists r, made (hp s) r /\ (let* i := vindex (env s) x in push s (F i)) = push s r).
  { intros x F H. destruct (vindex (env s) x) as [i|p|] eqn:E; cbn [bind]; [exists (F i); auto|exists (Panic p); auto|exists NoFuel; auto]. }
  assert (V2 : forall x y (F : nat -> nat -> outcome (heap T * nat)), (forall i j, vindex (env s) x = Ret i -> vindex (env s) y = Ret j -> made (hp s) (F i j)) ->
    exists r, made (hp s) r /\ (let* i := vindex (env s) x in let* j := vindex (env s) y in push s (F i j)) = push s r).
  { intros x y F H. destruct (vindex (env s) x) as [i|p|] eqn:E; cbn [bind]; [|exists (Panic p); auto|exists NoFuel; auto].
    destruct (vindex (env s) y) as [j|p|] eqn:E'; cbn [bind]; [exists (F i j); auto|exists (Panic p); auto|exists NoFuel; auto]. }
  destruct c as [a sh|sh x|x|n|x y|x y|x|x y|x|x|x|x|x y|x y|x y|x|x|x o|x o|x y o|x y o|x y|x|x]; try discriminate Hf; cbn [exec].
  - eexists. split; [|reflexivity]. apply made_bind. intros t Et. apply made_leaf; auto. eapply raw_new_wf; eauto.
  - eexists. split; [|reflexivity]. apply made_leaf; auto. rewrite raw_filler_tab. apply tabulate_wf.
  - eexists. split; [|reflexivity]. apply made_leaf; auto. reflexivity.
  - eexists. split; [|reflexivity]. apply made_bind. intros t Et. apply made_leaf; auto. destruct (raw_from_correct T NT n) as [Q _]. apply (Q t Et).
  - apply V2. intros i j _ _. apply made_add; auto.
  - apply V2. intros i j _ _. unfold op_sub. apply made_bind. intros [h1 nj] E1. destruct (made_neg (hp s) j Hh h1 nj E1) as (M1 & M2 & M3 & M4 & M5 & M6).
    apply (made_then (hp s) h1); auto. apply made_add; auto.
  - apply V. intros i. apply made_neg; auto.
  - apply V2. intros i j _ _. apply made_bind. intros a Ea. apply made_bind. intros b Eb. apply made_bind. intros t Et. apply made_leaf; auto.
    eapply mul_form; [| |exact Et]; eapply hget_wf; eauto.
  - apply V. intros i. apply made_bind. intros a Ea. apply made_bind. intros t Et. apply (made_op1 (hp s) KAbs i a); auto.
  - apply V. intros i. apply made_bind. intros a Ea. apply made_bind. intros t Et. apply (made_op1 (hp s) KRelu i a); auto.
  - apply V. intros i. apply made_bind. intros a Ea. apply made_bind. intros t Et. apply (made_op1 (hp s) KTanh i a); auto.
  - apply V. intros i. apply made_bind. intros a Ea. apply made_bind. intros t Et. pose proof (hget_inv _ _ _ Ea) as (_ & L & Ev).
    intros h' n E. apply Ret_inj in E. assert (En : n = length (nodes (hp s))) by (unfold alloc in E; injection E; auto).
    assert (M : makes (hp s) h' n t (Some (KSum, [i])) (Some (raw_filler (shape (n_val a)) n_one))).
    { apply alloc_makes; auto.
      - eapply sum_form; eauto.
      - intros g' Eg. injection Eg as <-. rewrite raw_filler_tab. apply tabulate_wf.
      - intros k ins E'. injection E' as <- <-. split; auto. cbn [map]. rewrite Ev. exact Et. }
    destruct M as (M1 & M2 & M3 & M4 & M5 & M6 & M7 & M8). split; [exact M1|]. split; [exact M2|]. split; [exact M3|]. split; [exact M4|]. split; [lia|].
    intros j g Hj Eg. destruct M1 as [_ M1]. destruct (M1 j g Eg) as [_ Lj]. assert (j = n) as -> by lia.
    exists i. split; [exact M7|]. split; [lia|]. rewrite M8 in Eg. injection Eg as <-. destruct M2 as [e ->]. rewrite vof_app_old by auto. rewrite Ev. reflexivity.
  - apply V2. intros i j _ _. apply made_bind. intros a Ea. apply made_bind. intros b Eb. apply made_bind. intros t Et. apply (made_op2 (hp s) KBmm i j a b); auto.
  - apply V2. intros i j _ _. apply made_bind. intros a Ea. apply made_bind. intros b Eb. apply made_bind. intros t Et. apply (made_op2 (hp s) KDot i j a b); auto.
  - apply V2. intros i j _ _. apply Hp.
  - apply V. intros i. apply made_bind. intros a Ea. apply made_bind. intros t Et. apply made_leaf; auto.
    unfold tl_deep_clone in Et. cbn [tl_to_tensor] in Et. injection Et as <-. eapply hget_wf; eauto.
  - apply V. intros i. apply made_bind. intros g Eg. destruct (grads (hp s) i) as [g'|] eqn:E; [|discriminate]. injection Eg as ->.
    apply made_leaf; auto. destruct Hh as [_ Hh]. apply (Hh i g E).
  - apply V. intros i. apply made_bind. intros a Ea. apply made_bind. intros v Ev. apply made_bind. intros t Et. apply made_leaf; auto.
    apply to_tensor_positive in Et. apply Et.
  - apply V. intros i. apply made_bind. intros a Ea. apply made_bind. intros v Ev. apply made_bind. intros t Et. apply made_leaf; auto.
    eapply sum_form; eauto.
  - apply V2. intros i j Hi Hj. apply made_bind. intros a Ea. apply made_bind. intros b Eb. apply made_bind. intros v Ev. apply made_bind. intros t Et. apply made_leaf; auto.
    destruct (Hm x y o eq_refl) as (u & Eu & Hne). unfold var_value in Eu. rewrite Hi in Eu. cbn [bind] in Eu. rewrite Ea in Eu. cbn [bind] in Eu. injection Eu as <-.
    pose proof (hget_wf _ _ _ Hh Ea) as Wa. unfold mul_raw in Et. destruct (shape (n_val a)) as [|d l] eqn:Es; [congruence|]. cbn [tl_shape] in Et.
    destruct (v_shape v).
    + destruct (tl_get_first_elem (LView v)); cbn [bind] in Et; try discriminate. injection Et as <-. unfold wf in *. cbn. rewrite map_length, Wa, Es. reflexivity.
    + unfold element_wise_multiplication in Et. destruct (same_shape _ _); cbn [assert bind] in Et; [|discriminate].
      destruct (iter_fold _ _ _ _ _); cbn [bind] in Et; try discriminate. eapply raw_new_wf; eauto.
  - apply V2. intros i j Hi Hj. unfold op_bmm_view. apply made_bind. intros a Ea. apply made_bind. intros b Eb. apply made_bind. intros v Ev.
    apply made_bind. intros t Et. apply made_bind. intros r Er.
    pose proof (hget_wf _ _ _ Hh Ea) as Wa. pose proof (hget_wf _ _ _ Hh Eb) as Wb.
    rewrite (bmm_view (n_val a) (n_val b) r o v Wa Wb Ev Er) in Et.
    assert (Wr : wf r) by (apply to_tensor_positive in Er; apply Er).
    destruct (alloc (hp s) r None None) as [h1 ir] eqn:E1. assert (Ei : ir = length (nodes (hp s))) by (unfold alloc in E1; injection E1; auto).
    pose proof (alloc_makes (hp s) r None None h1 ir Hh Wr ltac:(discriminate) ltac:(discriminate) E1) as (M1 & M2 & M3 & M4 & M5 & M6 & M7 & M8).
    apply (made_then (hp s) h1); auto.
    + apply made_alloc; auto; [eapply bmm_form; eauto|]. intros k ins E. injection E as <- <-.
      apply hget_inv in Ea as (_ & La & Eva). pose proof (extends_length _ _ M2) as Lh. split; [repeat constructor; lia|]. cbn [map].
      rewrite M6. destruct M2 as [e ->]. rewrite vof_app_old by auto. rewrite Eva. exact Et.
    + apply (preset_none (hp s) h1 ir); auto. lia.
Qed.

Lemma exec_forward (s s' : state T) c : inv s -> forward c = true ->
  (forall x y o, c = CMulView x y o -> exists v, var_value s x = Ret v /\ shape v <> []) ->
  exec s c = Ret s' ->
  inv s' /\ extends (hp s) (hp s') /\ grads_kept (hp s) (hp s') /\
  preset (hp s) (hp s') /\
  exists i, env s' = env s ++ [i] /\ length (nodes (hp s)) <= i < length (nodes (hp s')).
Proof.
  intros Hi Hf Hm E. destruct (made_forward (hp s) s c Hi eq_refl Hf Hm) as (r & M & Er). rewrite Er in E. unfold push in E.
  apply bind_Ret_inv in E as ([h' i] & E1 & E). apply Ret_inj in E. subst s'. destruct (M h' i E1) as (M1 & M2 & M3 & M4 & M5 & M6). cbn [hp env].
  split; [split; [exact M1|]|].
  - cbn [hp env]. apply Forall_app. split; [|auto]. eapply Forall_impl; [|apply Hi]. intros j Hj. pose proof (extends_length _ _ M2). cbn beta in *. lia.
  - split; [exact M2|]. split; [exact M3|]. split; [exact M6|]. exists i. auto.
Qed.

Lemma zero_grad_ok (h : heap T) i : heap_inv h -> heap_inv (zero_grad h i).
Proof.
  intros [H1 H2]. split; [exact H1|]. intros j g E. cbn [grads zero_grad nodes] in *. unfold upd in E.
  destruct (j =? i); [discriminate|]. apply H2; auto.
Qed.

Lemma op_update_grad_ok (h h' : heap T) i j : heap_inv h -> i < length (nodes h) -> op_update_grad h i j = Ret h' ->
  heap_inv h' /\ nodes h' = nodes h /\ forall m, m <> i -> grads h' m = grads h m.
Proof.
  intros [H1 H2] Hi E. unfold op_update_grad in E. apply bind_Ret_inv in E as (nd & En & E). apply bind_Ret_inv in E as (gr & Eg & E).
  apply Ret_inj in E. subst h'. cbn [nodes grads]. pose proof (hget_wf h j nd (conj H1 H2) En) as W.
  apply update_grad_inv in Eg as [Eo Ei]. split; [split|].
  - exact H1.
  - intros m g Em. cbn [grads nodes] in *. destruct (Nat.eq_dec m i) as [->|Hn]; [|rewrite Eo in Em by auto; apply H2; auto].
    split; [|exact Hi]. destruct Ei as [[_ Ei]|(o & s & _ & Es & Ei)]; rewrite Ei in Em; injection Em as <-; [exact W|].
    apply binop_form in Es. apply Es.
  - auto.
Qed.

Lemma exec_inv (s s' : state T) c : inv s ->
  (forall x y o, c = CMulView x y o -> exists v, var_value s x = Ret v /\ shape v <> []) ->
  exec s c = Ret s' -> inv s' /\ extends (hp s) (hp s').
Proof.
  intros Hi Hm E. destruct (forward c) eqn:Hf.
  - destruct (exec_forward s s' c Hi Hf Hm E) as (H1 & H2 & _). auto.
  - destruct c as [a sh|sh x|x|n|x y|x y|x|x y|x|x|x|x|x y|x y|x y|x|x|x o|x o|x y o|x y o|x y|x|x]; try discriminate Hf; cbn [exec] in E.
    + apply bind_Ret_inv in E as (i & Ei & E). apply bind_Ret_inv in E as (j & Ej & E). apply bind_Ret_inv in E as (h' & Eh & E). apply Ret_inj in E. subst s'.
      destruct (op_update_grad_ok (hp s) h' i j (proj1 Hi) (inv_env s x i Hi Ei) Eh) as (Q1 & Q2 & _). cbn [hp]. split.
      * split; cbn [hp env]; [exact Q1|]. rewrite Q2. apply Hi.
      * exists []. rewrite Q2, app_nil_r. reflexivity.
    + apply bind_Ret_inv in E as (i & Ei & E). apply Ret_inj in E. subst s'. cbn [hp]. split.
      * split; cbn [hp env]; [apply zero_grad_ok, Hi|apply Hi].
      * exists []. rewrite app_nil_r. reflexivity.
    + apply bind_Ret_inv in E as (i & Ei & E). apply bind_Ret_inv in E as (h' & Eh & E). apply Ret_inj in E. subst s'.
      destruct (backward_effect (hp s) h' i (proj1 Hi) Eh) as (Q1 & Q2 & _). cbn [hp]. split.
      * split; cbn [hp env]; [exact Q1|]. rewrite Q2. apply Hi.
      * exists []. rewrite Q2, app_nil_r. reflexivity.
Qed.

Lemma reach_inv ok (s : state T) : reach ok s -> inv s.
Proof. induction 1 as [|s c s' _ IH _ E Hm]; [apply inv_init|]. apply (exec_inv s s' c IH Hm E). Qed.

(** ** Shapes of gradients *)
Definition shapes_ok (h : heap T) : Prop := forall n g, grads h n = Some g ->
  shape g = shape (vof (nodes h) n) \/ exists i, fn_of (nodes h) n = Some (KSum, [i]) /\ i < n /\ shape g = shape (vof (nodes h) i).

Lemma max_shape_nil_r s : max_shape s [] = s.
Proof.
  unfold max_shape. cbn [rev]. rewrite map_rev.
  assert (E : forall l : list nat, map (fun pair => match pair with Both l r => Nat.max l r | Left l => l | Right r => r end) (zip_longest l []) = l).
  { induction l as [|d l IH]; [reflexivity|]. destruct l; [reflexivity|]. cbn [zip_longest map] in *. f_equal. exact IH. }
  rewrite E. apply rev_involutive.
Qed.

Lemma fwd_sum_shape (xs : list (raw T)) y : fwd KSum xs = Ret y -> shape y = [].
Proof. destruct xs as [|a [|]]; cbn [fwd]; try discriminate. cbn [tl_sum]. intros E. injection E as <-. reflexivity. Qed.

Lemma shapes_reach (s : state T) : reach tidy s -> shapes_ok (hp s).
Proof.
  intros R. induction R as [|s c s' R IH Hok E Hm]; [intros n g Eg; discriminate|].
  pose proof (reach_inv _ _ R) as Hi. destruct (forward c) eqn:Hf.
  - destruct (exec_forward s s' c Hi Hf Hm E) as (H1 & X & K & P & _). intros n g Eg.
    destruct (Nat.lt_ge_cases n (length (nodes (hp s)))) as [Hlt|Hge].
    + rewrite K in Eg by auto. destruct X as [e ->]. rewrite vof_app_old, fn_app_old by auto.
      destruct (IH n g Eg) as [Q|(i & Q1 & Q2 & Q3)]; [left; exact Q|]. right. exists i. rewrite vof_app_old by lia. auto.
    + destruct (P n g Hge Eg) as (i & P1 & P2 & ->). right. exists i. split; [exact P1|]. split; [exact P2|rewrite raw_filler_tab; reflexivity].
  - destruct c as [a sh|sh x|x|n|x y|x y|x|x y|x|x|x|x|x y|x y|x y|x|x|x o|x o|x y o|x y o|x y|x|x]; try discriminate Hf; cbn [exec] in E.
    + destruct (Hok x y eq_refl).
    + apply bind_Ret_inv in E as (i & Ei & E). apply Ret_inj in E. subst s'. cbn [hp]. intros n g Eg. cbn [grads zero_grad nodes] in *.
      unfold upd in Eg. destruct (n =? i); [discriminate|]. apply IH; auto.
    + apply bind_Ret_inv in E as (i & Ei & E). apply bind_Ret_inv in E as (h' & Eh & E). apply Ret_inj in E. subst s'. cbn [hp].
      destruct (backward_effect (hp s) h' i (proj1 Hi) Eh) as (Q1 & Q2 & _ & _ & Q3). intros n g Eg. rewrite Q2.
      apply (Q3 (fun sh => sh = shape (vof (nodes (hp s)) n) \/ exists i, fn_of (nodes (hp s)) n = Some (KSum, [i]) /\ i < n /\ sh = shape (vof (nodes (hp s)) i)) n); auto.
      intros sh [->|(i0 & E1 & E2 & E3)]; [left; apply max_shape_self|]. right. exists i0. split; [exact E1|]. split; [exact E2|].
      assert (En : shape (vof (nodes (hp s)) n) = []).
      { unfold fn_of in E1. unfold vof. destruct (nth_error (nodes (hp s)) n) as [nd|] eqn:En; [|discriminate].
        destruct (proj1 (proj1 Hi) n nd En) as [_ W]. destruct (W _ _ E1) as [_ W2]. eapply fwd_sum_shape; eauto. }
      rewrite En, max_shape_nil_r. exact E3.
Qed.

End ProgFacts.
