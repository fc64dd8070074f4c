(** * SchedBranch: any schedule, with signs that are known *)
From Verif Require Import Base ModelIndex ModelTensor ModelOps ModelJvp ModelGraph ModelNN ModelMain ModelPar ModelSched Spec SpecGraph SpecParam SpecSched SpecError
  Lists TensorFacts GraphFacts ParamFacts ClaimsProg BranchFacts SchedFacts.

(** Every outcome on the left is a result, related to the one on the right. *)
Definition nsim {X Y : Type} (P : X -> Y -> Prop) (m : nd X) (m' : outcome Y) : Prop := forall y, m' = Ret y -> forall r, m r -> exists x, r = Ret x /\ P x y.
Lemma nsim_of X Y (P : X -> Y -> Prop) m m' : nrel P m (just m') -> nsim P m m'.
Proof. intros H y -> r Hr. destruct (H r Hr) as (r' & -> & HA). destruct r; cbn in HA; try tauto. eauto. Qed.
Lemma nsim_is X Y (P : X -> Y -> Prop) m n m' : is n m' -> nrel P m n -> nsim P m m'.
Proof. intros HI H. apply nsim_of. intros r Hr. destruct (H r Hr) as (r' & Hr' & HA). exists r'. split; [apply HI; exact Hr'|exact HA]. Qed.
Lemma nsim_step X Y Z (P : X -> Y -> Prop) m y (f : X -> nd Z) r : nsim P m (Ret y) -> nbind m f r -> exists x, P x y /\ f x r.
Proof.
  intros H [(a & Ha & Hr)|[(p & Hp & _)|[Hn _]]].
  - destruct (H y eq_refl _ Ha) as (x & E & HP). injection E as <-. eauto.
  - destruct (H y eq_refl _ Hp) as (x & E & _). discriminate.
  - destruct (H y eq_refl _ Hn) as (x & E & _). discriminate.
Qed.
Lemma nsim_just X Y (P : X -> Y -> Prop) (m : outcome X) (m' : outcome Y) : (forall y, m' = Ret y -> exists x, m = Ret x /\ P x y) -> nsim P (just m) m'.
Proof. intros H y E r ->. exact (H y E). Qed.

Lemma just_step X Z (x : X) (f : X -> nd Z) r : nbind (just (Ret x)) f r -> f x r.
Proof. intros [(a & Ha & Hr)|[(p & Hp & _)|[Hn _]]]; [injection Ha as <-; exact Hr|discriminate|discriminate]. Qed.

Section Branch.
Context {A B : Type} (R : A -> B -> Prop) (Q : B -> Prop) {NA : Num A} {NB : Num B} (HR : respects_ring R).
Hypothesis (HN : respects_neg R) (HT : respects_tanh R).
Hypothesis HA : forall a x, R a x -> Q x -> R (n_abs a) (n_abs x) /\
  R (if n_ge a n_zero then n_one else n_sub n_zero n_one) (if n_ge x n_zero then n_one else n_sub n_zero n_one).
Hypothesis HL : forall a x, R a x -> Q x -> R (relu_fn a) (relu_fn x) /\
  R (if n_lt a n_zero then n_zero else n_one) (if n_lt x n_zero then n_zero else n_one).
Notation RR := (rel_raw R).
Notation RL := (rel_like R).
Notation known := (signs_known Q).
Notation HH := (rel_heap R).
Notation bst := (bst R).
Notation bmade := (bmade R).
Variables (bm : tlike A -> tlike A -> nd (raw A)) (bb : list (raw A) -> list (raw A) -> nd (list (raw A))).
Notation bm' := (fun l r : tlike B => just (bmm_raw l r)).
Notation bb' := (fun ts gs : list (raw B) => just (bmm_jvp ts gs)).
Hypothesis HM : forall l m l' m', RL l m -> RL l' m' -> nrel RR (bm l l') (bm' m m').
Hypothesis HB : forall ts us gs hs, Forall2 RR ts us -> Forall2 RR gs hs -> nrel (Forall2 RR) (bb ts gs) (bb' us hs).

Lemma s_jvp k ts us gs hs : Forall2 RR ts us -> Forall2 RR gs hs -> (k = KAbs \/ k = KRelu -> Forall (fun u => Forall Q (array u)) us) ->
  nrel (Forall2 RR) (jvp_nd bm bb k ts gs) (jvp_nd bm' bb' k us hs).
Proof.
  intros F G HK. destruct k; try (apply (n_jvp R HR bm bb bm' bb' HM HB); auto; exact I);
    apply nrel_just; apply (b_jvp R Q HR HN HT HA HL); auto.
Qed.

Lemma s_compute ns ns' : Forall2 (rel_node R) ns ns' -> known ns' -> forall f k ins outer outer' g g',
  (exists n nd, nth_error ns' n = Some nd /\ n_fn nd = Some (k, ins)) -> Forall2 RR outer outer' -> rel_grads R g g' ->
  nrel (rel_grads R) (compute_jvp_nd bm bb f ns k ins outer g) (compute_jvp_nd bm' bb' f ns' k ins outer' g').
Proof.
  intros F HQ. induction f as [|f IH]; intros k ins outer outer' g g' HK Fo Hg; cbn [compute_jvp_nd]; [apply nrel_just; exact I|].
  assert (F2 : Forall2 (fun n m => rel_node R n m /\ In m ns') ns ns') by (apply F2_in; exact F).
  assert (Hin : forall m, mapM (vindex ns') ins = Ret m -> k = KAbs \/ k = KRelu -> Forall (fun u => Forall Q (array u)) (map n_val m)).
  { destruct HK as (n & nd & En & Ef). intros m Em Hk. specialize (HQ n nd k ins En Ef Hk). clear - HQ Em. revert m Em.
    induction HQ as [|i ins (_ & ndi & Ei & Hi) HQ IH]; intros m Em; cbn [mapM] in Em; [apply Ret_inj in Em; subst m; constructor|].
    unfold vindex at 1 in Em. rewrite Ei in Em. cbn [bind] in Em. apply bind_Ret_inv in Em as (l & El & Em). apply Ret_inj in Em. subst m. cbn [map]. constructor; auto. }
  eapply nrel_bind with (P := fun xs ys => Forall2 (fun n m => rel_node R n m /\ In m ns') xs ys /\ mapM (vindex ns') ins = Ret ys).
  { apply nrel_just. assert (HM' : rel_outcome (Forall2 (fun n m => rel_node R n m /\ In m ns')) (mapM (vindex ns) ins) (mapM (vindex ns') ins)).
    { apply ro_mapM_same. intros i. apply F2_vindex. exact F2. }
    destruct (mapM (vindex ns) ins), (mapM (vindex ns') ins); cbn in *; auto. }
  intros xs ys [Fx Ey]. eapply nrel_bind; [apply s_jvp; [|exact Fo|exact (Hin ys Ey)]; eapply F2_map; [exact Fx|]; intros x y [[H _] _]; exact H|].
  intros sg sg' Fs. eapply nrel_foldM; [eapply F2_combine; [exact Fs|eapply F2_combine; [apply F2_refl|exact Fx]]|exact Hg|].
  clear g g' Hg. intros g g' [t [i nd]] [u [i' nd']] Hg (Ht & Hi & [Hv Hf] & Hok). cbn [fst snd] in *. subst i'.
  rewrite (F2_length _ _ _ _ _ (proj2 Ht)), (F2_length _ _ _ _ _ (proj2 Hv)), (proj1 Hv).
  eapply nrel_bind.
  { apply nrel_just. apply ro_same. intros _. eapply ro_bind; [apply p_new; exact (proj2 Ht)|]. intros a b Hab. apply (p_update R HR); assumption. }
  intros g1 g1' Hg1. rewrite Hf. destruct (n_fn nd') as [[k' ins']|] eqn:En'; [|apply nrel_just; exact Hg1]. apply IH; auto.
  apply In_nth_error in Hok as [n En]. eauto.
Qed.

Lemma s_backward h k i : HH h k -> known (nodes k) -> nsim HH (backward_nd bm bb h i) (backward k i).
Proof.
  intros H HQ. eapply nsim_is; [apply is_backward|]. unfold backward_nd.
  eapply nrel_bind with (P := fun n m => rel_node R n m /\ nth_error (nodes k) i = Some m).
  { apply nrel_just. pose proof (b_hget R h k i H) as HG. unfold hget, vindex in *. destruct (nth_error (nodes h) i), (nth_error (nodes k) i); cbn in *; auto. }
  intros n m [[Hv Hf] En].
  rewrite (F2_length _ _ _ _ _ (proj2 Hv)), Hf. eapply nrel_bind; [apply nrel_just, ro_refl|]. intros _ _ _.
  eapply nrel_bind with (P := fun a b => a = b /\ n_fn m = Some b).
  { apply nrel_just. destruct (n_fn m) as [[k0 ins]|]; cbn; auto. }
  intros [k0 ins] [k1 ins1] [Hk Em]. injection Hk as <- <-. destruct H as [Fn Hg].
  eapply nrel_bind.
  { rewrite (F2_length _ _ _ _ _ Fn). apply s_compute; [exact Fn|exact HQ|exists i, m; auto| |exact Hg]. constructor; [|constructor]. apply p_scalar. exact (rr_one R HR). }
  intros g g' Hg'. apply nrel_just. split; [exact Fn|exact Hg'].
Qed.

Lemma s_op_bmm h k i j : HH h k -> nsim bmade (op_bmm_nd bm h i j) (op_bmm k i j).
Proof.
  intros H. eapply nsim_is; [apply is_op_bmm|]. unfold op_bmm_nd. eapply nrel_bind; [apply nrel_just, b_hget; exact H|]. intros n m [Hv _].
  eapply nrel_bind; [apply nrel_just, b_hget; exact H|]. intros n' m' [Hv' _].
  eapply nrel_bind; [apply HM; [exact Hv|exact Hv']|]. intros t u Ht. apply nrel_just. exact (b_alloc R h k t u _ None None H Ht I).
Qed.
Lemma s_op_bmm_view h k i j o : HH h k -> nsim bmade (op_bmm_view_nd bm h i j o) (op_bmm_view k i j o).
Proof.
  intros H. eapply nsim_is; [apply is_op_bmm_view|]. unfold op_bmm_view_nd. eapply nrel_bind; [apply nrel_just, b_hget; exact H|]. intros n m [Hv _].
  eapply nrel_bind; [apply nrel_just, b_hget; exact H|]. intros n' m' [Hv' _].
  eapply nrel_bind; [apply nrel_just, p_view_new; exact Hv'|]. intros v w Hvw.
  eapply nrel_bind; [apply HM; [exact Hv|exact Hvw]|]. intros t u Ht. eapply nrel_bind; [apply nrel_just, (p_to_tensor R (LView v) (LView w)); exact Hvw|].
  intros r r' Hr. apply nrel_just. destruct (b_alloc R h k r r' None None None H Hr I) as [H1 H2].
  destruct (alloc h r None None) as [h1 i1], (alloc k r' None None) as [k1 i1']. cbn [fst snd] in *. subst i1'. exact (b_alloc R h1 k1 t u (Some (KBmm, [i; i1])) None None H1 Ht I).
Qed.

Lemma s_push s t m m' : env s = env t -> nsim bmade m m' -> nsim bst (push_nd s m) (push t m').
Proof.
  intros E H y Ey r Hr. unfold push in Ey. apply bind_Ret_inv in Ey as ([k j] & Em & Ey). apply Ret_inj in Ey. subst y m'. unfold push_nd in Hr.
  destruct (nsim_step _ _ _ _ _ _ _ _ H Hr) as ([h i] & [Hh Hi] & ->). cbn [fst snd] in *. subst j. eexists. split; [reflexivity|]. split; cbn [env hp]; [congruence|exact Hh].
Qed.

Lemma s_exec s t c d t' : bst s t -> rel_cmd R c d -> exec t d = Ret t' -> known (nodes (hp t')) -> forall r, exec_nd bm bb s c r -> exists s', r = Ret s' /\ bst s' t'.
Proof.
  intros HS Hc ET HQ r Hr. assert (D : r = exec s c -> exists s', r = Ret s' /\ bst s' t').
  { intros ->. apply (b_exec R Q HR HN HT HA HL s t c d t'); assumption. }
  destruct HS as [E H]. destruct c; try (apply D; exact Hr); clear D; inversion Hc; subst; cbn [exec_nd exec] in *; rewrite ?E in Hr.
  - apply bind_Ret_inv in ET as (i & Ei & ET). apply bind_Ret_inv in ET as (j & Ej & ET). rewrite Ei, Ej in Hr.
    apply just_step in Hr. apply just_step in Hr.
    exact (s_push s t _ _ E (s_op_bmm (hp s) (hp t) i j H) t' ET r Hr).
  - apply bind_Ret_inv in ET as (i & Ei & ET). apply bind_Ret_inv in ET as (j & Ej & ET). rewrite Ei, Ej in Hr.
    apply just_step in Hr. apply just_step in Hr.
    exact (s_push s t _ _ E (s_op_bmm_view (hp s) (hp t) i j _ H) t' ET r Hr).
  - apply bind_Ret_inv in ET as (i & Ei & ET). rewrite Ei in Hr.
    apply just_step in Hr. apply bind_Ret_inv in ET as (k1 & Ek & ET). apply Ret_inj in ET. subst t'. cbn [hp] in HQ.
    rewrite (backward_nodes _ _ _ Ek) in HQ. pose proof (s_backward (hp s) (hp t) i H HQ) as SB. rewrite Ek in SB.
    destruct (nsim_step _ _ _ _ _ _ _ _ SB Hr) as (h1 & Hh & ->). eexists. split; [reflexivity|]. split; [reflexivity|exact Hh].
Qed.

Lemma s_run p q : Forall2 (rel_cmd R) p q -> forall s t t', bst s t -> run q t = Ret t' -> known (nodes (hp t')) -> forall r, run_nd bm bb p s r -> exists s', r = Ret s' /\ bst s' t'.
Proof.
  intros F. unfold run, run_nd. induction F as [|c d p q H F IH]; intros s t t' HS E HQ r Hr; cbn [foldM nfoldM] in *; [apply Ret_inj in E; subst t'; exists s; auto|].
  apply bind_Ret_inv in E as (t1 & E1 & E). pose proof (run_extends q t1 t' E) as X. pose proof (known_before Q _ _ X HQ) as HQ1.
  assert (SE : nsim bst (exec_nd bm bb s c) (Ret t1)). { intros y Ey r0 Hr0. injection Ey as <-. exact (s_exec s t c d t1 HS H E1 HQ1 r0 Hr0). }
  destruct (nsim_step _ _ _ _ _ _ _ _ SE Hr) as (s1 & H1 & Hr1). exact (IH s1 t1 t' H1 E HQ r Hr1).
Qed.

Lemma s_branching p q t r : Forall2 (rel_cmd R) p q -> run q init_state = Ret t -> known (nodes (hp t)) -> run_nd bm bb p init_state r ->
  exists s, r = Ret s /\ rel_state R s t.
Proof. intros F E HQ Hr. apply (s_run p q F init_state init_state t); auto. split; [reflexivity|]. split; [constructor|intros i; exact I]. Qed.

(** ** Training *)
Notation blinear := (blinear R Q).
Notation bnet := (bnet R Q).

Lemma s_linear l m i k y : blinear l m -> linear_forward m k i = Ret y -> known (nodes (fst y)) -> forall h, HH h k -> nsim bmade (linear_forward_nd bm l h i) (Ret y).
Proof.
  intros (Ew & Eb & Ha) E HQ h Hh y0 Ey r Hr. injection Ey as <-. unfold linear_forward in E. unfold linear_forward_nd in Hr. rewrite Ew, Eb in Hr.
  apply bind_Ret_inv in E as ([k1 z1] & E1 & E). pose proof (s_op_bmm h k i (weights m) Hh) as S1. rewrite E1 in S1.
  destruct (nsim_step _ _ _ _ _ _ _ _ S1 Hr) as ([h1 z1'] & [H1 J1] & Hr1). cbn [fst snd] in *. subst z1'. clear Hr S1.
  destruct (osim_bind R Q (fun h => op_add h z1 (bias m)) (fun k => op_add k z1 (bias m)) (fun z h => activation l h z) (fun z h => activation m h z)
    (o_add R Q HR z1 (bias m)) (fun z => Ha z) k1 y E) as [_ S2]. destruct (S2 HQ h1 H1) as (x & Ex & Hx). exists x. split; [|exact Hx]. rewrite Hr1. exact Ex.
Qed.
Lemma s_mlp l m : Forall2 blinear l m -> forall i k y, mlp_forward m k i = Ret y -> known (nodes (fst y)) -> forall h, HH h k -> nsim bmade (mlp_forward_nd bm l h i) (Ret y).
Proof.
  unfold mlp_forward, mlp_forward_nd. induction 1 as [|a b l m Hab F IH]; intros i k y E HQ h Hh y0 Ey r Hr; injection Ey as <-; cbn [foldM nfoldM] in *.
  - apply Ret_inj in E. subst y. exists (h, i). split; [exact Hr|]. split; [exact Hh|reflexivity].
  - apply bind_Ret_inv in E as ([k1 i1] & E1 & E). assert (X : extends k1 (fst y)). { destruct (o_mlp R Q HR l m F i1 k1 y E) as [X _]. exact X. }
    pose proof (s_linear a b i k _ Hab E1 (known_before Q _ _ X HQ) h Hh) as S1. destruct (nsim_step _ _ _ _ _ _ _ _ S1 Hr) as ([h1 j1] & [H1 J1] & Hr1). cbn [fst snd] in *. subst j1.
    exact (IH i1 k1 y E HQ h1 H1 y eq_refl r Hr1).
Qed.

Lemma s_train_step l m st st' k x y r : Forall2 blinear l m -> RR st st' -> train_step m st' k x y = Ret r ->
  known (nodes (fst r)) -> forall h, HH h k -> nsim bnet (train_step_nd bm bb l st h x y) (Ret r).
Proof.
  intros F Hs E HQ h Hh r0 Er o Ho. injection Er as <-. unfold train_step, train_step_nd in *.
  apply bind_Ret_inv in E as ([k1 i1] & E1 & E). apply bind_Ret_inv in E as ([k2 i2] & E2 & E). destruct (o_sub R Q HR HN i1 y k1 _ E2) as [X2 S2].
  apply bind_Ret_inv in E as ([k3 i3] & E3 & E). destruct (o_abs R Q HA i2 k2 _ E3) as [X3 S3]. apply bind_Ret_inv in E as ([k4 i4] & E4 & E). destruct (o_sum R Q HR i3 k3 _ E4) as [X4 S4].
  apply bind_Ret_inv in E as (k5 & E5 & E). unfold sgd_step_mlp in *. apply bind_Ret_inv in E as ([k6 ps] & E6 & E). pose proof (sgd_extends R Q HR HN _ _ _ _ E6) as X6. apply bind_Ret_inv in E as (m' & E7 & E). apply Ret_inj in E. subst r.
  cbn [fst] in *. assert (X5 : extends k4 k5) by (exists []; rewrite app_nil_r; apply (backward_nodes _ _ _ E5)).
  pose proof (known_before Q _ _ X6 HQ) as Q5. pose proof (known_before Q _ _ X5 Q5) as Q4. pose proof (known_before Q _ _ X4 Q4) as Q3. pose proof (known_before Q _ _ X3 Q3) as Q2. pose proof (known_before Q _ _ X2 Q2) as Q1.
  destruct (nsim_step _ _ _ _ _ _ _ _ (s_mlp l m F x k _ E1 Q1 h Hh) Ho) as ([h1 j1] & [H1 J1] & Ho1). cbn [fst snd] in *. subst j1. clear Ho.
  assert (S : nsim bmade (just (let* (h2, diff) := op_sub h1 i1 y in let* (h3, ab) := op_abs h2 diff in op_sum h3 ab)) (Ret (k4, i4))).
  { apply nsim_just. intros ? Ey. injection Ey as <-. 
    destruct (S2 Q2 h1 H1) as ([h2 j2] & -> & H2 & J2). cbn [fst snd bind] in *. subst j2.
    destruct (S3 Q3 h2 H2) as ([h3 j3] & -> & H3 & J3). cbn [fst snd bind] in *. subst j3. exact (S4 Q4 h3 H3). }
  destruct (nsim_step _ _ _ _ _ _ _ _ S Ho1) as ([h4 j4] & [H4 J4] & Ho2). cbn [fst snd] in *. subst j4. clear Ho1.
  pose proof (s_backward h4 k4 i4 H4 Q4) as SB. rewrite E5 in SB. destruct (nsim_step _ _ _ _ _ _ _ _ SB Ho2) as (h5 & H5 & ->).
  rewrite (b_params R Q _ _ F). destruct (bsim_of _ _ _ _ _ (b_sgd R HR HN (mlp_params m) st st' h5 k5 Hs H5) _ E6) as ([h6 ps'] & -> & H6 & J6). cbn [fst snd bind] in *. subst ps'.
  destruct (bsim_of _ _ _ _ _ (b_update_params R Q l m ps F) _ E7) as (l' & -> & F'). cbn [bind]. eexists. split; [reflexivity|]. split; assumption.
Qed.

Lemma s_main inp hid out rounds one one' st st' w1 w1' b1 b1' w2 w2' b2 b2' w3 w3' b3 b3' input input' r o :
  R one one' -> R st st' ->
  Forall2 R w1 w1' -> Forall2 R b1 b1' -> Forall2 R w2 w2' -> Forall2 R b2 b2' -> Forall2 R w3 w3' -> Forall2 R b3 b3' -> Forall2 R input input' ->
  main_program inp hid out rounds one' st' w1' b1' w2' b2' w3' b3' input' = Ret r -> known (nodes (fst r)) ->
  main_program_nd bm bb inp hid out rounds one st w1 b1 w2 b2 w3 b3 input o ->
  exists q, o = Ret q /\ bnet q r.
Proof.
  intros H1 Hs Fw1 Fb1 Fw2 Fb2 Fw3 Fb3 Fi E HQ Ho. unfold main_program, main_program_nd in *.
  apply bind_Ret_inv in E as ([[[k0 m0] x] y] & E0 & E).
  pose proof (b_setup R Q HT HL inp hid out one one' w1 w1' b1 b1' w2 w2' b2 b2' w3 w3' b3 b3' input input' H1 Fw1 Fb1 Fw2 Fb2 Fw3 Fb3 Fi) as S.
  assert (S' := nsim_just _ _ _ _ _ (bsim_of _ _ _ _ _ S)). rewrite E0 in S'.
  destruct (nsim_step _ _ _ _ _ _ _ _ S' Ho) as ([[[h0 l0] x'] y'] & (Hh & F & Ex & Ey) & Ho1). cbn [fst snd] in *. subst x' y'. clear E0 S S' Ho.
  revert k0 m0 h0 l0 E Hh F Ho1. induction rounds as [|n IH]; intros k m h l E Hh F Ho; cbn [repeat foldM nfoldM] in *.
  - apply Ret_inj in E. subst r. exists (h, l). split; [exact Ho|]. split; assumption.
  - apply bind_Ret_inv in E as ([k1 m1] & E1 & E). unfold main_round in E1. apply bind_Ret_inv in E1 as ([k2 m2] & E2 & E1). apply Ret_inj in E1. injection E1 as <- <-.
    assert (X : extends k2 (fst r)).
    { destruct (b_train_step R Q HR HN HT HA HL l m (raw_scalar st) (raw_scalar st') k x y _ F (p_scalar R _ _ Hs) E2) as (_ & (l' & F') & _).
      destruct (b_rounds R Q HR HN HT HA HL st st' x y Hs n _ m2 r E h l' F') as [[e Xe] _]. exists e. exact Xe. }
    pose proof (s_train_step l m (raw_scalar st) (raw_scalar st') k x y _ F (p_scalar R _ _ Hs) E2 (known_before Q _ _ X HQ) h Hh) as ST.
    assert (SM : nsim bnet (main_round_nd bm bb st x y (h, l)) (Ret (zero_grad (zero_grad k2 y) x, m2))).
    { intros ? Ey o1 Ho1. injection Ey as <-. unfold main_round_nd in Ho1. destruct (nsim_step _ _ _ _ _ _ _ _ ST Ho1) as ([h2 l2] & [[Hn Hg] HF] & ->). cbn [fst snd] in *.
      eexists. split; [reflexivity|]. split; [|exact HF]. cbn [fst]. split; cbn [zero_grad nodes grads]; [exact Hn|].
      intros i. unfold upd. destruct (i =? x); [exact I|]. destruct (i =? y); [exact I|]. apply Hg. }
    destruct (nsim_step _ _ _ _ _ _ _ _ SM Ho) as ([h2 l2] & [H2 F2] & Ho2). exact (IH _ _ _ _ E H2 F2 Ho2).
Qed.

End Branch.

(** ** Any schedule on the left, exact addition on the right *)
Section Any.
Context {A B : Type} (R : A -> B -> Prop) (Q : B -> Prop) {NA : Num A} {NB : Num B} (HR : respects_ring R).
Hypothesis (HN : respects_neg R) (HT : respects_tanh R).
Hypothesis HA : forall a x, R a x -> Q x -> R (n_abs a) (n_abs x) /\
  R (if n_ge a n_zero then n_one else n_sub n_zero n_one) (if n_ge x n_zero then n_one else n_sub n_zero n_one).
Hypothesis HL : forall a x, R a x -> Q x -> R (relu_fn a) (relu_fn x) /\
  R (if n_lt a n_zero then n_zero else n_one) (if n_lt x n_zero then n_zero else n_one).
Hypothesis (comm : forall x y : B, n_add x y = n_add y x) (assoc : forall x y z : B, n_add (n_add x y) z = n_add x (n_add y z)).

Lemma any_branching w f p q t r : Forall2 (rel_cmd R) p q -> run q init_state = Ret t -> signs_known Q (nodes (hp t)) -> run_any w f p init_state r ->
  exists s, r = Ret s /\ rel_state R s t.
Proof.
  intros F E HQ Hr. exact (s_branching R Q HR HN HT HA HL bmm_raw_any (bmm_jvp_any w f) (any_raw R HR) (fun ts us gs hs Ft Fg => any_jvp R HR w f ts us gs hs comm assoc Ft Fg) p q t r F E HQ Hr).
Qed.
Lemma any_main w f inp hid out rounds one one' st st' w1 w1' b1 b1' w2 w2' b2 b2' w3 w3' b3 b3' input input' r o :
  R one one' -> R st st' ->
  Forall2 R w1 w1' -> Forall2 R b1 b1' -> Forall2 R w2 w2' -> Forall2 R b2 b2' -> Forall2 R w3 w3' -> Forall2 R b3 b3' -> Forall2 R input input' ->
  main_program inp hid out rounds one' st' w1' b1' w2' b2' w3' b3' input' = Ret r -> signs_known Q (nodes (fst r)) ->
  main_program_any w f inp hid out rounds one st w1 b1 w2 b2 w3 b3 input o ->
  exists h m, o = Ret (h, m) /\ rel_heap R h (fst r) /\ map weights m = map weights (snd r) /\ map bias m = map bias (snd r).
Proof.
  intros H1 Hs Fw1 Fb1 Fw2 Fb2 Fw3 Fb3 Fi E HQ Ho.
  destruct (s_main R Q HR HN HT HA HL bmm_raw_any (bmm_jvp_any w f) (any_raw R HR) (fun ts us gs hs Ft Fg => any_jvp R HR w f ts us gs hs comm assoc Ft Fg)
    inp hid out rounds one one' st st' w1 w1' b1 b1' w2 w2' b2 b2' w3 w3' b3 b3' input input' r o H1 Hs Fw1 Fb1 Fw2 Fb2 Fw3 Fb3 Fi E HQ Ho) as ([h m] & -> & Hh & Hm).
  exists h, m. split; [reflexivity|]. split; [exact Hh|]. cbn [snd] in *. clear - Hm. induction Hm as [|x y l l' (Ew & Eb & _) _ [IH1 IH2]]; [split; reflexivity|]. cbn [map]. split; congruence.
Qed.
End Any.
