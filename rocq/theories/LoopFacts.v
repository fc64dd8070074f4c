(** * LoopFacts: training loops run without panic, whatever the arithmetic *)
From Verif Require Import Base ModelIndex ModelTensor ModelOps ModelJvp ModelGraph ModelNN ModelMain Spec SpecDual SpecGraph SpecNN SpecLoop
  Lists IndexFacts TensorFacts OpsFacts JvpFacts Dual ClaimsMat Adjoint GradRing
  FuelFacts GraphFacts ProgFacts BackFacts SimFacts NNFacts ClaimsNN TrainFacts.

Section Loop.
Context {T : Type} {NT : Num T}.
Implicit Types (h : heap T) (m : mlp T).

Lemma sound_fine h : sound_heap h <-> fine h.
Proof. unfold sound_heap, fine, good, gr_ok. tauto. Qed.

Lemma no_dot_op (ns : list (node T)) n k ins : fn_of ns n = Some (k, ins) -> k <> KDot -> (forall i, In i ins -> no_dot ns i) -> no_dot ns n.
Proof.
  intros E Hk H q ins' U Ef. inversion U as [|? k' ins2 z ? E' Hz U']; subst.
  - rewrite E in Ef. congruence.
  - rewrite E in E'. injection E' as <- <-. exact (H z Hz q ins' U' Ef).
Qed.
Lemma no_dot_leaf (ns : list (node T)) n : fn_of ns n = None -> no_dot ns n.
Proof. intros E q ins U Ef. inversion U; subst; congruence. Qed.
Lemma no_dot_ext h h' n : heap_inv h -> extends h h' -> n < length (nodes h) -> no_dot (nodes h) n -> no_dot (nodes h') n.
Proof.
  intros HI X Hn H q ins U Ef. assert (U' := uses_old h h' n q HI X Hn U). assert (Hq : q < length (nodes h)) by (pose proof (uses_lt _ _ _ (proj1 HI) U'); lia).
  apply (H q ins U'). destruct X as [e X]. rewrite X in Ef. unfold fn_of in *. rewrite nth_error_app1 in Ef by exact Hq. exact Ef.
Qed.

Lemma netnode_uses (ns : list (node T)) lo ls x out : netnode ns lo ls x out ->
  uses ns out x /\ (forall w b F, In (w, b, F) ls -> uses ns out w /\ uses ns out b) /\
  (no_dot ns x -> (forall w b F, In (w, b, F) ls -> no_dot ns w /\ no_dot ns b) -> no_dot ns out).
Proof.
  induction 1 as [x|w b F ls x y z a out Ly Ey Lz Ez A NN (U & IU & ID)].
  - split; [constructor|]. split; [intros ? ? ? []|auto].
  - assert (Ua : uses ns a z) by (destruct A as [z|z a La E|z a La E|z a La E|z a La E]; [constructor|eapply uses_step; [exact E|left; reflexivity|constructor]..]).
    assert (Uy : uses ns out y) by (eapply uses_trans; [exact U|]; eapply uses_trans; [exact Ua|]; eapply uses_step; [exact Ez|left; reflexivity|constructor]).
    assert (Ub : uses ns out b) by (eapply uses_trans; [exact U|]; eapply uses_trans; [exact Ua|]; eapply uses_step; [exact Ez|right; left; reflexivity|constructor]).
    split; [eapply uses_trans; [exact Uy|]; eapply uses_step; [exact Ey|left; reflexivity|constructor]|]. split.
    + intros w' b' F' [Q|Q]; [|eapply IU; eauto]. injection Q as <- <- <-. split; [|exact Ub]. eapply uses_trans; [exact Uy|]. eapply uses_step; [exact Ey|right; left; reflexivity|constructor].
    + intros Dx Dp. apply ID; [|intros; eapply Dp; right; eauto]. destruct (Dp w b F (or_introl eq_refl)) as [Dw Db].
      assert (Dz : no_dot ns z).
      { eapply no_dot_op; [exact Ez|discriminate|]. intros q [<-|[<-|[]]]; auto. eapply no_dot_op; [exact Ey|discriminate|]. intros q [<-|[<-|[]]]; auto. }
      destruct A as [z|z a La E|z a La E|z a La E|z a La E]; [exact Dz|eapply no_dot_op; [exact E|discriminate|intros q [<-|[]]; exact Dz]..].
Qed.

Lemma in_layers (m : mlp T) (Fs : list (T -> T)) : length Fs = length m -> forall p, In p (mlp_params m) ->
  exists w b F, In (w, b, F) (map (fun '(l, F) => (weights l, bias l, F)) (combine m Fs)) /\ (p = w \/ p = b).
Proof.
  revert Fs. induction m as [|l m IH]; intros [|F Fs] HL p Hp; cbn in HL; try discriminate; [destruct Hp|].
  unfold mlp_params in Hp. cbn [flat_map linear_params app] in Hp. destruct Hp as [<-|[<-|Hp]].
  - exists (weights l), (bias l), F. cbn. auto.
  - exists (weights l), (bias l), F. cbn. auto.
  - destruct (IH Fs ltac:(lia) p Hp) as (w & b & F' & A & B). exists w, b, F'. cbn. auto.
Qed.
Lemma layers_in (m : mlp T) (Fs : list (T -> T)) : forall w b F, In (w, b, F) (map (fun '(l, F) => (weights l, bias l, F)) (combine m Fs)) ->
  In w (mlp_params m) /\ In b (mlp_params m).
Proof.
  intros w b F H. apply in_map_iff in H as ((l & F') & E & H). injection E as <- <- _. apply in_combine_l in H.
  unfold mlp_params. split; apply in_flat_map; exists l; cbn; auto.
Qed.

Lemma rank_not_sum h p : fine h -> p < length (nodes h) -> shape (vof (nodes h) p) <> [] -> forall ins, fn_of (nodes h) p <> Some (KSum, ins).
Proof.
  intros ((HI & HN & HM) & _) Hp HS ins Ef. assert (HG : graph_ok (nodes h)) by (apply graph_ok_of; auto; apply HI).
  destruct (op_ok _ HG p _ _ Ef) as (_ & _ & O). apply HS. inversion O as [| | | | |a W P E1 E2| |]. reflexivity.
Qed.

Lemma param_rank v i m ls : net_params v i m ls -> forall p, In p (mlp_params m) -> shape (v p) <> [].
Proof.
  induction 1 as [i|i l m o F ls HF WW SW WB SB Hi Ho NP IH]; intros p Hp; [destruct Hp|].
  unfold mlp_params in Hp. cbn [flat_map linear_params app] in Hp. destruct Hp as [<-|[<-|Hp]]; [rewrite SW; discriminate| |auto].
  destruct SB as [-> | ->]; discriminate.
Qed.

(** One round *)
Lemma round_runs step h m i os x y : sound_heap h -> net_in h m i os -> sample_in h i os (x, y) ->
  exists h' m', train_step m (raw_scalar step) h x y = Ret (h', m') /\ sound_heap h' /\ extends h h' /\ net_in h' m' i os /\
    map activation m' = map activation m /\ param_shapes h' m' = param_shapes h m.
Proof.
  intros SH (HP & ls & NP & EO) (Lx & Ly & Dx & Dy & n & Hn & Sx & Sy). apply sound_fine in SH. rename SH into HF.
  assert (HI : heap_inv h) by apply HF.
  assert (LtP : forall p, In p (mlp_params m) -> p < length (nodes h)) by (intros p Hp; apply HP; auto).
  assert (LP := params_lt (nodes h) m LtP).
  assert (Wf : forall q, q < length (nodes h) -> wf (vof (nodes h) q)) by (intros q Hq; destruct (hget_vof h q Hq) as (nd & En & <-); exact (hget_wf h q nd HI En)).
  destruct (mlp_succeeds m ls h i x n NP HI Lx LP Sx Hn) as (h1 & res & E1).
  pose proof (mlp_fine m ls h i x n h1 res NP HF Lx LP Sx E1) as F1.
  destruct (mlp_run m (map snd ls) h x h1 res (net_params_acts _ _ _ _ NP) HI Lx E1) as (G1 & L1 & NN1).
  pose proof (extends_length _ _ (proj1 (proj2 G1))) as X1.
  assert (OK : forall h0, fine h0 -> forall n0 k ins, length (nodes h) <= n0 -> fn_of (nodes h0) n0 = Some (k, ins) -> opspec k (map (vof (nodes h0)) ins) (vof (nodes h0) n0)).
  { intros h0 ((I0 & N0 & M0) & _) n0 k ins _ Ef. assert (HG0 : graph_ok (nodes h0)) by (apply graph_ok_of; auto; apply I0). apply (op_ok _ HG0 n0 k ins Ef). }
  assert (VX : forall q, q < length (nodes h) -> vof (nodes h1) q = vof (nodes h) q) by (intros q Hq; apply (vof_ext h h1); [apply G1|auto]).
  assert (NP1 : net_params (vof (nodes h1)) i m ls) by (eapply net_params_ext; [apply G1|exact LP|exact NP]).
  assert (NN1' := NN1). rewrite (net_params_combine _ _ _ _ NP) in NN1'.
  destruct (net_value (nodes h1) _ (vof (nodes h1)) (OK h1 F1) m ls i n x res NP1 NN1') as (Sr & _ & _); [rewrite VX; auto..|]. rewrite EO in Sr.
  assert (PP : positive [n; net_out i os]) by (destruct F1 as ((_ & N1 & _) & _); rewrite <- Sr; apply N1; auto).
  destruct (sub_succeeds h1 res y (proj1 G1) L1 ltac:(lia)) as (h2 & diff & E2); [rewrite Sr; exact PP|rewrite Sr, VX by auto; auto|].
  pose proof (fine_sub _ _ _ _ _ F1 E2) as F2. destruct (made_grew _ _ _ _ (made_sub h1 res y (proj1 G1)) E2) as [G2 L2]. pose proof (extends_length _ _ (proj1 (proj2 G2))) as X2.
  destruct (sub_run h1 res y h2 diff E2) as (ny & K1 & K2 & K3 & K4).
  destruct (act_succeeds op_abs _ h2 diff act_abs (proj1 G2) ltac:(lia)) as (h3 & ab & E3); [destruct F2 as ((_ & N2 & _) & _); apply N2; lia|].
  pose proof (fine_abs _ _ _ _ F2 E3) as F3. destruct (made_grew _ _ _ _ (made_abs h2 diff (proj1 G2)) E3) as [G3 L3]. pose proof (extends_length _ _ (proj1 (proj2 G3))) as X3.
  assert (K5 : fn_of (nodes h3) ab = Some (KAbs, [diff])).
  { unfold op_abs in E3. apply bind_Ret_inv in E3 as (a & _ & E3). apply bind_Ret_inv in E3 as (t & _ & E3). apply Ret_inj in E3. unfold alloc in E3. injection E3 as <- <-.
    unfold fn_of. cbn [nodes]. rewrite nth_error_app2, Nat.sub_diag by auto. reflexivity. }
  destruct (op_sum h3 ab) as [[h4 loss]| |] eqn:E4; [|exfalso; unfold op_sum in E4; destruct (hget_vof h3 ab ltac:(lia)) as (nd & En & _); rewrite En in E4; discriminate E4..].
  pose proof (fine_sum _ _ _ _ F3 E4) as F4. destruct (made_grew _ _ _ _ (made_sum h3 ab (proj1 G3)) E4) as [G4 L4]. pose proof (extends_length _ _ (proj1 (proj2 G4))) as X4.
  assert (K6 : fn_of (nodes h4) loss = Some (KSum, [ab])).
  { unfold op_sum in E4. apply bind_Ret_inv in E4 as (a & _ & E4). apply bind_Ret_inv in E4 as (t & _ & E4). apply Ret_inj in E4. unfold alloc in E4. injection E4 as <- <-.
    unfold fn_of. cbn [nodes]. rewrite nth_error_app2, Nat.sub_diag by auto. reflexivity. }
  assert (G : grew h h4) by (eapply grew_trans; [exact G1|eapply grew_trans; [exact G2|eapply grew_trans; [exact G3|exact G4]]]).
  assert (G14 : extends h1 h4) by (eapply extends_trans; [apply G2|eapply extends_trans; [apply G3|apply G4]]).
  assert (G24 : extends h2 h4) by (eapply extends_trans; [apply G3|apply G4]).
  assert (NN : netnode (nodes h4) (length (nodes h)) (map (fun '(l, F) => (weights l, bias l, F)) (combine m (map snd ls))) x res) by (eapply netnode_ext; [exact G14|exact NN1]).
  assert (K2' := fn_ext _ _ _ _ G24 K2). assert (K4' := fn_ext _ _ _ _ G24 K4). assert (K5' := fn_ext _ _ _ _ (proj1 (proj2 G4)) K5).
  assert (X04 : extends h h4) by apply G.
  assert (LM : length (map snd ls) = length m) by (rewrite map_length; clear - NP; induction NP; cbn; congruence).
  destruct (netnode_uses _ _ _ _ _ NN) as (Ux & Up & Dn).
  assert (D4 : forall p, p < length (nodes h) -> no_dot (nodes h) p -> no_dot (nodes h4) p) by (intros p; apply no_dot_ext; auto).
  assert (Dr : no_dot (nodes h4) res).
  { apply Dn; [apply D4; auto|]. intros w b F Hin. apply layers_in in Hin as [Hw Hb]. split; apply D4; apply HP; auto. }
  assert (Dl : no_dot (nodes h4) loss).
  { eapply no_dot_op; [exact K6|discriminate|]. intros q [<-|[]]. eapply no_dot_op; [exact K5'|discriminate|]. intros q [<-|[]].
    eapply no_dot_op; [exact K4'|discriminate|]. intros q [<-|[<-|[]]]; [exact Dr|]. eapply no_dot_op; [exact K2'|discriminate|]. intros q [<-|[]]. apply D4; auto. }
  assert (Sl : vof (nodes h4) loss = raw_scalar (lsum (array (vof (nodes h4) ab)))).
  { assert (Ol := OK h4 F4 loss _ _ ltac:(lia) K6). cbn [map] in Ol. inversion Ol. reflexivity. }
  assert (HG4 : graph_ok (nodes h4)) by (destruct F4 as ((I4 & N4 & M4) & _); apply graph_ok_of; auto; apply I4).
  destruct (root_succeeds (nodes h4) HG4 loss KSum [ab] (grads h4)) as (gr' & EC & GO); [rewrite Sl; reflexivity|exists KSum, [ab]; auto|exact K6|apply F4|].
  assert (B1 : backward h4 loss = Ret (mkHeap (nodes h4) gr')) by (apply (backward_compute h4 loss KSum [ab] gr'); auto; rewrite Sl; reflexivity).
  set (h5 := mkHeap (nodes h4) gr') in *.
  assert (F5 : fine h5).
  { destruct F4 as ((I4 & N4 & M4) & _). destruct (backward_effect h4 h5 loss I4 B1) as (I5 & _). split; [split; [exact I5|split; [exact N4|exact M4]]|exact GO]. }
  assert (V4 : forall q, q < length (nodes h) -> vof (nodes h4) q = vof (nodes h) q) by (intros q Hq; apply (vof_ext h h4); auto).
  assert (UP : forall p, In p (mlp_params m) -> uses (nodes h4) loss p).
  { intros p Hp. eapply uses_step; [exact K6|left; reflexivity|]. eapply uses_step; [exact K5'|left; reflexivity|]. eapply uses_step; [exact K4'|left; reflexivity|].
    destruct (in_layers m (map snd ls) LM p Hp) as (w & b & F & Hin & [-> | ->]); apply (Up w b F Hin). }
  assert (HG5 : has_grads h5 (mlp_params m)).
  { apply Forall_forall. intros p Hp. change (nodes h5) with (nodes h4). assert (Hp' := LtP p Hp). split; [lia|]. split; [apply F4; lia|].
    destruct (grads h5 p) as [g|] eqn:Eg.
    - exists g. split; auto. destruct (GO p g Eg ltac:(lia)) as (A1 & A2 & A3). split; auto. apply A3. apply rank_not_sum; [exact F4|lia|]. rewrite V4 by auto.
      exact (param_rank _ _ _ _ NP p Hp).
    - exfalso. apply (backward_presence h4 h5 loss p (proj1 (proj1 F4)) B1 ltac:(lia)) in Eg as [_ Eg]. apply Eg, UP, Hp. }
  destruct (sgd_params_ok step (mlp_params m) h5 [] (proj1 (proj1 F5)) HG5) as (h6 & news & ES & I6 & X6 & K6' & S6 & N6).
  destruct (sgd_params_fine step (mlp_params m) h5 [] h6 ([] ++ news) F5 ES) as (news' & EN & F6 & _ & SG & _ & _).
  cbn [app] in EN. subst news'.
  assert (HL : length news = 2 * length m) by (assert (LL' : length (mlp_params m) = length news) by (eapply Forall2_length'; eauto); rewrite <- LL'; apply (proj1 (c48_params T NT m))).
  destruct (c48_update_params T NT m news HL) as (m' & E' & Q1 & Q2 & Q3).
  assert (X06 : extends h h6). { eapply extends_trans; [exact X04|]. destruct X6 as [e Ee]. exists e. exact Ee. }
  assert (L6 := extends_length _ _ X06).
  assert (SH : Forall2 (fun p p' => wf (vof (nodes h6) p') /\ shape (vof (nodes h6) p') = shape (vof (nodes h) p)) (mlp_params m) (mlp_params m')).
  { rewrite Q1. eapply Forall2_impl_in; [|exact S6]. intros p p' Hp Hp' (g & Eg & Sg & _ & Lp' & _). split.
    - destruct (hget_vof h6 p' ltac:(lia)) as (nd & En & <-). exact (hget_wf h6 p' nd I6 En).
    - rewrite Sg. change (nodes h5) with (nodes h4). rewrite V4; auto. }
  destruct (net_params_new _ _ i m ls NP m' Q2 SH) as (ls' & NP' & EO').
  exists h6, m'. split.
  { unfold train_step. rewrite E1. cbn [bind]. rewrite E2. cbn [bind]. rewrite E3. cbn [bind]. rewrite E4. cbn [bind]. rewrite B1. cbn [bind].
    unfold sgd_step_mlp, sgd_new_params. rewrite ES. cbn [bind app]. rewrite E'. reflexivity. }
  split; [apply sound_fine; exact F6|]. split; [exact X06|]. split; [|split; [exact Q2|]].
  - split.
    + rewrite Q1. intros p' Hp'.
      assert (Inew : exists p, In p (mlp_params m) /\ stepgraph (nodes h6) p p').
      { clear - SG Hp'. induction SG as [|a b l l' H1 SG IH]; [destruct Hp'|]. destruct Hp' as [->|Hp']; [exists a; cbn; auto|]. destruct (IH Hp') as (p & A & B). exists p. cbn. auto. }
      destruct Inew as (p & Hp & ip & nj & A & B & C & D). split; [eapply fn_lt; exact A|].
      eapply no_dot_op; [exact A|discriminate|]. intros q [<-|[<-|[]]].
      * apply (no_dot_ext h); auto. apply HP; auto.
      * eapply no_dot_op; [exact B|discriminate|]. intros q [<-|[]]. apply no_dot_leaf; exact C.
    + exists ls'. split; [exact NP'|]. rewrite <- EO. assert (EQ : map fst (map (fun '(o, _, _, F) => (o, F)) ls') = map fst (map (fun '(o, _, _, F) => (o, F)) ls)) by (rewrite EO'; reflexivity).
      rewrite !map_map in EQ. erewrite map_ext; [rewrite EQ; apply map_ext|]; intros [[[? ?] ?] ?]; reflexivity.
  - unfold param_shapes. clear - SH. induction SH as [|p p' l l' [W S] SH IH]; [reflexivity|]. cbn [map]. rewrite S, IH. reflexivity.
Qed.

Lemma sample_ext h h' i os s : heap_inv h -> extends h h' -> sample_in h i os s -> sample_in h' i os s.
Proof.
  destruct s as [x y]. intros HI X (Lx & Ly & Dx & Dy & n & Hn & Sx & Sy). pose proof (extends_length _ _ X).
  repeat split; [lia|lia|apply (no_dot_ext h); auto..|]. exists n. rewrite !(vof_ext h h') by auto. auto.
Qed.

Lemma training_runs step i os : forall samples h m, sound_heap h -> net_in h m i os -> Forall (sample_in h i os) samples ->
  exists h' m', train m (raw_scalar step) h samples = Ret (h', m') /\ sound_heap h' /\ extends h h' /\ net_in h' m' i os /\
    map activation m' = map activation m /\ param_shapes h' m' = param_shapes h m.
Proof.
  induction samples as [|[x y] samples IH]; intros h m SH NI HS.
  - exists h, m. split; [reflexivity|]. split; auto. split; [apply extends_refl|]. auto.
  - inversion HS as [|? ? H1 H2]; subst. destruct (round_runs step h m i os x y SH NI H1) as (h1 & m1 & E1 & SH1 & X1 & NI1 & A1 & P1).
    destruct (IH h1 m1 SH1 NI1) as (h2 & m2 & E2 & SH2 & X2 & NI2 & A2 & P2).
    { eapply Forall_impl; [|exact H2]. intros s. apply sample_ext; auto. apply SH. }
    exists h2, m2. split.
    { unfold train in *. cbn [foldM]. rewrite E1. cbn [bind]. exact E2. }
    split; auto. split; [eapply extends_trans; eauto|]. split; auto. split; congruence.
Qed.

(** The loop of main.rs *)
Lemma main_rounds_run step i os x y : forall k h m, sound_heap h -> net_in h m i os -> sample_in h i os (x, y) ->
  exists h' m', foldM (fun hm _ => main_round step x y hm) (repeat tt k) (h, m) = Ret (h', m') /\ sound_heap h' /\ net_in h' m' i os /\ sample_in h' i os (x, y) /\
    map activation m' = map activation m /\ param_shapes h' m' = param_shapes h m.
Proof.
  induction k as [|k IH]; intros h m SH NI SI.
  - exists h, m. cbn [repeat foldM]. auto 10.
  - destruct (round_runs step h m i os x y SH NI SI) as (h1 & m1 & E1 & SH1 & X1 & NI1 & A1 & P1).
    assert (SI1 := sample_ext h h1 i os (x, y) (proj1 SH) X1 SI).
    set (h2 := zero_grad (zero_grad h1 y) x).
    assert (SH2 : sound_heap h2) by (apply sound_fine, fine_zero_grad, fine_zero_grad, sound_fine; exact SH1).
    destruct (IH h2 m1 SH2 NI1 SI1) as (h3 & m3 & E3 & Q1 & Q2 & Q3 & Q4 & Q5).
    exists h3, m3. split.
    { assert (ER : main_round step x y (h, m) = Ret (h2, m1)) by (unfold main_round; rewrite E1; reflexivity).
      cbn [repeat foldM]. rewrite ER. cbn [bind]. exact E3. }
    split; auto. split; auto. split; auto. split; [congruence|]. rewrite Q5. exact P1.
Qed.

(** A fresh tensor *)
Lemma new_fine h a s : fine h -> positive s -> length a = product s ->
  exists h' i, op_new h a s = Ret (h', i) /\ fine h' /\ extends h h' /\ i = length (nodes h) /\ length (nodes h') = S i /\ vof (nodes h') i = mkRaw a s /\ fn_of (nodes h') i = None.
Proof.
  intros HF HP HL. unfold op_new, raw_new. rewrite HL, Nat.eqb_refl. cbn [assert bind].
  exists (fst (alloc h (mkRaw a s) None None)), (length (nodes h)). split; [reflexivity|]. split; [apply fine_alloc; auto; [rewrite product_size in HL; exact HL|discriminate|discriminate]|].
  split; [eexists; reflexivity|]. split; [reflexivity|]. unfold alloc. cbn [fst nodes]. rewrite app_length. cbn. split; [lia|].
  unfold vof, fn_of. rewrite !nth_error_app2, Nat.sub_diag by auto. auto.
Qed.

Lemma main_net_runs inp hid out (w1 b1 w2 b2 w3 b3 : list T) : 0 < inp -> 0 < hid -> 0 < out ->
  length w1 = inp * hid -> length b1 = hid -> length w2 = hid * hid -> length b2 = hid -> length w3 = hid * out -> length b3 = out ->
  exists h m, main_net inp hid out w1 b1 w2 b2 w3 b3 (mkHeap [] (fun _ => None)) = Ret (h, m) /\ sound_heap h /\ net_in h m inp [hid; hid; out] /\
    map activation m = [op_relu; op_tanh; op_tanh] /\ param_shapes h m = [[inp; hid]; [1; hid]; [hid; hid]; [1; hid]; [hid; out]; [1; out]].
Proof.
  intros Hi Hh Ho L1 L2 L3 L4 L5 L6. set (h0 := mkHeap [] (fun _ => None)).
  assert (F0 : fine h0).
  { split; [split; [split; [intros n nd E; destruct n; discriminate E|intros n g E; discriminate E]|split; [intros n Hn; cbn in Hn; lia|intros n ins E; unfold fn_of in E; destruct n; discriminate E]]|intros n g E; discriminate E]. }
  destruct (new_fine h0 w1 [inp; hid] F0) as (h1 & i1 & E1 & F1 & X1 & I1 & N1 & V1 & K1); [repeat constructor; auto|cbn; lia|].
  destruct (new_fine h1 b1 [1; hid] F1) as (h2 & i2 & E2 & F2 & X2 & I2 & N2 & V2 & K2); [repeat constructor; auto|cbn; lia|].
  destruct (new_fine h2 w2 [hid; hid] F2) as (h3 & i3 & E3 & F3 & X3 & I3 & N3 & V3 & K3); [repeat constructor; auto|cbn; lia|].
  destruct (new_fine h3 b2 [1; hid] F3) as (h4 & i4 & E4 & F4 & X4 & I4 & N4 & V4 & K4); [repeat constructor; auto|cbn; lia|].
  destruct (new_fine h4 w3 [hid; out] F4) as (h5 & i5 & E5 & F5 & X5 & I5 & N5 & V5 & K5); [repeat constructor; auto|cbn; lia|].
  destruct (new_fine h5 b3 [1; out] F5) as (h6 & i6 & E6 & F6 & X6 & I6 & N6 & V6 & K6); [repeat constructor; auto|cbn; lia|].
  exists h6, [relu_layer i1 i2; tanh_layer i3 i4; tanh_layer i5 i6]. split.
  { unfold main_net. rewrite E1. cbn [bind]. rewrite E2. cbn [bind]. rewrite E3. cbn [bind]. rewrite E4. cbn [bind]. rewrite E5. cbn [bind]. rewrite E6. reflexivity. }
  assert (Y5 : extends h5 h6) by auto. assert (Y4 : extends h4 h6) by (eapply extends_trans; eauto). assert (Y3 : extends h3 h6) by (eapply extends_trans; eauto).
  assert (Y2 : extends h2 h6) by (eapply extends_trans; eauto). assert (Y1 : extends h1 h6) by (eapply extends_trans; eauto).
  assert (W : forall h i t, extends h h6 -> length (nodes h) = S i -> vof (nodes h) i = t -> vof (nodes h6) i = t) by (intros h i t X L <-; apply (vof_ext h h6); [exact X|lia]).
  assert (K : forall h i, extends h h6 -> length (nodes h) = S i -> fn_of (nodes h) i = None -> fn_of (nodes h6) i = None).
  { intros h i [e X] L E. rewrite X. unfold fn_of in *. rewrite nth_error_app1 by lia. exact E. }
  pose proof (W _ _ _ Y1 N1 V1) as Z1. pose proof (W _ _ _ Y2 N2 V2) as Z2. pose proof (W _ _ _ Y3 N3 V3) as Z3. pose proof (W _ _ _ Y4 N4 V4) as Z4. pose proof (W _ _ _ Y5 N5 V5) as Z5.
  pose proof (K _ _ Y1 N1 K1) as Q1. pose proof (K _ _ Y2 N2 K2) as Q2. pose proof (K _ _ Y3 N3 K3) as Q3. pose proof (K _ _ Y4 N4 K4) as Q4. pose proof (K _ _ Y5 N5 K5) as Q5.
  split; [apply sound_fine; exact F6|]. split.
  - split.
    + intros p Hp. cbn in Hp. destruct Hp as [<-|[<-|[<-|[<-|[<-|[<-|[]]]]]]]; (split; [lia|apply no_dot_leaf; auto]).
    + eexists. split; [|shelve].
      apply np_cons with (o := hid) (F := fun x => if n_lt x n_zero then n_zero else x); cbn [relu_layer linear_new activation weights bias]; rewrite ?Z1, ?Z2; cbn [shape]; unfold wf; cbn; auto; try lia; [constructor|].
      apply np_cons with (o := hid) (F := n_tanh); cbn [tanh_layer linear_new activation weights bias]; rewrite ?Z3, ?Z4; cbn [shape]; unfold wf; cbn; auto; try lia; [constructor|].
      apply np_cons with (o := out) (F := n_tanh); cbn [tanh_layer linear_new activation weights bias]; rewrite ?Z5, ?V6; cbn [shape]; unfold wf; cbn; auto; try lia; [constructor|]. constructor.
      Unshelve. reflexivity.
  - split; [reflexivity|]. unfold param_shapes. cbn. rewrite Z1, Z2, Z3, Z4, Z5, V6. reflexivity.
Qed.

Lemma main_setup_runs inp hid out (one : T) w1 b1 w2 b2 w3 b3 input : 0 < inp -> 0 < hid -> 0 < out ->
  length w1 = inp * hid -> length b1 = hid -> length w2 = hid * hid -> length b2 = hid -> length w3 = hid * out -> length b3 = out -> length input = inp ->
  exists h m x y, main_setup inp hid out one w1 b1 w2 b2 w3 b3 input = Ret (h, m, x, y) /\ sound_heap h /\ net_in h m inp [hid; hid; out] /\ sample_in h inp [hid; hid; out] (x, y) /\
    map activation m = [op_relu; op_tanh; op_tanh] /\ param_shapes h m = [[inp; hid]; [1; hid]; [hid; hid]; [1; hid]; [hid; out]; [1; out]].
Proof.
  intros Hi Hh Ho L1 L2 L3 L4 L5 L6 L7.
  destruct (main_net_runs inp hid out w1 b1 w2 b2 w3 b3 Hi Hh Ho L1 L2 L3 L4 L5 L6) as (h & m & E & SH & NI & A & P).
  destruct (new_fine h input [1; inp] (proj1 (sound_fine h) SH)) as (h1 & x & E1 & F1 & X1 & I1 & N1 & V1 & K1); [repeat constructor; auto|cbn; lia|].
  assert (E2 : op_filler h1 [1; out] one = op_new h1 (repeat one out) [1; out]).
  { unfold op_filler, op_new, raw_new, raw_filler. cbn [product fold_right]. replace (1 * (out * 1)) with out by lia. rewrite repeat_length.
    replace (product [1; out]) with out by (cbn; lia). rewrite Nat.eqb_refl. reflexivity. }
  destruct (new_fine h1 (repeat one out) [1; out] F1) as (h2 & y & E3 & F2 & X2 & I2 & N2 & V2 & K2); [repeat constructor; auto|rewrite repeat_length; cbn; lia|].
  assert (X02 : extends h h2) by (eapply extends_trans; eauto). pose proof (extends_length _ _ X02).
  exists h2, m, x, y. split.
  { unfold main_setup. rewrite E. cbn [bind]. rewrite E1. cbn [bind]. rewrite E2, E3. reflexivity. }
  split; [apply sound_fine; exact F2|]. split; [|split; [|split; [exact A|]]].
  - destruct NI as (HP & ls & NP & EO). split.
    + intros p Hp. destruct (HP p Hp) as [Lp Dp]. split; [lia|]. apply (no_dot_ext h); auto. apply SH.
    + exists ls. split; [|exact EO]. eapply net_params_ext; [exact X02| |exact NP]. apply params_lt. intros p Hp. apply HP; auto.
  - split; [lia|]. split; [lia|]. split; [|split; [apply no_dot_leaf; exact K2|]].
    + apply (no_dot_ext h1); [apply F1|exact X2|lia|apply no_dot_leaf; exact K1].
    + exists 1. split; [lia|]. rewrite (vof_ext h1 h2) by (auto; lia). rewrite V1, V2. split; reflexivity.
  - rewrite <- P. unfold param_shapes. apply map_ext_in. intros p Hp. rewrite (vof_ext h h2); auto. apply NI; auto.
Qed.

Lemma main_runs inp hid out rounds (one step : T) w1 b1 w2 b2 w3 b3 input : 0 < inp -> 0 < hid -> 0 < out ->
  length w1 = inp * hid -> length b1 = hid -> length w2 = hid * hid -> length b2 = hid -> length w3 = hid * out -> length b3 = out -> length input = inp ->
  exists h m, main_program inp hid out rounds one step w1 b1 w2 b2 w3 b3 input = Ret (h, m) /\ sound_heap h /\ net_in h m inp [hid; hid; out] /\
    map activation m = [op_relu; op_tanh; op_tanh] /\ param_shapes h m = [[inp; hid]; [1; hid]; [hid; hid]; [1; hid]; [hid; out]; [1; out]].
Proof.
  intros Hi Hh Ho L1 L2 L3 L4 L5 L6 L7.
  destruct (main_setup_runs inp hid out one w1 b1 w2 b2 w3 b3 input Hi Hh Ho L1 L2 L3 L4 L5 L6 L7) as (h & m & x & y & E & SH & NI & SI & A & P).
  destruct (main_rounds_run step inp [hid; hid; out] x y rounds h m SH NI SI) as (h3 & m3 & E4 & Q1 & Q2 & Q3 & Q4 & Q5).
  exists h3, m3. split.
  { unfold main_program. rewrite E. cbn [bind]. exact E4. }
  split; auto. split; auto. split; [congruence|]. rewrite Q5. exact P.
Qed.
End Loop.
