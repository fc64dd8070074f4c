(** * KeepFacts: training rounds at any point, kinks included *)
From Coq Require Import Reals Lra.
From Verif Require Import Base ModelIndex ModelTensor ModelOps ModelJvp ModelGraph ModelNN Spec SpecDual SpecGraph SpecNN
  Lists IndexFacts TensorFacts OpsFacts Sums JvpFacts Dual ClaimsMat Adjoint GradRing RealInst SpecReal SpecTrain OpDeriv GradReal
  FuelFacts GraphFacts ProgFacts BackFacts SimFacts NNFacts ClaimsNN ClaimsGrad TrainFacts SpecDescent SpecFrozen FrozenFacts SpecKeep.

(** ** The graph of the forward pass *)
Lemma net_graph_any (ns : list (node R)) lo : let V := vof ns in
  (forall n k ins, lo <= n -> fn_of ns n = Some (k, ins) -> opspec k (map V ins) (V n)) ->
  forall m ls i n x out, net_params V i m ls ->
  netnode ns lo (map (fun '(l, (_, _, _, F)) => (weights l, bias l, F)) (combine m ls)) x out ->
  wf (V x) -> shape (V x) = [n; i] -> plain ns x ->
  (forall p, In p (mlp_params m) -> plain ns p) -> small_net n i ls ->
  plain ns out /\ uses ns out x /\ forall p, In p (mlp_params m) -> uses ns out p.
Proof.
  intros V HV m ls i n x out NP. revert n x out. induction NP as [i|i l m o F ls HF WW SW WB SB Hi Ho NP IH]; intros n x out NN Wx Sx Px HP HS; cbn [combine map] in *.
  - inversion NN; subst. repeat split; auto. constructor. intros p [].
  - inversion NN as [|w b F' ls' x' y z a out' Ly Ey Lz Ez A NN']; subst. cbn [small_net] in *. destruct HS as (HS1 & HS2 & HS3).
    pose proof (HV y _ _ Ly Ey) as Oy. pose proof (HV z _ _ Lz Ez) as Oz. cbn [map] in Oy, Oz.
    destruct (bmm_value _ _ _ n i o Oy Sx SW) as (Sy & Wy & Vy).
    destruct (bias_value _ _ _ n o Oz WB Sy SB) as (Sz & Wz & Vz).
    destruct (act_value ns lo F z a V n o HV A Wz Sz) as (Sa & Wa & Va).
    unfold mlp_params in HP. cbn [flat_map linear_params app] in HP. fold (mlp_params m) in HP.
    pose proof (HP (weights l) ltac:(cbn; auto)) as Pw. pose proof (HP (bias l) ltac:(cbn; auto)) as Pb.
    assert (Py : plain ns y).
    { eapply plain_op; [eapply fn_lt; eauto|exact Ey|discriminate|discriminate| |].
      - intros _. constructor; [|constructor; [|constructor]]; fold V; rewrite ?Sx, ?SW; cbn; lia.
      - intros q [<-|[<-|[]]]; auto. }
    assert (Pz : plain ns z).
    { eapply plain_op; [eapply fn_lt; eauto|exact Ez|discriminate|discriminate|discriminate|]. intros q [<-|[<-|[]]]; auto. }
    assert (Uz : uses ns z x /\ uses ns z (weights l) /\ uses ns z (bias l)).
    { assert (Uy : uses ns z y) by (eapply uses_step; [exact Ez|left; reflexivity|constructor]). split; [|split].
      - eapply uses_trans; [exact Uy|]. eapply uses_step; [exact Ey|left; reflexivity|constructor].
      - eapply uses_trans; [exact Uy|]. eapply uses_step; [exact Ey|right; left; reflexivity|constructor].
      - eapply uses_step; [exact Ez|right; left; reflexivity|constructor]. }
    assert (Qa : plain ns a /\ uses ns a z).
    { destruct A as [z|z a La E|z a La E|z a La E|z a La E]; [repeat split; auto; constructor|..];
        (split; [eapply plain_op; [eapply fn_lt; eauto|exact E|discriminate|discriminate|discriminate|intros q [<-|[]]; auto]|]);
        (eapply uses_step; [exact E|left; reflexivity|constructor]). }
    destruct Qa as (Pa & Ua).
    destruct (IH n a out NN' Wa Sa Pa ltac:(intros p Hp; apply HP; cbn; auto) HS3) as (R1 & R3 & R4); auto.
    split; [exact R1|]. assert (Uo : uses ns out z) by (eapply uses_trans; eauto).
    split; [eapply uses_trans; [exact Uo|apply Uz]|].
    unfold mlp_params. cbn [flat_map linear_params app]. intros p [<-|[<-|Hp]]; [eapply uses_trans; [exact Uo|apply Uz]..|apply R4; exact Hp].
Qed.
Local Open Scope R_scope.
Lemma round_forward_any h data m i ls x y n : ready h data m i ls -> In x data -> In y data -> shape (vof (nodes h) x) = [n; i] ->
  shape (vof (nodes h) y) = [n; net_out i (outputs ls)] -> (0 < n)%nat -> small_net n i ls ->
  exists h1 res h2 diff h3 ab h4 loss,
    mlp_forward m h x = Ret (h1, res) /\ op_sub h1 res y = Ret (h2, diff) /\ op_abs h2 diff = Ret (h3, ab) /\ op_sum h3 ab = Ret (h4, loss) /\
    fine h4 /\ extends h h4 /\ grads_kept h h4 /\
    netnode (nodes h4) (length (nodes h)) (layers m ls) x res /\ lossnode (nodes h4) (length (nodes h)) res y loss /\
    root_ok (nodes h4) loss /\ (length (nodes h) <= loss)%nat /\
    (forall p, In p (mlp_params m) -> uses (nodes h4) loss p).
Proof.
  intros RD Hx Hy Sx Sy Hn SM. destruct RD as [HI HN HM HG NP ND HP HK HU HD HNG].
  set (co := net_out i (outputs ls)) in *.
  assert (HF : fine h) by (split; [split; [exact HI|split; assumption]|exact HG]).
  assert (Lt : forall q, In q (data ++ mlp_params m) -> (q < length (nodes h))%nat) by (intros q Hq; apply plain_lt; auto).
  assert (Lx : (x < length (nodes h))%nat) by (apply Lt, in_or_app; auto). assert (Ly : (y < length (nodes h))%nat) by (apply Lt, in_or_app; auto).
  assert (LP := params_lt (nodes h) m (fun p Hp => Lt p (in_or_app _ _ _ (or_intror Hp)))).
  assert (Wf : forall q, (q < length (nodes h))%nat -> wf (vof (nodes h) q)) by (intros q Hq; destruct (hget_vof h q Hq) as (nd & En & <-); exact (hget_wf h q nd HI En)).
  destruct (mlp_succeeds m ls h i x n NP HI Lx LP Sx Hn) as (h1 & res & E1).
  pose proof (mlp_fine m ls h i x n h1 res NP HF Lx LP Sx E1) as F1.
  destruct (mlp_run m (map snd ls) h x h1 res (net_params_acts _ _ _ _ NP) HI Lx E1) as (G1 & L1 & NN1). rewrite (layers_eq _ _ _ _ NP) in NN1.
  pose proof (extends_length _ _ (proj1 (proj2 G1))) as X1.
  assert (OK : forall h0, fine h0 -> forall n0 k ins, (length (nodes h) <= n0)%nat -> fn_of (nodes h0) n0 = Some (k, ins) -> opspec k (map (vof (nodes h0)) ins) (vof (nodes h0) n0)).
  { intros h0 ((I0 & N0 & M0) & _) n0 k ins _ Ef. assert (HG0 : graph_ok (nodes h0)) by (apply graph_ok_of; auto; apply I0). apply (op_ok _ HG0 n0 k ins Ef). }
  assert (VX : forall q, (q < length (nodes h))%nat -> vof (nodes h1) q = vof (nodes h) q) by (intros q Hq; apply (vof_ext h h1); [apply G1|auto]).
  assert (NP1 : net_params (vof (nodes h1)) i m ls) by (eapply net_params_ext; [apply G1|exact LP|exact NP]).
  destruct (net_value (nodes h1) _ (vof (nodes h1)) (OK h1 F1) m ls i n x res NP1 NN1) as (Sr & Wr & Vr); [rewrite VX; auto..|].
  fold (outputs ls) in Sr, Vr. fold co in Sr, Vr.
  (* the loss *)
  assert (PP : positive [n; co]) by (destruct F1 as ((_ & N1 & _) & _); rewrite <- Sr; apply N1; auto).
  destruct (sub_succeeds h1 res y (proj1 G1) L1 ltac:(lia)) as (h2 & diff & E2); [rewrite Sr; exact PP|rewrite Sr, VX by auto; auto|].
  pose proof (fine_sub _ _ _ _ _ F1 E2) as F2. destruct (made_grew _ _ _ _ (made_sub h1 res y (proj1 G1)) E2) as [G2 L2]. pose proof (extends_length _ _ (proj1 (proj2 G2))) as X2.
  destruct (sub_run h1 res y h2 diff E2) as (ny & K1 & K2 & K3 & K4).
  destruct (act_succeeds op_abs _ h2 diff act_abs (proj1 G2) ltac:(lia)) as (h3 & ab & E3); [destruct F2 as ((_ & N2 & _) & _); apply N2; lia|].
  pose proof (fine_abs _ _ _ _ F2 E3) as F3. destruct (made_grew _ _ _ _ (made_abs h2 diff (proj1 G2)) E3) as [G3 L3]. pose proof (extends_length _ _ (proj1 (proj2 G3))) as X3.
  assert (K5 : fn_of (nodes h3) ab = Some (KAbs, [diff])).
  { unfold op_abs in E3. apply bind_Ret_inv in E3 as (a & _ & E3). apply bind_Ret_inv in E3 as (t & _ & E3). apply Ret_inj in E3. unfold alloc in E3. injection E3 as <- <-.
    unfold fn_of. cbn [nodes]. rewrite nth_error_app2, Nat.sub_diag by auto. reflexivity. }
  destruct (op_sum h3 ab) as [[h4 loss]| |] eqn:E4; [|exfalso; unfold op_sum in E4; destruct (hget_vof h3 ab ltac:(lia)) as (nd & En & _); rewrite En in E4; discriminate E4..].
  pose proof (fine_sum _ _ _ _ F3 E4) as F4. destruct (made_grew _ _ _ _ (made_sum h3 ab (proj1 G3)) E4) as [G4 L4]. pose proof (extends_length _ _ (proj1 (proj2 G4))) as X4.
  assert (K6 : fn_of (nodes h4) loss = Some (KSum, [ab])).
  { unfold op_sum in E4. apply bind_Ret_inv in E4 as (a & _ & E4). apply bind_Ret_inv in E4 as (t & _ & E4). apply Ret_inj in E4. unfold alloc in E4. injection E4 as <- <-.
    unfold fn_of. cbn [nodes]. rewrite nth_error_app2, Nat.sub_diag by auto. reflexivity. }
  assert (G : grew h h4) by (eapply grew_trans; [exact G1|eapply grew_trans; [exact G2|eapply grew_trans; [exact G3|exact G4]]]).
  assert (G14 : extends h1 h4) by (eapply extends_trans; [apply G2|eapply extends_trans; [apply G3|apply G4]]).
  assert (G24 : extends h2 h4) by (eapply extends_trans; [apply G3|apply G4]).
  assert (LN : lossnode (nodes h4) (length (nodes h)) res y loss).
  { exists ny, diff, ab. split; [lia|]. split; [eapply fn_ext; [exact G24|exact K2]|]. split; [lia|]. split; [eapply fn_ext; [exact G24|exact K4]|]. split; [lia|].
    split; [eapply fn_ext; [apply G4|exact K5]|]. split; [lia|exact K6]. }
  assert (NN : netnode (nodes h4) (length (nodes h)) (layers m ls) x res) by (eapply netnode_ext; [exact G14|exact NN1]).
  assert (V4 : forall q, (q < length (nodes h))%nat -> vof (nodes h4) q = vof (nodes h) q) by (intros q Hq; apply (vof_ext h h4); [apply G|auto]).
  assert (NP4 : net_params (vof (nodes h4)) i m ls) by (eapply net_params_ext; [apply G|exact LP|exact NP]).
  destruct (net_graph_any (nodes h4) (length (nodes h)) (OK h4 F4) m ls i n x res NP4 NN) as (Pr & Ur & Up);
    [rewrite V4 by auto; auto|rewrite V4 by auto; auto|eapply plain_ext; [apply G|]; apply HP, in_or_app; auto| |exact SM|].
  { intros p Hp. assert (Hp' : In p (data ++ mlp_params m)) by (apply in_or_app; auto). eapply plain_ext; [apply G|auto]. }
  (* values *)
  destruct (net_value (nodes h4) _ (vof (nodes h4)) (OK h4 F4) m ls i n x res NP4 NN) as (Sr4 & Wr4 & Vr4); [rewrite V4; auto..|].
  fold (outputs ls) in Sr4, Vr4. fold co in Sr4, Vr4.
  assert (K2' := fn_ext _ _ _ _ G24 K2). assert (K4' := fn_ext _ _ _ _ G24 K4). assert (K5' := fn_ext _ _ _ _ (proj1 (proj2 G4)) K5).
  assert (On := OK h4 F4 ny _ _ ltac:(lia) K2'). assert (Od := OK h4 F4 diff _ _ ltac:(lia) K4'). cbn [map] in On, Od.
  destruct (diff_value _ _ _ _ n co On Od Sr4 ltac:(rewrite V4 by auto; exact Sy)) as (Sd & Wd & Vd).
  assert (Py : plain (nodes h4) y) by (eapply plain_ext; [apply G|]; apply HP, in_or_app; auto).
  assert (Pn : plain (nodes h4) ny) by (eapply plain_op; [eapply fn_lt; exact K2'|exact K2'|discriminate|discriminate|discriminate|intros q [<-|[]]; auto]).
  assert (Pd : plain (nodes h4) diff) by (eapply plain_op; [eapply fn_lt; exact K4'|exact K4'|discriminate|discriminate|discriminate|intros q [<-|[<-|[]]]; auto]).
  assert (Pa : plain (nodes h4) ab) by (eapply plain_op; [eapply fn_lt; exact K5'|exact K5'|discriminate|discriminate|discriminate|intros q [<-|[]]; auto]).
  exists h1, res, h2, diff, h3, ab, h4, loss. split; [exact E1|]. split; [reflexivity || exact E2|]. split; [exact E3|]. split; [exact E4|]. split; [exact F4|].
  split; [apply G|]. split; [apply G|]. split; [exact NN|]. split; [exact LN|]. split.
  { assert (Ol := OK h4 F4 loss _ _ ltac:(lia) K6). cbn [map] in Ol. apply sum_inv in Ol. split; [rewrite Ol; reflexivity|].
    exists KSum, [ab]. split; [exact K6|]. eapply top_sum; [eapply fn_lt; exact K6|exact K6|exact Pa]. }
  split; [lia|]. intros p Hp.
  eapply uses_step; [exact K6|left; reflexivity|]. eapply uses_step; [exact K5'|left; reflexivity|]. eapply uses_step; [exact K4'|left; reflexivity|]. auto.
Qed.

(** ** Backward *)
Local Open Scope R_scope.
Lemma backward_kept (h : heap R) r l : fine h -> root_ok (nodes h) r ->
  (l < length (nodes h))%nat -> l <> r -> (forall ins, fn_of (nodes h) l <> Some (KSum, ins)) ->
  exists h', backward h r = Ret h' /\ nodes h' = nodes h /\ gr_ok (nodes h) (grads h') /\
    forall p, (p < size (shape (vof (nodes h) l)))%nat -> exists d V,
      gentry (grads h') l p = gentry (grads h) l p + d /\
      (forall t, V t l = bump (vof (nodes h) l) p t) /\
      (forall t n, (n < length (nodes h))%nat -> ~ uses (nodes h) n l -> V t n = vof (nodes h) n) /\
      (forall t n k ins, n <> l -> fn_of (nodes h) n = Some (k, ins) -> fspec k (map (vof (nodes h)) ins) (map (V t) ins) (V t n)) /\
      derivable_pt_lim (fun t => nth 0 (array (V t r)) 0) 0 d.
Proof.
  intros ((HI & HN & HM) & HGR) Hroot Hl Hlr Hsum. set (ns := nodes h) in *.
  assert (HG : graph_ok ns) by (apply graph_ok_of; auto; apply HI).
  assert (H1 := Hroot). destruct H1 as (Hsz & k & ins & Ef & _).
  destruct (backward_frozen ns (grads h) r k ins l HG HGR Hroot Ef Hl Hlr Hsum) as (gr' & Ec & HGR' & Hd).
  destruct (op_ok ns HG r k ins Ef) as (Hr & _).
  exists (mkHeap ns gr'). split.
  { apply (backward_compute h r k ins gr'); auto. fold ns. destruct (vof_ok ns HG r Hr) as [W _]. unfold wf in W. rewrite W. exact Hsz. }
  split; [reflexivity|]. split; [exact HGR'|]. intros p Hp. cbn [grads].
  destruct (Hd p Hp) as (d0 & vs & E0 & RE & L & SF & Vl & Vu & Vo & D).
  exists d0, (fun t => vnth (vs t)). split; [exact E0|]. split; [exact Vl|]. split; [exact Vu|]. split; [exact Vo|exact D].
Qed.

(** ** Values with branches kept *)
Inductive keepact (ns : list (node R)) (lo : nat) : (R -> R) -> (R -> R -> R) -> nat -> nat -> Prop :=
| ka_id z : keepact ns lo (fun x => x) (fun _ x => x) z z
| ka_relu z a : (lo <= a)%nat -> fn_of ns a = Some (KRelu, [z]) -> keepact ns lo (fun x => if n_lt x n_zero then n_zero else x) relu_branch z a
| ka_tanh z a : (lo <= a)%nat -> fn_of ns a = Some (KTanh, [z]) -> keepact ns lo n_tanh (fun _ x => n_tanh x) z a
| ka_abs z a : (lo <= a)%nat -> fn_of ns a = Some (KAbs, [z]) -> keepact ns lo n_abs abs_branch z a
| ka_neg z a : (lo <= a)%nat -> fn_of ns a = Some (KNeg, [z]) -> keepact ns lo n_neg (fun _ x => n_neg x) z a.

Lemma keepact_act ns lo F K z a : keepact ns lo F K z a -> actnode ns lo F z a.
Proof. destruct 1; constructor; auto. Qed.
Lemma actnode_keep ns lo F z a : actnode ns lo F z a -> exists K, keeps F K /\ keepact ns lo F K z a.
Proof. destruct 1; eexists; split; constructor; auto. Qed.

Inductive keepnode (ns : list (node R)) (lo : nat) : list (nat * nat * (R -> R)) -> list (R -> R -> R) -> nat -> nat -> Prop :=
| kn_nil x : keepnode ns lo [] [] x x
| kn_cons w b F K ls Ks x y z a out :
    (lo <= y)%nat -> fn_of ns y = Some (KBmm, [x; w]) -> (lo <= z)%nat -> fn_of ns z = Some (KAdd, [y; b]) ->
    keepact ns lo F K z a -> keepnode ns lo ls Ks a out -> keepnode ns lo ((w, b, F) :: ls) (K :: Ks) x out.

Lemma netnode_keep ns lo ls x out : netnode ns lo ls x out -> exists Ks, Forall2 keeps (map snd ls) Ks /\ keepnode ns lo ls Ks x out.
Proof.
  induction 1 as [x|w b F ls x y z a out Ly Ey Lz Ez A NN (Ks & HK & IK)].
  - exists []. split; constructor.
  - destruct (actnode_keep _ _ _ _ _ A) as (K & HK1 & KA). exists (K :: Ks). split; [constructor; auto|]. apply (kn_cons ns lo w b F K ls Ks x y z a out); auto.
Qed.

Lemma net_keeps (ns : list (node R)) lo m ls i x out v : net_params v i m ls -> netnode ns lo (layers m ls) x out ->
  exists Ks, Forall2 keeps (map snd ls) Ks /\ keepnode ns lo (layers m ls) Ks x out.
Proof.
  intros NP NN. destruct (netnode_keep _ _ _ _ _ NN) as (Ks & H & K). exists Ks. split; [|exact K].
  assert (E : map snd (layers m ls) = map snd ls).
  { unfold layers. clear - NP. induction NP; cbn; [reflexivity|]. f_equal. exact IHNP. }
  rewrite <- E. exact H.
Qed.

Lemma keepact_value ns lo F K z a V n o :
  (forall n k ins, (lo <= n)%nat -> fn_of ns n = Some (k, ins) -> fspec k (map (vof ns) ins) (map V ins) (V n)) ->
  keepact ns lo F K z a -> wf (V z) -> shape (V z) = [n; o] -> shape (V a) = [n; o] /\ wf (V a) /\
  forall r c, (r < n)%nat -> (c < o)%nat -> tval (V a) [r; c] = K (tval (vof ns z) [r; c]) (tval (V z) [r; c]).
Proof.
  intros HV A Wz Sz. destruct A as [z|z a Ha E|z a Ha E|z a Ha E|z a Ha E]; [auto|..]; specialize (HV a _ _ Ha E); cbn [map] in HV.
  - destruct HV as (HF & (y0 & O0) & HV). inversion HF as [|? ? ? ? [W S'] _]; subst. inversion O0 as [| | |? W0 P0| | | |]; subst.
    cbn [frozen] in HV. rewrite branch_tab in HV by auto. injection HV as <-. rewrite S' in Sz. split; [exact Sz|]. split; [apply tabulate_wf|].
    intros r c Hr Hc. rewrite tval_tabulate by (rewrite Sz; apply in_range_pair; auto). reflexivity.
  - cbn [fspec] in HV. inversion HV; subst. split; [exact Sz|]. split; [apply tabulate_wf|]. intros r c Hr Hc. rewrite tval_tabulate by (rewrite Sz; apply in_range_pair; auto). reflexivity.
  - destruct HV as (HF & (y0 & O0) & HV). inversion HF as [|? ? ? ? [W S'] _]; subst. inversion O0 as [| |? W0 P0| | | | |]; subst.
    cbn [frozen] in HV. rewrite branch_tab in HV by auto. injection HV as <-. rewrite S' in Sz. split; [exact Sz|]. split; [apply tabulate_wf|].
    intros r c Hr Hc. rewrite tval_tabulate by (rewrite Sz; apply in_range_pair; auto). reflexivity.
  - cbn [fspec] in HV. inversion HV; subst. split; [exact Sz|]. split; [apply tabulate_wf|]. intros r c Hr Hc. rewrite tval_tabulate by (rewrite Sz; apply in_range_pair; auto). reflexivity.
Qed.

Lemma layer_val_ext i o W b X X' r c : (forall t, (t < i)%nat -> X r t = X' r t) -> layer_val i o W b (fun x => x) X r c = layer_val i o W b (fun x : R => x) X' r c.
Proof. intros H. unfold layer_val. f_equal. apply sumn_ext. intros t Ht. rewrite H by auto. reflexivity. Qed.

Lemma preact_value (ns : list (node R)) lo V (l : linear R) (X : nat -> nat -> R) x y z n i o :
  (forall n k ins, (lo <= n)%nat -> k <> KAbs -> k <> KRelu -> fn_of ns n = Some (k, ins) -> opspec k (map V ins) (V n)) ->
  (lo <= y)%nat -> fn_of ns y = Some (KBmm, [x; weights l]) -> (lo <= z)%nat -> fn_of ns z = Some (KAdd, [y; bias l]) ->
  shape (V x) = [n; i] -> shape (V (weights l)) = [i; o] -> wf (V (bias l)) -> shape (V (bias l)) = [1; o]%nat \/ shape (V (bias l)) = [o] ->
  (forall r c, (r < n)%nat -> (c < i)%nat -> X r c = tval (V x) [r; c]) ->
  shape (V z) = [n; o] /\ wf (V z) /\
  forall r c, (r < n)%nat -> (c < o)%nat -> tval (V z) [r; c] = layer_val (T := R) i o (array (V (weights l))) (array (V (bias l))) (fun x => x) X r c.
Proof.
  intros HV Ly Ey Lz Ez Sx SW WB SB HX.
  pose proof (HV y KBmm _ Ly ltac:(discriminate) ltac:(discriminate) Ey) as Oy. pose proof (HV z KAdd _ Lz ltac:(discriminate) ltac:(discriminate) Ez) as Oz. cbn [map] in Oy, Oz.
  destruct (bmm_value _ _ _ n i o Oy Sx SW) as (Sy & Wy & Vy).
  destruct (bias_value _ _ _ n o Oz WB Sy SB) as (Sz & Wz & Vz).
  split; [exact Sz|]. split; [exact Wz|]. intros r c Hr Hc. rewrite Vz, Vy by auto. unfold layer_val. f_equal. apply sumn_ext. intros t Ht. rewrite HX by auto. f_equal. unfold tval. rewrite SW. cbn. f_equal. lia.
Qed.

(** The output of the network, for any values that obey the recorded operations with branches kept *)
Lemma kept_value ns lo V :
  (forall n k ins, (lo <= n)%nat -> fn_of ns n = Some (k, ins) -> opspec k (map (vof ns) ins) (vof ns n)) ->
  (forall n k ins, (lo <= n)%nat -> fn_of ns n = Some (k, ins) -> fspec k (map (vof ns) ins) (map V ins) (V n)) ->
  forall m ls0 i, net_params (vof ns) i m ls0 -> forall ls Ks n x out, net_params V i m ls -> outputs ls = outputs ls0 ->
  keepnode ns lo (layers m ls0) Ks x out ->
  wf (vof ns x) -> shape (vof ns x) = [n; i] -> wf (V x) -> shape (V x) = [n; i] ->
  shape (V out) = [n; net_out i (outputs ls0)] /\ wf (V out) /\
  forall X0 X, (forall r c, (r < n)%nat -> (c < i)%nat -> X0 r c = tval (vof ns x) [r; c]) ->
    (forall r c, (r < n)%nat -> (c < i)%nat -> X r c = tval (V x) [r; c]) ->
    forall r c, (r < n)%nat -> (c < net_out i (outputs ls0))%nat -> tval (V out) [r; c] = kept_val i ls0 ls Ks X0 X r c.
Proof.
  intros HB HV m ls0 i NP. induction NP as [i|i l m o F ls0 HF WW SW WB SB Hi Ho NP IH]; intros ls Ks n x out NPV EO KN Wx Sx WVx SVx; cbn [combine map layers] in *.
  - inversion KN; subst. cbn. split; [exact SVx|]. split; [exact WVx|]. intros X0 X _ HX r c Hr Hc. symmetry. apply HX; auto.
  - inversion NPV as [|? ? ? o' F' ls' HF' WW' SW' WB' SB' Hi' Ho' NP']; subst. cbn [outputs map] in EO. injection EO as -> EO. fold (outputs ls') (outputs ls0) in EO.
    unfold layers in KN. cbn [combine map] in KN. fold (layers m ls0) in KN.
    inversion KN as [|w b F0 K lsx Ks' x' y z a out' Ly Ey Lz Ez A KN']; subst.
    assert (HB' : forall n k ins, (lo <= n)%nat -> k <> KAbs -> k <> KRelu -> fn_of ns n = Some (k, ins) -> opspec k (map (vof ns) ins) (vof ns n)) by (intros; auto).
    assert (HV' : forall n k ins, (lo <= n)%nat -> k <> KAbs -> k <> KRelu -> fn_of ns n = Some (k, ins) -> opspec k (map V ins) (V n)).
    { intros n0 k ins L K1 K2 E. specialize (HV n0 k ins L E). destruct k; cbn [fspec] in HV; auto; congruence. }
    assert (HX0 : forall (v : raw R) r c, (r < n)%nat -> (c < i)%nat -> tval v [r; c] = tval v [r; c]) by reflexivity.
    destruct (preact_value ns lo (vof ns) l (fun r c => tval (vof ns x) [r; c]) x y z n i o HB' Ly Ey Lz Ez Sx SW WB SB (HX0 _)) as (Sz & Wz & Vz).
    destruct (preact_value ns lo V l (fun r c => tval (V x) [r; c]) x y z n i o HV' Ly Ey Lz Ez SVx SW' WB' SB' (HX0 _)) as (SVz & WVz & VVz).
    destruct (act_value ns lo F z a (vof ns) n o HB (keepact_act _ _ _ _ _ _ A) Wz Sz) as (Sa & Wa & Va).
    destruct (keepact_value ns lo F K z a V n o HV A WVz SVz) as (SVa & WVa & VVa).
    destruct (IH ls' Ks' n a out NP' EO KN' Wa Sa WVa SVa) as (R1 & R2 & R3).
    split; [exact R1|]. split; [exact R2|]. intros X0 X H0 HX r c Hr Hc. cbn [kept_val]. apply R3; auto.
    + intros r' c' Hr' Hc'. rewrite Va, Vz by auto. unfold layer_val. do 2 f_equal. apply sumn_ext. intros t Ht. rewrite H0 by auto. reflexivity.
    + intros r' c' Hr' Hc'. rewrite VVa, Vz, VVz by auto. f_equal; apply layer_val_ext; intros t Ht; auto.
Qed.

Lemma kept_loss_value ns lo V res y loss n c :
  (forall n k ins, (lo <= n)%nat -> fn_of ns n = Some (k, ins) -> opspec k (map (vof ns) ins) (vof ns n)) ->
  (forall n k ins, (lo <= n)%nat -> fn_of ns n = Some (k, ins) -> fspec k (map (vof ns) ins) (map V ins) (V n)) ->
  lossnode ns lo res y loss -> shape (vof ns res) = [n; c] -> shape (vof ns y) = [n; c] -> shape (V res) = [n; c] -> V y = vof ns y ->
  nth 0 (array (V loss)) 0 = sumn n (fun r => sumn c (fun j =>
    abs_branch (tval (vof ns res) [r; j] - tval (vof ns y) [r; j]) (tval (V res) [r; j] - tval (vof ns y) [r; j]))).
Proof.
  intros HB HV (ny & diff & ab & Ln & En & Ld & Ed & La & Ea & Ll & El) Sr Sy SVr Vy.
  destruct (diff_value _ _ _ _ n c (HB ny _ _ Ln En) (HB diff _ _ Ld Ed) Sr Sy) as (Sd & Wd & Vd).
  assert (Sy' : shape (V y) = [n; c]) by (rewrite Vy; exact Sy).
  destruct (diff_value _ _ _ _ n c (HV ny _ _ Ln En) (HV diff _ _ Ld Ed) SVr Sy') as (SVd & WVd & VVd).
  pose proof (HV ab _ _ La Ea) as Oa. destruct Oa as (_ & _ & Oa). cbn [map frozen] in Oa. rewrite branch_tab in Oa by (auto; congruence). injection Oa as Oa.
  pose proof (HV loss _ _ Ll El) as Ol. cbn [map fspec] in Ol. apply sum_inv in Ol. rewrite Ol. cbn [raw_scalar array nth].
  rewrite <- Oa. cbn [array tabulate]. rewrite Sd. change (lsum (map ?f ?l)) with (bsum l f). rewrite (bsum_all_indices_2 R_is_ring).
  rewrite sumn_bsum. apply bsum_ext. intros r Hr. rewrite sumn_bsum. apply bsum_ext. intros j Hj. apply in_seq in Hr, Hj.
  rewrite Vd, VVd, Vy by lia. reflexivity.
Qed.

Lemma keepnode_net ns lo ls Ks x out : keepnode ns lo ls Ks x out -> netnode ns lo ls x out.
Proof.
  induction 1 as [x|w b F K ls Ks x y z a out Ly Ey Lz Ez A KN IH]; [constructor|].
  apply (nn_cons ns lo w b F ls x y z a out); auto. eapply keepact_act; eauto.
Qed.

Lemma round_kept_loss ns lo V m ls0 ls Ks i x y n res loss :
  (forall n k ins, (lo <= n)%nat -> fn_of ns n = Some (k, ins) -> opspec k (map (vof ns) ins) (vof ns n)) ->
  (forall n k ins, (lo <= n)%nat -> fn_of ns n = Some (k, ins) -> fspec k (map (vof ns) ins) (map V ins) (V n)) ->
  net_params (vof ns) i m ls0 -> net_params V i m ls -> outputs ls = outputs ls0 ->
  keepnode ns lo (layers m ls0) Ks x res -> lossnode ns lo res y loss ->
  wf (vof ns x) -> shape (vof ns x) = [n; i] -> V x = vof ns x -> shape (vof ns y) = [n; net_out i (outputs ls0)] -> V y = vof ns y ->
  nth 0 (array (V loss)) 0 = kept_loss n i ls0 ls Ks (entries i (array (vof ns x))) (entries (net_out i (outputs ls0)) (array (vof ns y))).
Proof.
  intros HB HV NP NPV EO KN LN Wx Sx Vx Sy Vy.
  assert (HX : forall r c, (r < n)%nat -> (c < i)%nat -> entries i (array (vof ns x)) r c = tval (vof ns x) [r; c]) by (intros; symmetry; apply tval_entries with (n := n); exact Sx).
  destruct (net_value ns lo (vof ns) HB m ls0 i n x res NP (keepnode_net _ _ _ _ _ _ KN) Wx Sx) as (Sr & Wr & Vr). fold (outputs ls0) in Sr, Vr.
  destruct (kept_value ns lo V HB HV m ls0 i NP ls Ks n x res NPV EO KN Wx Sx) as (SVr & WVr & VVr); [rewrite Vx; auto..|].
  rewrite (kept_loss_value ns lo V res y loss n (net_out i (outputs ls0)) HB HV LN Sr Sy SVr Vy). unfold kept_loss.
  apply sumn_ext. intros r Hr. apply sumn_ext. intros c Hc.
  rewrite (Vr r c Hr Hc _ HX). rewrite (tval_entries (vof ns y) n (net_out i (outputs ls0)) r c) by exact Sy.
  rewrite (VVr _ (entries i (array (vof ns x))) HX) by (try rewrite Vx; auto). reflexivity.
Qed.

(** ** One round *)
Lemma round_any step h data m i ls x y n : ready h data m i ls -> In x data -> In y data -> shape (vof (nodes h) x) = [n; i] ->
  shape (vof (nodes h) y) = [n; net_out i (outputs ls)] -> (0 < n)%nat -> small_net n i ls ->
  exists h' m' ls', train_step m (raw_scalar step) h x y = Ret (h', m') /\ ready h' data m' i ls' /\ extends h h' /\
    kept_step step n i (entries i (array (vof (nodes h) x))) (entries (net_out i (outputs ls)) (array (vof (nodes h) y))) ls ls'.
Proof.
  intros RD Hx Hy Sx Sy Hn SM.
  destruct (round_forward_any h data m i ls x y n RD Hx Hy Sx Sy Hn SM) as (h1 & res & h2 & diff & h3 & ab & h4 & loss & E1 & E2 & E3 & E4 & F4 & X4 & K4 & NN & LN & RO & LL & UP).
  unfold train_step. rewrite E1. cbn [bind]. rewrite E2. cbn [bind]. rewrite E3. cbn [bind]. rewrite E4. cbn [bind].
  destruct RD as [HI HN HM HG NP ND HP HK HU HD HNG].
  assert (Lt : forall q, In q (data ++ mlp_params m) -> (q < length (nodes h))%nat) by (intros q Hq; apply plain_lt; auto).
  assert (LtP : forall p, In p (mlp_params m) -> (p < length (nodes h))%nat) by (intros p Hp; apply Lt, in_or_app; auto).
  assert (Lx : (x < length (nodes h))%nat) by (apply Lt, in_or_app; auto). assert (Ly : (y < length (nodes h))%nat) by (apply Lt, in_or_app; auto).
  assert (Wf : forall q, (q < length (nodes h))%nat -> wf (vof (nodes h) q)) by (intros q Hq; destruct (hget_vof h q Hq) as (nd & En & <-); exact (hget_wf h q nd HI En)).
  assert (LP := params_lt (nodes h) m LtP).
  pose proof (extends_length _ _ X4) as L4.
  assert (V4 : forall q, (q < length (nodes h))%nat -> vof (nodes h4) q = vof (nodes h) q) by (intros q Hq; apply (vof_ext h h4); auto).
  assert (NS : forall q, In q (data ++ mlp_params m) -> forall ins, fn_of (nodes h4) q <> Some (KSum, ins)).
  { intros q Hq ins Ef. assert (PQ := plain_ext h h4 q X4 (HP q Hq)). inversion PQ as [? ? EN|? k' ins' ? EN]; congruence. }
  (* backward *)
  assert (B : exists h5, backward h4 loss = Ret h5 /\ nodes h5 = nodes h4 /\ gr_ok (nodes h4) (grads h5)).
  { destruct LN as (ny & df & ab' & _ & _ & _ & _ & La & Ea & _ & El).
    destruct (backward_kept h4 loss ab' F4 RO) as (h5 & B1 & B2 & B3 & _).
    - eapply fn_lt; eauto.
    - intros Q. rewrite Q in Ea. rewrite El in Ea. discriminate.
    - intros ins Q. rewrite Ea in Q. discriminate.
    - exists h5. auto. }
  destruct B as (h5 & B1 & B2 & B3). rewrite B1. cbn [bind].
  assert (F5 : fine h5).
  { destruct F4 as ((I4 & N4 & M4) & _). destruct (backward_effect h4 h5 loss I4 B1) as (I5 & _). split; [split; [exact I5|]|]; rewrite B2; auto. }
  assert (DP : forall p, In p (mlp_params m) -> forall q, (q < size (shape (vof (nodes h) p)))%nat -> exists d V,
      gentry (grads h5) p q = d /\ (forall t, V t p = bump (vof (nodes h) p) q t) /\
      (forall t n, (n < length (nodes h4))%nat -> ~ uses (nodes h4) n p -> V t n = vof (nodes h4) n) /\
      (forall t n k ins, n <> p -> fn_of (nodes h4) n = Some (k, ins) -> fspec k (map (vof (nodes h4)) ins) (map (V t) ins) (V t n)) /\
      derivable_pt_lim (fun t => nth 0 (array (V t loss)) 0) 0 d).
  { intros p Hp q Hq. assert (Hp' := LtP p Hp).
    destruct (backward_kept h4 loss p F4 RO ltac:(lia) ltac:(lia) (NS p ltac:(apply in_or_app; auto))) as (h5' & B1' & _ & _ & Hd).
    rewrite B1 in B1'. injection B1' as <-. rewrite V4 in Hd by auto. destruct (Hd q Hq) as (d & V & Q1 & Q2). exists d, V. split; [|exact Q2].
    rewrite Q1. unfold gentry at 1. rewrite K4 by auto. rewrite HNG by auto. cbn. lra. }
  assert (HG5 : has_grads h5 (mlp_params m)).
  { apply Forall_forall. intros p Hp. rewrite B2. assert (Hp' := LtP p Hp). split; [lia|]. rewrite V4 by auto. split; [apply HN; auto|].
    destruct (grads h5 p) as [g|] eqn:Eg.
    - exists g. split; auto. destruct (B3 p g Eg ltac:(lia)) as (A1 & A2 & A3). split; auto. rewrite A3 by (apply NS, in_or_app; auto). rewrite V4; auto.
    - exfalso. apply (backward_presence h4 h5 loss p (proj1 (proj1 F4)) B1 ltac:(lia)) in Eg as [_ Eg]. apply Eg. apply UP; auto. }
  (* the step *)
  destruct (sgd_params_ok step (mlp_params m) h5 [] (proj1 (proj1 F5)) HG5) as (h6 & news & ES & I6 & X6 & K6 & S6 & N6).
  destruct (sgd_params_fine step (mlp_params m) h5 [] h6 ([] ++ news) F5 ES) as (news' & EN & F6 & _ & SG & NDn & GEn).
  cbn [app] in EN. subst news'.
  unfold sgd_step_mlp, sgd_new_params. rewrite ES. cbn [bind app].
  assert (HL : length news = (2 * length m)%nat) by (assert (LL' : length (mlp_params m) = length news) by (eapply Forall2_length'; eauto); rewrite <- LL'; apply (proj1 (c48_params R RNum m))).
  destruct (c48_update_params R RNum m news HL) as (m' & E' & Q1 & Q2 & Q3). rewrite E'. cbn [bind].
  assert (X56 : extends h h6). { eapply extends_trans; [exact X4|]. destruct X6 as [e Ee]. exists e. rewrite Ee, B2. reflexivity. }
  assert (L6 := extends_length _ _ X56). assert (L45 : length (nodes h5) = length (nodes h4)) by (rewrite B2; reflexivity).
  assert (V6 : forall q, (q < length (nodes h))%nat -> vof (nodes h6) q = vof (nodes h) q) by (intros q Hq; apply (vof_ext h h6); auto).
  assert (SH : Forall2 (fun p p' => wf (vof (nodes h6) p') /\ shape (vof (nodes h6) p') = shape (vof (nodes h) p)) (mlp_params m) (mlp_params m')).
  { rewrite Q1. eapply Forall2_impl_in; [|exact S6]. intros p p' Hp Hp' (g & Eg & Sg & _ & Lp' & _). split.
    - destruct (hget_vof h6 p' ltac:(lia)) as (nd & En & <-). exact (hget_wf h6 p' nd I6 En).
    - rewrite Sg, B2. rewrite V4; auto. }
  destruct (net_params_new _ _ i m ls NP m' Q2 SH) as (ls' & NP' & EO).
  exists h6, m', ls'. split; [reflexivity|]. split; [|split; [exact X56|]].
  - (* ready again *)
    assert (OldIn : forall q, In q data -> plain (nodes h6) q) by (intros q Hq; eapply plain_ext; [exact X56|]; apply HP, in_or_app; auto).
    assert (Inew : forall p', In p' news -> exists p, In p (mlp_params m) /\ stepgraph (nodes h6) p p' /\ stepped step h5 h6 p p').
    { intros p' Hp'. clear - SG S6 Hp'. induction SG as [|a b l l' H1 SG IH]; [destruct Hp'|]. inversion S6; subst. destruct Hp' as [->|Hp']; [exists a; cbn; auto|].
      destruct (IH H5 Hp') as (p & A & B). exists p. cbn. auto. }
    constructor.
    + exact I6.
    + apply F6.
    + apply F6.
    + exact (proj2 F6).
    + exact NP'.
    + rewrite Q1. exact NDn.
    + rewrite Q1. intros q Hq. apply in_app_or in Hq as [Hq|Hq]; [auto|]. destruct (Inew q Hq) as (p & Hp & (ip & nj & A & B & C & D) & _).
      eapply plain_op; [eapply fn_lt; exact A|exact A|discriminate|discriminate|discriminate|]. intros z [<-|[<-|[]]].
      * eapply plain_ext; [exact X56|]. apply HP, in_or_app. auto.
      * eapply plain_op; [eapply fn_lt; exact B|exact B|discriminate|discriminate|discriminate|]. intros z [<-|[]]. apply plain_leaf; auto.
    + rewrite Q1. intros q Hq. apply in_app_or in Hq as [Hq|Hq].
      * eapply no_kinks_ext; [exact HI|exact X56|apply Lt, in_or_app; auto|]. apply HK, in_or_app. auto.
      * destruct (Inew q Hq) as (p & Hp & (ip & nj & A & B & C & D) & _).
        eapply no_kinks_op; [exact A|intros [Q|Q]; discriminate Q|]. intros z [<-|[<-|[]]].
        -- eapply no_kinks_ext; [exact HI|exact X56|auto|]. apply HK, in_or_app. auto.
        -- eapply no_kinks_op; [exact B|intros [Q|Q]; discriminate Q|]. intros z [<-|[]]. intros n' k' ins' i' U Ef. inversion U; subst; congruence.
    + rewrite Q1. intros p' q Hp' Hq Hne U. destruct (Inew p' Hp') as (p & Hp & (ip & nj & A & B & C & D) & (g & _ & _ & _ & Lp' & _)).
      apply in_app_or in Hq as [Hq|Hq].
      * pose proof (uses_lt _ _ _ (proj1 I6) U). assert (Q := Lt q ltac:(apply in_or_app; auto)). lia.
      * destruct (Inew q Hq) as (p2 & Hp2 & (ip2 & nj2 & A2 & B2' & C2 & D2) & _).
        inversion U as [|? k1 ins1 z ? Ef Hz U1]; subst; [congruence|]. rewrite A2 in Ef. injection Ef as <- <-. destruct Hz as [<-|[<-|[]]].
        -- pose proof (uses_lt _ _ _ (proj1 I6) U1). assert (Q := LtP p2 Hp2). lia.
        -- inversion U1 as [|? k1 ins1 z ? Ef Hz U2]; subst; [congruence|]. rewrite B2' in Ef. injection Ef as <- <-. destruct Hz as [<-|[]].
           inversion U2 as [|? k1 ins1 z ? Ef Hz U3]; subst; congruence.
    + rewrite Q1. intros p' Hp' Hd. destruct (Inew p' Hp') as (p & Hp & _ & (g & _ & _ & _ & Lp' & _)). assert (Q := Lt p' ltac:(apply in_or_app; auto)). lia.
    + rewrite Q1. intros p' Hp'. destruct (Inew p' Hp') as (p & Hp & _ & (g & _ & _ & _ & _ & Z)). exact Z.
  - (* gradient descent *)
    split; [exact EO|]. rewrite (net_parameters_of _ _ _ _ NP), (net_parameters_of _ _ _ _ NP'). split.
    { rewrite !map_map. clear - SH Wf LtP. induction SH as [|p p' l l' [W S] SH IH]; [reflexivity|]. cbn [map]. f_equal; [|apply IH; intros; apply LtP; cbn; auto].
      assert (Wp := Wf p (LtP p ltac:(cbn; auto))). unfold wf in *. congruence. }
    destruct (net_keeps (nodes h4) (length (nodes h)) m ls i x res (vof (nodes h)) NP NN) as (Ks & HKs & AK). exists Ks. split; [exact HKs|].
    intros j P P' EP EP' q Hq. rewrite nth_error_map in EP, EP'.
    destruct (nth_error (mlp_params m) j) as [p|] eqn:Ej; [|discriminate]. injection EP as <-.
    rewrite Q1 in EP'. destruct (Forall2_nth _ _ _ S6 j p Ej) as (p' & Ej' & (g & Eg & Sg & Ag & _)). rewrite Ej' in EP'. injection EP' as <-.
    pose proof (nth_error_In _ _ Ej) as Hp. assert (Lp := LtP p Hp). assert (Wp := Wf p Lp).
    destruct (DP p Hp q ltac:(unfold wf in Wp; lia)) as (d & V & D1 & D2 & D3 & D4 & D5). exists d. split.
    + eapply derivable_pt_lim_ext; [|exact D5]. intros t. cbn beta. symmetry.
      assert (UN : forall z, In z (data ++ mlp_params m) -> z <> p -> V t z = vof (nodes h) z).
      { intros z Hz Hne. rewrite <- V4 by auto. apply D3; [specialize (Lt z Hz); lia|]. intros U. apply (HU p z Hp Hz Hne). apply (uses_old h h4); auto. }
      assert (Vx : V t x = vof (nodes h) x) by (apply UN; [apply in_or_app; auto|intros ->; exact (HD p Hp Hx)]).
      assert (Vy : V t y = vof (nodes h) y) by (apply UN; [apply in_or_app; auto|intros ->; exact (HD p Hp Hy)]).
      assert (G4 : graph_ok (nodes h4)) by (destruct F4 as ((I4 & N4 & M4) & _); apply graph_ok_of; auto; apply I4).
      rewrite <- (V4 x Lx), <- (V4 y Ly).
      symmetry. apply (round_kept_loss (nodes h4) (length (nodes h)) (V t) m ls (bump_param ls j q t) Ks i x y n res loss).
      * intros n0 k ins _ Ef. apply (op_ok _ G4 n0 k ins Ef).
      * intros n0 k ins Hn0 Ef. apply D4; [lia|exact Ef].
      * eapply net_params_ext; [exact X4|exact LP|exact NP].
      * eapply bump_net; [exact NP|exact ND|exact Ej|apply D2|]. intros p2 Hp2 Hne. apply UN; [apply in_or_app; auto|exact Hne].
      * apply bump_outputs.
      * exact AK.
      * exact LN.
      * rewrite V4 by auto. auto.
      * rewrite V4 by auto. exact Sx.
      * rewrite Vx, V4 by auto. reflexivity.
      * rewrite V4 by auto. exact Sy.
      * rewrite Vy, V4 by auto. reflexivity.
    + rewrite Ag, B2, V4 by auto. unfold has_grads in HG5. rewrite Forall_forall in HG5. destruct (HG5 p Hp) as (_ & _ & g' & Eg' & Wg & Sg').
      rewrite Eg in Eg'. injection Eg' as <-. rewrite B2, V4 in Sg' by auto.
      assert (HLg : length (array g) = length (array (vof (nodes h) p))) by (unfold wf in *; congruence).
      set (f := fun '(x0, y0) => n_add x0 (n_neg (n_mul step y0))).
      rewrite (nth_indep _ 0 (f (0, 0))) by (rewrite map_length, combine_length; lia). rewrite map_nth, combine_nth by auto. unfold f. cbn [n_add n_neg n_mul RNum].
      unfold gentry in D1. rewrite Eg in D1. change n_zero with 0 in D1. rewrite D1. lra.
Qed.

(** ** Only the identity keeps nothing *)
Lemma keeps_id K : keeps (fun x => x) K -> K = (fun _ x => x).
Proof.
  intros H. inversion H as [E|E|E|E|E]; [reflexivity|exfalso..].
  - apply (f_equal (fun f => f (-1))) in E. cbn in E. destruct (Rlt_dec (-1) 0); lra.
  - apply (f_equal (fun f => f 1)) in E. cbn in E. unfold tanh, sinh, cosh in E. pose proof (exp_pos (-(1))). pose proof (exp_pos 1).
    apply (f_equal (fun v => v * ((exp 1 + exp (-(1))) / 2))) in E. unfold Rdiv in E. rewrite Rmult_assoc, Rinv_l in E by lra. lra.
  - apply (f_equal (fun f => f (-1))) in E. cbn in E. rewrite Rabs_left in E by lra. lra.
  - apply (f_equal (fun f => f 1)) in E. cbn in E. lra.
Qed.

Lemma kept_val_self i ls : forall Ks X, Forall2 keeps (map snd ls) Ks -> forall r c, kept_val i ls ls Ks X X r c = net_val i ls X r c.
Proof.
  revert i. induction ls as [|[[[o W] b] F] ls IH]; intros i Ks X H r c; cbn [map snd] in H; inversion H as [|? K ? Ks' HK H1]; subst; [reflexivity|]. cbn [kept_val net_val].
  assert (EK : forall x, K x x = F x).
  { intros x. destruct HK; try reflexivity; [rewrite relu_branch_self|rewrite abs_branch_self]; reflexivity. }
  rewrite <- (IH o Ks' (layer_val i o W b F X) H1).
  assert (EX : forall (ls0 l1 : net) o Ks X0 X X', (forall r c, X r c = X' r c) -> forall r c, kept_val o ls0 l1 Ks X0 X r c = kept_val o ls0 l1 Ks X0 X' r c).
  { clear. induction ls0 as [|[[[o0 W0] b0] F0] ls0 IH]; intros [|[[[o1 W1] b1] F1] l1] o [|K Ks] X0 X X' HX r c; cbn [kept_val]; auto. apply IH. intros r' c'. f_equal.
    apply layer_val_ext. auto. }
  apply EX. intros r' c'. rewrite EK. reflexivity.
Qed.

Lemma kept_loss_self n i ls Ks X Y : Forall2 keeps (map snd ls) Ks -> kept_loss n i ls ls Ks X Y = net_loss n i ls X Y.
Proof.
  intros H. unfold kept_loss, net_loss, abs_loss. apply sumn_ext. intros r _. apply sumn_ext. intros c _. rewrite kept_val_self by auto. apply abs_branch_self.
Qed.

Lemma same_outputs (ls ls' : net) : map (fun '(o, _, _, F) => (o, F)) ls' = map (fun '(o, _, _, F) => (o, F)) ls -> outputs ls' = outputs ls.
Proof.
  intros H. apply (f_equal (map fst)) in H. rewrite !map_map in H. unfold outputs. etransitivity; [|etransitivity; [exact H|]]; apply map_ext; intros [[[o W] b] F]; reflexivity.
Qed.
Lemma same_small (ls ls' : net) : outputs ls' = outputs ls -> forall n i, small_net n i ls -> small_net n i ls'.
Proof.
  revert ls'. induction ls as [|[[[o W] b] F] ls IH]; intros [|[[[o' W'] b'] F'] ls'] E n i H; try discriminate E; [exact I|]. cbn in E. injection E as -> E. cbn in *.
  split; [apply H|]. split; [apply H|]. apply IH; [exact E|apply H].
Qed.

(** ** All rounds *)
Lemma train_any step data i : forall samples h m ls, ready h data m i ls ->
  Forall (sample_ok data (vof (nodes h)) i ls) samples ->
  exists h' m' ls', train m (raw_scalar step) h samples = Ret (h', m') /\ ready h' data m' i ls' /\ extends h h' /\
    kept_descent step i (vof (nodes h)) samples ls ls'.
Proof.
  intros samples h m ls RD HS.
  assert (G : forall samples v ls, Forall (sample_ok data v i ls) samples -> forall h m, ready h data m i ls -> (forall q, In q data -> vof (nodes h) q = v q) ->
    exists h' m' ls', train m (raw_scalar step) h samples = Ret (h', m') /\ ready h' data m' i ls' /\ extends h h' /\ kept_descent step i v samples ls ls').
  { clear. unfold train. induction samples as [|[x y] samples IH]; intros v ls HS h m RD HV.
    - exists h, m, ls. cbn [foldM]. split; [reflexivity|]. split; [exact RD|]. split; [apply extends_refl|constructor].
    - inversion HS as [|? ? (Hx & Hy & n & Hn & Sx & Sy & SM) HS']; subst. cbn [fst snd] in *. rewrite <- (HV x Hx) in Sx. rewrite <- (HV y Hy) in Sy.
      destruct (round_any step h data m i ls x y n RD Hx Hy Sx Sy Hn SM) as (h1 & m1 & ls1 & E & RD1 & X1 & KS).
      assert (EO : outputs ls1 = outputs ls) by (apply same_outputs, KS).
      destruct (IH v ls1) with (h := h1) (m := m1) as (h' & m' & ls' & E' & RD' & X' & KD); auto.
      { eapply Forall_impl; [|exact HS']. intros s (A & B & n' & C & D & E'' & F). split; [exact A|]. split; [exact B|]. exists n'. rewrite EO. repeat split; auto. eapply same_small; eauto. }
      { intros q Hq. rewrite (vof_ext h h1); auto. apply plain_lt. apply (rd_plain _ _ _ _ _ RD). apply in_or_app. auto. }
      exists h', m', ls'. cbn [foldM]. rewrite E. cbn [bind]. split; [exact E'|]. split; [exact RD'|]. split; [eapply extends_trans; eauto|].
      rewrite (HV x Hx) in KS, Sx. rewrite (HV y Hy) in KS. eapply kept_cons; eauto. }
  exact (G samples _ ls HS h m RD (fun q _ => eq_refl)).
Qed.
