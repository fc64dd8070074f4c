(** * NNFacts: networks as recorded graphs *)
From Verif Require Import Base ModelIndex ModelTensor ModelOps ModelJvp ModelGraph ModelNN Spec SpecDual SpecGraph SpecNN
  Lists IndexFacts TensorFacts OpsFacts Sums JvpFacts Dual ClaimsMat Adjoint GradRing FuelFacts GraphFacts ProgFacts BackFacts.

Section NNFacts.
Context {T : Type} {NT : Num T}.
Implicit Types (ns : list (node T)) (h : heap T) (V : nat -> raw T).

(** ** Shapes of networks in the recorded graph, all nodes at or after [lo] *)
Inductive actnode ns (lo : nat) : (T -> T) -> nat -> nat -> Prop :=
| an_id z : actnode ns lo (fun x => x) z z
| an_relu z a : lo <= a -> fn_of ns a = Some (KRelu, [z]) -> actnode ns lo (fun x => if n_lt x n_zero then n_zero else x) z a
| an_tanh z a : lo <= a -> fn_of ns a = Some (KTanh, [z]) -> actnode ns lo n_tanh z a
| an_abs z a : lo <= a -> fn_of ns a = Some (KAbs, [z]) -> actnode ns lo n_abs z a
| an_neg z a : lo <= a -> fn_of ns a = Some (KNeg, [z]) -> actnode ns lo n_neg z a.

Inductive netnode ns (lo : nat) : list (nat * nat * (T -> T)) -> nat -> nat -> Prop :=
| nn_nil x : netnode ns lo [] x x
| nn_cons w b F ls x y z a out :
    lo <= y -> fn_of ns y = Some (KBmm, [x; w]) -> lo <= z -> fn_of ns z = Some (KAdd, [y; b]) ->
    actnode ns lo F z a -> netnode ns lo ls a out -> netnode ns lo ((w, b, F) :: ls) x out.

Lemma fn_lt ns n kv : fn_of ns n = Some kv -> n < length ns.
Proof. unfold fn_of. destruct (nth_error ns n) eqn:E; [|discriminate]. intros _. apply nth_error_Some. congruence. Qed.

Lemma fn_ext h h' n kv : extends h h' -> fn_of (nodes h) n = Some kv -> fn_of (nodes h') n = Some kv.
Proof. intros [e ->] E. rewrite fn_app_old; auto. eapply fn_lt; eauto. Qed.
Lemma vof_ext h h' n : extends h h' -> n < length (nodes h) -> vof (nodes h') n = vof (nodes h) n.
Proof. intros [e ->] E. apply vof_app_old; auto. Qed.

Lemma actnode_ext h h' lo F z a : extends h h' -> actnode (nodes h) lo F z a -> actnode (nodes h') lo F z a.
Proof. intros X. destruct 1; [apply an_id|apply an_relu|apply an_tanh|apply an_abs|apply an_neg]; eauto using fn_ext. Qed.
Lemma netnode_ext h h' lo ls x out : extends h h' -> netnode (nodes h) lo ls x out -> netnode (nodes h') lo ls x out.
Proof.
  intros X. induction 1 as [x|w b F ls x y z a out H1 H2 H3 H4 H5 H6 IH]; [apply nn_nil|].
  apply (nn_cons _ _ w b F ls x y z a out); [exact H1|exact (fn_ext _ _ _ _ X H2)|exact H3|exact (fn_ext _ _ _ _ X H4)|exact (actnode_ext _ _ _ _ _ _ X H5)|exact IH].
Qed.

(** [m x w b] matrices of matching shapes *)
Lemma bmm_value (X W Y : raw T) n i o : opspec KBmm [X; W] Y -> shape X = [n; i] -> shape W = [i; o] ->
  shape Y = [n; o] /\ wf Y /\ forall r c, r < n -> c < o -> tval Y [r; c] = sumn i (fun t => n_mul (tval X [r; t]) (tval W [t; c])).
Proof.
  intros O SX SW. inversion O as [| | | | | |? ? n' k' m' W1 W2 P1 P2 S1 S2|]; subst. rewrite SX in S1. rewrite SW in S2. injection S1 as <- <-. injection S2 as <-.
  split; [reflexivity|]. split; [apply tabulate_wf|]. intros r c Hr Hc. rewrite tval_tabulate by (apply in_range_pair; auto). reflexivity.
Qed.

Lemma clamp_row o r c : 0 < o -> c < o -> clamp [1; o] [r; c] = [0; c].
Proof. intros H Hc. unfold clamp. cbn. destruct (o =? 1) eqn:E; [apply Nat.eqb_eq in E; subst; f_equal; f_equal; lia|reflexivity]. Qed.
Lemma clamp_vec o r c : 0 < o -> c < o -> clamp [o] [r; c] = [c].
Proof. intros H Hc. unfold clamp. cbn. destruct (o =? 1) eqn:E; [apply Nat.eqb_eq in E; subst; f_equal; lia|reflexivity]. Qed.

Lemma bias_value (Y B Z : raw T) n o : opspec KAdd [Y; B] Z -> wf B -> shape Y = [n; o] -> shape B = [1; o] \/ shape B = [o] ->
  shape Z = [n; o] /\ wf Z /\ forall r c, r < n -> c < o -> tval Z [r; c] = n_add (tval Y [r; c]) (nth c (array B) n_zero).
Proof.
  intros O WB SY SB. inversion O as [? ? s W1 W2 P1 P2 BC| | | | | | |]; subst.
  assert (PY : 0 < n /\ 0 < o). { rewrite SY in P1. inversion P1 as [|? ? Q1 Q2]; subst. inversion Q2; subst. auto. }
  destruct PY as [Pn Po].
  assert (S : s = [n; o]).
  { apply bcast_max_shape in BC; auto. rewrite BC, SY. destruct SB as [-> | ->]; unfold max_shape; cbn; rewrite ?Nat.max_id, ?Nat.max_0_r; [|reflexivity].
    replace (Nat.max n 1) with n by lia. reflexivity. }
  subst s. split; [reflexivity|]. split; [apply tabulate_wf|]. intros r c Hr Hc.
  assert (IR : in_range [n; o] [r; c]) by (apply in_range_pair; auto).
  rewrite tval_tabulate by auto. f_equal.
  - rewrite SY. rewrite clamp_self by auto. reflexivity.
  - unfold tval. destruct SB as [SB | SB]; rewrite SB; [rewrite clamp_row by auto|rewrite clamp_vec by auto]; cbn; f_equal; lia.
Qed.

Lemma act_value ns lo F z a V n o :
  (forall n k ins, lo <= n -> fn_of ns n = Some (k, ins) -> opspec k (map V ins) (V n)) ->
  actnode ns lo F z a -> wf (V z) -> shape (V z) = [n; o] ->
  shape (V a) = [n; o] /\ wf (V a) /\ forall r c, r < n -> c < o -> tval (V a) [r; c] = F (tval (V z) [r; c]).
Proof.
  intros HV A Wz Sz. destruct A as [z|z a Ha E|z a Ha E|z a Ha E|z a Ha E]; [auto|..]; specialize (HV a _ _ Ha E); cbn [map] in HV; inversion HV; subst;
    (split; [exact Sz|]; split; [apply tabulate_wf|]; intros r c Hr Hc; rewrite tval_tabulate by (rewrite Sz; apply in_range_pair; auto); reflexivity).
Qed.

(** Whatever values are assigned to the nodes, if they obey the recorded operations the output is the
    network function of the parameters and the input. *)
Lemma net_value ns lo V : (forall n k ins, lo <= n -> fn_of ns n = Some (k, ins) -> opspec k (map V ins) (V n)) ->
  forall m ls i n x out, net_params V i m ls ->
  netnode ns lo (map (fun '(l, (_, _, _, F)) => (weights l, bias l, F)) (combine m ls)) x out ->
  wf (V x) -> shape (V x) = [n; i] ->
  shape (V out) = [n; net_out i (map (fun '(o, _, _, _) => o) ls)] /\ wf (V out) /\
  forall r c, r < n -> c < net_out i (map (fun '(o, _, _, _) => o) ls) ->
    forall X, (forall r c, r < n -> c < i -> X r c = tval (V x) [r; c]) ->
    tval (V out) [r; c] = net_val i ls X r c.
Proof.
  intros HV m ls i n x out NP. revert n x out. induction NP as [i|i l m o F ls HF WW SW WB SB Hi Ho NP IH]; intros n x out NN Wx Sx; cbn [combine map] in *.
  - inversion NN; subst. cbn [net_out net_val]. split; [exact Sx|]. split; [exact Wx|]. intros r c Hr Hc X HX. symmetry. auto.
  - inversion NN as [|w b F' ls' x' y z a out' Ly Ey Lz Ez A NN']; subst.
    pose proof (HV y _ _ Ly Ey) as Oy. pose proof (HV z _ _ Lz Ez) as Oz. cbn [map] in Oy, Oz.
    destruct (bmm_value _ _ _ n i o Oy Sx SW) as (Sy & Wy & Vy).
    destruct (bias_value _ _ _ n o Oz WB Sy SB) as (Sz & Wz & Vz).
    destruct (act_value ns lo F z a V n o HV A Wz Sz) as (Sa & Wa & Va).
    destruct (IH n a out NN' Wa Sa) as (S1 & W1 & V1). cbn [net_out net_val]. split; [exact S1|]. split; [exact W1|].
    intros r c Hr Hc X HX. apply V1; auto. intros r' c' Hr' Hc'. rewrite Va, Vz, Vy by auto. unfold layer_val. f_equal. f_equal.
    apply sumn_ext. intros t Ht. rewrite HX by auto. f_equal. unfold tval. rewrite SW. cbn. f_equal. lia.
Qed.

(** ** Running a network records such a graph *)

Lemma act_run f F h z h' a : act_fn f F -> heap_inv h -> f h z = Ret (h', a) -> z < length (nodes h) ->
  heap_inv h' /\ extends h h' /\ grads_kept h h' /\ preset h h' /\ a < length (nodes h') /\
  (forall lo, lo <= length (nodes h) -> lo <= z -> actnode (nodes h') lo F z a) /\ (z <= a).
Proof.
  intros HF HI E Hz. destruct HF.
  - injection E as <- <-. split; [exact HI|]. split; [apply extends_refl|]. split; [intros i Hi; reflexivity|]. split.
    + intros j g Hj Eg. destruct HI as [_ HG]. destruct (HG j g Eg). lia.
    + split; [exact Hz|]. split; [intros; apply an_id|auto].
  - unfold op_relu in E. apply bind_Ret_inv in E as (nd & En & E). apply bind_Ret_inv in E as (t & Et & E).
    destruct (made_op1 h KRelu z nd t HI En Et h' a E) as (Q1 & Q2 & Q3 & Q4 & Q5 & Q6).
    apply Ret_inj in E. unfold alloc in E. injection E as <- <-.
    split; [exact Q1|]. split; [exact Q2|]. split; [exact Q3|]. split; [exact Q6|]. split; [exact Q5|]. split; [|lia].
    intros lo Hlo _. apply an_relu; [exact Hlo|]. unfold fn_of. cbn [nodes]. rewrite nth_error_app2, Nat.sub_diag by auto. reflexivity.
  - unfold op_tanh in E. apply bind_Ret_inv in E as (nd & En & E). apply bind_Ret_inv in E as (t & Et & E).
    destruct (made_op1 h KTanh z nd t HI En Et h' a E) as (Q1 & Q2 & Q3 & Q4 & Q5 & Q6).
    apply Ret_inj in E. unfold alloc in E. injection E as <- <-.
    split; [exact Q1|]. split; [exact Q2|]. split; [exact Q3|]. split; [exact Q6|]. split; [exact Q5|]. split; [|lia].
    intros lo Hlo _. apply an_tanh; [exact Hlo|]. unfold fn_of. cbn [nodes]. rewrite nth_error_app2, Nat.sub_diag by auto. reflexivity.
  - unfold op_abs in E. apply bind_Ret_inv in E as (nd & En & E). apply bind_Ret_inv in E as (t & Et & E).
    destruct (made_op1 h KAbs z nd t HI En Et h' a E) as (Q1 & Q2 & Q3 & Q4 & Q5 & Q6).
    apply Ret_inj in E. unfold alloc in E. injection E as <- <-.
    split; [exact Q1|]. split; [exact Q2|]. split; [exact Q3|]. split; [exact Q6|]. split; [exact Q5|]. split; [|lia].
    intros lo Hlo _. apply an_abs; [exact Hlo|]. unfold fn_of. cbn [nodes]. rewrite nth_error_app2, Nat.sub_diag by auto. reflexivity.
  - unfold op_neg in E. apply bind_Ret_inv in E as (nd & En & E). apply bind_Ret_inv in E as (t & Et & E).
    destruct (made_op1 h KNeg z nd t HI En Et h' a E) as (Q1 & Q2 & Q3 & Q4 & Q5 & Q6).
    apply Ret_inj in E. unfold alloc in E. injection E as <- <-.
    split; [exact Q1|]. split; [exact Q2|]. split; [exact Q3|]. split; [exact Q6|]. split; [exact Q5|]. split; [|lia].
    intros lo Hlo _. apply an_neg; [exact Hlo|]. unfold fn_of. cbn [nodes]. rewrite nth_error_app2, Nat.sub_diag by auto. reflexivity.
Qed.

(** Bundles what every forward step keeps. *)
Definition grew h h' : Prop := heap_inv h' /\ extends h h' /\ grads_kept h h' /\ preset h h'.
Lemma grew_refl h : heap_inv h -> grew h h.
Proof.
  intros HI. split; [exact HI|]. split; [apply extends_refl|]. split; [intros i Hi; reflexivity|].
  intros j g Hj Eg. destruct HI as [_ HG]. destruct (HG j g Eg). lia.
Qed.
Lemma grew_trans h1 h2 h3 : grew h1 h2 -> grew h2 h3 -> grew h1 h3.
Proof.
  intros (A1 & A2 & A3 & A4) (B1 & B2 & B3 & B4). split; [exact B1|]. split; [eapply extends_trans; eauto|].
  pose proof (extends_length _ _ A2) as L. split.
  - intros i Hi. rewrite B3 by lia. apply A3. exact Hi.
  - intros j g Hj Eg. destruct (Nat.lt_ge_cases j (length (nodes h2))) as [Hlt|Hge]; [|apply B4; auto].
    rewrite B3 in Eg by auto. destruct (A4 j g Hj Eg) as (i & Ef & Hi & ->). exists i. split; [eapply fn_ext; eauto|]. split; [exact Hi|].
    rewrite (vof_ext h2 h3) by (auto; lia). reflexivity.
Qed.
Lemma made_grew h r h' i : made h r -> r = Ret (h', i) -> grew h h' /\ length (nodes h) <= i < length (nodes h').
Proof. intros H E. destruct (H h' i E) as (Q1 & Q2 & Q3 & Q4 & Q5 & Q6). split; [split; [|split; [|split]]; auto|auto]. Qed.

Lemma made_abs h i : heap_inv h -> made h (op_abs h i).
Proof. intros Hh. apply made_bind. intros a Ea. apply made_bind. intros t Et. apply (made_op1 h KAbs i a); auto. Qed.
Lemma made_sum h i : heap_inv h -> made h (op_sum h i).
Proof.
  intros Hh. apply made_bind. intros a Ea. apply made_bind. intros t Et. pose proof (hget_inv _ _ _ Ea) as (_ & L & Ev).
  intros h' n E. apply Ret_inj in E. assert (En : n = length (nodes h)) by (unfold alloc in E; injection E; auto).
  assert (M : makes h h' n t (Some (KSum, [i])) (Some (raw_filler (shape (n_val a)) n_one))).
  { apply alloc_makes; auto.
    - eapply sum_form; eauto.
    - intros g' Eg. injection Eg as <-. rewrite raw_filler_tab. apply tabulate_wf.
    - intros k ins E'. injection E' as <- <-. split; auto. cbn [map]. rewrite Ev. exact Et. }
  destruct M as (M1 & M2 & M3 & M4 & M5 & M6 & M7 & M8). split; [exact M1|]. split; [exact M2|]. split; [exact M3|]. split; [exact M4|]. split; [lia|].
  intros j g Hj Eg. destruct M1 as [_ M1]. destruct (M1 j g Eg) as [_ Lj]. assert (j = n) as -> by lia.
  exists i. split; [exact M7|]. split; [lia|]. rewrite M8 in Eg. injection Eg as <-. destruct M2 as [e ->]. rewrite vof_app_old by auto. rewrite Ev. reflexivity.
Qed.
Lemma made_bmm h i j : heap_inv h -> made h (op_bmm h i j).
Proof.
  intros HI. unfold op_bmm. apply made_bind; intros a Ea. apply made_bind; intros b Eb. apply made_bind; intros t Et.
  eapply made_op2; eauto.
Qed.
Lemma made_sub h i j : heap_inv h -> made h (op_sub h i j).
Proof.
  intros HI. unfold op_sub. apply made_bind. intros [h1 nj] E1. destruct (made_neg h j HI h1 nj E1) as (Q1 & Q2 & Q3 & Q4 & Q5 & Q6).
  eapply made_then; [|eauto..]. apply made_add. exact Q1.
Qed.

Lemma linear_run (l : linear T) F h x h' out : act_fn (activation l) F -> heap_inv h -> linear_forward l h x = Ret (h', out) ->
  grew h h' /\ length (nodes h) <= out < length (nodes h') /\
  exists y z, length (nodes h) <= y /\ fn_of (nodes h') y = Some (KBmm, [x; weights l]) /\ length (nodes h) <= z /\
    fn_of (nodes h') z = Some (KAdd, [y; bias l]) /\ actnode (nodes h') (length (nodes h)) F z out.
Proof.
  intros HF HI E. unfold linear_forward in E. apply bind_Ret_inv in E as ([h1 y] & E1 & E). apply bind_Ret_inv in E as ([h2 z] & E2 & E).
  destruct (made_grew _ _ _ _ (made_bmm h _ _ HI) E1) as [G1 L1]. destruct (made_grew _ _ _ _ (made_add h1 y (bias l) (proj1 G1)) E2) as [G2 L2].
  destruct (act_run _ F h2 z h' out HF (proj1 G2) E ltac:(lia)) as (Q1 & Q2 & Q3 & Q4 & Q5 & Q6 & Q7).
  assert (G3 : grew h2 h') by (split; [|split; [|split]]; auto).
  split; [eapply grew_trans; [exact G1|eapply grew_trans; eauto]|]. split; [lia|].
  pose proof (extends_length _ _ (proj1 (proj2 G1))). pose proof (extends_length _ _ (proj1 (proj2 G2))).
  exists y, z. split; [lia|]. split.
  { eapply fn_ext; [exact Q2|]. eapply fn_ext; [apply G2|]. unfold op_bmm in E1. repeat (apply bind_Ret_inv in E1 as (? & _ & E1)). apply Ret_inj in E1.
    unfold alloc in E1. injection E1 as <- <-. unfold fn_of. cbn [nodes]. rewrite nth_error_app2, Nat.sub_diag by auto. reflexivity. }
  split; [lia|]. split; [|apply Q6; lia].
  eapply fn_ext; [exact Q2|]. unfold op_add in E2. repeat (apply bind_Ret_inv in E2 as (? & _ & E2)). apply Ret_inj in E2.
  unfold alloc in E2. injection E2 as <- <-. unfold fn_of. cbn [nodes]. rewrite nth_error_app2, Nat.sub_diag by auto. reflexivity.
Qed.

Lemma actnode_lo ns lo lo' F z a : lo' <= lo -> actnode ns lo F z a -> actnode ns lo' F z a.
Proof. intros H. destruct 1; [apply an_id|apply an_relu|apply an_tanh|apply an_abs|apply an_neg]; auto; lia. Qed.
Lemma netnode_lo ns lo lo' ls x out : lo' <= lo -> netnode ns lo ls x out -> netnode ns lo' ls x out.
Proof.
  intros H. induction 1 as [x|w b F ls x y z a out H1 H2 H3 H4 H5 H6 IH]; [apply nn_nil|].
  apply (nn_cons _ _ w b F ls x y z a out); [lia|exact H2|lia|exact H4|exact (actnode_lo _ _ _ _ _ _ H H5)|exact IH].
Qed.

Lemma mlp_run (m : mlp T) : forall Fs h x h' out, Forall2 act_fn (map activation m) Fs -> heap_inv h -> x < length (nodes h) ->
  mlp_forward m h x = Ret (h', out) ->
  grew h h' /\ out < length (nodes h') /\
  netnode (nodes h') (length (nodes h)) (map (fun '(l, F) => (weights l, bias l, F)) (combine m Fs)) x out.
Proof.
  unfold mlp_forward. induction m as [|l m IH]; intros Fs h x h' out HF HI Hx E; cbn [map] in HF; inversion HF as [|? F ? Fs' H1 H2]; subst; cbn [foldM] in E.
  - injection E as <- <-. split; [apply grew_refl; auto|]. split; [exact Hx|]. apply nn_nil.
  - apply bind_Ret_inv in E as ([h1 a] & E1 & E). destruct (linear_run l F h x h1 a H1 HI E1) as (G1 & L1 & y & z & Ly & Ey & Lz & Ez & A).
    destruct (IH Fs' h1 a h' out H2 (proj1 G1) ltac:(lia) E) as (G2 & L2 & NN).
    split; [eapply grew_trans; eauto|]. split; [exact L2|]. cbn [combine map].
    pose proof (extends_length _ _ (proj1 (proj2 G1))).
    eapply nn_cons; [exact Ly|eapply fn_ext; [apply G2|exact Ey]|exact Lz|eapply fn_ext; [apply G2|exact Ez]|eapply actnode_ext; [apply G2|exact A]|].
    eapply netnode_lo; [|exact NN]. lia.
Qed.

(** ** A network applied to matching matrices succeeds *)
Lemma act_succeeds f F h z : act_fn f F -> heap_inv h -> z < length (nodes h) -> positive (shape (vof (nodes h) z)) ->
  exists h' a, f h z = Ret (h', a).
Proof.
  intros HF HI Hz HP. assert (Hg : exists nd, hget h z = Ret nd /\ n_val nd = vof (nodes h) z).
  { unfold hget, vof. destruct (nth_error (nodes h) z) as [nd|] eqn:E; [|apply nth_error_None in E; lia]. exists nd. split; [apply vindex_some; exact E|reflexivity]. }
  destruct Hg as (nd & En & Ev). assert (W : wf (n_val nd)) by (eapply hget_wf; eauto). rewrite <- Ev in HP.
  destruct HF; [eauto|unfold op_relu|unfold op_tanh|unfold op_abs|unfold op_neg]; rewrite En; cbn [bind].
  - unfold relu_raw. rewrite unary_ok_raw by auto. cbn [bind]. unfold alloc. eauto.
  - unfold tanh_raw. rewrite unary_ok_raw by auto. cbn [bind]. unfold alloc. eauto.
  - unfold abs_raw. rewrite unary_ok_raw by auto. cbn [bind]. unfold alloc. eauto.
  - unfold neg_raw. rewrite unary_ok_raw by auto. cbn [bind]. unfold alloc. eauto.
Qed.

Lemma hget_vof h i : i < length (nodes h) -> exists nd, hget h i = Ret nd /\ n_val nd = vof (nodes h) i.
Proof.
  intros Hz. unfold hget, vof. destruct (nth_error (nodes h) i) as [nd|] eqn:E; [|apply nth_error_None in E; lia]. exists nd. split; [apply vindex_some; exact E|reflexivity].
Qed.

Lemma alloc_vof h v fn g h' i : alloc h v fn g = (h', i) -> vof (nodes h') i = v.
Proof. unfold alloc. intros E. injection E as <- <-. unfold vof. cbn [nodes]. rewrite nth_error_app2, Nat.sub_diag by auto. reflexivity. Qed.

Lemma linear_succeeds (l : linear T) F h x n i o : act_fn (activation l) F -> heap_inv h -> x < length (nodes h) ->
  weights l < length (nodes h) -> bias l < length (nodes h) ->
  shape (vof (nodes h) x) = [n; i] -> shape (vof (nodes h) (weights l)) = [i; o] ->
  shape (vof (nodes h) (bias l)) = [1; o] \/ shape (vof (nodes h) (bias l)) = [o] -> 0 < n -> 0 < i -> 0 < o ->
  exists h' out, linear_forward l h x = Ret (h', out).
Proof.
  intros HF HI Hx Hw Hb Sx Sw Sb Hn Hi Ho. unfold linear_forward, op_bmm.
  destruct (hget_vof h x Hx) as (ndx & Ex & Vx). destruct (hget_vof h (weights l) Hw) as (ndw & Ew & Vw). destruct (hget_vof h (bias l) Hb) as (ndb & Eb & Vb).
  pose proof (hget_wf h _ _ HI Ex) as Wx. pose proof (hget_wf h _ _ HI Ew) as Ww. pose proof (hget_wf h _ _ HI Eb) as Wb.
  rewrite <- Vx in Sx. rewrite <- Vw in Sw. rewrite <- Vb in Sb.
  rewrite Ex, Ew. cbn [bind].
  assert (O1 : opspec KBmm [n_val ndx; n_val ndw] (tabulate [n; o] (fun j => sumn i (fun t => n_mul (tval (n_val ndx) [ix 0 j; t]) (tval (n_val ndw) [t; ix 1 j]))))).
  { apply (os_bmm _ _ n i o); auto; [rewrite Sx|rewrite Sw]; repeat constructor; auto. }
  assert (F1 := opspec_fwd _ _ _ O1). cbn [fwd] in F1. rewrite F1. cbn [bind]. set (Y := tabulate [n; o] _) in *.
  destruct (alloc h Y (Some (KBmm, [x; weights l])) None) as [h1 y] eqn:E1.
  assert (M1 : made h (Ret (alloc h Y (Some (KBmm, [x; weights l])) None))) by (eapply (made_op2 h KBmm); eauto).
  destruct (made_grew _ _ h1 y M1 ltac:(rewrite E1; reflexivity)) as [G1 L1].
  pose proof (alloc_vof _ _ _ _ _ _ E1) as VY. unfold op_add.
  destruct (hget_vof h1 y ltac:(lia)) as (ndy & Ey & Vy). rewrite Ey. cbn [bind].
  destruct (hget_vof h1 (bias l) ltac:(pose proof (extends_length _ _ (proj1 (proj2 G1))); lia)) as (ndb' & Eb' & Vb'). rewrite Eb'. cbn [bind].
  rewrite (vof_ext h h1) in Vb' by (auto; apply G1). rewrite <- Vb in Vb'. rewrite Vb', Vy, VY.
  assert (BC : bcast (shape Y) (shape (n_val ndb)) [n; o]).
  { unfold bcast. destruct Sb as [-> | ->]; cbn; [|repeat constructor]. apply br_eq. apply br_one_r. constructor. }
  assert (O2 : opspec KAdd [Y; n_val ndb] (tabulate [n; o] (fun j => n_add (tval Y (clamp (shape Y) j)) (tval (n_val ndb) (clamp (shape (n_val ndb)) j))))).
  { apply os_add; auto; [apply tabulate_wf|cbn; repeat constructor; auto|]. destruct Sb as [-> | ->]; repeat constructor; auto. }
  assert (F2 := opspec_fwd _ _ _ O2). cbn [fwd] in F2. rewrite F2. cbn [bind]. set (Z := tabulate [n; o] (fun j => n_add _ _)) in *.
  destruct (alloc h1 Z (Some (KAdd, [y; bias l])) None) as [h2 z] eqn:E2.
  assert (M2 : made h1 (Ret (alloc h1 Z (Some (KAdd, [y; bias l])) None))).
  { eapply (made_op2 h1 KAdd); eauto; [apply G1|]. cbn [fwd]. rewrite Vy, VY, Vb'. exact F2. }
  destruct (made_grew _ _ h2 z M2 ltac:(rewrite E2; reflexivity)) as [G2 L2].
  apply (act_succeeds _ F); auto; [apply G2|lia|]. rewrite (alloc_vof _ _ _ _ _ _ E2). cbn. repeat constructor; auto.
Qed.

Lemma mlp_succeeds (m : mlp T) ls : forall h i x n, net_params (vof (nodes h)) i m ls -> heap_inv h -> x < length (nodes h) ->
  Forall (fun l => weights l < length (nodes h) /\ bias l < length (nodes h)) m ->
  shape (vof (nodes h) x) = [n; i] -> 0 < n -> exists h' out, mlp_forward m h x = Ret (h', out).
Proof.
  unfold mlp_forward. revert ls. induction m as [|l m IH]; intros ls h i x n NP HI Hx HL Sx Hn; cbn [foldM]; [eauto|].
  inversion NP as [|? ? ? o F ls' HF WW SW WB SB Hi Ho NP']; subst. inversion HL as [|? ? [L1 L2] HL']; subst.
  destruct (linear_succeeds l F h x n i o HF HI Hx L1 L2 Sx SW SB Hn Hi Ho) as (h1 & a & E1). rewrite E1. cbn [bind].
  destruct (linear_run l F h x h1 a HF HI E1) as (G1 & La & y & z & Ly & Ey & Lz & Ez & A).
  assert (HE := extends_length _ _ (proj1 (proj2 G1))).
  assert (HV : forall n0 k ins, length (nodes h) <= n0 -> fn_of (nodes h1) n0 = Some (k, ins) -> fwd k (map (vof (nodes h1)) ins) = Ret (vof (nodes h1) n0)).
  { intros n0 k ins _ E. unfold fn_of in E. destruct (nth_error (nodes h1) n0) as [nd|] eqn:En; [|discriminate].
    destruct (proj1 (proj1 G1) n0 nd En) as [_ Q]. destruct (Q _ _ E) as [_ Q']. rewrite Q'. unfold vof. rewrite En. reflexivity. }
  apply (IH ls' h1 o a n); auto.
  - clear - NP' G1 HL'. induction NP' as [i|i l m o F ls HF WW SW WB SB Hi Ho NP IH]; [constructor|]. inversion HL' as [|? ? [L1 L2] HL2]; subst.
    rewrite <- (vof_ext h h1) in WW, SW by (auto; apply G1). rewrite <- (vof_ext h h1) in WB, SB by (auto; apply G1).
    rewrite <- (vof_ext h h1 (weights l)) by (auto; apply G1). rewrite <- (vof_ext h h1 (bias l)) by (auto; apply G1). apply np_cons; auto.
  - apply G1.
  - lia.
  - eapply Forall_impl; [|exact HL']. cbn. intros l' [? ?]. lia.
  - (* shape of the layer's output *)
    assert (Px : wf (vof (nodes h1) x) /\ shape (vof (nodes h1) x) = [n; i]).
    { rewrite (vof_ext h h1) by (auto; apply G1). split; [|exact Sx]. destruct (hget_vof h x Hx) as (nd & E & <-). eapply hget_wf; eauto. }
    assert (Pw : wf (vof (nodes h1) (weights l)) /\ shape (vof (nodes h1) (weights l)) = [i; o]) by (rewrite (vof_ext h h1) by (auto; apply G1); auto).
    assert (Pb : wf (vof (nodes h1) (bias l)) /\ (shape (vof (nodes h1) (bias l)) = [1; o] \/ shape (vof (nodes h1) (bias l)) = [o])) by (rewrite (vof_ext h h1) by (auto; apply G1); auto).
    destruct Px as [Px1 Px2], Pw as [Pw1 Pw2], Pb as [Pb1 Pb2].
    pose proof (HV y _ _ Ly Ey) as Fy. cbn [map] in Fy.
    assert (Oy : opspec KBmm [vof (nodes h1) x; vof (nodes h1) (weights l)] (vof (nodes h1) y)).
    { apply fwd_opspec; [exact Fy| |constructor; [rewrite Px2; reflexivity|constructor; [rewrite Pw2; reflexivity|constructor]]]. constructor; [split; auto; rewrite Px2; repeat constructor; auto|]. constructor; [|constructor]. split; auto. rewrite Pw2. repeat constructor; auto. }
    destruct (bmm_value _ _ _ n i o Oy Px2 Pw2) as (Sy & Wy & _).
    pose proof (HV z _ _ Lz Ez) as Fz. cbn [map] in Fz.
    assert (Oz : opspec KAdd [vof (nodes h1) y; vof (nodes h1) (bias l)] (vof (nodes h1) z)).
    { apply fwd_opspec; [exact Fz| |exact I]. constructor; [split; auto; rewrite Sy; repeat constructor; auto|]. constructor; [|constructor]. split; auto. destruct Pb2 as [-> | ->]; repeat constructor; auto. }
    destruct (bias_value _ _ _ n o Oz Pb1 Sy Pb2) as (Sz & Wz & _).
    inversion A; subst; auto; pose proof (HV a _ _ H H0) as Fa; cbn [map fwd] in Fa; apply unary_form in Fa; destruct Fa as [_ ->]; exact Sz.
Qed.

End NNFacts.
