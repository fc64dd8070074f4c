(** * TrainFacts: the training loop on heaps of reals *)
From Coq Require Import Reals Lra.
From Verif Require Import Base ModelIndex ModelTensor ModelOps ModelJvp ModelGraph ModelNN Spec SpecDual SpecGraph SpecNN
  Lists IndexFacts TensorFacts OpsFacts Sums JvpFacts Dual ClaimsMat Adjoint GradRing RealInst SpecReal SpecTrain OpDeriv GradReal
  FuelFacts GraphFacts ProgFacts BackFacts SimFacts NNFacts ClaimsNN ClaimsGrad.

(** ** Heaps on which the backward theorem applies *)
Section Fine.
Context {T : Type} {NT : Num T}.

Definition fine (h : heap T) : Prop := good h /\ gr_ok (nodes h) (grads h).

Lemma opspec_positive k (xs : list (raw T)) y : opspec k xs y -> positive (shape y).
Proof.
  destruct 1 as [a b s W1 W2 P1 P2 B|a W P|a W P|a W P|a W P|a W P|a b n k m W1 W2 P1 P2 S1 S2|a b W1 W2 P1 P2 S]; cbn [shape tabulate raw_scalar]; auto.
  - exact (bcast_positive _ _ _ P1 P2 B).
  - constructor.
  - rewrite S1 in P1. rewrite S2 in P2. inversion P1 as [|? ? Q1 _]; subst. inversion P2 as [|? ? _ Q2]; subst. inversion Q2; subst. repeat constructor; auto.
  - repeat constructor.
Qed.

Lemma fine_alloc h v fn g : fine h -> wf v -> positive (shape v) ->
  (forall k ins, fn = Some (k, ins) -> Forall (fun i => i < length (nodes h)) ins /\ fwd k (map (vof (nodes h)) ins) = Ret v /\
     (k = KBmm -> Forall (fun i => length (shape (vof (nodes h) i)) = 2) ins)) ->
  (forall g', g = Some g' -> wf g' /\ positive (shape g') /\ exists ins, fn = Some (KSum, ins)) ->
  fine (fst (alloc h v fn g)).
Proof.
  intros ((HI & HN & HM) & HG) Wv Pv Hf Hg. set (h' := fst _).
  assert (EN : nodes h' = nodes h ++ [mkNode v fn]) by reflexivity.
  assert (EF : fn_of (nodes h') (length (nodes h)) = fn) by (rewrite EN; unfold fn_of; rewrite nth_error_app2, Nat.sub_diag by auto; reflexivity).
  assert (EV : vof (nodes h') (length (nodes h)) = v) by (rewrite EN; unfold vof; rewrite nth_error_app2, Nat.sub_diag by auto; reflexivity).
  assert (CASE : forall n, n < length (nodes h') -> n < length (nodes h) \/ n = length (nodes h)) by (intros n; rewrite EN, app_length; cbn; lia).
  assert (M : makes h h' (length (nodes h)) v fn g).
  { apply alloc_makes; auto.
    - intros g' E. apply Hg in E. apply E.
    - intros k ins E. destruct (Hf k ins E) as (A & B & _). auto. }
  split; [split; [apply M|split]|].
  - intros n Hn. destruct (CASE n Hn) as [Hlt| ->]; [rewrite EN, vof_app_old by auto; apply HN; auto|]. rewrite EV. exact Pv.
  - intros n ins E. assert (Hn : n < length (nodes h')) by (eapply fn_lt; eauto). destruct (CASE n Hn) as [Hlt| ->].
    + rewrite EN, fn_app_old in E by auto. specialize (HM n ins E). rewrite Forall_forall in *. intros i Hi. rewrite EN, vof_app_old; auto.
      unfold fn_of in E. destruct (nth_error (nodes h) n) as [nd|] eqn:En; [|discriminate]. destruct HI as [HR _].
      destruct (HR n nd En) as [_ Q]. destruct (Q _ _ E) as [Q' _]. rewrite Forall_forall in Q'. specialize (Q' i Hi). lia.
    + rewrite EF in E. destruct (Hf _ _ E) as (A & _ & B). specialize (B eq_refl). rewrite Forall_forall in *. intros i Hi. rewrite EN, vof_app_old; auto.
  - intros n g' E Hn. unfold h', alloc in E. cbn [fst grads] in E. destruct (CASE n Hn) as [Hlt| ->].
    + rewrite upd_other in E by lia. destruct (HG n g' E Hlt) as (A & B & C). split; auto. split; auto. rewrite EN, fn_app_old, vof_app_old by auto. exact C.
    + rewrite upd_same in E. destruct (Hg g' E) as (A & B & ins & C). split; auto. split; auto. intros Q. rewrite EF in Q. destruct (Q ins C).
Qed.

Lemma fine_op1 k (F : raw T -> outcome (raw T)) h i h1 i1 :
  (forall a, fwd k [a] = F a) -> k <> KBmm -> fine h ->
  (let* a := hget h i in let* t := F (n_val a) in Ret (alloc h t (Some (k, [i])) None)) = Ret (h1, i1) -> fine h1.
Proof.
  intros HF HK HG E. apply bind_Ret_inv in E as (a & Ea & E). apply bind_Ret_inv in E as (t & Et & E). apply Ret_inj in E.
  destruct (input_ok h i a (proj1 HG) Ea) as [Wa Pa]. destruct (hget_inv h i a Ea) as (_ & Hli & Ei).
  assert (O : opspec k [n_val a] t) by (apply fwd_opspec; [rewrite HF; auto|auto|destruct k; cbn; auto; congruence]).
  replace h1 with (fst (alloc h t (Some (k, [i])) None)) by (rewrite E; reflexivity).
  apply fine_alloc; auto.
  - eapply fwd_wf; [|rewrite HF; exact Et]. auto.
  - eapply opspec_positive; eauto.
  - intros k' ins E'. injection E' as <- <-. split; [auto|]. split; [cbn [map]; rewrite Ei, HF; exact Et|congruence].
  - discriminate.
Qed.

Lemma fine_op2 k (F : raw T -> raw T -> outcome (raw T)) h i j h1 i1 :
  (forall a b, fwd k [a; b] = F a b) -> fine h ->
  (k = KBmm -> length (shape (vof (nodes h) i)) = 2 /\ length (shape (vof (nodes h) j)) = 2) ->
  (let* a := hget h i in let* b := hget h j in let* t := F (n_val a) (n_val b) in Ret (alloc h t (Some (k, [i; j])) None)) = Ret (h1, i1) -> fine h1.
Proof.
  intros HF HG HK E. apply bind_Ret_inv in E as (a & Ea & E). apply bind_Ret_inv in E as (b & Eb & E). apply bind_Ret_inv in E as (t & Et & E). apply Ret_inj in E.
  destruct (input_ok h i a (proj1 HG) Ea) as [Wa Pa]. destruct (hget_inv h i a Ea) as (_ & Hli & Ei).
  destruct (input_ok h j b (proj1 HG) Eb) as [Wb Pb]. destruct (hget_inv h j b Eb) as (_ & Hlj & Ej).
  assert (O : opspec k [n_val a; n_val b] t).
  { apply fwd_opspec; [rewrite HF; auto|auto|]. destruct k; cbn; auto. rewrite <- Ei, <- Ej. destruct (HK eq_refl). auto. }
  replace h1 with (fst (alloc h t (Some (k, [i; j])) None)) by (rewrite E; reflexivity).
  apply fine_alloc; auto.
  - eapply fwd_wf; [|rewrite HF; exact Et]. auto.
  - eapply opspec_positive; eauto.
  - intros k' ins E'. injection E' as <- <-. split; [auto|]. split; [cbn [map]; rewrite Ei, Ej, HF; exact Et|]. intros Q. destruct (HK Q). auto.
  - discriminate.
Qed.

Lemma fine_sum h i h1 i1 : fine h -> op_sum h i = Ret (h1, i1) -> fine h1.
Proof.
  intros HG E. unfold op_sum in E. apply bind_Ret_inv in E as (a & Ea & E). apply bind_Ret_inv in E as (t & Et & E). apply Ret_inj in E.
  destruct (input_ok h i a (proj1 HG) Ea) as [Wa Pa]. destruct (hget_inv h i a Ea) as (_ & Hli & Ei).
  replace h1 with (fst (alloc h t (Some (KSum, [i])) (Some (raw_filler (shape (n_val a)) n_one)))) by (rewrite E; reflexivity).
  apply fine_alloc; auto.
  - eapply sum_form; eauto.
  - cbn in Et. injection Et as <-. constructor.
  - intros k' ins E'. injection E' as <- <-. split; [auto|]. split; [cbn [map fwd]; rewrite Ei; exact Et|discriminate].
  - intros g' E'. injection E' as <-. rewrite raw_filler_tab. split; [apply tabulate_wf|]. split; [exact Pa|]. eauto.
Qed.

Lemma fine_neg h i h1 i1 : fine h -> op_neg h i = Ret (h1, i1) -> fine h1.
Proof. intros HG E. eapply (fine_op1 KNeg (fun t => neg_raw (LRaw t))); eauto; try discriminate; try reflexivity. Qed.
Lemma fine_abs h i h1 i1 : fine h -> op_abs h i = Ret (h1, i1) -> fine h1.
Proof. intros HG E. eapply (fine_op1 KAbs (fun t => abs_raw (LRaw t))); eauto; try discriminate; try reflexivity. Qed.
Lemma fine_add h i j h1 i1 : fine h -> op_add h i j = Ret (h1, i1) -> fine h1.
Proof. intros HG E. eapply (fine_op2 KAdd (fun a b => add_raw (LRaw a) (LRaw b))); eauto; try discriminate; try reflexivity. Qed.
Lemma fine_sub h i j h1 i1 : fine h -> op_sub h i j = Ret (h1, i1) -> fine h1.
Proof. intros HG E. unfold op_sub in E. apply bind_Ret_inv in E as ([h0 n] & E0 & E). eapply fine_add; [|exact E]. eapply fine_neg; eauto. Qed.

Lemma fine_act f F h z h1 a : act_fn f F -> fine h -> f h z = Ret (h1, a) -> fine h1.
Proof.
  intros HF HG E. destruct HF.
  - apply Ret_inj in E. injection E as <- <-. exact HG.
  - eapply (fine_op1 KRelu (fun t => relu_raw (LRaw t))); eauto; try discriminate; try reflexivity.
  - eapply (fine_op1 KTanh (fun t => tanh_raw (LRaw t))); eauto; try discriminate; try reflexivity.
  - eapply fine_abs; eauto.
  - eapply fine_neg; eauto.
Qed.

Lemma fine_linear l F h x n i o h1 a : act_fn (activation l) F -> fine h -> shape (vof (nodes h) x) = [n; i] -> shape (vof (nodes h) (weights l)) = [i; o] ->
  linear_forward l h x = Ret (h1, a) -> fine h1.
Proof.
  intros HF HG Sx Sw E. unfold linear_forward in E. apply bind_Ret_inv in E as ([h2 y] & E2 & E). apply bind_Ret_inv in E as ([h3 z] & E3 & E).
  eapply fine_act; [exact HF| |exact E]. eapply fine_add; [|exact E3].
  eapply (fine_op2 KBmm (fun a b => bmm_raw (LRaw a) (LRaw b))); [reflexivity|exact HG| |exact E2]. intros _. rewrite Sx, Sw. auto.
Qed.
End Fine.

(** ** Values of re-evaluations *)
Lemma opspec_det {T : Type} {NT : Num T} k (xs : list (raw T)) y y' : opspec k xs y -> opspec k xs y' -> y = y'.
Proof. intros A B. apply opspec_fwd in A, B. congruence. Qed.

Section Family.
Local Open Scope R_scope.

(** What does not use [l] keeps its value. *)
Lemma unused_value (ns : list (node R)) (V : nat -> raw R) l : graph_ok ns ->
  (forall n, (n < length ns)%nat -> n <> l -> fn_of ns n = None -> V n = vof ns n) ->
  (forall n k ins, n <> l -> fn_of ns n = Some (k, ins) -> opspec k (map V ins) (V n)) ->
  forall n, (n < length ns)%nat -> ~ uses ns n l -> V n = vof ns n.
Proof.
  intros HG HL HO n. induction n as [n IH] using lt_wf_ind. intros Hn HU.
  assert (Hne : n <> l) by (intros ->; apply HU; constructor).
  destruct (fn_of ns n) as [[k ins]|] eqn:Ef; [|auto].
  destruct (op_ok ns HG n k ins Ef) as (_ & Hlt & O). specialize (HO n k ins Hne Ef).
  assert (EQ : map V ins = map (vof ns) ins).
  { apply map_ext_in. intros i Hi. rewrite Forall_forall in Hlt. specialize (Hlt i Hi). apply IH; [lia|lia|]. intros U. apply HU. eapply uses_step; eauto. }
  rewrite EQ in HO. eapply opspec_det; eauto.
Qed.

Lemma backward_family (h : heap R) r l : fine h -> root_ok (nodes h) r -> no_kinks (nodes h) r ->
  (l < length (nodes h))%nat -> l <> r -> (forall ins, fn_of (nodes h) l <> Some (KSum, ins)) ->
  exists h', backward h r = Ret h' /\ nodes h' = nodes h /\ gr_ok (nodes h) (grads h') /\
    forall p, (p < size (shape (vof (nodes h) l)))%nat -> exists d V,
      gentry (grads h') l p = gentry (grads h) l p + d /\
      (forall t, V t l = bump (vof (nodes h) l) p t) /\
      (forall t n, (n < length (nodes h))%nat -> ~ uses (nodes h) n l -> V t n = vof (nodes h) n) /\
      (forall t n k ins, n <> l -> fn_of (nodes h) n = Some (k, ins) -> opspec k (map (V t) ins) (V t n)) /\
      derivable_pt_lim (fun t => nth 0 (array (V t r)) 0) 0 d.
Proof.
  intros ((HI & HN & HM) & HGR) Hroot HK Hl Hlr Hsum. set (ns := nodes h) in *.
  assert (HG : graph_ok ns) by (apply graph_ok_of; auto; apply HI).
  assert (H1 := Hroot). destruct H1 as (Hsz & k & ins & Ef & _).
  destruct (backward_real ns (grads h) r k ins l HG HGR Hroot HK Ef Hl Hlr Hsum) as (gr' & Ec & HGR' & Hd).
  assert (Hr : (r < length ns)%nat) by (eapply fn_lt; eauto).
  assert (Wn : forall n, (n < length ns)%nat -> wf (vof ns n)).
  { intros n Hn. unfold vof. destruct (nth_error ns n) as [nd|] eqn:En; [apply (HG n nd En)|apply nth_error_None in En; lia]. }
  exists (mkHeap ns gr'). split.
  { apply (backward_compute h r k ins gr'); auto. unfold wf in Wn. fold ns. rewrite (Wn r Hr). exact Hsz. }
  split; [reflexivity|]. split; [exact HGR'|].
  intros p Hp. cbn [grads]. destruct (Hd p Hp) as (d0 & E0 & HV).
  set (vs t := match reeval ns l (bump (vof ns l) p t) with Ret v => v | _ => [] end).
  assert (RE : forall t, length (vs t) = length ns /\
    (forall n, (n < length ns)%nat -> same_form (vof ns n) (vnth (vs t) n)) /\ vnth (vs t) l = bump (vof ns l) p t /\
    (forall n, (n < length ns)%nat -> n <> l -> fn_of ns n = None -> vnth (vs t) n = vof ns n) /\
    (forall n k ins, n <> l -> fn_of ns n = Some (k, ins) -> opspec k (map (vnth (vs t)) ins) (vnth (vs t) n))).
  { intros t. destruct (reeval_ok ns HG l (bump (vof ns l) p t) Hl (bump_form _ p t (Wn l Hl))) as (v & E & Q). unfold vs. rewrite E. auto. }
  exists d0, (fun t n => vnth (vs t) n). split; [exact E0|]. split; [intros t; apply RE|]. split.
  { intros t n Hn HU. destruct (RE t) as (_ & _ & _ & Q5 & Q6). eapply unused_value; eauto. }
  split; [intros t; apply RE|].
  apply (HV (fun t n => vnth (vs t) n)); [|intros t; apply RE..].
  destruct (RE 0) as (_ & _ & Q4 & Q5 & Q6). rewrite bump_zero in Q4.
  intros n. induction n as [n IH] using lt_wf_ind. intros Hn. destruct (Nat.eq_dec n l) as [->|Hne]; [exact Q4|].
  destruct (fn_of ns n) as [[k' ins']|] eqn:Ef'; [|apply Q5; auto].
  specialize (Q6 n k' ins' Hne Ef'). destruct (op_ok ns HG n k' ins' Ef') as (_ & Hlt & O).
  assert (EQ : map (vnth (vs 0)) ins' = map (vof ns) ins').
  { apply map_ext_in. intros i Hi. rewrite Forall_forall in Hlt. specialize (Hlt i Hi). apply IH; lia. }
  rewrite EQ in Q6. eapply opspec_det; eauto.
Qed.
End Family.

(** ** The graph of a network *)
Section Net.
Context {T : Type} {NT : Num T}.

Lemma plain_lt (ns : list (node T)) n : plain ns n -> n < length ns.
Proof. destruct 1; auto. Qed.

Lemma plain_ext (h h' : heap T) n : extends h h' -> plain (nodes h) n -> plain (nodes h') n.
Proof.
  intros X H. pose proof (extends_length _ _ X) as L. induction H as [n Hn Ef|n k ins Hn Ef H1 H2 H3 H4 IH].
  - apply plain_leaf; [lia|]. destruct X as [e ->]. rewrite fn_app_old; auto.
  - eapply plain_op; [lia|eapply fn_ext; eauto|auto|auto| |exact IH].
    intros Hk. specialize (H3 Hk). rewrite Forall_forall in *. intros i Hi. rewrite (vof_ext h h'); auto. apply (plain_lt (nodes h)). auto.
Qed.

Lemma uses_old (h h' : heap T) n m : heap_inv h -> extends h h' -> n < length (nodes h) -> uses (nodes h') n m -> uses (nodes h) n m.
Proof.
  intros HI X Hn U. induction U as [n|n k ins i m Ef Hi U IH]; [constructor|].
  destruct X as [e X]. rewrite X, fn_app_old in Ef by auto. eapply uses_step; [exact Ef|exact Hi|]. apply IH.
  unfold fn_of in Ef. destruct (nth_error (nodes h) n) as [nd|] eqn:En; [|discriminate]. destruct HI as [HR _].
  destruct (HR n nd En) as [_ Q]. destruct (Q _ _ Ef) as [Q' _]. rewrite Forall_forall in Q'. specialize (Q' i Hi). lia.
Qed.

Lemma mlp_fine (m : mlp T) ls : forall h i x n h' out, net_params (vof (nodes h)) i m ls -> fine h -> x < length (nodes h) ->
  Forall (fun l => weights l < length (nodes h) /\ bias l < length (nodes h)) m ->
  shape (vof (nodes h) x) = [n; i] -> mlp_forward m h x = Ret (h', out) -> fine h'.
Proof.
  unfold mlp_forward. revert ls. induction m as [|l m IH]; intros ls h i x n h' out NP HF Hx HL Sx E; cbn [foldM] in E.
  - apply Ret_inj in E. injection E as <- <-. exact HF.
  - inversion NP as [|? ? ? o F ls' HA WW SW WB SB Hi Ho NP']; subst. inversion HL as [|? ? [L1 L2] HL']; subst.
    apply bind_Ret_inv in E as ([h1 a] & E1 & E).
    assert (HI := proj1 (proj1 HF)). assert (F1 : fine h1) by (eapply (fine_linear l F h x n i o); eauto).
    destruct (linear_run l F h x h1 a HA HI E1) as (G1 & La & y & z & Ly & Ey & Lz & Ez & A).
    pose proof (extends_length _ _ (proj1 (proj2 G1))) as XL.
    assert (HG1 : graph_ok (nodes h1)) by (destruct F1 as ((I1 & N1 & M1) & _); apply graph_ok_of; auto; apply I1).
    assert (HV : forall n0 k ins, length (nodes h) <= n0 -> fn_of (nodes h1) n0 = Some (k, ins) -> opspec k (map (vof (nodes h1)) ins) (vof (nodes h1) n0)).
    { intros n0 k ins _ Ef. apply (op_ok (nodes h1) HG1 n0 k ins Ef). }
    assert (VX : forall q, q < length (nodes h) -> vof (nodes h1) q = vof (nodes h) q) by (intros q Hq; apply (vof_ext h h1); [apply G1|auto]).
    assert (NP1 : net_params (vof (nodes h1)) i [l] [(o, array (vof (nodes h1) (weights l)), array (vof (nodes h1) (bias l)), F)]).
    { apply np_cons; auto; rewrite ?VX by auto; auto. constructor. }
    destruct (net_value (nodes h1) (length (nodes h)) (vof (nodes h1)) HV [l] _ i n x a NP1) as (Sa & _ & _).
    + cbn [combine map]. eapply nn_cons; [exact Ly|exact Ey|exact Lz|exact Ez|exact A|constructor].
    + rewrite VX by auto. destruct (hget_vof h x Hx) as (nd & En & <-). exact (hget_wf h x nd HI En).
    + rewrite VX; auto.
    + cbn [map net_out] in Sa. eapply (IH ls' h1 o a n); eauto.
      * eapply net_params_ext; [apply G1|exact HL'|exact NP'].
      * lia.
      * eapply Forall_impl; [|exact HL']. intros q [A1 A2]. lia.
Qed.
End Net.

Section Kinks.
Local Open Scope R_scope.

Lemma no_kinks_op (ns : list (node R)) n k ins : fn_of ns n = Some (k, ins) ->
  (k = KAbs \/ k = KRelu -> forall i, In i ins -> Forall (fun e => e <> 0) (array (vof ns i))) ->
  (forall i, In i ins -> no_kinks ns i) -> no_kinks ns n.
Proof.
  intros Ef H0 H n' k' ins' i U E' Hk Hi. inversion U as [|? k1 ins1 i1 ? Ef1 Hi1 U1]; subst.
  - rewrite Ef in E'. injection E' as <- <-. auto.
  - rewrite Ef in Ef1. injection Ef1 as <- <-. eapply (H i1 Hi1); eauto.
Qed.

Lemma no_kinks_ext (h h' : heap R) n : heap_inv h -> extends h h' -> (n < length (nodes h))%nat -> no_kinks (nodes h) n -> no_kinks (nodes h') n.
Proof.
  intros HI X Hn H n' k ins i U Ef Hk Hi. apply (uses_old h h' n n' HI X Hn) in U.
  assert (Hn' : (n' < length (nodes h))%nat) by (pose proof (uses_lt (nodes h) n n' (proj1 HI) U); lia).
  assert (Ef' : fn_of (nodes h) n' = Some (k, ins)) by (destruct X as [e X]; rewrite X, fn_app_old in Ef by auto; exact Ef).
  rewrite (vof_ext h h'); auto; [eapply H; eauto|].
  unfold fn_of in Ef'. destruct (nth_error (nodes h) n') as [nd|] eqn:En; [|discriminate]. destruct HI as [HR _].
  destruct (HR n' nd En) as [_ Q]. destruct (Q _ _ Ef') as [Q' _]. rewrite Forall_forall in Q'. specialize (Q' i Hi). lia.
Qed.

Lemma relu_kink d : ~ derivable_pt_lim (fun x => if n_lt x n_zero then n_zero else x) 0 d.
Proof.
  intros H. destruct (H (1/2) ltac:(lra)) as [del Hd]. destruct del as [del Pd]. cbn [pos] in Hd.
  pose proof (Hd (del/2) ltac:(lra) ltac:(rewrite Rabs_right; lra)) as A.
  pose proof (Hd (-(del/2)) ltac:(lra) ltac:(rewrite Rabs_left; lra)) as B.
  cbn in A, B. destruct (Rlt_dec (0 + del/2) 0) as [C|C]; [lra|]. destruct (Rlt_dec 0 0) as [D|D]; [lra|].
  destruct (Rlt_dec (0 + - (del/2)) 0) as [C'|C']; [|lra].
  replace ((0 + del/2 - 0) / (del/2) - d) with (1 - d) in A by (field; lra).
  replace ((0 - 0) / (-(del/2)) - d) with (- d) in B by (field; lra).
  apply Rabs_def2 in A. apply Rabs_def2 in B. lra.
Qed.
Lemma abs_kink d : ~ derivable_pt_lim Rabs 0 d.
Proof.
  intros H. destruct (H (1/2) ltac:(lra)) as [del Hd]. destruct del as [del Pd]. cbn [pos] in Hd.
  pose proof (Hd (del/2) ltac:(lra) ltac:(rewrite Rabs_right; lra)) as A.
  pose proof (Hd (-(del/2)) ltac:(lra) ltac:(rewrite Rabs_left; lra)) as B.
  rewrite Rabs_R0 in A, B. rewrite (Rabs_right (0 + del/2)) in A by lra. rewrite (Rabs_left (0 + - (del/2))) in B by lra.
  replace ((0 + del/2 - 0) / (del/2) - d) with (1 - d) in A by (field; lra).
  replace ((- (0 + - (del/2)) - 0) / (-(del/2)) - d) with (- 1 - d) in B by (field; lra).
  apply Rabs_def2 in A. apply Rabs_def2 in B. lra.
Qed.

Lemma entries_nonzero (z : raw R) n o : wf z -> shape z = [n; o] -> (forall r c, (r < n)%nat -> (c < o)%nat -> tval z [r; c] <> 0) -> Forall (fun e => e <> 0) (array z).
Proof.
  intros W S H. rewrite (array_tabulate z) by auto. apply Forall_forall. intros e He. apply in_map_iff in He as (ix & <- & Hi).
  apply in_all_indices in Hi. rewrite S in Hi. destruct ix as [|r [|c [|? ?]]]; try (inversion Hi; fail).
  - inversion Hi; subst. inversion H5.
  - apply H; inversion Hi; subst; auto. inversion H5; subst; auto.
  - inversion Hi; subst. inversion H5; subst. inversion H7.
Qed.
End Kinks.

(** The forward pass of a network: [backward] handles it, no kink is hit, and it uses every parameter. *)
Lemma net_graph (ns : list (node R)) lo : let V := vof ns in
  (forall n k ins, lo <= n -> fn_of ns n = Some (k, ins) -> opspec k (map V ins) (V n)) ->
  forall m ls i n x out, net_params V i m ls ->
  netnode ns lo (map (fun '(l, (_, _, _, F)) => (weights l, bias l, F)) (combine m ls)) x out ->
  wf (V x) -> shape (V x) = [n; i] -> plain ns x -> no_kinks ns x ->
  (forall p, In p (mlp_params m) -> plain ns p /\ no_kinks ns p) -> small_net n i ls ->
  forall X, (forall r c, r < n -> c < i -> X r c = tval (V x) [r; c]) -> smooth_net n i ls X ->
  plain ns out /\ no_kinks ns out /\ uses ns out x /\ forall p, In p (mlp_params m) -> uses ns out p.
Proof.
  intros V HV m ls i n x out NP. revert n x out. induction NP as [i|i l m o F ls HF WW SW WB SB Hi Ho NP IH]; intros n x out NN Wx Sx Px Kx HP HS X HX SM; cbn [combine map] in *.
  - inversion NN; subst. repeat split; auto. constructor. intros p [].
  - inversion NN as [|w b F' ls' x' y z a out' Ly Ey Lz Ez A NN']; subst. cbn [small_net smooth_net] in *. destruct HS as (HS1 & HS2 & HS3). destruct SM as [SM1 SM2].
    pose proof (HV y _ _ Ly Ey) as Oy. pose proof (HV z _ _ Lz Ez) as Oz. cbn [map] in Oy, Oz.
    destruct (bmm_value _ _ _ n i o Oy Sx SW) as (Sy & Wy & Vy).
    destruct (bias_value _ _ _ n o Oz WB Sy SB) as (Sz & Wz & Vz).
    destruct (act_value ns lo F z a V n o HV A Wz Sz) as (Sa & Wa & Va).
    assert (VZ : forall r c, r < n -> c < o -> tval (V z) [r; c] = layer_val i o (array (V (weights l))) (array (V (bias l))) (fun x => x) X r c).
    { intros r c Hr Hc. rewrite Vz, Vy by auto. unfold layer_val. f_equal. apply sumn_ext. intros t Ht. rewrite HX by auto. f_equal. unfold tval. rewrite SW. cbn. f_equal. lia. }
    unfold mlp_params in HP. cbn [flat_map linear_params app] in HP. fold (mlp_params m) in HP.
    destruct (HP (weights l) ltac:(cbn; auto)) as [Pw Kw]. destruct (HP (bias l) ltac:(cbn; auto)) as [Pb Kb].
    assert (Py : plain ns y).
    { eapply plain_op; [eapply fn_lt; eauto|exact Ey|discriminate|discriminate| |].
      - intros _. constructor; [|constructor; [|constructor]]; fold V; rewrite ?Sx, ?SW; cbn; lia.
      - intros q [<-|[<-|[]]]; auto. }
    assert (Ky : no_kinks ns y) by (eapply no_kinks_op; [exact Ey|intros [Q|Q]; discriminate Q|intros q [<-|[<-|[]]]; auto]).
    assert (Pz : plain ns z).
    { eapply plain_op; [eapply fn_lt; eauto|exact Ez|discriminate|discriminate|discriminate|]. intros q [<-|[<-|[]]]; auto. }
    assert (Kz : no_kinks ns z) by (eapply no_kinks_op; [exact Ez|intros [Q|Q]; discriminate Q|intros q [<-|[<-|[]]]; auto]).
    assert (Uz : uses ns z x /\ uses ns z (weights l) /\ uses ns z (bias l)).
    { assert (Uy : uses ns z y) by (eapply uses_step; [exact Ez|left; reflexivity|constructor]). split; [|split].
      - eapply uses_trans; [exact Uy|]. eapply uses_step; [exact Ey|left; reflexivity|constructor].
      - eapply uses_trans; [exact Uy|]. eapply uses_step; [exact Ey|right; left; reflexivity|constructor].
      - eapply uses_step; [exact Ez|right; left; reflexivity|constructor]. }
    assert (Qa : plain ns a /\ no_kinks ns a /\ uses ns a z).
    { destruct A as [z|z a La E|z a La E|z a La E|z a La E]; [repeat split; auto; constructor|..];
        (split; [eapply plain_op; [eapply fn_lt; eauto|exact E|discriminate|discriminate|discriminate|intros q [<-|[]]; auto]|]);
        (split; [|eapply uses_step; [exact E|left; reflexivity|constructor]]);
        (eapply no_kinks_op; [exact E| |intros q [<-|[]]; auto]).
      - intros _ q [<-|[]]. apply (entries_nonzero _ n o); auto. intros r c Hr Hc. fold V. rewrite VZ by auto. intros Q. destruct (SM1 r c Hr Hc) as [d Hd]. rewrite Q in Hd. exact (relu_kink d Hd).
      - intros [Q|Q]; discriminate Q.
      - intros _ q [<-|[]]. apply (entries_nonzero _ n o); auto. intros r c Hr Hc. fold V. rewrite VZ by auto. intros Q. destruct (SM1 r c Hr Hc) as [d Hd]. rewrite Q in Hd. exact (abs_kink d Hd).
      - intros [Q|Q]; discriminate Q. }
    destruct Qa as (Pa & Ka & Ua).
    destruct (IH n a out NN' Wa Sa Pa Ka ltac:(intros p Hp; apply HP; cbn; auto) HS3 (layer_val i o (array (V (weights l))) (array (V (bias l))) F X)) as (R1 & R2 & R3 & R4); auto.
    { intros r c Hr Hc. rewrite Va, VZ by auto. reflexivity. }
    split; [exact R1|]. split; [exact R2|]. assert (Uo : uses ns out z) by (eapply uses_trans; eauto).
    split; [eapply uses_trans; [exact Uo|apply Uz]|].
    unfold mlp_params. cbn [flat_map linear_params app]. intros p [<-|[<-|Hp]]; [eapply uses_trans; [exact Uo|apply Uz]..|apply R4; exact Hp].
Qed.

(** ** The loss *)
Section Loss.
Local Open Scope R_scope.

(** The nodes [(&res - &y).abs().sum()] records *)
Definition lossnode (ns : list (node R)) (lo res y loss : nat) : Prop :=
  exists ny diff ab, (lo <= ny)%nat /\ fn_of ns ny = Some (KNeg, [y]) /\ (lo <= diff)%nat /\ fn_of ns diff = Some (KAdd, [res; ny]) /\
    (lo <= ab)%nat /\ fn_of ns ab = Some (KAbs, [diff]) /\ (lo <= loss)%nat /\ fn_of ns loss = Some (KSum, [ab]).

Lemma diff_value (A B Y C : raw R) n o : opspec KNeg [B] Y -> opspec KAdd [A; Y] C -> shape A = [n; o] -> shape B = [n; o] ->
  shape C = [n; o] /\ wf C /\ forall r c, (r < n)%nat -> (c < o)%nat -> tval C [r; c] = tval A [r; c] - tval B [r; c].
Proof.
  intros ON OA SA SB. inversion ON; subst. inversion OA as [? ? s W1 W2 P1 P2 BC| | | | | | |]; subst.
  assert (S : s = [n; o]).
  { apply bcast_max_shape in BC; auto. rewrite BC. cbn [shape tabulate]. rewrite SA, SB. unfold max_shape. cbn. rewrite !Nat.max_id. reflexivity. }
  subst s. split; [reflexivity|]. split; [apply tabulate_wf|]. intros r c Hr Hc.
  assert (IR : in_range [n; o] [r; c]) by (apply in_range_pair; auto).
  rewrite tval_tabulate by auto. change (shape (tabulate (shape B) (fun i => n_neg (tval B i)))) with (shape B). rewrite SA, SB, !clamp_self by auto. rewrite tval_tabulate by auto. cbn. lra.
Qed.

Lemma abs_inv (a y : raw R) : opspec KAbs [a] y -> y = tabulate (shape a) (fun i => n_abs (tval a i)).
Proof. inversion 1; subst; reflexivity. Qed.
Lemma sum_inv (a y : raw R) : opspec KSum [a] y -> y = raw_scalar (lsum (array a)).
Proof. inversion 1; subst; reflexivity. Qed.

Lemma loss_value ns lo V res y loss n c : (forall n k ins, (lo <= n)%nat -> fn_of ns n = Some (k, ins) -> opspec k (map V ins) (V n)) ->
  lossnode ns lo res y loss -> shape (V res) = [n; c] -> shape (V y) = [n; c] ->
  V loss = raw_scalar (abs_loss n c (fun r j => tval (V res) [r; j]) (fun r j => tval (V y) [r; j])).
Proof.
  intros HV (ny & diff & ab & L1 & E1 & L2 & E2 & L3 & E3 & L4 & E4) Sr Sy.
  pose proof (HV _ _ _ L1 E1) as O1. pose proof (HV _ _ _ L2 E2) as O2. pose proof (HV _ _ _ L3 E3) as O3. pose proof (HV _ _ _ L4 E4) as O4. cbn [map] in *.
  destruct (diff_value _ _ _ _ n c O1 O2 Sr Sy) as (Sd & Wd & Vd).
  apply abs_inv in O3. apply sum_inv in O4. rewrite O4. f_equal.
  rewrite O3. cbn [array tabulate]. rewrite Sd. change (lsum (map ?f ?l)) with (bsum l f). rewrite (bsum_all_indices_2 R_is_ring).
  unfold abs_loss. rewrite sumn_bsum. apply bsum_ext. intros r Hr. rewrite sumn_bsum. apply bsum_ext. intros j Hj. apply in_seq in Hr, Hj.
  cbn [n_abs RNum]. rewrite Vd by lia. reflexivity.
Qed.

Lemma abs_loss_ext n c f f' y y' : (forall r j, (r < n)%nat -> (j < c)%nat -> f r j = f' r j /\ y r j = y' r j) -> abs_loss n c f y = abs_loss n c f' y'.
Proof.
  intros H. unfold abs_loss. apply sumn_ext. intros r Hr. apply sumn_ext. intros j Hj. destruct (H r j Hr Hj) as [-> ->]. reflexivity.
Qed.

(** ** Changing one parameter *)
Lemma net_params_congr (v w : nat -> raw R) i m ls : net_params v i m ls -> (forall p, In p (mlp_params m) -> w p = v p) -> net_params w i m ls.
Proof.
  induction 1 as [i|i l m o F ls HF WW SW WB SB Hi Ho NP IH]; intros H; [constructor|]. unfold mlp_params in H. cbn [flat_map linear_params app] in H.
  rewrite <- (H (weights l)) in WW, SW |- * by (cbn; auto). rewrite <- (H (bias l)) in WB, SB |- * by (cbn; auto). apply np_cons; auto.
  apply IH. intros p Hp. apply H. cbn. auto.
Qed.

Lemma bump_net (v w : nat -> raw R) i m ls j p q t : net_params v i m ls -> NoDup (mlp_params m) -> nth_error (mlp_params m) j = Some p ->
  w p = bump (v p) q t -> (forall p', In p' (mlp_params m) -> p' <> p -> w p' = v p') -> net_params w i m (bump_param ls j q t).
Proof.
  intros NP. revert j. induction NP as [i|i l m o F ls HF WW SW WB SB Hi Ho NP IH]; intros j ND E Wp H; [constructor|].
  unfold mlp_params in *. cbn [flat_map linear_params app] in *. inversion ND as [|? ? N1 ND1]; subst. inversion ND1 as [|? ? N2 ND2]; subst.
  destruct j as [|[|j]]; cbn [nth_error] in E.
  - injection E as <-. cbn [bump_param]. rewrite <- (H (bias l)) in WB, SB |- * by (cbn in *; auto).
    replace (add_at (array (v (weights l))) q t) with (array (w (weights l))) by (rewrite Wp; reflexivity).
    destruct (bump_form (v (weights l)) q t WW) as [BW BS]. apply np_cons; auto; try (rewrite Wp; auto; congruence).
    apply (net_params_congr v); auto. intros p' Hp'. apply H; [cbn; auto|]. intros ->. apply N1. cbn. auto.
  - injection E as <-. cbn [bump_param]. rewrite <- (H (weights l)) in WW, SW |- * by (cbn in *; auto).
    replace (add_at (array (v (bias l))) q t) with (array (w (bias l))) by (rewrite Wp; reflexivity).
    destruct (bump_form (v (bias l)) q t WB) as [BW BS]. apply np_cons; auto; try (rewrite Wp; auto).
    apply (net_params_congr v); auto. intros p' Hp'. apply H; [cbn; auto|]. intros ->. apply N2. auto.
  - cbn [bump_param]. pose proof (nth_error_In _ _ E) as Hp.
    rewrite <- (H (weights l)) in WW, SW |- * by (first [solve [cbn; auto]|intros Q; apply N1; rewrite Q; cbn; auto]).
    rewrite <- (H (bias l)) in WB, SB |- * by (first [solve [cbn; auto]|intros Q; apply N2; rewrite Q; auto]).
    apply np_cons; auto. apply IH; auto. intros p' Hp' Hne. apply H; auto. cbn. auto.
Qed.

Lemma bump_outputs ls j q t : outputs (bump_param ls j q t) = outputs ls.
Proof.
  revert j. induction ls as [|[[[o W] b] F] ls IH]; intros j; [reflexivity|]. destruct j as [|[|j]]; cbn; try reflexivity. f_equal. apply IH.
Qed.

Lemma net_parameters_of (v : nat -> raw R) i m ls : net_params v i m ls -> net_parameters ls = map (fun p => array (v p)) (mlp_params m).
Proof. induction 1 as [i|i l m o F ls HF WW SW WB SB Hi Ho NP IH]; [reflexivity|]. unfold mlp_params. cbn [flat_map linear_params app map net_parameters]. rewrite IH. reflexivity. Qed.

(** The network with other values for its parameters *)
Lemma net_params_new {T : Type} {NT : Num T} (v v' : nat -> raw T) i m ls : net_params v i m ls -> forall m', map activation m' = map activation m ->
  Forall2 (fun p p' => wf (v' p') /\ shape (v' p') = shape (v p)) (mlp_params m) (mlp_params m') ->
  exists ls', net_params v' i m' ls' /\ map (fun '(o, _, _, F) => (o, F)) ls' = map (fun '(o, _, _, F) => (o, F)) ls.
Proof.
  induction 1 as [i|i l m o F ls HF WW SW WB SB Hi Ho NP IH]; intros m' EA F2.
  - destruct m'; [|discriminate]. exists []. split; [constructor|reflexivity].
  - destruct m' as [|l' m']; [discriminate|]. cbn [map] in EA. injection EA as EA1 EA2. unfold mlp_params in F2. cbn [flat_map linear_params app] in F2.
    inversion F2 as [|? ? ? ? [W1 S1] F3]; subst. inversion F3 as [|? ? ? ? [W2 S2] F4]; subst.
    destruct (IH m' EA2 F4) as (ls' & N' & E'). exists ((o, array (v' (weights l')), array (v' (bias l')), F) :: ls'). split.
    + apply np_cons; auto; rewrite ?EA1, ?S1, ?S2; auto.
    + cbn [map]. rewrite E'. reflexivity.
Qed.
End Loss.

(** ** The graph [sgd_step] records *)
Section SgdGraph.
Context {T : Type} {NT : Num T}.

Definition stepgraph (ns : list (node T)) (p new : nat) : Prop :=
  exists ip nj, fn_of ns new = Some (KAdd, [p; nj]) /\ fn_of ns nj = Some (KNeg, [ip]) /\ fn_of ns ip = None /\ ip < length ns.

Lemma stepgraph_ext (h h' : heap T) p new : extends h h' -> stepgraph (nodes h) p new -> stepgraph (nodes h') p new.
Proof.
  intros X (ip & nj & A & B & C & D). exists ip, nj. split; [eapply fn_ext; eauto|]. split; [eapply fn_ext; eauto|].
  pose proof (extends_length _ _ X). split; [|lia]. destruct X as [e ->]. rewrite fn_app_old; auto.
Qed.

Lemma fine_zero_grad (h : heap T) n : fine h -> fine (zero_grad h n).
Proof.
  intros ((HI & HN & HM) & HG). split; [split; [apply zero_grad_ok; auto|split; auto]|].
  intros j g E Hj. cbn [zero_grad grads nodes] in *. unfold upd in E. destruct (j =? n); [discriminate|]. apply HG; auto.
Qed.

Lemma sgd_param_fine (c : T) h p h' new : fine h -> sgd_param (raw_scalar c) h p = Ret (h', new) ->
  fine h' /\ extends h h' /\ stepgraph (nodes h') p new /\ length (nodes h) <= new < length (nodes h').
Proof.
  intros HF E. pose proof (sgd_param_history _ _ _ _ _ E) as (X & _ & _ & _).
  unfold sgd_param in E. destruct (grads h p) as [g|] eqn:Eg; [|discriminate E]. cbn [unwrap_opt bind] in E.
  destruct HF as ((HI & HN & HM) & HG). assert (HF : fine h) by (split; [split; [exact HI|split; assumption]|exact HG]).
  destruct (proj2 HI p g Eg) as [Wg Lp]. destruct (HG p g Eg Lp) as (_ & Pg & _).
  rewrite mul_scalar_l in E by auto. cbn [bind] in E.
  destruct (alloc h (tabulate (shape g) (fun i => n_mul c (tval g i))) None None) as [h1 ip] eqn:E1. apply bind_Ret_inv in E as ([h3 j] & E3 & E). apply Ret_inj in E.
  assert (F1 : fine h1).
  { replace h1 with (fst (alloc h (tabulate (shape g) (fun i => n_mul c (tval g i))) None None)) by (rewrite E1; reflexivity).
    apply fine_alloc; auto; [apply tabulate_wf|discriminate|discriminate]. }
  assert (F3 : fine h3) by (eapply fine_sub; eauto).
  injection E as <- <-. split; [apply fine_zero_grad; exact F3|]. split; [exact X|].
  unfold op_sub in E3. apply bind_Ret_inv in E3 as ([h2 nj] & E2 & E3). unfold op_neg in E2.
  apply bind_Ret_inv in E2 as (nd1 & _ & E2). apply bind_Ret_inv in E2 as (y2 & _ & E2). apply Ret_inj in E2.
  unfold op_add in E3. apply bind_Ret_inv in E3 as (ndp & Ep & E3). apply bind_Ret_inv in E3 as (ndj & _ & E3). apply bind_Ret_inv in E3 as (y3 & _ & E3). apply Ret_inj in E3.
  unfold alloc in E1, E2, E3. injection E1 as <- <-. injection E2 as <- <-. injection E3 as <- <-. cbn [zero_grad nodes] in *. clear.
  split; [|rewrite !app_length; cbn; lia].
  exists (length (nodes h)), (length (nodes h ++ [mkNode (tabulate (shape g) (fun i => n_mul c (tval g i))) None])).
  split; [unfold fn_of; rewrite nth_error_app2, Nat.sub_diag by auto; reflexivity|].
  split; [rewrite fn_app_old by (rewrite !app_length; cbn; lia); unfold fn_of; rewrite nth_error_app2, Nat.sub_diag by auto; reflexivity|].
  split; [|rewrite !app_length; cbn; lia].
  rewrite !fn_app_old by (rewrite !app_length; cbn; lia). unfold fn_of. rewrite nth_error_app2, Nat.sub_diag by auto. reflexivity.
Qed.

Lemma sgd_params_fine (c : T) : forall ps h acc h' l, fine h ->
  foldM (fun '(h, acc) p => let* (h', new) := sgd_param (raw_scalar c) h p in Ret (h', acc ++ [new])) ps (h, acc) = Ret (h', l) ->
  exists news, l = acc ++ news /\ fine h' /\ extends h h' /\ Forall2 (stepgraph (nodes h')) ps news /\ NoDup news /\ Forall (fun n => length (nodes h) <= n) news.
Proof.
  induction ps as [|p ps IH]; intros h acc h' l HF E.
  - cbn [foldM] in E. apply Ret_inj in E. injection E as <- <-. exists []. rewrite app_nil_r. split; auto. split; auto. split; [apply extends_refl|]. repeat constructor.
  - cbn [foldM] in E. apply bind_Ret_inv in E as ([h1 l1] & E1 & E). apply bind_Ret_inv in E1 as ([h0 new] & E0 & E1). apply Ret_inj in E1. injection E1 as <- <-.
    destruct (sgd_param_fine c h p h0 new HF E0) as (F0 & X0 & S0 & L0). destruct (IH _ _ _ _ F0 E) as (news & -> & F2 & X2 & S2 & D2 & G2).
    exists (new :: news). rewrite <- app_assoc. split; [reflexivity|]. split; auto. split; [eapply extends_trans; eauto|].
    split; [constructor; auto; eapply stepgraph_ext; eauto|]. split.
    + constructor; auto. intros Q. rewrite Forall_forall in G2. specialize (G2 _ Q). lia.
    + constructor; [lia|]. eapply Forall_impl; [|exact G2]. cbn. intros q Hq. pose proof (extends_length _ _ X0). lia.
Qed.
End SgdGraph.

(** ** One round *)
Section SubRun.
Context {T : Type} {NT : Num T}.

Lemma sub_succeeds (h : heap T) a b : heap_inv h -> a < length (nodes h) -> b < length (nodes h) ->
  positive (shape (vof (nodes h) a)) -> shape (vof (nodes h) b) = shape (vof (nodes h) a) ->
  exists h' d, op_sub h a b = Ret (h', d).
Proof.
  intros HI La Lb Pa Sb.
  assert (Wf : forall q, q < length (nodes h) -> wf (vof (nodes h) q)) by (intros q Hq; destruct (hget_vof h q Hq) as (nd & En & <-); exact (hget_wf h q nd HI En)).
  unfold op_sub, op_neg. destruct (hget_vof h b Lb) as (nb & Eb & Vb). rewrite Eb. cbn [bind]. rewrite Vb. unfold neg_raw. rewrite unary_ok_raw by auto. cbn [bind].
  set (nv := tabulate _ _). destruct (alloc h nv (Some (KNeg, [b])) None) as [h1 n] eqn:EA. pose proof (alloc_vof _ _ _ _ _ _ EA) as VA.
  assert (XA : extends h h1) by (unfold alloc in EA; injection EA as <- <-; eexists; reflexivity).
  assert (LA : n < length (nodes h1)) by (unfold alloc in EA; injection EA as <- <-; cbn [nodes]; rewrite app_length; cbn; lia).
  pose proof (extends_length _ _ XA). unfold op_add. destruct (hget_vof h1 a ltac:(lia)) as (na & Ea & Va). destruct (hget_vof h1 n LA) as (nn & En & Vn).
  rewrite Ea. cbn [bind]. rewrite En. cbn [bind]. rewrite Va, Vn, VA, (vof_ext h h1) by auto.
  assert (O : opspec KAdd [vof (nodes h) a; nv] (tabulate (shape (vof (nodes h) a)) (fun i => n_add (tval (vof (nodes h) a) (clamp (shape (vof (nodes h) a)) i)) (tval nv (clamp (shape nv) i))))).
  { apply os_add; [auto|apply tabulate_wf|exact Pa|cbn [nv tabulate shape]; rewrite Sb; exact Pa|cbn [nv tabulate shape]; rewrite Sb; apply bcast_self]. }
  apply opspec_fwd in O. cbn [fwd] in O. rewrite O. cbn [bind]. unfold alloc. eauto.
Qed.

Lemma sub_run (h : heap T) a b h' d : op_sub h a b = Ret (h', d) ->
  exists n, length (nodes h) <= n /\ fn_of (nodes h') n = Some (KNeg, [b]) /\ length (nodes h) <= d /\ fn_of (nodes h') d = Some (KAdd, [a; n]).
Proof.
  unfold op_sub. intros E3. apply bind_Ret_inv in E3 as ([h2 nj] & E2 & E3). unfold op_neg in E2.
  apply bind_Ret_inv in E2 as (nd1 & _ & E2). apply bind_Ret_inv in E2 as (y2 & _ & E2). apply Ret_inj in E2.
  unfold op_add in E3. apply bind_Ret_inv in E3 as (ndp & Ep & E3). apply bind_Ret_inv in E3 as (ndj & _ & E3). apply bind_Ret_inv in E3 as (y3 & _ & E3). apply Ret_inj in E3.
  unfold alloc in E2, E3. injection E2 as <- <-. injection E3 as <- <-. cbn [nodes] in *. exists (length (nodes h)). split; [auto|].
  split; [rewrite fn_app_old by (rewrite app_length; cbn; lia); unfold fn_of; rewrite nth_error_app2, Nat.sub_diag by auto; reflexivity|].
  split; [rewrite app_length; lia|]. unfold fn_of. rewrite nth_error_app2, Nat.sub_diag by auto. reflexivity.
Qed.
End SubRun.

Section Round.
Local Open Scope R_scope.

Lemma params_lt {T : Type} (ns : list (node T)) (m : mlp T) : (forall p, In p (mlp_params m) -> (p < length ns)%nat) ->
  Forall (fun l => (weights l < length ns)%nat /\ (bias l < length ns)%nat) m.
Proof.
  intros H. apply Forall_forall. intros l Hl. split; apply H; unfold mlp_params; apply in_flat_map; exists l; cbn; auto.
Qed.

Definition layers (m : mlp R) (ls : net) : list (nat * nat * (R -> R)) := map (fun '(l, (_, _, _, F)) => (weights l, bias l, F)) (combine m ls).

Lemma layers_eq v i m ls : net_params v i m ls -> map (fun '(l, F) => (weights l, bias l, F)) (combine m (map snd ls)) = layers m ls.
Proof. induction 1 as [i|i l m o F ls HF WW SW WB SB Hi Ho NP IH]; [reflexivity|]. unfold layers in *. cbn [map combine snd]. rewrite IH. reflexivity. Qed.

Lemma layers_bump m ls j q t : layers m (bump_param ls j q t) = layers m ls.
Proof.
  revert m j. induction ls as [|[[[o W] b] F] ls IH]; intros m j; [reflexivity|]. destruct m as [|l m]; [destruct j as [|[|j]]; reflexivity|].
  destruct j as [|[|j]]; unfold layers in *; cbn [bump_param combine map]; try reflexivity. rewrite IH. reflexivity.
Qed.

(** The forward pass and the loss *)
Lemma round_forward h data m i ls x y n : ready h data m i ls -> In x data -> In y data -> shape (vof (nodes h) x) = [n; i] ->
  shape (vof (nodes h) y) = [n; net_out i (outputs ls)] -> (0 < n)%nat -> small_net n i ls ->
  smooth n i ls (entries i (array (vof (nodes h) x))) (entries (net_out i (outputs ls)) (array (vof (nodes h) y))) ->
  exists h1 res h2 diff h3 ab h4 loss,
    mlp_forward m h x = Ret (h1, res) /\ op_sub h1 res y = Ret (h2, diff) /\ op_abs h2 diff = Ret (h3, ab) /\ op_sum h3 ab = Ret (h4, loss) /\
    fine h4 /\ extends h h4 /\ grads_kept h h4 /\
    netnode (nodes h4) (length (nodes h)) (layers m ls) x res /\ lossnode (nodes h4) (length (nodes h)) res y loss /\
    root_ok (nodes h4) loss /\ no_kinks (nodes h4) loss /\ (length (nodes h) <= loss)%nat /\
    (forall p, In p (mlp_params m) -> uses (nodes h4) loss p).
Proof.
  intros RD Hx Hy Sx Sy Hn SM [SM1 SM2]. destruct RD as [HI HN HM HG NP ND HP HK HU HD HNG].
  set (co := net_out i (outputs ls)) in *.
  assert (HF : fine h) by (split; [split; [exact HI|split; assumption]|exact HG]).
  assert (Lt : forall q, In q (data ++ mlp_params m) -> (q < length (nodes h))%nat) by (intros q Hq; apply plain_lt; auto).
  assert (Lx : (x < length (nodes h))%nat) by (apply Lt, in_or_app; auto). assert (Ly : (y < length (nodes h))%nat) by (apply Lt, in_or_app; auto).
  assert (LP := params_lt (nodes h) m (fun p Hp => Lt p (in_or_app _ _ _ (or_intror Hp)))).
  assert (Wf : forall q, (q < length (nodes h))%nat -> wf (vof (nodes h) q)) by (intros q Hq; destruct (hget_vof h q Hq) as (nd & En & <-); exact (hget_wf h q nd HI En)).
  destruct (mlp_succeeds m ls h i x n NP HI Lx LP Sx Hn) as (h1 & res & E1).
  pose proof (mlp_fine m ls h i x n h1 res NP HF Lx LP Sx E1) as F1.
  destruct (mlp_run m (map snd ls) h x h1 res (net_params_acts _ _ _ _ NP) HI Lx E1) as (G1 & L1 & NN1). rewrite (layers_eq _ _ _ _ NP) in NN1.
  pose proof (extends_length _ _ (proj1 (proj2 G1))) as X1.
  assert (OK : forall h0, fine h0 -> forall n0 k ins, (length (nodes h) <= n0)%nat -> fn_of (nodes h0) n0 = Some (k, ins) -> opspec k (map (vof (nodes h0)) ins) (vof (nodes h0) n0)).
  { intros h0 ((I0 & N0 & M0) & _) n0 k ins _ Ef. assert (HG0 : graph_ok (nodes h0)) by (apply graph_ok_of; auto; apply I0). apply (op_ok _ HG0 n0 k ins Ef). }
  assert (VX : forall q, (q < length (nodes h))%nat -> vof (nodes h1) q = vof (nodes h) q) by (intros q Hq; apply (vof_ext h h1); [apply G1|auto]).
  assert (NP1 : net_params (vof (nodes h1)) i m ls) by (eapply net_params_ext; [apply G1|exact LP|exact NP]).
  destruct (net_value (nodes h1) _ (vof (nodes h1)) (OK h1 F1) m ls i n x res NP1 NN1) as (Sr & Wr & Vr); [rewrite VX; auto..|].
  fold (outputs ls) in Sr, Vr. fold co in Sr, Vr.
  (* the loss *)
  assert (PP : positive [n; co]) by (destruct F1 as ((_ & N1 & _) & _); rewrite <- Sr; apply N1; auto).
  destruct (sub_succeeds h1 res y (proj1 G1) L1 ltac:(lia)) as (h2 & diff & E2); [rewrite Sr; exact PP|rewrite Sr, VX by auto; auto|].
  pose proof (fine_sub _ _ _ _ _ F1 E2) as F2. destruct (made_grew _ _ _ _ (made_sub h1 res y (proj1 G1)) E2) as [G2 L2]. pose proof (extends_length _ _ (proj1 (proj2 G2))) as X2.
  destruct (sub_run h1 res y h2 diff E2) as (ny & K1 & K2 & K3 & K4).
  destruct (act_succeeds op_abs _ h2 diff act_abs (proj1 G2) ltac:(lia)) as (h3 & ab & E3); [destruct F2 as ((_ & N2 & _) & _); apply N2; lia|].
  pose proof (fine_abs _ _ _ _ F2 E3) as F3. destruct (made_grew _ _ _ _ (made_abs h2 diff (proj1 G2)) E3) as [G3 L3]. pose proof (extends_length _ _ (proj1 (proj2 G3))) as X3.
  assert (K5 : fn_of (nodes h3) ab = Some (KAbs, [diff])).
  { unfold op_abs in E3. apply bind_Ret_inv in E3 as (a & _ & E3). apply bind_Ret_inv in E3 as (t & _ & E3). apply Ret_inj in E3. unfold alloc in E3. injection E3 as <- <-.
    unfold fn_of. cbn [nodes]. rewrite nth_error_app2, Nat.sub_diag by auto. reflexivity. }
  destruct (op_sum h3 ab) as [[h4 loss]| |] eqn:E4; [|exfalso; unfold op_sum in E4; destruct (hget_vof h3 ab ltac:(lia)) as (nd & En & _); rewrite En in E4; discriminate E4..].
  pose proof (fine_sum _ _ _ _ F3 E4) as F4. destruct (made_grew _ _ _ _ (made_sum h3 ab (proj1 G3)) E4) as [G4 L4]. pose proof (extends_length _ _ (proj1 (proj2 G4))) as X4.
  assert (K6 : fn_of (nodes h4) loss = Some (KSum, [ab])).
  { unfold op_sum in E4. apply bind_Ret_inv in E4 as (a & _ & E4). apply bind_Ret_inv in E4 as (t & _ & E4). apply Ret_inj in E4. unfold alloc in E4. injection E4 as <- <-.
    unfold fn_of. cbn [nodes]. rewrite nth_error_app2, Nat.sub_diag by auto. reflexivity. }
  assert (G : grew h h4) by (eapply grew_trans; [exact G1|eapply grew_trans; [exact G2|eapply grew_trans; [exact G3|exact G4]]]).
  assert (G14 : extends h1 h4) by (eapply extends_trans; [apply G2|eapply extends_trans; [apply G3|apply G4]]).
  assert (G24 : extends h2 h4) by (eapply extends_trans; [apply G3|apply G4]).
  assert (LN : lossnode (nodes h4) (length (nodes h)) res y loss).
  { exists ny, diff, ab. split; [lia|]. split; [eapply fn_ext; [exact G24|exact K2]|]. split; [lia|]. split; [eapply fn_ext; [exact G24|exact K4]|]. split; [lia|].
    split; [eapply fn_ext; [apply G4|exact K5]|]. split; [lia|exact K6]. }
  assert (NN : netnode (nodes h4) (length (nodes h)) (layers m ls) x res) by (eapply netnode_ext; [exact G14|exact NN1]).
  assert (V4 : forall q, (q < length (nodes h))%nat -> vof (nodes h4) q = vof (nodes h) q) by (intros q Hq; apply (vof_ext h h4); [apply G|auto]).
  assert (NP4 : net_params (vof (nodes h4)) i m ls) by (eapply net_params_ext; [apply G|exact LP|exact NP]).
  destruct (net_graph (nodes h4) (length (nodes h)) (OK h4 F4) m ls i n x res NP4 NN) with (X := entries i (array (vof (nodes h) x))) as (Pr & Kr & Ur & Up);
    [rewrite V4 by auto; auto|rewrite V4 by auto; auto|eapply plain_ext; [apply G|]; apply HP, in_or_app; auto
    |eapply no_kinks_ext; [exact HI|apply G|auto|]; apply HK, in_or_app; auto| |exact SM| |exact SM1|].
  { intros p Hp. assert (Hp' : In p (data ++ mlp_params m)) by (apply in_or_app; auto). split; [eapply plain_ext; [apply G|auto]|]. eapply no_kinks_ext; [exact HI|apply G|auto|auto]. }
  { intros r c Hr Hc. rewrite V4 by auto. symmetry. apply tval_entries with (n := n). exact Sx. }
  (* values *)
  destruct (net_value (nodes h4) _ (vof (nodes h4)) (OK h4 F4) m ls i n x res NP4 NN) as (Sr4 & Wr4 & Vr4); [rewrite V4; auto..|].
  fold (outputs ls) in Sr4, Vr4. fold co in Sr4, Vr4.
  assert (K2' := fn_ext _ _ _ _ G24 K2). assert (K4' := fn_ext _ _ _ _ G24 K4). assert (K5' := fn_ext _ _ _ _ (proj1 (proj2 G4)) K5).
  assert (On := OK h4 F4 ny _ _ ltac:(lia) K2'). assert (Od := OK h4 F4 diff _ _ ltac:(lia) K4'). cbn [map] in On, Od.
  destruct (diff_value _ _ _ _ n co On Od Sr4 ltac:(rewrite V4 by auto; exact Sy)) as (Sd & Wd & Vd).
  assert (Py : plain (nodes h4) y) by (eapply plain_ext; [apply G|]; apply HP, in_or_app; auto).
  assert (Ky : no_kinks (nodes h4) y) by (eapply no_kinks_ext; [exact HI|apply G|auto|]; apply HK, in_or_app; auto).
  assert (Pn : plain (nodes h4) ny) by (eapply plain_op; [eapply fn_lt; exact K2'|exact K2'|discriminate|discriminate|discriminate|intros q [<-|[]]; auto]).
  assert (Kn : no_kinks (nodes h4) ny) by (eapply no_kinks_op; [exact K2'|intros [Q|Q]; discriminate Q|intros q [<-|[]]; auto]).
  assert (Pd : plain (nodes h4) diff) by (eapply plain_op; [eapply fn_lt; exact K4'|exact K4'|discriminate|discriminate|discriminate|intros q [<-|[<-|[]]]; auto]).
  assert (Kd : no_kinks (nodes h4) diff) by (eapply no_kinks_op; [exact K4'|intros [Q|Q]; discriminate Q|intros q [<-|[<-|[]]]; auto]).
  assert (Pa : plain (nodes h4) ab) by (eapply plain_op; [eapply fn_lt; exact K5'|exact K5'|discriminate|discriminate|discriminate|intros q [<-|[]]; auto]).
  assert (Ka : no_kinks (nodes h4) ab).
  { eapply no_kinks_op; [exact K5'| |intros q [<-|[]]; auto]. intros _ q [<-|[]]. apply (entries_nonzero _ n co); auto.
    intros r c Hr Hc. rewrite Vd by auto. rewrite (Vr4 r c Hr Hc (entries i (array (vof (nodes h) x)))).
    - rewrite V4 by auto. rewrite (tval_entries _ n co) by exact Sy. specialize (SM2 r c Hr Hc). fold co in SM2. lra.
    - intros r' c' Hr' Hc'. rewrite V4 by auto. symmetry. apply tval_entries with (n := n). exact Sx. }
  assert (Kl : no_kinks (nodes h4) loss) by (eapply no_kinks_op; [exact K6|intros [Q|Q]; discriminate Q|intros q [<-|[]]; auto]).
  exists h1, res, h2, diff, h3, ab, h4, loss. split; [exact E1|]. split; [reflexivity || exact E2|]. split; [exact E3|]. split; [exact E4|]. split; [exact F4|].
  split; [apply G|]. split; [apply G|]. split; [exact NN|]. split; [exact LN|]. split.
  { assert (Ol := OK h4 F4 loss _ _ ltac:(lia) K6). cbn [map] in Ol. apply sum_inv in Ol. split; [rewrite Ol; reflexivity|].
    exists KSum, [ab]. split; [exact K6|]. eapply top_sum; [eapply fn_lt; exact K6|exact K6|exact Pa]. }
  split; [exact Kl|]. split; [lia|]. intros p Hp.
  eapply uses_step; [exact K6|left; reflexivity|]. eapply uses_step; [exact K5'|left; reflexivity|]. eapply uses_step; [exact K4'|left; reflexivity|]. auto.
Qed.

(** The loss as a function of the parameters, for any valuation of the recorded graph *)
Lemma round_loss ns lo V m ls i x y n res loss :
  (forall n k ins, (lo <= n)%nat -> fn_of ns n = Some (k, ins) -> opspec k (map V ins) (V n)) ->
  net_params V i m ls -> netnode ns lo (layers m ls) x res -> lossnode ns lo res y loss ->
  wf (V x) -> shape (V x) = [n; i] -> shape (V y) = [n; net_out i (outputs ls)] ->
  nth 0 (array (V loss)) 0 = net_loss n i ls (entries i (array (V x))) (entries (net_out i (outputs ls)) (array (V y))).
Proof.
  intros HV NP NN LN Wx Sx Sy.
  destruct (net_value ns lo V HV m ls i n x res NP NN Wx Sx) as (Sr & Wr & Vr). fold (outputs ls) in Sr, Vr.
  rewrite (loss_value ns lo V res y loss n (net_out i (outputs ls)) HV LN Sr Sy). cbn [array raw_scalar nth]. unfold net_loss.
  apply abs_loss_ext. intros r c Hr Hc. split.
  - apply Vr; auto. intros r' c' _ _. symmetry. apply tval_entries with (n := n). exact Sx.
  - apply tval_entries with (n := n). exact Sy.
Qed.

Lemma Forall2_nth {A B} (P : A -> B -> Prop) l l' : Forall2 P l l' -> forall j a, nth_error l j = Some a -> exists b, nth_error l' j = Some b /\ P a b.
Proof. intros F. induction F as [|x y l l' H F IH]; intros [|j] a E; try discriminate E; cbn in *; [injection E as <-; eauto|auto]. Qed.

Lemma round_ok step h data m i ls x y n : ready h data m i ls -> In x data -> In y data -> shape (vof (nodes h) x) = [n; i] ->
  shape (vof (nodes h) y) = [n; net_out i (outputs ls)] -> (0 < n)%nat -> small_net n i ls ->
  smooth n i ls (entries i (array (vof (nodes h) x))) (entries (net_out i (outputs ls)) (array (vof (nodes h) y))) ->
  exists h' m' ls', train_step m (raw_scalar step) h x y = Ret (h', m') /\ ready h' data m' i ls' /\ extends h h' /\
    gd_step step n i (entries i (array (vof (nodes h) x))) (entries (net_out i (outputs ls)) (array (vof (nodes h) y))) ls ls'.
Proof.
  intros RD Hx Hy Sx Sy Hn SM SMO.
  destruct (round_forward h data m i ls x y n RD Hx Hy Sx Sy Hn SM SMO) as (h1 & res & h2 & diff & h3 & ab & h4 & loss & E1 & E2 & E3 & E4 & F4 & X4 & K4 & NN & LN & RO & NK & LL & UP).
  unfold train_step. rewrite E1. cbn [bind]. rewrite E2. cbn [bind]. rewrite E3. cbn [bind]. rewrite E4. cbn [bind].
  destruct RD as [HI HN HM HG NP ND HP HK HU HD HNG].
  assert (Lt : forall q, In q (data ++ mlp_params m) -> (q < length (nodes h))%nat) by (intros q Hq; apply plain_lt; auto).
  assert (LtP : forall p, In p (mlp_params m) -> (p < length (nodes h))%nat) by (intros p Hp; apply Lt, in_or_app; auto).
  assert (Lx : (x < length (nodes h))%nat) by (apply Lt, in_or_app; auto). assert (Ly : (y < length (nodes h))%nat) by (apply Lt, in_or_app; auto).
  assert (Wf : forall q, (q < length (nodes h))%nat -> wf (vof (nodes h) q)) by (intros q Hq; destruct (hget_vof h q Hq) as (nd & En & <-); exact (hget_wf h q nd HI En)).
  assert (LP := params_lt (nodes h) m LtP).
  pose proof (extends_length _ _ X4) as L4.
  assert (V4 : forall q, (q < length (nodes h))%nat -> vof (nodes h4) q = vof (nodes h) q) by (intros q Hq; apply (vof_ext h h4); auto).
  assert (NS : forall q, In q (data ++ mlp_params m) -> forall ins, fn_of (nodes h4) q <> Some (KSum, ins)).
  { intros q Hq ins Ef. assert (PQ := plain_ext h h4 q X4 (HP q Hq)). inversion PQ as [? ? EN|? k' ins' ? EN]; congruence. }
  (* backward *)
  assert (B : exists h5, backward h4 loss = Ret h5 /\ nodes h5 = nodes h4 /\ gr_ok (nodes h4) (grads h5)).
  { destruct LN as (ny & df & ab' & _ & _ & _ & _ & La & Ea & _ & El).
    destruct (backward_family h4 loss ab' F4 RO NK) as (h5 & B1 & B2 & B3 & _).
    - eapply fn_lt; eauto.
    - intros Q. rewrite Q in Ea. rewrite El in Ea. discriminate.
    - intros ins Q. rewrite Ea in Q. discriminate.
    - exists h5. auto. }
  destruct B as (h5 & B1 & B2 & B3). rewrite B1. cbn [bind].
  assert (F5 : fine h5).
  { destruct F4 as ((I4 & N4 & M4) & _). destruct (backward_effect h4 h5 loss I4 B1) as (I5 & _). split; [split; [exact I5|]|]; rewrite B2; auto. }
  assert (DP : forall p, In p (mlp_params m) -> forall q, (q < size (shape (vof (nodes h) p)))%nat -> exists d V,
      gentry (grads h5) p q = d /\ (forall t, V t p = bump (vof (nodes h) p) q t) /\
      (forall t n, (n < length (nodes h4))%nat -> ~ uses (nodes h4) n p -> V t n = vof (nodes h4) n) /\
      (forall t n k ins, n <> p -> fn_of (nodes h4) n = Some (k, ins) -> opspec k (map (V t) ins) (V t n)) /\
      derivable_pt_lim (fun t => nth 0 (array (V t loss)) 0) 0 d).
  { intros p Hp q Hq. assert (Hp' := LtP p Hp).
    destruct (backward_family h4 loss p F4 RO NK ltac:(lia) ltac:(lia) (NS p ltac:(apply in_or_app; auto))) as (h5' & B1' & _ & _ & Hd).
    rewrite B1 in B1'. injection B1' as <-. rewrite V4 in Hd by auto. destruct (Hd q Hq) as (d & V & Q1 & Q2). exists d, V. split; [|exact Q2].
    rewrite Q1. unfold gentry at 1. rewrite K4 by auto. rewrite HNG by auto. cbn. lra. }
  assert (HG5 : has_grads h5 (mlp_params m)).
  { apply Forall_forall. intros p Hp. rewrite B2. assert (Hp' := LtP p Hp). split; [lia|]. rewrite V4 by auto. split; [apply HN; auto|].
    destruct (grads h5 p) as [g|] eqn:Eg.
    - exists g. split; auto. destruct (B3 p g Eg ltac:(lia)) as (A1 & A2 & A3). split; auto. rewrite A3 by (apply NS, in_or_app; auto). rewrite V4; auto.
    - exfalso. apply (backward_presence h4 h5 loss p (proj1 (proj1 F4)) B1 ltac:(lia)) in Eg as [_ Eg]. apply Eg. apply UP; auto. }
  (* the step *)
  destruct (sgd_params_ok step (mlp_params m) h5 [] (proj1 (proj1 F5)) HG5) as (h6 & news & ES & I6 & X6 & K6 & S6 & N6).
  destruct (sgd_params_fine step (mlp_params m) h5 [] h6 ([] ++ news) F5 ES) as (news' & EN & F6 & _ & SG & NDn & GEn).
  cbn [app] in EN. subst news'.
  unfold sgd_step_mlp, sgd_new_params. rewrite ES. cbn [bind app].
  assert (HL : length news = (2 * length m)%nat) by (assert (LL' : length (mlp_params m) = length news) by (eapply Forall2_length'; eauto); rewrite <- LL'; apply (proj1 (c48_params R RNum m))).
  destruct (c48_update_params R RNum m news HL) as (m' & E' & Q1 & Q2 & Q3). rewrite E'. cbn [bind].
  assert (X56 : extends h h6). { eapply extends_trans; [exact X4|]. destruct X6 as [e Ee]. exists e. rewrite Ee, B2. reflexivity. }
  assert (L6 := extends_length _ _ X56). assert (L45 : length (nodes h5) = length (nodes h4)) by (rewrite B2; reflexivity).
  assert (V6 : forall q, (q < length (nodes h))%nat -> vof (nodes h6) q = vof (nodes h) q) by (intros q Hq; apply (vof_ext h h6); auto).
  assert (SH : Forall2 (fun p p' => wf (vof (nodes h6) p') /\ shape (vof (nodes h6) p') = shape (vof (nodes h) p)) (mlp_params m) (mlp_params m')).
  { rewrite Q1. eapply Forall2_impl_in; [|exact S6]. intros p p' Hp Hp' (g & Eg & Sg & _ & Lp' & _). split.
    - destruct (hget_vof h6 p' ltac:(lia)) as (nd & En & <-). exact (hget_wf h6 p' nd I6 En).
    - rewrite Sg, B2. rewrite V4; auto. }
  destruct (net_params_new _ _ i m ls NP m' Q2 SH) as (ls' & NP' & EO).
  exists h6, m', ls'. split; [reflexivity|]. split; [|split; [exact X56|]].
  - (* ready again *)
    assert (OldIn : forall q, In q data -> plain (nodes h6) q) by (intros q Hq; eapply plain_ext; [exact X56|]; apply HP, in_or_app; auto).
    assert (Inew : forall p', In p' news -> exists p, In p (mlp_params m) /\ stepgraph (nodes h6) p p' /\ stepped step h5 h6 p p').
    { intros p' Hp'. clear - SG S6 Hp'. induction SG as [|a b l l' H1 SG IH]; [destruct Hp'|]. inversion S6; subst. destruct Hp' as [->|Hp']; [exists a; cbn; auto|].
      destruct (IH H5 Hp') as (p & A & B). exists p. cbn. auto. }
    constructor.
    + exact I6.
    + apply F6.
    + apply F6.
    + exact (proj2 F6).
    + exact NP'.
    + rewrite Q1. exact NDn.
    + rewrite Q1. intros q Hq. apply in_app_or in Hq as [Hq|Hq]; [auto|]. destruct (Inew q Hq) as (p & Hp & (ip & nj & A & B & C & D) & _).
      eapply plain_op; [eapply fn_lt; exact A|exact A|discriminate|discriminate|discriminate|]. intros z [<-|[<-|[]]].
      * eapply plain_ext; [exact X56|]. apply HP, in_or_app. auto.
      * eapply plain_op; [eapply fn_lt; exact B|exact B|discriminate|discriminate|discriminate|]. intros z [<-|[]]. apply plain_leaf; auto.
    + rewrite Q1. intros q Hq. apply in_app_or in Hq as [Hq|Hq].
      * eapply no_kinks_ext; [exact HI|exact X56|apply Lt, in_or_app; auto|]. apply HK, in_or_app. auto.
      * destruct (Inew q Hq) as (p & Hp & (ip & nj & A & B & C & D) & _).
        eapply no_kinks_op; [exact A|intros [Q|Q]; discriminate Q|]. intros z [<-|[<-|[]]].
        -- eapply no_kinks_ext; [exact HI|exact X56|auto|]. apply HK, in_or_app. auto.
        -- eapply no_kinks_op; [exact B|intros [Q|Q]; discriminate Q|]. intros z [<-|[]]. intros n' k' ins' i' U Ef. inversion U; subst; congruence.
    + rewrite Q1. intros p' q Hp' Hq Hne U. destruct (Inew p' Hp') as (p & Hp & (ip & nj & A & B & C & D) & (g & _ & _ & _ & Lp' & _)).
      apply in_app_or in Hq as [Hq|Hq].
      * pose proof (uses_lt _ _ _ (proj1 I6) U). assert (Q := Lt q ltac:(apply in_or_app; auto)). lia.
      * destruct (Inew q Hq) as (p2 & Hp2 & (ip2 & nj2 & A2 & B2' & C2 & D2) & _).
        inversion U as [|? k1 ins1 z ? Ef Hz U1]; subst; [congruence|]. rewrite A2 in Ef. injection Ef as <- <-. destruct Hz as [<-|[<-|[]]].
        -- pose proof (uses_lt _ _ _ (proj1 I6) U1). assert (Q := LtP p2 Hp2). lia.
        -- inversion U1 as [|? k1 ins1 z ? Ef Hz U2]; subst; [congruence|]. rewrite B2' in Ef. injection Ef as <- <-. destruct Hz as [<-|[]].
           inversion U2 as [|? k1 ins1 z ? Ef Hz U3]; subst; congruence.
    + rewrite Q1. intros p' Hp' Hd. destruct (Inew p' Hp') as (p & Hp & _ & (g & _ & _ & _ & Lp' & _)). assert (Q := Lt p' ltac:(apply in_or_app; auto)). lia.
    + rewrite Q1. intros p' Hp'. destruct (Inew p' Hp') as (p & Hp & _ & (g & _ & _ & _ & _ & Z)). exact Z.
  - (* gradient descent *)
    split; [exact EO|]. rewrite (net_parameters_of _ _ _ _ NP), (net_parameters_of _ _ _ _ NP'). split.
    { rewrite !map_map. clear - SH Wf LtP. induction SH as [|p p' l l' [W S] SH IH]; [reflexivity|]. cbn [map]. f_equal; [|apply IH; intros; apply LtP; cbn; auto].
      assert (Wp := Wf p (LtP p ltac:(cbn; auto))). unfold wf in *. congruence. }
    intros j P P' EP EP' q Hq. rewrite nth_error_map in EP, EP'.
    destruct (nth_error (mlp_params m) j) as [p|] eqn:Ej; [|discriminate]. injection EP as <-.
    rewrite Q1 in EP'. destruct (Forall2_nth _ _ _ S6 j p Ej) as (p' & Ej' & (g & Eg & Sg & Ag & _)). rewrite Ej' in EP'. injection EP' as <-.
    pose proof (nth_error_In _ _ Ej) as Hp. assert (Lp := LtP p Hp). assert (Wp := Wf p Lp).
    destruct (DP p Hp q ltac:(unfold wf in Wp; lia)) as (d & V & D1 & D2 & D3 & D4 & D5). exists d. split.
    + eapply derivable_pt_lim_ext; [|exact D5]. intros t. cbn beta. symmetry.
      assert (UN : forall z, In z (data ++ mlp_params m) -> z <> p -> V t z = vof (nodes h) z).
      { intros z Hz Hne. rewrite <- V4 by auto. apply D3; [specialize (Lt z Hz); lia|]. intros U. apply (HU p z Hp Hz Hne). apply (uses_old h h4); auto. }
      assert (Vx : V t x = vof (nodes h) x) by (apply UN; [apply in_or_app; auto|intros ->; exact (HD p Hp Hx)]).
      assert (Vy : V t y = vof (nodes h) y) by (apply UN; [apply in_or_app; auto|intros ->; exact (HD p Hp Hy)]).
      rewrite <- Vx, <- Vy. rewrite <- (bump_outputs ls j q t).
      symmetry. apply (round_loss (nodes h4) (length (nodes h)) (V t) m (bump_param ls j q t) i x y n res loss).
      * intros n0 k ins Hn0 Ef. apply D4; [lia|exact Ef].
      * eapply bump_net; [exact NP|exact ND|exact Ej|apply D2|]. intros p2 Hp2 Hne. apply UN; [apply in_or_app; auto|exact Hne].
      * rewrite layers_bump. exact NN.
      * exact LN.
      * rewrite Vx. auto.
      * rewrite Vx. exact Sx.
      * rewrite Vy, bump_outputs. exact Sy.
    + rewrite Ag, B2, V4 by auto. unfold has_grads in HG5. rewrite Forall_forall in HG5. destruct (HG5 p Hp) as (_ & _ & g' & Eg' & Wg & Sg').
      rewrite Eg in Eg'. injection Eg' as <-. rewrite B2, V4 in Sg' by auto.
      assert (HLg : length (array g) = length (array (vof (nodes h) p))) by (unfold wf in *; congruence).
      set (f := fun '(x0, y0) => n_add x0 (n_neg (n_mul step y0))).
      rewrite (nth_indep _ 0 (f (0, 0))) by (rewrite map_length, combine_length; lia). rewrite map_nth, combine_nth by auto. unfold f. cbn [n_add n_neg n_mul RNum].
      unfold gentry in D1. rewrite Eg in D1. change n_zero with 0 in D1. rewrite D1. lra.
Qed.
End Round.
