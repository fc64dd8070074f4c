(** * FrozenFacts: backward is the derivative of the computation with branches kept *)
From Coq Require Import Reals Lra.
From Verif Require Import Base ModelIndex ModelTensor ModelOps ModelJvp ModelGraph Spec SpecDual SpecGraph SpecReal
  Lists IndexFacts TensorFacts OpsFacts Sums JvpFacts Dual Adjoint ClaimsOps ClaimsMat GradRing RealInst OpDeriv GradReal SpecFrozen.

(** An operation with branches kept succeeded *)
Definition fspec (k : opk) (xs0 xs : list (raw R)) (y : raw R) : Prop :=
  match k with
  | KAbs | KRelu => Forall2 same_form xs0 xs /\ (exists y0, opspec k xs0 y0) /\ frozen k xs0 xs = Ret y
  | _ => opspec k xs y
  end.

Lemma fspec_frozen k xs0 xs y : fspec k xs0 xs y -> frozen k xs0 xs = Ret y.
Proof.
  destruct k; cbn [fspec]; intros H; try apply H; apply opspec_fwd in H; destruct xs0 as [|a0 [|? ?]]; exact H.
Qed.

Lemma branch_wf (f : R -> R -> R) (a0 a : raw R) : wf a0 -> wf a -> shape a = shape a0 ->
  wf (mkRaw (map (fun '(x0, x) => f x0 x) (combine (array a0) (array a))) (shape a)).
Proof. unfold wf. cbn. intros H0 H E. rewrite map_length, combine_length, H0, H, E. lia. Qed.

Lemma fspec_form k xs0 xs y0 : opspec k xs0 y0 -> Forall2 same_form xs0 xs -> exists y, fspec k xs0 xs y /\ same_form y0 y.
Proof.
  intros HO HF. destruct k; try (destruct (opspec_form _ xs0 xs y0 HO HF) as (y & A & B); exists y; split; [exact A|exact B]).
  all: assert (HO' := HO); inversion HO' as [| |a Wa Pa|a Wa Pa| | | |]; subst; inversion HF as [|? a' ? xs1 [Wa' Sa'] HF1]; subst; inversion HF1; subst.
  all: eexists; split; [split; [exact HF|split; [eexists; exact HO|reflexivity]]|split; [apply branch_wf; auto|cbn; congruence]].
Qed.

Lemma abs_branch_self x : abs_branch x x = Rabs x.
Proof. unfold abs_branch, Rabs. destruct (Rge_dec x 0), (Rcase_abs x); lra. Qed.
Lemma relu_branch_self x : relu_branch x x = relu_fn x.
Proof. unfold relu_branch, relu_fn. cbn. destruct (Rlt_dec x 0); reflexivity. Qed.

Lemma branch_tab (f : R -> R -> R) (a0 a : raw R) : wf a0 -> wf a -> shape a = shape a0 ->
  mkRaw (map (fun '(x0, x) => f x0 x) (combine (array a0) (array a))) (shape a) = tabulate (shape a0) (fun i => f (tval a0 i) (tval a i)).
Proof.
  intros W0 W E. rewrite (array_tabulate a0 W0), (array_tabulate a W), E. unfold tabulate. f_equal.
  induction (all_indices (shape a0)) as [|i l IH]; cbn; [reflexivity|]. f_equal. exact IH.
Qed.

Lemma frozen_self k xs y : opspec k xs y -> fspec k xs xs y.
Proof.
  intros HO. destruct HO as [a b s Ha Hb Pa Pb Hbc|a Ha Pa|a Ha Pa|a Ha Pa|a Ha Pa|a Ha Pa|a b n k m Ha Hb Pa Pb Sa Sb|a b Ha Hb Pa Pb Hs];
    cbn [fspec]; try (econstructor; eauto; fail).
  - split; [repeat constructor; auto|]. split; [eexists; apply os_abs; auto|]. cbn [frozen]. f_equal. rewrite branch_tab by auto.
    apply tabulate_ext. intros i _. apply abs_branch_self.
  - split; [repeat constructor; auto|]. split; [eexists; apply os_relu; auto|]. cbn [frozen]. f_equal. rewrite branch_tab by auto.
    apply tabulate_ext. intros i _. apply relu_branch_self.
Qed.

Lemma fspec_det k xs0 xs y y' : fspec k xs0 xs y -> fspec k xs0 xs y' -> y = y'.
Proof. intros H H'. apply fspec_frozen in H, H'. rewrite H in H'. injection H' as ->. reflexivity. Qed.

Local Open Scope R_scope.
Lemma D_abs_branch x0 f a : D f a -> D (fun t => abs_branch x0 (f t)) (if Rge_dec x0 0 then a else - a).
Proof. unfold abs_branch. intros H. destruct (Rge_dec x0 0); [exact H|apply D_opp; exact H]. Qed.
Lemma D_relu_branch x0 f a : D f a -> D (fun t => relu_branch x0 (f t)) (if Rlt_dec x0 0 then 0 else a).
Proof. unfold relu_branch. intros H. destruct (Rlt_dec x0 0); [apply D_const|exact H]. Qed.

Lemma frozen_deriv k (Xs : list (R -> raw R)) (Y : R -> raw R) ds :
  (forall t, fspec k (map (fun X => X 0) Xs) (map (fun X => X t) Xs) (Y t)) ->
  Forall2 diff_family Xs ds ->
  diff_family Y (tan k (map (fun X => X 0) Xs) ds).
Proof.
  intros HO HF.
  assert (HT : Forall2 tangent (map (fun X => X 0) Xs) ds).
  { clear -HF. induction HF as [|X d Xs ds H HF IH]; cbn; constructor; auto. apply H. }
  destruct k; try (apply op_deriv; [exact HO|exact HF|exact I]).
  - pose proof (HO 0) as (_ & (y0 & O0) & _). destruct Xs as [|A [|? ?]]; try (inversion O0; fail). cbn [map] in *. inversion O0 as [| |a Wa Pa| | | | |]; subst a.
    inversion HF as [|? da ? ds' FA HF1]; subst. inversion HF1; subst.
    assert (HY : forall t, Y t = tabulate (shape (A 0)) (fun i => abs_branch (tval (A 0) i) (tval (A t) i))).
    { intros t. destruct (HO t) as (_ & _ & E). cbn [frozen] in E. destruct FA as (FA & _). destruct (FA t) as [FA1 FA2]. rewrite branch_tab in E by auto. injection E as <-. reflexivity. }
    split; [|split].
    + intros t. rewrite !HY. split; [apply tabulate_wf|reflexivity].
    + apply (tan_tangent KAbs [A 0] [da]); [|exact HT]. pose proof (os_abs (A 0) Wa Pa) as O1. rewrite (HY 0).
      replace (tabulate (shape (A 0)) (fun i => abs_branch (tval (A 0) i) (tval (A 0) i))) with (tabulate (shape (A 0)) (fun i => n_abs (tval (A 0) i))); [exact O1|].
      apply tabulate_ext. intros i _. symmetry. apply abs_branch_self.
    + cbn [tan]. apply (family_tab (shape (A 0)) Y (fun i t => abs_branch (tval (A 0) i) (tval (A t) i))); [exact HY|].
      intros i Hi. pose proof (D_abs_branch (tval (A 0) i) (fun t => tval (A t) i) _ (family_tval _ _ _ FA Hi)) as DB. cbn [n_ge n_zero n_neg RNum]. destruct (Rge_dec (tval (A 0) i) 0); exact DB.
  - pose proof (HO 0) as (_ & (y0 & O0) & _). destruct Xs as [|A [|? ?]]; try (inversion O0; fail). cbn [map] in *. inversion O0 as [| | |a Wa Pa| | | |]; subst a.
    inversion HF as [|? da ? ds' FA HF1]; subst. inversion HF1; subst.
    assert (HY : forall t, Y t = tabulate (shape (A 0)) (fun i => relu_branch (tval (A 0) i) (tval (A t) i))).
    { intros t. destruct (HO t) as (_ & _ & E). cbn [frozen] in E. destruct FA as (FA & _). destruct (FA t) as [FA1 FA2]. rewrite branch_tab in E by auto. injection E as <-. reflexivity. }
    split; [|split].
    + intros t. rewrite !HY. split; [apply tabulate_wf|reflexivity].
    + apply (tan_tangent KRelu [A 0] [da]); [|exact HT]. pose proof (os_relu (A 0) Wa Pa) as O1. rewrite (HY 0).
      replace (tabulate (shape (A 0)) (fun i => relu_branch (tval (A 0) i) (tval (A 0) i))) with (tabulate (shape (A 0)) (fun i => relu_fn (tval (A 0) i))); [exact O1|].
      apply tabulate_ext. intros i _. symmetry. apply relu_branch_self.
    + cbn [tan]. apply (family_tab (shape (A 0)) Y (fun i t => relu_branch (tval (A 0) i) (tval (A t) i))); [exact HY|].
      intros i Hi. pose proof (D_relu_branch (tval (A 0) i) (fun t => tval (A t) i) _ (family_tval _ _ _ FA Hi)) as DB. cbn [n_lt n_zero n_neg RNum]. destruct (Rlt_dec (tval (A 0) i) 0); exact DB.
Qed.

(** Re-evaluation with branches kept succeeds *)
Section Reeval.
Local Open Scope nat_scope.
Variable ns : list (node R).
Hypothesis HG : graph_ok ns.

Lemma refreeze_ok l x : l < length ns -> same_form (vof ns l) x ->
  exists vs, refreeze ns l x = Ret vs /\ length vs = length ns /\
    (forall n, n < length ns -> same_form (vof ns n) (vnth vs n)) /\ vnth vs l = x /\
    (forall n, n < length ns -> n <> l -> fn_of ns n = None -> vnth vs n = vof ns n) /\
    (forall n k ins, n <> l -> fn_of ns n = Some (k, ins) -> fspec k (map (vof ns) ins) (map (vnth vs) ins) (vnth vs n)).
Proof.
  intros Hl Hx. unfold refreeze.
  set (body := fun vs nd => _).
  assert (H : forall m, m <= length ns -> exists vs, foldM body (firstn m ns) [] = Ret vs /\ length vs = m /\
    (forall n, n < m -> same_form (vof ns n) (vnth vs n)) /\ (l < m -> vnth vs l = x) /\
    (forall n, n < m -> n <> l -> fn_of ns n = None -> vnth vs n = vof ns n) /\
    (forall n k ins, n < m -> n <> l -> fn_of ns n = Some (k, ins) -> fspec k (map (vof ns) ins) (map (vnth vs) ins) (vnth vs n))).
  { induction m as [|m IH]; intros Hm.
    - exists []. split; [reflexivity|]. split; [reflexivity|]. repeat split; intros; lia.
    - destruct IH as (vs & E & L & H1 & H2 & H3 & H4); [lia|].
      destruct (nth_error ns m) as [nd|] eqn:En; [|apply nth_error_None in En; lia].
      assert (Hy : exists y, body vs nd = Ret (vs ++ [y]) /\ same_form (vof ns m) y /\ (l = m -> y = x) /\
        (m <> l -> fn_of ns m = None -> y = vof ns m) /\
        (forall k ins, m <> l -> fn_of ns m = Some (k, ins) -> fspec k (map (vof ns) ins) (map (vnth vs) ins) y)).
      { unfold body. rewrite L. destruct (Nat.eqb_spec m l) as [->|Hne].
        - exists x. split; [reflexivity|]. split; [exact Hx|]. split; [auto|]. split; intros; congruence.
        - destruct (n_fn nd) as [[k ins]|] eqn:Ef.
          + assert (Ef' : fn_of ns m = Some (k, ins)) by (unfold fn_of; rewrite En; exact Ef).
            destruct (op_ok ns HG m k ins Ef') as (_ & Hlt & HO). rewrite Forall_forall in Hlt.
            destruct (fspec_form k (map (vof ns) ins) (map (vnth vs) ins) (vof ns m) HO) as (y & Hy1 & Hy2).
            { clear -Hlt H1. induction ins as [|i ins IH]; cbn; constructor; [apply H1, Hlt; left; auto|apply IH; intros; apply Hlt; right; auto]. }
            exists y. assert (Em : mapM (vindex vs) ins = Ret (map (vnth vs) ins)).
            { clear -Hlt L. induction ins as [|i ins IH]; [reflexivity|]. cbn [mapM map]. unfold vindex at 1, vnth at 1.
              rewrite (nth_error_nth' vs (raw_scalar n_zero)) by (rewrite L; apply Hlt; left; auto). cbn [bind].
              rewrite IH by (intros; apply Hlt; right; auto). reflexivity. }
            rewrite Em. cbn [bind]. rewrite (fspec_frozen _ _ _ _ Hy1). cbn [bind].
            split; [reflexivity|]. split; [exact Hy2|]. split; [congruence|]. split; [congruence|].
            intros k' ins' _ E'. rewrite Ef' in E'. injection E' as <- <-. exact Hy1.
          + assert (Ef' : fn_of ns m = None) by (unfold fn_of; rewrite En; exact Ef).
            assert (Ev : vof ns m = n_val nd) by (unfold vof; rewrite En; reflexivity).
            exists (n_val nd). split; [reflexivity|]. split.
            * rewrite Ev. split; [|reflexivity]. apply (HG _ _ En).
            * split; [congruence|]. split; [congruence|]. intros k ins _ E'. congruence. }
      destruct Hy as (y & B & F & Q1 & Q2 & Q3).
      exists (vs ++ [y]). rewrite (firstn_snoc _ _ _ _ En), foldM_app, E. cbn [bind foldM]. rewrite B. cbn [bind].
      assert (Hold : forall i, i < m -> vnth (vs ++ [y]) i = vnth vs i) by (intros; unfold vnth; apply app_nth1; lia).
      assert (Hnew : vnth (vs ++ [y]) m = y).
      { unfold vnth. rewrite app_nth2 by lia. rewrite L, Nat.sub_diag. reflexivity. }
      split; [reflexivity|]. split; [rewrite app_length; cbn; lia|]. split; [|split; [|split]].
      + intros n Hn. destruct (Nat.eq_dec n m) as [->|Hne]; [rewrite Hnew; exact F|]. rewrite Hold by lia. apply H1; lia.
      + intros Hlm. destruct (Nat.eq_dec l m) as [->|Hne]; [rewrite Hnew; auto|]. rewrite Hold by lia. apply H2; lia.
      + intros n Hn Hnl Hf. destruct (Nat.eq_dec n m) as [->|Hne]; [rewrite Hnew; auto|]. rewrite Hold by lia. apply H3; auto; lia.
      + intros n k ins Hn Hnl Hf. destruct (op_ok ns HG n k ins Hf) as (_ & Hlt & _). rewrite Forall_forall in Hlt.
        rewrite (map_ext_in (vnth (vs ++ [y])) (vnth vs)) by (intros i Hi; apply Hold; specialize (Hlt i Hi); lia).
        destruct (Nat.eq_dec n m) as [->|Hne]; [rewrite Hnew; auto|]. rewrite Hold by lia. apply H4; auto; lia. }
  destruct (H (length ns) (Nat.le_refl _)) as (vs & E & L & H1 & H2 & H3 & H4).
  rewrite firstn_all in E. exists vs. split; [exact E|]. split; [exact L|]. split; [exact H1|]. split; [apply H2; auto|].
  split; [exact H3|]. intros n k ins Hne Hf. apply H4; auto. apply (op_ok ns HG n k ins Hf).
Qed.

(** Unperturbed, it gives the recorded values. *)
Lemma refreeze_self (v : nat -> raw R) l : v l = vof ns l ->
  (forall n, n < length ns -> n <> l -> fn_of ns n = None -> v n = vof ns n) ->
  (forall n k ins, n <> l -> fn_of ns n = Some (k, ins) -> fspec k (map (vof ns) ins) (map v ins) (v n)) ->
  forall n, n < length ns -> v n = vof ns n.
Proof.
  intros Q4 Q5 Q6. intros n. induction n as [n IH] using lt_wf_ind. intros Hn. destruct (Nat.eq_dec n l) as [->|Hne]; [exact Q4|].
  destruct (fn_of ns n) as [[k' ins']|] eqn:Ef'; [|apply Q5; auto].
  specialize (Q6 n k' ins' Hne Ef'). destruct (op_ok ns HG n k' ins' Ef') as (_ & Hlt & O).
  assert (EQ : map v ins' = map (vof ns) ins').
  { apply map_ext_in. intros i Hi. rewrite Forall_forall in Hlt. specialize (Hlt i Hi). apply IH; lia. }
  rewrite EQ in Q6. eapply fspec_det; [exact Q6|]. apply frozen_self. exact O.
Qed.

(** What is not used is not changed. *)
Lemma refreeze_unused (v : nat -> raw R) l :
  (forall n, n < length ns -> n <> l -> fn_of ns n = None -> v n = vof ns n) ->
  (forall n k ins, n <> l -> fn_of ns n = Some (k, ins) -> fspec k (map (vof ns) ins) (map v ins) (v n)) ->
  forall n, n < length ns -> ~ uses ns n l -> v n = vof ns n.
Proof.
  intros Q5 Q6. intros n. induction n as [n IH] using lt_wf_ind. intros Hn HU.
  assert (Hne : n <> l) by (intros ->; apply HU; apply uses_refl).
  destruct (fn_of ns n) as [[k' ins']|] eqn:Ef'; [|apply Q5; auto].
  specialize (Q6 n k' ins' Hne Ef'). destruct (op_ok ns HG n k' ins' Ef') as (_ & Hlt & O).
  assert (EQ : map v ins' = map (vof ns) ins').
  { apply map_ext_in. intros i Hi. rewrite Forall_forall in Hlt. specialize (Hlt i Hi). apply IH; [lia|lia|]. intros U. apply HU. eapply uses_step; eauto. }
  rewrite EQ in Q6. eapply fspec_det; [exact Q6|]. apply frozen_self. exact O.
Qed.
End Reeval.

Section Family.
Variables (ns : list (node R)) (l p : nat) (dt : nat -> raw R) (V : R -> nat -> raw R).
Hypotheses (HG : graph_ok ns) (Hl : (l < length ns)%nat) (Hp : (p < size (shape (vof ns l)))%nat)
  (HV0 : forall n, (n < length ns)%nat -> V 0 n = vof ns n)
  (HVl : forall t, V t l = bump (vof ns l) p t)
  (HVc : forall t n, (n < length ns)%nat -> n <> l -> fn_of ns n = None -> V t n = vof ns n)
  (HVo : forall t n k ins, n <> l -> fn_of ns n = Some (k, ins) -> fspec k (map (vof ns) ins) (map (V t) ins) (V t n))
  (HT : tangents_ok ns (cut_at ns l) dt) (HTl : dt l = unit_at (shape (vof ns l)) p)
  (HTc : forall n, (n < length ns)%nat -> n <> l -> fn_of ns n = None -> dt n = zero_of (shape (vof ns n))).

Lemma frozen_family n : (n < length ns)%nat -> diff_family (fun t => V t n) (dt n).
Proof.
  induction n as [n IH] using lt_wf_ind. intros Hn.
  assert (E : forall (X Y : R -> raw R) d, (forall t, X t = Y t) -> diff_family X d -> diff_family Y d).
  { intros X Y d HXY (A & B & C). split; [|split].
    - intros t. rewrite <- !HXY. apply A.
    - rewrite <- HXY. exact B.
    - intros q Hq. rewrite <- HXY in Hq. apply (D_ext (fun t => nth q (array (X t)) 0)); [intros t; rewrite HXY; reflexivity|]. auto. }
  destruct (vof_ok ns HG n Hn) as [Hw _].
  destruct (Nat.eq_dec n l) as [->|Hne].
  - apply (E (bump (vof ns l) p)); [intros; symmetry; apply HVl|]. rewrite HTl. apply bump_family; auto.
  - destruct (fn_of ns n) as [[k ins]|] eqn:Ef.
    + destruct (op_ok ns HG n k ins Ef) as (_ & Hlt & HO). rewrite Forall_forall in Hlt.
      destruct (HT n Hn) as [_ Q]. specialize (Q k ins Ef). cbn zeta in Q.
      assert (Ec : cut_at ns l n = false) by (unfold cut_at; rewrite Ef, orb_false_r; apply Nat.eqb_neq; auto).
      rewrite Ec in Q. rewrite Q.
      assert (M0 : map (fun X : R -> raw R => X 0) (map (fun i t => V t i) ins) = map (vof ns) ins).
      { rewrite map_map. apply map_ext_in. intros i Hi. apply HV0. specialize (Hlt i Hi). lia. }
      rewrite <- M0. apply frozen_deriv.
      * intros t. rewrite M0, map_map. apply HVo; auto.
      * assert (Hall : forall i, In i ins -> diff_family (fun t => V t i) (dt i)).
        { intros i Hi. specialize (Hlt i Hi). apply IH; lia. }
        clear -Hall. induction ins as [|i ins IH]; cbn; constructor; [apply Hall; left; auto|apply IH; intros; apply Hall; right; auto].
    + apply (E (fun _ => vof ns n)); [intros; symmetry; apply HVc; auto|]. rewrite HTc by auto. apply const_family; auto.
Qed.
End Family.

(** The graph-level statement, with the family of re-evaluations *)
Lemma backward_frozen ns gr r k ins l :
  graph_ok ns -> gr_ok ns gr -> root_ok ns r -> fn_of ns r = Some (k, ins) ->
  (l < length ns)%nat -> l <> r -> (forall ins, fn_of ns l <> Some (KSum, ins)) ->
  exists gr', compute_jvp (S (length ns)) ns k ins [raw_scalar 1] gr = Ret gr' /\ gr_ok ns gr' /\
    forall p, (p < size (shape (vof ns l)))%nat -> exists d vs,
      gentry gr' l p = gentry gr l p + d /\
      (forall t, refreeze ns l (bump (vof ns l) p t) = Ret (vs t)) /\
      (forall t, length (vs t) = length ns) /\
      (forall t n, (n < length ns)%nat -> same_form (vof ns n) (vnth (vs t) n)) /\
      (forall t, vnth (vs t) l = bump (vof ns l) p t) /\
      (forall t n, (n < length ns)%nat -> ~ uses ns n l -> vnth (vs t) n = vof ns n) /\
      (forall t n k ins, n <> l -> fn_of ns n = Some (k, ins) -> fspec k (map (vof ns) ins) (map (vnth (vs t)) ins) (vnth (vs t) n)) /\
      derivable_pt_lim (fun t => nth 0 (array (vnth (vs t) r)) 0) 0 d.
Proof.
  intros HG Hgr Hroot Ef Hl Hne Hsum.
  destruct (backward_ring R_is_ring ns gr r k ins l HG Hgr Hroot Ef Hl Hne Hsum) as (gr' & E & G & H).
  exists gr'. split; [exact E|]. split; [exact G|]. intros p Hp.
  destruct (H p Hp) as (dt & T1 & T2 & T3 & T4).
  assert (Wl : wf (vof ns l)) by (apply (vof_ok ns HG l Hl)).
  set (vs t := match refreeze ns l (bump (vof ns l) p t) with Ret v => v | _ => [] end).
  assert (RE : forall t, refreeze ns l (bump (vof ns l) p t) = Ret (vs t) /\ length (vs t) = length ns /\
    (forall n, (n < length ns)%nat -> same_form (vof ns n) (vnth (vs t) n)) /\ vnth (vs t) l = bump (vof ns l) p t /\
    (forall n, (n < length ns)%nat -> n <> l -> fn_of ns n = None -> vnth (vs t) n = vof ns n) /\
    (forall n k ins, n <> l -> fn_of ns n = Some (k, ins) -> fspec k (map (vof ns) ins) (map (vnth (vs t)) ins) (vnth (vs t) n))).
  { intros t. destruct (refreeze_ok ns HG l (bump (vof ns l) p t) Hl (bump_form _ p t Wl)) as (v & E' & Q). unfold vs. rewrite E'. auto. }
  destruct (op_ok ns HG r k ins Ef) as (Hr & _).
  exists (nth 0 (array (dt r)) 0), vs. split; [exact T4|]. split; [intros t; apply RE|]. split; [intros t; apply RE|]. split; [intros t; apply RE|].
  split; [intros t; apply RE|]. split.
  { intros t n Hn HU. destruct (RE t) as (_ & _ & _ & _ & Q5 & Q6). eapply refreeze_unused; eauto. }
  split; [intros t; apply RE|].
  assert (V0 : forall n, (n < length ns)%nat -> vnth (vs 0) n = vof ns n).
  { destruct (RE 0) as (_ & _ & _ & Q4 & Q5 & Q6). rewrite bump_zero in Q4. apply (refreeze_self ns HG (vnth (vs 0)) l Q4 Q5 Q6). }
  destruct (frozen_family ns l p dt (fun t => vnth (vs t)) HG Hl Hp V0) with (n := r) as (_ & _ & Q); auto; try (intros; apply RE; auto).
  destruct Hroot as [Hs _]. apply (Q 0%nat). rewrite V0 by auto. rewrite Hs. lia.
Qed.
