(** * GradReal: what [backward] stores are partial derivatives *)
From Coq Require Import Reals Lra Ring.
From Verif Require Import Base ModelIndex ModelTensor ModelOps ModelJvp ModelGraph Spec SpecDual SpecGraph SpecReal
  Lists IndexFacts TensorFacts OpsFacts Sums JvpFacts Dual Adjoint ClaimsOps ClaimsMat GradRing RealInst OpDeriv.

Lemma firstn_snoc A (l : list A) m x : nth_error l m = Some x -> firstn (S m) l = firstn m l ++ [x].
Proof.
  revert m. induction l as [|a l IH]; intros [|m] E; try discriminate E; cbn in *.
  - injection E as ->. reflexivity.
  - f_equal. apply IH; auto.
Qed.

Lemma uses_trans {T : Type} (ns : list (node T)) a b c : uses ns a b -> uses ns b c -> uses ns a c.
Proof. induction 1; intros; auto. eapply uses_step; eauto. Qed.

Lemma uses_in {T : Type} (ns : list (node T)) r n k ins i : uses ns r n -> fn_of ns n = Some (k, ins) -> In i ins -> uses ns r i.
Proof. intros H E Hi. eapply uses_trans; [exact H|]. eapply uses_step; [exact E|exact Hi|]. apply uses_refl. Qed.

Section Shapes.
Context {T : Type} {NT : Num T}.

Definition same_form (x x' : raw T) : Prop := wf x' /\ shape x' = shape x.

(** Whether an operation succeeds only depends on shapes *)
Lemma opspec_form k (xs xs' : list (raw T)) y : opspec k xs y -> Forall2 same_form xs xs' ->
  exists y', opspec k xs' y' /\ same_form y y'.
Proof.
  intros HO HF.
  destruct HO; inversion HF as [|? a' ? xs1 [Wa Sa] HF1]; subst; try (inversion HF1 as [|? b' ? xs2 [Wb Sb] HF2]; subst; inversion HF2; subst);
    try (inversion HF1; subst).
  - eexists. split; [apply (os_add a' b' s); congruence|]. split; [apply tabulate_wf|reflexivity].
  - eexists. split; [apply os_neg; congruence|]. split; [apply tabulate_wf|exact Sa].
  - eexists. split; [apply os_abs; congruence|]. split; [apply tabulate_wf|exact Sa].
  - eexists. split; [apply os_relu; congruence|]. split; [apply tabulate_wf|exact Sa].
  - eexists. split; [apply os_tanh; congruence|]. split; [apply tabulate_wf|exact Sa].
  - eexists. split; [apply os_sum; congruence|]. split; reflexivity.
  - eexists. split; [apply (os_bmm a' b' n k m); congruence|]. split; [apply tabulate_wf|reflexivity].
  - eexists. split; [apply os_dot; congruence|]. split; reflexivity.
Qed.

Variable ns : list (node T).
Hypothesis HG : graph_ok ns.

Definition vnth (vs : list (raw T)) (i : nat) : raw T := nth i vs (raw_scalar n_zero).

Lemma reeval_ok l x : l < length ns -> same_form (vof ns l) x ->
  exists vs, reeval ns l x = Ret vs /\ length vs = length ns /\
    (forall n, n < length ns -> same_form (vof ns n) (vnth vs n)) /\ vnth vs l = x /\
    (forall n, n < length ns -> n <> l -> fn_of ns n = None -> vnth vs n = vof ns n) /\
    (forall n k ins, n <> l -> fn_of ns n = Some (k, ins) -> opspec k (map (vnth vs) ins) (vnth vs n)).
Proof.
  intros Hl Hx. unfold reeval.
  set (body := fun vs nd => _).
  assert (H : forall m, m <= length ns -> exists vs, foldM body (firstn m ns) [] = Ret vs /\ length vs = m /\
    (forall n, n < m -> same_form (vof ns n) (vnth vs n)) /\ (l < m -> vnth vs l = x) /\
    (forall n, n < m -> n <> l -> fn_of ns n = None -> vnth vs n = vof ns n) /\
    (forall n k ins, n < m -> n <> l -> fn_of ns n = Some (k, ins) -> opspec k (map (vnth vs) ins) (vnth vs n))).
  { induction m as [|m IH]; intros Hm.
    - exists []. split; [reflexivity|]. split; [reflexivity|]. repeat split; intros; lia.
    - destruct IH as (vs & E & L & H1 & H2 & H3 & H4); [lia|].
      destruct (nth_error ns m) as [nd|] eqn:En; [|apply nth_error_None in En; lia].
      assert (Hy : exists y, body vs nd = Ret (vs ++ [y]) /\ same_form (vof ns m) y /\ (l = m -> y = x) /\
        (m <> l -> fn_of ns m = None -> y = vof ns m) /\
        (forall k ins, m <> l -> fn_of ns m = Some (k, ins) -> opspec k (map (vnth vs) ins) y)).
      { unfold body. rewrite L. destruct (Nat.eqb_spec m l) as [->|Hne].
        - exists x. split; [reflexivity|]. split; [exact Hx|]. split; [auto|]. split; intros; congruence.
        - destruct (n_fn nd) as [[k ins]|] eqn:Ef.
          + assert (Ef' : fn_of ns m = Some (k, ins)) by (unfold fn_of; rewrite En; exact Ef).
            destruct (op_ok ns HG m k ins Ef') as (_ & Hlt & HO). rewrite Forall_forall in Hlt.
            destruct (opspec_form k (map (vof ns) ins) (map (vnth vs) ins) (vof ns m) HO) as (y & Hy1 & Hy2).
            { clear -Hlt H1. induction ins as [|i ins IH]; cbn; constructor; [apply H1, Hlt; left; auto|apply IH; intros; apply Hlt; right; auto]. }
            exists y. assert (Em : mapM (vindex vs) ins = Ret (map (vnth vs) ins)).
            { clear -Hlt L. induction ins as [|i ins IH]; [reflexivity|]. cbn [mapM map]. unfold vindex at 1, vnth at 1.
              rewrite (nth_error_nth' vs (raw_scalar n_zero)) by (rewrite L; apply Hlt; left; auto). cbn [bind].
              rewrite IH by (intros; apply Hlt; right; auto). reflexivity. }
            rewrite Em. cbn [bind]. rewrite (opspec_fwd _ _ _ Hy1). cbn [bind].
            split; [reflexivity|]. split; [exact Hy2|]. split; [congruence|]. split; [congruence|].
            intros k' ins' _ E'. rewrite Ef' in E'. injection E' as <- <-. exact Hy1.
          + assert (Ef' : fn_of ns m = None) by (unfold fn_of; rewrite En; exact Ef).
            assert (Ev : vof ns m = n_val nd) by (unfold vof; rewrite En; reflexivity).
            exists (n_val nd). split; [reflexivity|]. split.
            * rewrite Ev. split; [|reflexivity]. apply (HG _ _ En).
            * split; [congruence|]. split; [congruence|]. intros k ins _ E'. congruence. }
      destruct Hy as (y & B & F & Q1 & Q2 & Q3).
      exists (vs ++ [y]). rewrite (firstn_snoc _ _ _ _ En), foldM_app, E. cbn [bind foldM]. rewrite B. cbn [bind].
      assert (Hold : forall i, i < m -> vnth (vs ++ [y]) i = vnth vs i) by (intros; unfold vnth; apply app_nth1; lia).
      assert (Hnew : vnth (vs ++ [y]) m = y).
      { unfold vnth. rewrite app_nth2 by lia. rewrite L, Nat.sub_diag. reflexivity. }
      split; [reflexivity|]. split; [rewrite app_length; cbn; lia|]. split; [|split; [|split]].
      + intros n Hn. destruct (Nat.eq_dec n m) as [->|Hne]; [rewrite Hnew; exact F|]. rewrite Hold by lia. apply H1; lia.
      + intros Hlm. destruct (Nat.eq_dec l m) as [->|Hne]; [rewrite Hnew; auto|]. rewrite Hold by lia. apply H2; lia.
      + intros n Hn Hnl Hf. destruct (Nat.eq_dec n m) as [->|Hne]; [rewrite Hnew; auto|]. rewrite Hold by lia. apply H3; auto; lia.
      + intros n k ins Hn Hnl Hf. destruct (op_ok ns HG n k ins Hf) as (_ & Hlt & _). rewrite Forall_forall in Hlt.
        rewrite (map_ext_in (vnth (vs ++ [y])) (vnth vs)) by (intros i Hi; apply Hold; specialize (Hlt i Hi); lia).
        destruct (Nat.eq_dec n m) as [->|Hne]; [rewrite Hnew; auto|]. rewrite Hold by lia. apply H4; auto; lia. }
  destruct (H (length ns) (Nat.le_refl _)) as (vs & E & L & H1 & H2 & H3 & H4).
  rewrite firstn_all in E. exists vs. split; [exact E|]. split; [exact L|]. split; [exact H1|]. split; [apply H2; auto|].
  split; [exact H3|]. intros n k ins Hne Hf. apply H4; auto. apply (op_ok ns HG n k ins Hf).
Qed.

Lemma uses_le n m : uses ns n m -> m <= n.
Proof.
  induction 1; auto. destruct (op_ok ns HG n k ins H) as (_ & Hlt & _). rewrite Forall_forall in Hlt. specialize (Hlt i H0). lia.
Qed.

End Shapes.

Local Open Scope R_scope.

Lemma bump_form x p t : wf x -> same_form x (bump x p t).
Proof. intros H. split; [|reflexivity]. unfold wf, bump. cbn [array shape]. rewrite list_set_length. exact H. Qed.

Lemma list_set_nth_same A (l : list A) p d : list_set l p (nth p l d) = l.
Proof. revert p. induction l as [|a l IH]; intros [|p]; cbn; auto. f_equal. apply IH. Qed.

Lemma bump_zero x p : bump x p 0 = x.
Proof. unfold bump. rewrite Rplus_0_r, list_set_nth_same. destruct x; reflexivity. Qed.

Lemma bump_family x p : wf x -> (p < size (shape x))%nat -> diff_family (bump x p) (unit_at (shape x) p).
Proof.
  intros Hw Hp. split; [|split].
  - intros t. split; [apply bump_form; auto|reflexivity].
  - split; [apply tabulate_wf|reflexivity].
  - intros q Hq. cbn [bump shape array] in *. unfold unit_at. rewrite nth_tabulate, rm_unravel by auto.
    destruct (Nat.eqb_spec q p) as [->|Hne].
    + apply (D_ext (fun t => nth p (array x) 0 + t)).
      * intros t. rewrite list_set_nth_eq; [reflexivity|]. unfold wf in Hw. lia.
      * change (n_one : R) with 1. replace 1 with (0 + 1) by ring. apply D_plus; [apply D_const|]. apply derivable_pt_lim_id.
    + apply (D_ext (fun t => nth q (array x) 0)); [|apply D_const]. intros t. rewrite list_set_nth_neq by auto. reflexivity.
Qed.

Lemma const_family x : wf x -> diff_family (fun _ => x) (zero_of (shape x)).
Proof.
  intros Hw. split; [|split].
  - intros t. auto.
  - split; [apply tabulate_wf|reflexivity].
  - intros q Hq. unfold zero_of. rewrite nth_tabulate by auto. apply D_const.
Qed.

Section Family.
Variables (ns : list (node R)) (l p r : nat) (dt : nat -> raw R) (V : R -> nat -> raw R).
Hypotheses (HG : graph_ok ns) (Hl : (l < length ns)%nat) (Hp : (p < size (shape (vof ns l)))%nat)
  (HV0 : forall n, (n < length ns)%nat -> V 0 n = vof ns n)
  (HVl : forall t, V t l = bump (vof ns l) p t)
  (HVc : forall t n, (n < length ns)%nat -> n <> l -> fn_of ns n = None -> V t n = vof ns n)
  (HVo : forall t n k ins, n <> l -> fn_of ns n = Some (k, ins) -> opspec k (map (V t) ins) (V t n))
  (HT : tangents_ok ns (cut_at ns l) dt) (HTl : dt l = unit_at (shape (vof ns l)) p)
  (HTc : forall n, (n < length ns)%nat -> n <> l -> fn_of ns n = None -> dt n = zero_of (shape (vof ns n)))
  (HK : no_kinks ns r).

Lemma family n : (n < length ns)%nat -> uses ns r n -> diff_family (fun t => V t n) (dt n).
Proof.
  induction n as [n IH] using lt_wf_ind. intros Hn Hu.
  assert (E : forall (X Y : R -> raw R) d, (forall t, X t = Y t) -> diff_family X d -> diff_family Y d).
  { intros X Y d HXY (A & B & C). split; [|split].
    - intros t. rewrite <- !HXY. apply A.
    - rewrite <- HXY. exact B.
    - intros q Hq. rewrite <- HXY in Hq. apply (D_ext (fun t => nth q (array (X t)) 0)); [intros t; rewrite HXY; reflexivity|]. auto. }
  destruct (vof_ok ns HG n Hn) as [Hw _].
  destruct (Nat.eq_dec n l) as [->|Hne].
  - apply (E (bump (vof ns l) p)); [intros; symmetry; apply HVl|]. rewrite HTl. apply bump_family; auto.
  - destruct (fn_of ns n) as [[k ins]|] eqn:Ef.
    + destruct (op_ok ns HG n k ins Ef) as (_ & Hlt & HO). rewrite Forall_forall in Hlt.
      destruct (HT n Hn) as [_ Q]. specialize (Q k ins Ef). cbn zeta in Q.
      assert (Ec : cut_at ns l n = false) by (unfold cut_at; rewrite Ef, orb_false_r; apply Nat.eqb_neq; auto).
      rewrite Ec in Q. rewrite Q.
      assert (M0 : map (fun X : R -> raw R => X 0) (map (fun i t => V t i) ins) = map (vof ns) ins).
      { rewrite map_map. apply map_ext_in. intros i Hi. apply HV0. specialize (Hlt i Hi). lia. }
      rewrite <- M0. apply op_deriv.
      * intros t. rewrite map_map. apply HVo; auto.
      * rewrite <- (map_id ins) at 2. rewrite map_id.
        assert (Hall : forall i, In i ins -> diff_family (fun t => V t i) (dt i)).
        { intros i Hi. specialize (Hlt i Hi). apply IH; [lia|lia|]. eapply uses_in; eauto. }
        clear -Hall. induction ins as [|i ins IH]; cbn; constructor; [apply Hall; left; auto|apply IH; intros; apply Hall; right; auto].
      * rewrite M0. assert (HN : k = KAbs \/ k = KRelu -> Forall (fun x => Forall (fun e => e <> 0) (array x)) (map (vof ns) ins)).
        { intros Hk. rewrite Forall_map, Forall_forall. intros i Hi. apply (HK n k ins i); auto. }
        destruct k; cbn; auto.
    + apply (E (fun _ => vof ns n)); [intros; symmetry; apply HVc; auto|]. rewrite HTc by auto. apply const_family; auto.
Qed.

End Family.

(** The graph-level statement *)
Theorem backward_real ns gr r k ins l :
  graph_ok ns -> gr_ok ns gr -> root_ok ns r -> no_kinks ns r -> fn_of ns r = Some (k, ins) ->
  (l < length ns)%nat -> l <> r -> (forall ins, fn_of ns l <> Some (KSum, ins)) ->
  exists gr', compute_jvp (S (length ns)) ns k ins [raw_scalar 1] gr = Ret gr' /\ gr_ok ns gr' /\
    forall p, (p < size (shape (vof ns l)))%nat -> exists d,
      gentry gr' l p = gentry gr l p + d /\ 
      (forall V : R -> nat -> raw R,
        (forall n, (n < length ns)%nat -> V 0 n = vof ns n) ->
        (forall t, V t l = bump (vof ns l) p t) ->
        (forall t n, (n < length ns)%nat -> n <> l -> fn_of ns n = None -> V t n = vof ns n) ->
        (forall t n k ins, n <> l -> fn_of ns n = Some (k, ins) -> opspec k (map (V t) ins) (V t n)) ->
        derivable_pt_lim (fun t => nth 0 (array (V t r)) 0) 0 d).
Proof.
  intros HG Hgr Hroot HK Ef Hl Hne Hsum.
  destruct (backward_ring R_is_ring ns gr r k ins l HG Hgr Hroot Ef Hl Hne Hsum) as (gr' & E & G & H).
  exists gr'. split; [exact E|]. split; [exact G|]. intros p Hp.
  destruct (H p Hp) as (dt & T1 & T2 & T3 & T4).
  exists (nth 0 (array (dt r)) 0). split; [exact T4|]. intros V V1 V2 V3 V4.
  destruct (op_ok ns HG r k ins Ef) as (Hr & _).
  destruct (family ns l p r dt V HG Hl Hp V1 V2 V3 V4 T1 T2 T3 HK r Hr (uses_refl ns r)) as (_ & _ & Q).
  destruct Hroot as [Hs _]. apply (Q 0%nat). rewrite V1 by auto. rewrite Hs. lia.
Qed.
