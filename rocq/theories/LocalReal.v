(** * LocalReal: gradients from what the root was computed from *)
From Coq Require Import Reals Lra.
From Verif Require Import Base ModelIndex ModelTensor ModelOps ModelJvp ModelGraph Spec SpecDual SpecGraph SpecFlow SpecParam SpecLocal
  Lists IndexFacts TensorFacts OpsFacts Sums JvpFacts Dual ClaimsMat Adjoint GradRing RealInst SpecReal OpDeriv GradReal
  FuelFacts GraphFacts ProgFacts BackFacts FlowFacts ParamFacts ClaimsProg ClaimsGrad LocalFacts.

(** ** Whether an operation succeeds depends on shapes only *)
Section Forms.
Context {T : Type} {NT : Num T}.
Definition anything (x y : T) : Prop := True.
Lemma fwd_form k (xs xs' : list (raw T)) y : fwd k xs = Ret y -> Forall wf xs -> wf y -> Forall2 same_form xs xs' ->
  exists y', fwd k xs' = Ret y' /\ same_form y y'.
Proof.
  intros E W Wy HF.
  assert (RX : Forall2 (rel_raw anything) xs xs').
  { clear - W HF. induction HF as [|x x' xs xs' [W' S] HF IH]; inversion W; subst; constructor; auto. split; [auto|].
    unfold wf in *. assert (L : length (array x) = length (array x')) by (unfold wf in *; congruence). clear - L. revert L. generalize (array x'). generalize (array x).
    induction l as [|a l IH]; intros [|b l'] L; try discriminate; constructor; [exact I|]. apply IH. cbn in L. lia. }
  assert (HR : respects_ring anything) by (constructor; intros; exact I).
  assert (Q : rel_outcome (rel_raw anything) (fwd k xs) (fwd k xs')).
  { destruct RX as [|a a' ? ? Ra [|b b' ? ? Rb [|]]]; destruct k; cbn [fwd]; try reflexivity.
    - apply (p_unary anything); [exact Ra|intros; exact I].
    - apply (p_unary anything); [exact Ra|intros; exact I].
    - apply (p_unary anything); [exact Ra|intros; exact I].
    - apply (p_unary anything); [exact Ra|intros; exact I].
    - apply (p_sum anything HR). exact Ra.
    - apply (p_add anything HR); assumption.
    - apply (p_bmm anything HR); assumption.
    - apply (p_dot anything HR); assumption. }
  rewrite E in Q. destruct (fwd k xs') as [y'| |]; cbn [rel_outcome] in Q; try contradiction. exists y'. split; [reflexivity|]. destruct Q as [S F].
  split; [|auto]. unfold wf in *. rewrite <- S, <- Wy. clear - F. induction F; cbn; congruence.
Qed.

(** ** Re-evaluating any recorded computation *)
Definition revalued (ns : list (node T)) (l : nat) (x : raw T) (vs : list (raw T)) : Prop :=
  reeval ns l x = Ret vs /\ length vs = length ns /\
    (forall n, n < length ns -> same_form (vof ns n) (vnth vs n)) /\ vnth vs l = x /\
    (forall n, n < length ns -> n <> l -> fn_of ns n = None -> vnth vs n = vof ns n) /\
    (forall n k ins, n <> l -> fn_of ns n = Some (k, ins) -> fwd k (map (vnth vs) ins) = Ret (vnth vs n)).
Lemma reeval_any (ns : list (node T)) l x : recorded ns -> l < length ns -> same_form (vof ns l) x -> exists vs, revalued ns l x vs.
Proof.
  intros HR Hl Hx. unfold revalued, reeval.
  set (body := fun vs nd => _).
  assert (H : forall m, m <= length ns -> exists vs, foldM body (firstn m ns) [] = Ret vs /\ length vs = m /\
    (forall n, n < m -> same_form (vof ns n) (vnth vs n)) /\ (l < m -> vnth vs l = x) /\
    (forall n, n < m -> n <> l -> fn_of ns n = None -> vnth vs n = vof ns n) /\
    (forall n k ins, n < m -> n <> l -> fn_of ns n = Some (k, ins) -> fwd k (map (vnth vs) ins) = Ret (vnth vs n))).
  { induction m as [|m IH]; intros Hm.
    - exists []. split; [reflexivity|]. split; [reflexivity|]. repeat split; intros; lia.
    - destruct IH as (vs & E & L & H1 & H2 & H3 & H4); [lia|].
      destruct (nth_error ns m) as [nd|] eqn:En; [|apply nth_error_None in En; lia].
      destruct (HR m nd En) as [Wm Qm]. assert (Ev : vof ns m = n_val nd) by (unfold vof; rewrite En; reflexivity).
      assert (Hy : exists y, body vs nd = Ret (vs ++ [y]) /\ same_form (vof ns m) y /\ (l = m -> y = x) /\
        (m <> l -> fn_of ns m = None -> y = vof ns m) /\
        (forall k ins, m <> l -> fn_of ns m = Some (k, ins) -> fwd k (map (vnth vs) ins) = Ret y)).
      { unfold body. rewrite L. destruct (Nat.eqb_spec m l) as [->|Hne].
        - exists x. split; [reflexivity|]. split; [exact Hx|]. split; [auto|]. split; intros; congruence.
        - destruct (n_fn nd) as [[k ins]|] eqn:Ef.
          + assert (Ef' : fn_of ns m = Some (k, ins)) by (unfold fn_of; rewrite En; exact Ef).
            destruct (Qm k ins eq_refl) as [Hlt HO]. rewrite Forall_forall in Hlt.
            destruct (fwd_form k (map (vof ns) ins) (map (vnth vs) ins) (n_val nd) HO) as (y & Hy1 & Hy2).
            { apply Forall_forall. intros v Hv. apply in_map_iff in Hv as (i & <- & Hi). specialize (Hlt i Hi). unfold vof. destruct (nth_error ns i) as [ndi|] eqn:Ei; [apply (HR i ndi Ei)|apply nth_error_None in Ei; lia]. }
            { exact Wm. }
            { clear -Hlt H1. induction ins as [|i ins IH]; cbn; constructor; [apply H1, Hlt; left; auto|apply IH; intros; apply Hlt; right; auto]. }
            exists y. assert (Em : mapM (vindex vs) ins = Ret (map (vnth vs) ins)).
            { clear -Hlt L. induction ins as [|i ins IH]; [reflexivity|]. cbn [mapM map]. unfold vindex at 1, vnth at 1.
              rewrite (nth_error_nth' vs (raw_scalar n_zero)) by (rewrite L; apply Hlt; left; auto). cbn [bind].
              rewrite IH by (intros; apply Hlt; right; auto). reflexivity. }
            rewrite Em. cbn [bind]. rewrite Hy1. cbn [bind].
            split; [reflexivity|]. split; [rewrite Ev; exact Hy2|]. split; [congruence|]. split; [congruence|].
            intros k' ins' _ E'. rewrite Ef' in E'. injection E' as <- <-. exact Hy1.
          + assert (Ef' : fn_of ns m = None) by (unfold fn_of; rewrite En; exact Ef).
            exists (n_val nd). split; [reflexivity|]. split.
            * rewrite Ev. split; [exact Wm|reflexivity].
            * split; [congruence|]. split; [congruence|]. intros k ins _ E'. congruence. }
      destruct Hy as (y & B & F & Q1 & Q2 & Q3).
      exists (vs ++ [y]). rewrite (firstn_snoc _ _ _ _ En), foldM_app, E. cbn [bind foldM]. rewrite B. cbn [bind].
      assert (Hold : forall i, i < m -> vnth (vs ++ [y]) i = vnth vs i) by (intros; unfold vnth; apply app_nth1; lia).
      assert (Hnew : vnth (vs ++ [y]) m = y).
      { unfold vnth. rewrite app_nth2 by lia. rewrite L, Nat.sub_diag. reflexivity. }
      split; [reflexivity|]. split; [rewrite app_length; cbn; lia|]. split; [|split; [|split]].
      + intros n Hn. destruct (Nat.eq_dec n m) as [->|Hne]; [rewrite Hnew; exact F|]. rewrite Hold by lia. apply H1; lia.
      + intros Hlm. destruct (Nat.eq_dec l m) as [->|Hne]; [rewrite Hnew; auto|]. rewrite Hold by lia. apply H2; lia.
      + intros n Hn Hnl Hf. destruct (Nat.eq_dec n m) as [->|Hne]; [rewrite Hnew; auto|]. rewrite Hold by lia. apply H3; auto; lia.
      + intros n k ins Hn Hnl Hf.
        rewrite (map_ext_in (vnth (vs ++ [y])) (vnth vs)) by (intros i Hi; apply Hold; pose proof (fn_of_backrefs ns n k ins i HR Hf Hi); lia).
        destruct (Nat.eq_dec n m) as [->|Hne]; [rewrite Hnew; auto|]. rewrite Hold by lia. apply H4; auto; lia. }
  destruct (H (length ns) (Nat.le_refl _)) as (vs & E & L & H1 & H2 & H3 & H4).
  rewrite firstn_all in E. exists vs. split; [exact E|]. split; [exact L|]. split; [exact H1|]. split; [apply H2; auto|].
  split; [exact H3|]. intros n k ins Hne Hf. apply H4; auto. apply nth_error_Some. unfold fn_of in Hf. destruct (nth_error ns n); congruence.
Qed.

(** Re-evaluation with and without the rest agree on what [r] was computed from; ... *)
Lemma revalued_pruned (ns : list (node T)) r l x vs vs' : recorded ns -> r < length ns -> revalued ns l x vs -> revalued (pruned ns r) l x vs' ->
  forall n, uses ns r n -> vnth vs' n = vnth vs n.
Proof.
  intros HR Hr (_ & L & _ & Q1 & Q2 & Q3) (_ & L' & _ & P1 & P2 & P3) n. induction n as [n IH] using lt_wf_ind. intros U.
  pose proof (uses_lt _ _ _ HR Hr U) as Hn. destruct (Nat.eq_dec n l) as [->|Hne]; [congruence|].
  destruct (fn_of ns n) as [[k ins]|] eqn:Ef.
  - specialize (Q3 n k ins Hne Ef). specialize (P3 n k ins Hne). rewrite pruned_fn in P3 by auto. specialize (P3 Ef).
    rewrite (map_ext_in (vnth vs') (vnth vs)) in P3; [rewrite Q3 in P3; apply Ret_inj in P3; auto|].
    intros i Hi. pose proof (fn_of_backrefs ns n k ins i HR Ef Hi). apply IH; [lia|]. eapply uses_input; eauto.
  - rewrite (Q2 n Hn Hne Ef), (P2 n); [apply pruned_vof; auto|rewrite pruned_length; auto|auto|rewrite pruned_fn; auto].
Qed.
(** ... a tensor not used changes nothing. *)
Lemma revalued_unused (ns : list (node T)) r l x vs : recorded ns -> r < length ns -> revalued ns l x vs -> ~ uses ns r l ->
  forall n, uses ns r n -> vnth vs n = vof ns n.
Proof.
  intros HR Hr (_ & L & _ & Q1 & Q2 & Q3) Hl n. induction n as [n IH] using lt_wf_ind. intros U.
  pose proof (uses_lt _ _ _ HR Hr U) as Hn. assert (Hne : n <> l) by congruence.
  destruct (fn_of ns n) as [[k ins]|] eqn:Ef; [|auto].
  specialize (Q3 n k ins Hne Ef). rewrite (map_ext_in (vnth vs) (vof ns)) in Q3.
  - unfold fn_of in Ef. unfold vof at 1. unfold vof in Q3. destruct (nth_error ns n) as [nd|] eqn:En; [|discriminate]. destruct (HR n nd En) as [_ Q]. destruct (Q k ins Ef) as [_ Q'].
    unfold vof in Q'. rewrite Q' in Q3. apply Ret_inj in Q3. auto.
  - intros i Hi. pose proof (fn_of_backrefs ns n k ins i HR Ef Hi). apply IH; [lia|]. eapply uses_input; eauto.
Qed.

(** ** Roots *)
Lemma pruned_plain (ns : list (node T)) r n : recorded ns -> r < length ns -> uses ns r n -> plain ns n -> plain (pruned ns r) n.
Proof.
  intros HR Hr U P. induction P as [n Hn E|n k ins Hn E K1 K2 K3 HP IH].
  - apply plain_leaf; [rewrite pruned_length; auto|rewrite pruned_fn; auto].
  - apply plain_op with (k := k) (ins := ins); auto; [rewrite pruned_length; auto|rewrite pruned_fn; auto| |].
    + intros Hk. specialize (K3 Hk). rewrite Forall_forall in *. intros i Hi. rewrite pruned_vof by (auto; eapply uses_input; eauto). auto.
    + intros i Hi. apply IH; auto. eapply uses_input; eauto.
Qed.
Lemma pruned_top (ns : list (node T)) r n : recorded ns -> r < length ns -> uses ns r n -> top ns n -> top (pruned ns r) n.
Proof.
  intros HR Hr U P. induction P as [n P|n i Hn E P|n i j Hn E S P1 IH1 P2 IH2].
  - apply top_plain. apply pruned_plain; auto.
  - apply top_sum with (i := i); [rewrite pruned_length; auto|rewrite pruned_fn; auto|]. apply pruned_plain; auto. eapply uses_input; eauto. cbn. auto.
  - apply top_add with (i := i) (j := j); [rewrite pruned_length; auto|rewrite pruned_fn; auto|rewrite pruned_vof; auto| |]; [apply IH1|apply IH2]; eapply uses_input; eauto; cbn; auto.
Qed.
Lemma pruned_root (ns : list (node T)) r : recorded ns -> r < length ns -> root_ok ns r -> root_ok (pruned ns r) r.
Proof.
  intros HR Hr (S & k & ins & E & Q). pose proof (uses_refl ns r) as U. split; [rewrite pruned_vof; auto|]. exists k, ins. rewrite pruned_fn by auto. split; [exact E|].
  destruct k; auto; try (apply pruned_top; auto).
  rewrite Forall_forall in *. intros i Hi. assert (Ui : uses ns r i) by (eapply uses_input; eauto). unfold row_or_leaf. rewrite pruned_fn, pruned_vof by auto.
  destruct (Q i Hi) as [Q1|[Q1 Q2]]; [auto|]. right. split; [|exact Q2]. apply pruned_plain; auto.
Qed.
End Forms.

Local Open Scope R_scope.
Lemma pruned_kinks (ns : list (node R)) r : recorded ns -> (r < length ns)%nat -> no_kinks ns r -> no_kinks (pruned ns r) r.
Proof.
  intros HR Hr HK n k ins i U E Hk Hi. apply pruned_uses in U; auto; [|constructor]. rewrite pruned_fn in E by auto. rewrite pruned_vof by (auto; eapply uses_input; eauto). eapply HK; eauto.
Qed.

(** C31 for any heap *)
Lemma heap_gradient (h : heap R) r l : heap_inv h -> shapes_ok h -> nonempty (nodes h) -> matrices_only (nodes h) ->
    root_ok (nodes h) r -> no_kinks (nodes h) r ->
    (l < length (nodes h))%nat -> l <> r -> (forall ins, fn_of (nodes h) l <> Some (KSum, ins)) ->
    exists h', backward h r = Ret h' /\
      forall p, (p < size (shape (vof (nodes h) l)))%nat -> forall d,
        partial_derivative (nodes h) r l p d <-> gentry (grads h') l p = gentry (grads h) l p + d.
Proof.
  intros HI HS HN HM Hroot HK Hl Hlr Hsum. set (ns := nodes h) in *.
  assert (HG : graph_ok ns) by (apply graph_ok_of; auto; apply HI).
  assert (HGR : gr_ok ns (grads h)) by (apply gr_ok_of; auto).
  assert (H1 := Hroot). destruct H1 as (Hsz & k & ins & Ef & _).
  destruct (backward_real ns (grads h) r k ins l HG HGR Hroot HK Ef Hl Hlr Hsum) as (gr' & Ec & HGR' & Hd).
  assert (Hr : (r < length ns)%nat).
  { unfold fn_of in Ef. destruct (nth_error ns r) eqn:En; [|discriminate]. apply nth_error_Some. congruence. }
  assert (Wn : forall n, (n < length ns)%nat -> wf (vof ns n)).
  { intros n Hn. unfold vof. destruct (nth_error ns n) as [nd|] eqn:En; [apply (HG n nd En)|apply nth_error_None in En; lia]. }
  exists (mkHeap ns gr'). split.
  { apply (backward_compute h r k ins gr'); auto. unfold wf in Wn. fold ns. rewrite (Wn r Hr). exact Hsz. }
  intros p Hp. cbn [grads]. destruct (Hd p Hp) as (d0 & E0 & HV).
  (* the family of re-evaluations *)
  set (vs t := match reeval ns l (bump (vof ns l) p t) with Ret v => v | _ => [] end).
  assert (RE : forall t, reeval ns l (bump (vof ns l) p t) = Ret (vs t) /\ length (vs t) = length ns /\
    (forall n, (n < length ns)%nat -> same_form (vof ns n) (vnth (vs t) n)) /\ vnth (vs t) l = bump (vof ns l) p t /\
    (forall n, (n < length ns)%nat -> n <> l -> fn_of ns n = None -> vnth (vs t) n = vof ns n) /\
    (forall n k ins, n <> l -> fn_of ns n = Some (k, ins) -> opspec k (map (vnth (vs t)) ins) (vnth (vs t) n))).
  { intros t. destruct (reeval_ok ns HG l (bump (vof ns l) p t) Hl (bump_form _ p t (Wn l Hl))) as (v & E & Q). unfold vs. rewrite E. auto. }
  assert (D : derivable_pt_lim (fun t => nth 0 (array (vnth (vs t) r)) 0) 0 d0).
  { apply (HV (fun t n => vnth (vs t) n)).
    - destruct (RE 0) as (_ & _ & _ & Q4 & Q5 & Q6). rewrite bump_zero in Q4.
      intros n. induction n as [n IH] using lt_wf_ind. intros Hn. destruct (Nat.eq_dec n l) as [->|Hne]; [exact Q4|].
      destruct (fn_of ns n) as [[k' ins']|] eqn:Ef'; [|apply Q5; auto].
      specialize (Q6 n k' ins' Hne Ef'). destruct (op_ok ns HG n k' ins' Ef') as (_ & Hlt & O).
      assert (EQ : map (vnth (vs 0)) ins' = map (vof ns) ins').
      { apply map_ext_in. intros i Hi. rewrite Forall_forall in Hlt. specialize (Hlt i Hi). apply IH; lia. }
      rewrite EQ in Q6. apply opspec_fwd in Q6, O. rewrite O in Q6. injection Q6 as ->. reflexivity.
    - intros t. apply RE.
    - intros t. apply RE.
    - intros t. apply RE. }
  assert (HD : partial_derivative ns r l p d0).
  { exists vs. split; [intros t; apply RE|]. exists (fun t => nth 0 (array (vnth (vs t) r)) 0). split; [|exact D].
    intros t. destruct (RE t) as (_ & Q2 & Q3 & _). exists (shape (vnth (vs t) r)). rewrite nth_error_vnth by lia. f_equal.
    destruct (Q3 r Hr) as [W S]. apply one_element; [exact W|]. rewrite S. exact Hsz. }
  intros d. split.
  - intros (vs' & R' & f & Hf & Df). rewrite E0. f_equal. symmetry. eapply uniqueness_limite; [exact Df|].
    eapply derivable_pt_lim_ext; [|exact D]. intros t. destruct (Hf t) as (sh & Hf'). specialize (R' t). destruct (RE t) as (R2 & L & _). rewrite R2 in R'. injection R' as R'. rewrite <- R' in Hf'.
    rewrite nth_error_vnth in Hf' by lia. injection Hf' as ->. reflexivity.
  - intros E. rewrite E0 in E. assert (d0 = d) by lra. subst. exact HD.
Qed.

(** ... where only what [r] was computed from has to be non-empty and without products of batches *)
Lemma local_gradient (h : heap R) r l : heap_inv h -> shapes_ok h -> nonempty_above (nodes h) r -> matrices_above (nodes h) r ->
    root_ok (nodes h) r -> no_kinks (nodes h) r ->
    (l < length (nodes h))%nat -> l <> r -> (forall ins, fn_of (nodes h) l <> Some (KSum, ins)) ->
    exists h', backward h r = Ret h' /\
      forall p, (p < size (shape (vof (nodes h) l)))%nat -> forall d,
        partial_derivative (nodes h) r l p d <-> gentry (grads h') l p = gentry (grads h) l p + d.
Proof.
  intros HI HS HN HM Hroot HK Hl Hlr Hsum. set (ns := nodes h) in *. assert (HR := proj1 HI). fold ns in HR.
  assert (Hr : (r < length ns)%nat).
  { destruct Hroot as (_ & k & ins & Ef & _). unfold fn_of in Ef. destruct (nth_error ns r) eqn:En; [|discriminate]. apply nth_error_Some. congruence. }
  pose proof (pruned_inv h r HI Hr) as PI. pose proof (pruned_shapes h r HI HS Hr) as PS. pose proof (pruned_nonempty ns r HR Hr HN) as PN.
  pose proof (pruned_matrices ns r HR Hr HM) as PM. pose proof (pruned_root ns r HR Hr Hroot) as PR. pose proof (pruned_kinks ns r HR Hr HK) as PK.
  assert (Wn : forall n, (n < length ns)%nat -> wf (vof ns n)).
  { intros n Hn. unfold vof. destruct (nth_error ns n) as [nd|] eqn:En; [apply (HR n nd En)|apply nth_error_None in En; lia]. }
  pose proof (pruned_backward h r HI Hr) as SB.
  destruct (used_cases ns r HR Hr l Hl) as [U|U].
  - assert (Fl : fn_of (pruned ns r) l = fn_of ns l) by (apply pruned_fn; auto). assert (Vl : vof (pruned ns r) l = vof ns l) by (apply pruned_vof; auto).
    destruct (heap_gradient (pruned_heap h r) r l PI PS PN PM PR PK) as (h1 & E1 & D1).
    { cbn [nodes pruned_heap]. rewrite pruned_length. exact Hl. }
    { exact Hlr. }
    { cbn [nodes pruned_heap]. fold ns. rewrite Fl. exact Hsum. }
    cbn [nodes grads pruned_heap] in D1. fold ns in D1. rewrite Vl in D1.
    rewrite E1 in SB. destruct (backward h r) as [h'| |] eqn:E; cbn [same_gradients] in SB; try contradiction. exists h'. split; [reflexivity|].
    intros p Hp d. specialize (D1 p Hp d). assert (Eg : gentry (grads h1) l p = gentry (grads h') l p) by (unfold gentry; rewrite (SB l U); reflexivity).
    rewrite Eg in D1.
    assert (E0 : gentry (fun m : nat => if usedb (S r) ns r m then grads h m else None) l p = gentry (grads h) l p).
    { unfold gentry. rewrite (proj2 (usedb_spec ns HR (S r) r l ltac:(lia)) U). reflexivity. }
    rewrite E0 in D1. rewrite <- D1.
    assert (RE : forall t, exists vs vs', revalued ns l (bump (vof ns l) p t) vs /\ revalued (pruned ns r) l (bump (vof ns l) p t) vs').
    { intros t. destruct (reeval_any ns l (bump (vof ns l) p t) HR Hl (bump_form _ p t (Wn l Hl))) as (vs & V). exists vs.
      destruct (reeval_any (pruned ns r) l (bump (vof ns l) p t)) as (vs' & V'); [apply pruned_recorded; auto|rewrite pruned_length; auto|rewrite Vl; apply bump_form; auto|]. eauto. }
    split; intros (vs & R1 & f & Hf & Df).
    + exists (fun t => match reeval (pruned ns r) l (bump (vof (pruned ns r) l) p t) with Ret v => v | _ => [] end). split.
      * intros t. destruct (RE t) as (v & v' & _ & V'). rewrite Vl. rewrite (proj1 V'). reflexivity.
      * exists f. split; [|exact Df]. intros t. destruct (RE t) as (v & v' & V & V'). rewrite Vl, (proj1 V'). destruct (Hf t) as (sh & Hf').
        specialize (R1 t). rewrite (proj1 V) in R1. apply Ret_inj in R1. subst v. exists sh.
        assert (Q := revalued_pruned ns r l _ _ _ HR Hr V V' r (uses_refl _ _)).
        rewrite nth_error_vnth by (destruct V' as (_ & L & _); rewrite L, pruned_length; exact Hr). rewrite Q.
        rewrite nth_error_vnth in Hf' by (destruct V as (_ & L & _); rewrite L; exact Hr). exact Hf'.
    + exists (fun t => match reeval ns l (bump (vof ns l) p t) with Ret v => v | _ => [] end). split.
      * intros t. destruct (RE t) as (v & v' & V & _). rewrite (proj1 V). reflexivity.
      * exists f. split; [|exact Df]. intros t. destruct (RE t) as (v & v' & V & V'). rewrite (proj1 V). destruct (Hf t) as (sh & Hf').
        specialize (R1 t). rewrite Vl, (proj1 V') in R1. apply Ret_inj in R1. subst v'. exists sh.
        assert (Q := revalued_pruned ns r l _ _ _ HR Hr V V' r (uses_refl _ _)).
        rewrite nth_error_vnth by (destruct V as (_ & L & _); rewrite L; exact Hr). rewrite <- Q.
        rewrite nth_error_vnth in Hf' by (destruct V' as (_ & L & _); rewrite L, pruned_length; exact Hr). exact Hf'.
  - (* not used: the gradient stays, the derivative is 0 *)
    destruct (Nat.eq_dec r 0) as [R0|R0].
    { exfalso. destruct Hroot as (_ & k & ins & Ef & Q). destruct ins as [|i ins]; [|pose proof (fn_of_backrefs ns r k (i :: ins) i HR Ef ltac:(cbn; auto)); lia].
      unfold fn_of in Ef. destruct (nth_error ns r) as [nd|] eqn:En; [|discriminate]. destruct (HR r nd En) as [_ Q']. destruct (Q' k [] Ef) as [_ Q'']. cbn in Q''. destruct k; discriminate. }
    (* the first tensor stands in for [l] in the pruned heap *)
    assert (EB : exists h1, backward (pruned_heap h r) r = Ret h1).
    { destruct (PR) as (Hsz & k & ins & Ef & _).
      destruct ins as [|i ins].
      { exfalso. unfold fn_of in Ef. destruct (nth_error (pruned ns r) r) as [nd|] eqn:En; [|discriminate]. destruct (pruned_recorded ns r HR Hr r nd En) as [_ Q']. destruct (Q' k [] Ef) as [_ Q'']. cbn in Q''. destruct k; discriminate. }
      assert (GO : graph_ok (pruned ns r)) by (apply graph_ok_of; auto; apply pruned_recorded; auto).
      assert (GR : gr_ok (pruned ns r) (grads (pruned_heap h r))) by (apply (gr_ok_of (pruned_heap h r)); auto).
      destruct (heap_gradient (pruned_heap h r) r l PI PS PN PM PR PK) as (h1 & E1 & _); [|exact Hlr| |eauto].
      - cbn [nodes pruned_heap]. rewrite pruned_length. exact Hl.
      - cbn [nodes pruned_heap]. fold ns. intros ins' Q. apply pruned_fn_used in Q; auto. destruct Q as [Q _]. contradiction. }
    destruct EB as (h1 & E1). rewrite E1 in SB. destruct (backward h r) as [h'| |] eqn:E; cbn [same_gradients] in SB; try contradiction. exists h'. split; [reflexivity|].
    destruct (backward_effect _ _ _ HI E) as (_ & _ & Q3 & _).
    intros p Hp d. assert (Eg : gentry (grads h') l p = gentry (grads h) l p) by (unfold gentry; rewrite (Q3 l U); reflexivity). rewrite Eg.
    assert (RE : forall t, exists vs, revalued ns l (bump (vof ns l) p t) vs /\ vnth vs r = vof ns r).
    { intros t. destruct (reeval_any ns l (bump (vof ns l) p t) HR Hl (bump_form _ p t (Wn l Hl))) as (vs & V). exists vs. split; [exact V|].
      exact (revalued_unused ns r l _ _ HR Hr V U r (uses_refl _ _)). }
    split.
    + intros (vs & R1 & f & Hf & Df). assert (d = 0); [|lra]. apply (uniqueness_limite f 0); [exact Df|].
      eapply derivable_pt_lim_ext; [|apply (derivable_pt_lim_const (nth 0 (array (vof ns r)) 0))]. intros t. unfold fct_cte.
      destruct (RE t) as (v & V & Q). destruct (Hf t) as (sh & Hf'). specialize (R1 t). rewrite (proj1 V) in R1. apply Ret_inj in R1. subst v.
      rewrite nth_error_vnth in Hf' by (destruct V as (_ & L & _); rewrite L; exact Hr). injection Hf' as Hf'. rewrite <- Q, Hf'. reflexivity.
    + intros Ed. assert (d = 0) by lra. subst d. exists (fun t => match reeval ns l (bump (vof ns l) p t) with Ret v => v | _ => [] end). split.
      * intros t. destruct (RE t) as (v & V & _). rewrite (proj1 V). reflexivity.
      * exists (fun _ => nth 0 (array (vof ns r)) 0). split; [|apply derivable_pt_lim_const]. intros t. destruct (RE t) as (v & V & Q). rewrite (proj1 V). exists (shape (vof ns r)).
        rewrite nth_error_vnth by (destruct V as (_ & L & _); rewrite L; exact Hr). rewrite Q. f_equal. apply one_element; auto. apply Hroot.
Qed.
