(** * BackFacts: when [backward] succeeds, and that it adds to the stored gradients.
    No laws of arithmetic are assumed for the former. *)
From Coq Require Import Ring.
From Verif Require Import Base ModelIndex ModelTensor ModelOps ModelJvp ModelGraph Spec SpecDual SpecGraph
  Lists IndexFacts TensorFacts OpsFacts Sums JvpFacts Dual ClaimsMat Adjoint GradRing FuelFacts GraphFacts ProgFacts.

Section BackFacts.
Context {T : Type} {NT : Num T}.

Lemma bmm_jvp_shapes (a b G : raw T) n k m d0 :
  wf a -> wf b -> wf G -> shape a = [n; k] -> shape b = [k; m] -> shape G = [d0; n * m] ->
  0 < n -> 0 < k -> 0 < m -> 0 < d0 ->
  exists gs, bmm_jvp [a; b] [G] = Ret gs /\ matrices gs [a; b] d0.
Proof.
  intros Ha Hb HG Sa Sb SG Hn Hk Hm Hd.
  destruct (bmm_jvp_ok a b G n k m d0) as (L & R & E & LL & LR & _); auto.
  eexists. split; [exact E|]. rewrite Sa, Sb || idtac.
  constructor; [|constructor; [|constructor]]; (split; [unfold wf; cbn [array shape size]; lia|cbn [shape]; rewrite ?Sa, ?Sb; cbn [size]; f_equal; f_equal; lia]).
Qed.

Lemma jvp_matrices k xs (y G : raw T) :
  opspec k xs y -> grad_rows G 1 (size (shape y)) -> k <> KDot -> (shape G = [] -> k <> KAbs /\ k <> KBmm) ->
  exists gs, jvp k xs [G] = Ret gs /\ matrices gs xs 1.
Proof.
  intros HO HG Hd Hk.
  assert (U : forall a d, wf a -> positive (shape a) -> grad_rows G 1 (size (shape a)) ->
    exists gs, generic_unary_jvp a G d = Ret gs /\ matrices gs [a] 1).
  { intros a d Ha Hp Hg. rewrite (unary_jvp_ok a G 1 d) by auto. eexists. split; [reflexivity|].
    constructor; [|constructor]. split; [apply tabulate_wf|reflexivity]. }
  destruct HO; cbn [shape tabulate raw_scalar] in HG.
  - unfold jvp, add_jvp. cbn [two_one bind]. rewrite (binop_jvp_ok a b G 1 s) by auto. eexists. split; [reflexivity|].
    constructor; [|constructor; [|constructor]]; (split; [apply tabulate_wf|reflexivity]).
  - unfold jvp, neg_jvp. change (vindex [a] 0) with (Ret a). change (vindex [G] 0) with (Ret G). cbn [bind]. apply U; auto.
  - unfold jvp, abs_jvp. cbn [one_one bind]. destruct HG as (G1 & G2 & G3 & [G4|(G4 & _)]); [|destruct (Hk G4); congruence].
    rewrite G4. cbn [length Nat.eqb assert bind]. apply U; auto. repeat split; auto.
  - unfold jvp, relu_jvp. cbn [one_one bind]. apply U; auto.
  - (* tanh *)
    unfold jvp, tanh_jvp. cbn [one_one bind].
    set (N := size (shape a)) in *.
    assert (EJ : exists J, tanh_derivative a = Ret J /\ wf J /\ shape J = [N; N]).
    { unfold tanh_derivative. rewrite product_size. fold N.
      rewrite (mapM_pure _ _ _ (fun '(i, j) => if i =? j then n_sub n_one (n_mul (n_tanh (nth i (array a) n_zero)) (n_tanh (nth i (array a) n_zero))) else n_zero)).
      - cbn [bind]. rewrite raw_new_ok by (rewrite map_length, prod_length, !seq_length; cbn [size]; lia).
        eexists. split; [reflexivity|]. split; [|reflexivity]. unfold wf. cbn [array shape]. rewrite map_length, prod_length, !seq_length. cbn [size]. lia.
      - intros [i j] Hij. apply in_prod_iff in Hij as [Hi Hj]. apply in_seq in Hi, Hj.
        destruct (Nat.eqb_spec i j); [|reflexivity]. rewrite (vindex_lt _ _ _ n_zero) by (unfold wf in H; fold N in H; lia). reflexivity. }
    destruct EJ as (J & EJ & WJ & SJ). rewrite EJ. cbn [bind].
    assert (EG : exists g, jvp_from_full_jacobians G J = Ret g /\ wf g /\ shape g = [1; N]).
    { unfold jvp_from_full_jacobians. rewrite !product_size, SJ.
      destruct HG as (G1 & G2 & G3 & G4). destruct G4 as [G4|(G4 & _ & EN)].
      - rewrite G4, !size_row.
        assert (is_scalar G = false) as -> by (unfold is_scalar; rewrite G4; apply andb_false_r).
        assert (is_scalar J = false) as -> by (unfold is_scalar; rewrite SJ; apply andb_false_r). cbn [orb].
        destruct (Nat.eqb_spec (1 * N) 1) as [E1|E1].
        + assert (EN : N = 1) by lia. rewrite orb_true_r. cbn [assert bind].
          rewrite (mul_same G (LRaw J)); [|auto| |cbn [tl_shape]; rewrite G4, SJ, EN; reflexivity|rewrite G4; congruence].
          * eexists. split; [reflexivity|]. split; [apply tabulate_wf|exact G4].
          * split; [exact WJ|]. cbn [tl_shape]. rewrite SJ. repeat constructor; lia.
        + destruct (Nat.eqb_spec (N * N) 1) as [E2|E2]; [nia|]. cbn [orb].
          rewrite (bmm2_ok (LRaw G) (LRaw J) 1 N N) by (auto; exact WJ).
          eexists. split; [reflexivity|]. split; [apply tabulate_wf|reflexivity].
      - destruct (scalar_shape G G1 G4) as [c ->]. change (is_scalar (raw_scalar c)) with true. cbn [orb]. rewrite orb_true_r. cbn [assert bind].
        rewrite mul_scalar_l by auto. eexists. split; [reflexivity|]. split; [apply tabulate_wf|]. cbn [shape tabulate]. rewrite SJ, EN. reflexivity. }
    destruct EG as (g & EG & Wg & Sg). rewrite EG. cbn [bind]. eexists. split; [reflexivity|]. constructor; [|constructor]. auto.
  - unfold jvp. rewrite (ones_ok a G 1 (size [])) by auto. eexists. split; [reflexivity|]. constructor; [|constructor].
    split; [apply tabulate_wf|reflexivity].
  - unfold jvp. destruct HG as (G1 & G2 & G3 & [G4|(G4 & _)]); [|destruct (Hk G4); congruence].
    rewrite H3 in H1. rewrite H4 in H2. inversion H1 as [|? ? P1 P2]; subst. inversion P2; subst. inversion H2 as [|? ? P3 P4]; subst. inversion P4; subst.
    cbn [size] in G4. apply (bmm_jvp_shapes a b G n k m 1); auto. rewrite G4. f_equal. f_equal. lia.
  - congruence.
Qed.

(** ** Success *)
Variable ns : list (node T).
Hypothesis HG : graph_ok ns.

Lemma update_succeeds gr i (g : raw T) :
  i < length ns -> gr_ok ns gr -> wf g -> shape g = shape (vof ns i) ->
  exists gr', update_grad gr i g = Ret gr' /\ gr_ok ns gr'.
Proof.
  intros Hi Hgr Hg Hs. unfold update_grad. destruct (vof_ok ns HG i Hi) as [Hv Hp].
  assert (Hupd : forall s, wf s /\ positive (shape s) /\ ((forall ins, fn_of ns i <> Some (KSum, ins)) -> shape s = shape (vof ns i)) -> gr_ok ns (upd gr i (Some s))).
  { intros s Hs' n g' E Hn. unfold upd in E. destruct (Nat.eqb_spec n i) as [->|]; [|apply Hgr; auto]. injection E as <-. exact Hs'. }
  destruct (gr i) as [o|] eqn:Eo.
  - destruct (Hgr i o Eo Hi) as (Ho & Po & So).
    assert (Hb : exists s, bcast (shape o) (shape g) s /\ positive s /\ ((forall ins, fn_of ns i <> Some (KSum, ins)) -> s = shape (vof ns i))).
    { assert (D : (exists ins, fn_of ns i = Some (KSum, ins)) \/ (forall ins, fn_of ns i <> Some (KSum, ins))).
      { destruct (fn_of ns i) as [[[] ins]|]; try (right; congruence). left; eauto. }
      destruct D as [(ins & Ef)|D].
      - destruct (op_ok ns HG i _ ins Ef) as (_ & _ & HO).
        assert (E0 : shape (vof ns i) = []) by (inversion HO; reflexivity).
        rewrite E0 in Hs. exists (shape o). rewrite Hs. split; [constructor|]. split; [exact Po|].
        intros X. exfalso. exact (X ins Ef).
      - exists (shape (vof ns i)). rewrite Hs, So by auto. split; [apply bcast_self|]. auto. }
    destruct Hb as (s & B1 & B2 & B3).
    unfold add_raw. rewrite (binop_raw_ok o g s) by (auto; congruence). cbn [bind]. eexists. split; [reflexivity|].
    apply Hupd. split; [apply tabulate_wf|]. cbn [shape tabulate]. auto.
  - eexists. split; [reflexivity|]. apply Hupd. rewrite Hs. auto.
Qed.

Lemma inputs_go f : forall ins gs gr,
  (forall i k ins' g gr, In i ins -> fn_of ns i = Some (k, ins') -> gr_ok ns gr -> In (g, i) (combine gs ins) ->
     wf g -> shape g = [1; size (shape (vof ns i))] ->
     exists gr', compute_jvp f ns k ins' [g] gr = Ret gr' /\ gr_ok ns gr') ->
  Forall (fun i => i < length ns) ins ->
  Forall2 (fun g i => length (array g) = size (shape (vof ns i)) /\
                      (fn_of ns i <> None -> wf g /\ shape g = [1; size (shape (vof ns i))])) gs ins -> gr_ok ns gr ->
  exists nds gr', mapM (vindex ns) ins = Ret nds /\ map n_val nds = map (vof ns) ins /\
    foldM (fun gr '(g, (i, nd)) =>
             assert (length (array g) =? length (array (n_val nd))) ;;
             let* shaped_grad := raw_new (array g) (shape (n_val nd)) in
             let* gr' := update_grad gr i shaped_grad in
             match n_fn nd with
             | Some (k', inputs') => compute_jvp f ns k' inputs' [g] gr'
             | None => Ret gr'
             end)
          (combine gs (combine ins nds)) gr = Ret gr' /\ gr_ok ns gr'.
Proof.
  induction ins as [|i ins IH]; intros gs gr Hrec Hlt HM Hgr.
  - inversion HM; subst. exists [], gr. auto.
  - inversion HM as [|g ? gs' ? [Hsz Hs] HM']; subst. inversion Hlt as [|? ? Hi Hlt']; subst.
    destruct (node_lt ns i Hi) as [nd End].
    assert (Ev : vof ns i = n_val nd) by (apply vof_some; auto).
    destruct (vof_ok ns HG i Hi) as [Hv Hp].
    set (sg := mkRaw (array g) (shape (vof ns i))).
    destruct (update_succeeds gr i sg Hi Hgr) as (gr1 & U1 & U2); [unfold wf; auto|reflexivity|].
    assert (Hstep : exists gr2,
      (match n_fn nd with Some (k', inputs') => compute_jvp f ns k' inputs' [g] gr1 | None => Ret gr1 end) = Ret gr2 /\ gr_ok ns gr2).
    { destruct (n_fn nd) as [[k' ins']|] eqn:Ef; [|eauto].
      assert (Efo : fn_of ns i = Some (k', ins')) by (rewrite (fn_some ns _ _ End); auto).
      destruct Hs as [Hg Hs]; [congruence|].
      apply (Hrec i k' ins' g gr1); auto; left; auto. }
    destruct Hstep as (gr2 & S1 & S2).
    destruct (IH gs' gr2) as (nds & gr' & F1 & F2 & F3 & F4); auto.
    { intros j k' ins' g' gr0 Hj. intros. eapply Hrec; eauto; [right; auto|right; auto]. }
    exists (nd :: nds), gr'. cbn [mapM]. rewrite (vindex_some _ _ _ _ End). cbn [bind]. rewrite F1. cbn [bind].
    split; [reflexivity|]. split; [cbn; congruence|]. split; [|auto].
    cbn [combine foldM]. rewrite <- Ev.
    assert (length (array (vof ns i)) = size (shape (vof ns i))) as -> by exact Hv.
    rewrite Hsz, Nat.eqb_refl. cbn [assert bind]. rewrite raw_new_ok by auto. cbn [bind]. fold sg. rewrite U1. cbn [bind].
    rewrite S1. cbn [bind]. exact F3.
Qed.

Lemma matrices_go gs : forall ins, matrices gs (map (vof ns) ins) 1 ->
  Forall2 (fun g i => length (array g) = size (shape (vof ns i)) /\
                      (fn_of ns i <> None -> wf g /\ shape g = [1; size (shape (vof ns i))])) gs ins.
Proof.
  induction gs as [|g gs IH]; intros ins HM; destruct ins as [|i ins]; inversion HM as [|? ? ? ? [W S] HM']; subst; constructor; auto.
  split; [|auto]. unfold wf in W. rewrite W, S, size_row. lia.
Qed.

Theorem compute_jvp_succeeds : forall fuel n k ins G gr,
  n < fuel -> fn_of ns n = Some (k, ins) -> no_dot ns n -> grad_rows G 1 (size (shape (vof ns n))) ->
  (shape G = [] -> k <> KAbs /\ k <> KBmm) -> gr_ok ns gr ->
  exists gr', compute_jvp fuel ns k ins [G] gr = Ret gr' /\ gr_ok ns gr'.
Proof.
  induction fuel as [|fuel IH]; intros n k ins G gr Hf Ef Hd HGr Hk Hgr; [lia|].
  destruct (op_ok ns HG n k ins Ef) as (Hn & Hlt & HO).
  destruct (jvp_matrices k (map (vof ns) ins) (vof ns n) G HO HGr) as (gs & Ej & HM); auto.
  { intros ->. exact (Hd n ins (uses_refl ns n) Ef). }
  rewrite Forall_forall in Hlt.
  destruct (inputs_go fuel ins gs gr) as (nds & gr' & E1 & E2 & E3 & E4); auto.
  - intros i k' ins' g gr0 Hi Ei Hg0 _ Wg Sg. apply (IH i); auto.
    + specialize (Hlt i Hi). lia.
    + intros m ins0 U. apply Hd. eapply uses_step; eauto.
    + split; [auto|]. split; [lia|]. split; [|auto]. apply size_pos. apply (vof_ok ns HG). specialize (Hlt i Hi). lia.
    + rewrite Sg. discriminate.
  - apply Forall_forall. intros i Hi. specialize (Hlt i Hi). lia.
  - apply matrices_go; auto.
  - exists gr'. cbn [compute_jvp]. rewrite E1. cbn [bind]. rewrite E2, Ej. cbn [bind]. auto.
Qed.

Theorem root_succeeds r k ins gr :
  size (shape (vof ns r)) = 1 -> accepts ns r -> fn_of ns r = Some (k, ins) -> gr_ok ns gr ->
  exists gr', compute_jvp (S (length ns)) ns k ins [raw_scalar n_one] gr = Ret gr' /\ gr_ok ns gr'.
Proof.
  intros Hsz (k' & ins' & E & Ha) Ef Hgr. rewrite E in Ef. injection Ef as -> ->.
  destruct (op_ok ns HG r k ins E) as (Hn & Hlt & HO).
  assert (Dk : k = KDot \/ k <> KDot) by (destruct k; auto; right; discriminate). destruct Dk as [->|Dk].
  - rewrite Forall_forall in Hlt.
    inversion HO as [| | | | | | |a b Wa Wb Pa Pb Sab K0 E0 Ey]. destruct ins as [|i [|j [|]]]; cbn [map] in E0; try discriminate.
    injection E0 as -> ->.
    set (ga := tabulate (shape (vof ns j)) (fun x => n_mul n_one (tval (vof ns j) x))).
    set (gb := tabulate (shape (vof ns i)) (fun x => n_mul n_one (tval (vof ns i) x))).
    assert (Ej : jvp KDot [vof ns i; vof ns j] [raw_scalar n_one] = Ret [ga; gb]).
    { unfold jvp, dot_jvp. cbn [two_one bind]. unfold jvp_from_full_jacobians.
      change (is_scalar (raw_scalar n_one)) with true. cbn [orb]. rewrite !orb_true_r. cbn [assert bind].
      rewrite !mul_scalar_l by auto. reflexivity. }
    destruct (inputs_go (length ns) [i; j] [ga; gb] gr) as (nds & gr' & E1 & E2 & E3 & E4).
    + intros m k ins' g gr0 Hm Em Hg0 _ Wg Sg. rewrite Forall_forall in Ha. specialize (Ha m Hm).
      destruct Ha as [Ha|[Ha _]]; [congruence|]. specialize (Hlt m Hm). apply (compute_jvp_succeeds (length ns) m); auto; [lia| |].
      * split; [auto|]. split; [lia|]. split; [|auto]. apply size_pos. apply (vof_ok ns HG). lia.
      * rewrite Sg. discriminate.
    + apply Forall_forall. intros m Hm. specialize (Hlt m Hm). lia.
    + inversion Ha as [|? ? A1 A2]; subst. inversion A2 as [|? ? A3 A4]; subst.
      constructor; [|constructor; [|constructor]]; (split; [cbn [array ga gb tabulate]; rewrite map_length, all_indices_length; congruence|]).
      * intros Hf. destruct A1 as [A1|(_ & N & A1)]; [congruence|]. split; [apply tabulate_wf|]. cbn [shape ga tabulate].
        rewrite <- Sab, A1. rewrite size_row. f_equal. f_equal. lia.
      * intros Hf. destruct A3 as [A3|(_ & N & A3)]; [congruence|]. split; [apply tabulate_wf|]. cbn [shape gb tabulate].
        rewrite Sab, A3. rewrite size_row. f_equal. f_equal. lia.
    + exact Hgr.
    + exists gr'. cbn [compute_jvp]. rewrite E1. cbn [bind]. rewrite E2. cbn [map]. rewrite Ej. cbn [bind]. auto.
  - apply (compute_jvp_succeeds _ r); auto.
    + destruct k; auto; try contradiction.
    + split; [reflexivity|]. split; [lia|]. split; [lia|]. right. auto.
    + intros _. destruct k; try contradiction; split; discriminate.
Qed.

End BackFacts.

(** ** From programs to graphs *)
Section Reached.
Context {T : Type} {NT : Num T}.

Lemma graph_ok_of (ns : list (node T)) : recorded ns -> nonempty ns -> matrices_only ns -> graph_ok ns.
Proof.
  intros HR HN HM n nd En. destruct (HR n nd En) as [W Q].
  assert (Hn : n < length ns) by (apply nth_error_Some; congruence).
  assert (Ev : vof ns n = n_val nd) by (unfold vof; rewrite En; reflexivity).
  split; [exact W|]. split; [rewrite <- Ev; auto|]. intros k ins E. destruct (Q k ins E) as [Q1 Q2]. split; [exact Q1|].
  apply fwd_opspec; [exact Q2| |].
  - apply Forall_forall. intros x Hx. apply in_map_iff in Hx as (i & <- & Hi). rewrite Forall_forall in Q1. specialize (Q1 i Hi).
    split; [|apply HN; lia]. unfold vof. destruct (nth_error ns i) as [ndi|] eqn:Ei; [|reflexivity]. apply (HR i ndi Ei).
  - destruct k; cbn [rank_ok]; auto. apply Forall_map, (HM n). unfold fn_of. rewrite En. exact E.
Qed.

Lemma gr_ok_of (h : heap T) : heap_inv h -> shapes_ok h -> nonempty (nodes h) -> gr_ok (nodes h) (grads h).
Proof.
  intros [HR HW] HS HN n g E Hn. destruct (HW n g E) as [W _]. split; [exact W|].
  destruct (HS n g E) as [Q|(i & Q1 & Q2 & Q3)].
  - rewrite Q. split; auto.
  - rewrite Q3. split; [apply HN; lia|]. intros X. destruct (X [i] Q1).
Qed.

Lemma backward_compute (h : heap T) i k ins gr' :
  length (array (vof (nodes h) i)) = 1 -> fn_of (nodes h) i = Some (k, ins) ->
  compute_jvp (S (length (nodes h))) (nodes h) k ins [raw_scalar n_one] (grads h) = Ret gr' ->
  backward h i = Ret (mkHeap (nodes h) gr').
Proof.
  intros HL Ef Ec. unfold backward, hget. unfold vof in HL. unfold fn_of in Ef.
  destruct (nth_error (nodes h) i) as [nd|] eqn:En; [|discriminate].
  rewrite (vindex_some _ _ _ _ En). cbn [bind]. rewrite HL. cbn [Nat.eqb assert bind]. rewrite Ef. cbn [unwrap_opt bind]. rewrite Ec. reflexivity.
Qed.

Lemma uses_leaf (ns : list (node T)) n : recorded ns -> n < length ns -> exists m, uses ns n m /\ fn_of ns m = None /\ m < length ns.
Proof.
  intros HR. induction n as [n IH] using lt_wf_ind. intros Hn. destruct (fn_of ns n) as [[k ins]|] eqn:Ef.
  - assert (Q := Ef). unfold fn_of in Q. destruct (nth_error ns n) as [nd|] eqn:En; [|discriminate].
    destruct (HR n nd En) as [_ W]. destruct (W k ins Q) as [W1 W2]. destruct ins as [|i ins]; [destruct k; discriminate W2|].
    inversion W1 as [|? ? Wi _]; subst. destruct (IH i Wi) as (m & U & Em & Lm); [lia|]. exists m. split; [|auto].
    eapply uses_step; [exact Ef|left; reflexivity|exact U].
  - exists n. split; [apply uses_refl|auto].
Qed.

End Reached.

(** ** Accumulation *)
Section Accum.
Context {T : Type} {NT : Num T} (RT : is_ring T).
Let RT' : ring_theory n_zero n_one n_add n_mul n_sub n_neg (@eq T) := RT.
Add Ring BackRing : RT'.

(** The entries of all updates of tensor [n] *)
Definition contrib (us : list (nat * raw T)) (n p : nat) : T :=
  lsum (map (fun u => nth p (array (snd u)) n_zero) (filter (fun u => fst u =? n) us)).

Lemma upd_all_entry (sh : list nat) n us : forall gr gr',
  Forall (fun u => fst u = n -> wf (snd u) /\ shape (snd u) = sh) us ->
  (forall g, gr n = Some g -> wf g /\ shape g = sh) -> upd_all us gr = Ret gr' ->
  (forall g, gr' n = Some g -> wf g /\ shape g = sh) /\
  forall p, p < size sh -> gentry gr' n p = n_add (gentry gr n p) (contrib us n p).
Proof.
  unfold upd_all, contrib. induction us as [|[j g] us IH]; intros gr gr' HU Hg E; cbn [foldM] in E.
  - injection E as <-. split; [exact Hg|]. intros p Hp. cbn. unfold lsum. cbn. ring.
  - destruct (update_grad gr j g) as [gr1| |] eqn:E1; cbn [bind] in E; try discriminate.
    inversion HU as [|? ? HU1 HU2]; subst. cbn [fst snd] in HU1.
    apply update_grad_inv in E1 as [Eo Ej].
    destruct (Nat.eq_dec j n) as [->|Hne].
    + destruct (HU1 eq_refl) as [Wg Sg].
      assert (H1 : (forall g', gr1 n = Some g' -> wf g' /\ shape g' = sh) /\
        forall p, p < size sh -> gentry gr1 n p = n_add (gentry gr n p) (nth p (array g) n_zero)).
      { destruct Ej as [[E0 Ej]|(o & s & E0 & Es & Ej)].
        - split; [intros g' Eg; rewrite Ej in Eg; injection Eg as <-; auto|]. intros p Hp. unfold gentry. rewrite E0, Ej. ring.
        - destruct (Hg o E0) as [Wo So]. split.
          + intros g' Eg. rewrite Ej in Eg. injection Eg as <-. apply binop_form in Es as [W S]. split; [exact W|]. cbn [tl_shape] in S.
            rewrite S, So, Sg. apply max_shape_self.
          + intros p Hp. unfold gentry. rewrite E0, Ej. rewrite add_same_shape in Es; auto; [|rewrite So; apply size_pos; lia|congruence].
            injection Es as <-. rewrite nth_tabulate by (rewrite So; auto). rewrite !tval_unravel by (auto; rewrite ?So; auto). reflexivity. }
      destruct H1 as [H1 H2]. destruct (IH gr1 gr' HU2 H1 E) as [I1 I2]. split; [exact I1|]. intros p Hp. rewrite I2, H2 by auto.
      cbn [filter fst]. rewrite Nat.eqb_refl. cbn [map snd]. rewrite (lsum_cons RT). ring.
    + assert (Hn1 : gr1 n = gr n) by (apply Eo; auto).
      destruct (IH gr1 gr' HU2) as [I1 I2]; [rewrite Hn1; exact Hg|exact E|]. split; [exact I1|]. intros p Hp. rewrite I2 by auto.
      unfold gentry at 1. rewrite Hn1. fold (gentry gr n p). cbn [filter fst].
      destruct (Nat.eqb_spec j n); [contradiction|]. reflexivity.
Qed.

Lemma upd_all_presence n us : forall (gr gr' : nat -> option (raw T)), upd_all us gr = Ret gr' ->
  (gr' n = None <-> gr n = None /\ Forall (fun u => fst u <> n) us).
Proof.
  unfold upd_all. induction us as [|[j g] us IH]; intros gr gr' E; cbn [foldM] in E.
  - injection E as <-. intuition.
  - destruct (update_grad gr j g) as [gr1| |] eqn:E1; cbn [bind] in E; try discriminate. rewrite (IH gr1 gr' E).
    apply update_grad_inv in E1 as [Eo Ej]. split.
    + intros [H1 H2]. destruct (Nat.eq_dec j n) as [->|Hne].
      * destruct Ej as [[_ Ej]|(? & ? & _ & _ & Ej)]; congruence.
      * rewrite Eo in H1 by auto. split; [exact H1|]. constructor; auto.
    + intros [H1 H2]. inversion H2 as [|? ? H3 H4]; subst. cbn [fst] in H3. rewrite Eo by auto. auto.
Qed.

End Accum.
