(** * FlowFacts: [backward] succeeds exactly if its gradients get through *)
From Verif Require Import Base ModelIndex ModelTensor ModelOps ModelJvp ModelGraph Spec SpecDual SpecGraph SpecFlow SpecShape
  Lists IndexFacts TensorFacts OpsFacts Sums JvpFacts Dual ClaimsMat Adjoint GradRing FuelFacts GraphFacts ProgFacts BackFacts ClaimsShape.

Section FlowFacts.
Context {T : Type} {NT : Num T}.

(** ** Gradients of shape [1] are treated like those of shape [1, 1] *)

Lemma raw_at_one (x : list T) i j : raw_at (mkRaw x [1]) [i; j] = raw_at (mkRaw x [1; 1]) [i; j].
Proof. reflexivity. Qed.

Lemma jdb_one (x : list T) diag js bs ish :
  jvp_from_diagonal_broadcast diag (Some js) bs ish (mkRaw x [1]) = jvp_from_diagonal_broadcast diag (Some js) bs ish (mkRaw x [1; 1]).
Proof.
  unfold jvp_from_diagonal_broadcast. cbn [shape length Nat.leb assert bind]. change (vindex [1; 1] 0) with (Ret 1). cbn [bind].
  destruct (vindex js 0) as [js0|p|]; cbn [bind]; auto. destruct (assert (1 =? js0)) as [u|p|]; cbn [bind]; auto. destruct (vindex js 1) as [js1|p|]; cbn [bind]; auto.
  assert (E : forall fuel idx oidx arr, jdb_loop fuel diag (mkRaw x [1]) js bs ish 1 idx oidx arr = jdb_loop fuel diag (mkRaw x [1; 1]) js bs ish 1 idx oidx arr).
  { induction fuel as [|f IH]; intros idx oidx arr; [reflexivity|]. cbn [jdb_loop].
    destruct (global_index idx (shape diag) None) as [r|p|]; cbn [bind]; auto. destruct (unwrap r) as [j|p|]; cbn [bind]; auto.
    change (foldM (jdb_body diag (mkRaw x [1; 1]) js ish idx oidx j) (seq 0 1) arr) with (foldM (jdb_body diag (mkRaw x [1]) js ish idx oidx j) (seq 0 1) arr).
    destruct (foldM _ (seq 0 1) arr) as [arr'|p|]; cbn [bind]; auto. destruct (increment_index idx (shape diag)) as [[idx' more]|p|]; cbn [bind]; auto.
    destruct more; auto. destruct (increment_index oidx bs) as [[o' ok]|p|]; cbn [bind]; auto. destruct (assert ok) as [u'|p|]; cbn [bind]; auto. }
  rewrite E. reflexivity.
Qed.

Definition as_row (g : raw T) (n : nat) : raw T := match shape g with [_] => mkRaw (array g) [1; n] | _ => g end.

Lemma as_row_rows (g : raw T) n : wf g -> 0 < n -> one_row n (shape g) -> grad_rows (as_row g n) 1 n.
Proof.
  intros W Hn [E|[-> [E|E]]]; unfold as_row; rewrite E; (split; [|split; [lia|split; [lia|]]]).
  - exact W.
  - left; exact E.
  - exact W.
  - right; auto.
  - unfold wf in *. rewrite E in W. cbn in *. exact W.
  - left; reflexivity.
Qed.
Lemma unary_as_row (t g : raw T) d n : one_row n (shape g) -> generic_unary_jvp t g d = generic_unary_jvp t (as_row g n) d.
Proof.
  intros [E|[-> [E|E]]]; unfold as_row; rewrite E; auto. destruct g as [x s]. cbn [shape array] in *. subst s.
  unfold generic_unary_jvp. cbn [shape]. destruct (unary_diag_loop _ t d _ []) as [a|p|]; cbn [bind]; auto. destruct (raw_new a _) as [r|p|]; cbn [bind]; auto.
  rewrite jdb_one. reflexivity.
Qed.
Lemma binop_as_row (a b g : raw T) d s : positive (shape a) -> positive (shape b) -> bcast (shape a) (shape b) s -> one_row (size s) (shape g) ->
  generic_binop_jvp a b g d = generic_binop_jvp a b (as_row g (size s)) d.
Proof.
  intros Pa Pb B [E|[E1 [E|E]]]; unfold as_row; rewrite E; auto. rewrite E1. destruct g as [x sh]. cbn [shape array] in *. subst sh.
  unfold generic_binop_jvp. cbn [shape length Nat.leb]. rewrite product_size, <- (bcast_max_shape _ _ _ Pa Pb B), E1. change (vindex [1; 1] 1) with (Ret 1). cbn [bind Nat.eqb assert].
  destruct (binop_diag_loop _ a b d s _ []) as [l|p|]; cbn [bind]; auto. destruct (raw_new l _) as [r|p|]; cbn [bind]; auto.
  rewrite !jdb_one. reflexivity.
Qed.


Lemma one_row_pos n g : 0 < n -> one_row n g -> size g = n.
Proof. intros H [-> | [-> [-> | ->]]]; cbn; lia. Qed.

(** ** Where the rule applies *)

Lemma tanh_jac (a : raw T) : wf a -> exists J, tanh_derivative a = Ret J /\ wf J /\ shape J = [size (shape a); size (shape a)].
Proof.
  intros H. set (N := size (shape a)). unfold tanh_derivative. rewrite product_size. fold N.
  rewrite (mapM_pure _ _ _ (fun '(i, j) => if i =? j then n_sub n_one (n_mul (n_tanh (nth i (array a) n_zero)) (n_tanh (nth i (array a) n_zero))) else n_zero)).
  - cbn [bind]. rewrite raw_new_ok by (rewrite map_length, prod_length, !seq_length; cbn [size]; lia).
    eexists. split; [reflexivity|]. split; [|reflexivity]. unfold wf. cbn [array shape]. rewrite map_length, prod_length, !seq_length. cbn [size]. lia.
  - intros [i j] Hij. apply in_prod_iff in Hij as [Hi Hj]. apply in_seq in Hi, Hj.
    destruct (Nat.eqb_spec i j); [|reflexivity]. rewrite (vindex_lt _ _ _ n_zero) by (unfold wf in H; fold N in H; lia). reflexivity.
Qed.

Lemma repeat_snoc_size k n : size (repeat 1 k ++ [n]) = n.
Proof. induction k; cbn [repeat app size]; [cbn; lia|rewrite IHk; lia]. Qed.

Definition yields (o : outcome (list (raw T))) (gs : list (list nat)) : Prop := exists rs, o = Ret rs /\ map shape rs = gs /\ Forall wf rs.

Lemma hands_on_yields k xs (y G : raw T) gs :
  opspec k xs y -> wf G -> size (shape G) = size (shape y) -> hands_on k (map shape xs) (shape G) gs ->
  yields (jvp k xs [G]) gs /\ Forall2 (fun g x => size g = size (shape x)) gs xs.
Proof.
  intros HO WG SG HH.
  assert (U : forall a d, wf a -> positive (shape a) -> one_row (size (shape a)) (shape G) -> yields (generic_unary_jvp a G d) [[1; size (shape a)]]).
  { intros a d Wa Pa R. rewrite (unary_as_row a G d _ R), (unary_jvp_ok a _ 1 d Wa Pa (as_row_rows G _ WG (proj1 (size_pos _) Pa) R)).
    eexists. split; [reflexivity|]. split; [reflexivity|]. constructor; [apply tabulate_wf|constructor]. }
  assert (S1 : forall n, size [1; n] = n) by (intros; cbn; lia).
  destruct HO; cbn [map] in HH.
  - inversion HH as [a' b' s' g' B R E1 E2 E3| | | | | | | | | | | | |]; subst.
    assert (s' = s) as -> by (pose proof (bcast_max_shape _ _ _ H1 H2 H3); pose proof (bcast_max_shape _ _ _ H1 H2 B); congruence).
    split; [|constructor; [apply S1|constructor; [apply S1|constructor]]].
    assert (Ps : 0 < size s) by exact (proj1 (size_pos _) (bcast_positive _ _ _ H1 H2 H3)).
    unfold jvp, add_jvp. cbn [two_one bind]. rewrite (binop_as_row a b G _ s) by auto.
    rewrite (binop_jvp_ok a b (as_row G (size s)) 1 s) by (auto; exact (as_row_rows G _ WG Ps R)).
    eexists. split; [reflexivity|]. split; [reflexivity|]. repeat constructor; apply tabulate_wf.
  - inversion HH; subst. split; [|repeat constructor; apply S1]. unfold jvp, neg_jvp. change (vindex [a] 0) with (Ret a). change (vindex [G] 0) with (Ret G). cbn [bind]. apply U; auto.
  - inversion HH; subst. match goal with E : [1; _] = shape G |- _ => rename E into E2 end. split; [|repeat constructor; apply S1]. unfold jvp, abs_jvp. cbn [one_one bind]. rewrite <- E2. cbn [length Nat.eqb assert bind].
    apply U; auto. left. auto.
  - inversion HH; subst. split; [|repeat constructor; apply S1]. unfold jvp, relu_jvp. cbn [one_one bind]. apply U; auto.
  - (* tanh *)
    destruct (tanh_jac a H) as (J & EJ & WJ & SJ). unfold jvp, tanh_jvp. cbn [one_one bind]. rewrite EJ. cbn [bind].
    pose proof (proj1 (size_pos _) H0) as PN. set (N := size (shape a)) in *.
    assert (NJ : is_scalar J = false) by (unfold is_scalar; rewrite SJ; apply andb_false_r).
    inversion HH as [| | | |a' E1|a' N1 E1|a' k K2 NN E1| | | | | | |]; subst;
      match goal with E : _ = shape G |- _ => rename E into E2 end; fold N in E2 |- *; cbn [shape] in *.
    + (* a row *)
      split; [|repeat constructor; apply S1]. unfold jvp_from_full_jacobians. rewrite !product_size, SJ, NJ, <- E2, !size_row.
      assert (is_scalar G = false) as -> by (unfold is_scalar; rewrite <- E2; apply andb_false_r). cbn [orb].
      destruct (Nat.eqb_spec (1 * N) 1) as [EN|EN].
      * assert (EN' : N = 1) by lia. rewrite orb_true_r. cbn [assert bind].
        rewrite (mul_same G (LRaw J)); [|auto| |cbn [tl_shape]; rewrite <- E2, SJ, EN'; reflexivity|rewrite <- E2; discriminate].
        -- cbn [bind]. eexists. split; [reflexivity|]. split; [cbn; rewrite <- E2; reflexivity|repeat constructor; apply tabulate_wf].
        -- split; [exact WJ|]. cbn [tl_shape]. rewrite SJ. repeat constructor; lia.
      * destruct (Nat.eqb_spec (N * N) 1); [nia|]. cbn [orb]. rewrite (bmm2_ok (LRaw G) (LRaw J) 1 N N) by (auto; exact WG || exact WJ). cbn [bind].
        eexists. split; [reflexivity|]. split; [reflexivity|repeat constructor; apply tabulate_wf].
    + (* a number *)
      split; [|repeat constructor; cbn; congruence]. destruct (scalar_shape G WG (eq_sym E2)) as [c ->]. unfold jvp_from_full_jacobians.
      change (is_scalar (raw_scalar c)) with true. cbn [orb]. rewrite orb_true_r. cbn [assert bind]. rewrite mul_scalar_l by auto. cbn [bind].
      eexists. split; [reflexivity|]. split; [cbn; rewrite SJ; subst N; rewrite N1; reflexivity|repeat constructor; apply tabulate_wf].
    + (* deep *)
      split; [|repeat constructor; cbn; lia]. unfold jvp_from_full_jacobians. rewrite !product_size, SJ, NJ, <- E2, size_row, repeat_snoc_size.
      assert (is_scalar G = false) as -> by (unfold is_scalar; rewrite <- E2; destruct k; [lia|apply andb_false_r]). cbn [orb].
      destruct (Nat.eqb_spec N 1); [contradiction|]. destruct (Nat.eqb_spec (N * N) 1); [nia|]. cbn [orb].
      assert (ER : yields (let* g := bmm_raw (LRaw G) (LRaw J) in Ret [g]) [[1; 1; N]]); [|exact ER].
      destruct (Nat.eq_dec k 2) as [->|Nk].
      * rewrite (bmm3_ok (LRaw G) (LRaw J) 1 1 N N) by (auto; exact WG || exact WJ). cbn [bind]. eexists. split; [reflexivity|]. split; [reflexivity|repeat constructor; apply tabulate_wf].
      * assert (Ek : repeat 1 k ++ [N] = repeat 1 (k - 1) ++ [1; N]).
        { replace k with (S (k - 1)) at 1 by lia. rewrite repeat_S_snoc || idtac. replace (repeat 1 (S (k - 1))) with (repeat 1 (k - 1) ++ [1]) by (symmetry; apply repeat_cons). rewrite <- app_assoc. reflexivity. }
        destruct (c28_bmm_high_rank T NT G J (repeat 1 (k - 1)) 1 N N) as [_ C]; auto.
        -- rewrite <- E2. apply Forall_app. split; [apply Forall_forall; intros d Hd; apply repeat_spec in Hd; lia|repeat constructor; lia].
        -- rewrite SJ. repeat constructor; lia.
        -- rewrite repeat_length. lia.
        -- congruence.
        -- destruct C as (t & row & E & St & At & Lr & _); [apply Forall_forall; intros d Hd; apply repeat_spec in Hd; exact Hd|].
           rewrite E. cbn [bind]. eexists. split; [reflexivity|]. split; [cbn; rewrite St; reflexivity|]. repeat constructor. unfold wf. rewrite St, At. cbn. lia.
  - inversion HH; subst. split; [|repeat constructor; apply S1]. unfold jvp. unfold ones. cbn [one_one bind].
    eexists. split; [reflexivity|]. split; [|constructor; [|constructor]].
    + cbn. rewrite !product_size, SG. reflexivity.
    + rewrite raw_filler_tab. apply tabulate_wf.
  - inversion HH as [| | | | | | | |n' k' m' E1 E2 E3|r' m' R3 E1 E2 E3|r' R3 E1 E2 E3| | |]; subst; [|exfalso; apply (f_equal (@length nat)) in E2; rewrite H3, repeat_length in E2; cbn in E2; lia|exfalso; apply (f_equal (@length nat)) in E2; rewrite H3, repeat_length in E2; cbn in E2; lia].
    match goal with E : [1; _] = shape G |- _ => rename E into EG end.
    rewrite H3 in H1. rewrite H4 in H2. inversion H1 as [|? ? P1 P2]; subst. inversion P2; subst. inversion H2 as [|? ? P3 P4]; subst. inversion P4; subst.
    assert (n' = n /\ k' = k /\ m' = m) as (-> & -> & ->) by (rewrite H3, H4 in *; repeat split; congruence).
    split; [|constructor; [rewrite H3; cbn; lia|constructor; [rewrite H4; cbn; lia|constructor]]].
    destruct (bmm_jvp_ok a b G n k m 1) as (L & R & E & LL & LR & _); auto.
    unfold jvp. rewrite E. eexists. split; [reflexivity|]. split; [reflexivity|]. repeat constructor; unfold wf; cbn [array shape size]; lia.
  - (* dot *)
    cbn [shape size] in SG. unfold jvp, dot_jvp. cbn [two_one bind]. unfold jvp_from_full_jacobians. rewrite !product_size, SG. cbn [Nat.eqb].
    rewrite !orb_true_r. cbn [assert bind].
    inversion HH as [| | | | | | | | | | |a' E1|a' N1 E1|g' NG E1]; subst.
    + destruct (scalar_shape G WG) as [c ->]; [congruence|]. rewrite !mul_scalar_l by auto. cbn [bind].
      split; [|constructor; [congruence|constructor; [congruence|constructor]]]. eexists. split; [reflexivity|]. split; [cbn; congruence|repeat constructor; apply tabulate_wf].
    + split; [|constructor; [congruence|constructor; [congruence|constructor]]].
      destruct (shape G) as [|d s] eqn:EG.
      * destruct (scalar_shape G WG EG) as [c ->]. rewrite !mul_scalar_l by auto. cbn [bind]. eexists. split; [reflexivity|]. split; [cbn; congruence|repeat constructor; apply tabulate_wf].
      * rewrite !(mul_same G) by (auto; try (cbn [tl_shape]; congruence); split; cbn; auto). cbn [bind]. eexists. split; [reflexivity|]. split; [cbn; congruence|repeat constructor; apply tabulate_wf].
    + destruct (scalar_shape a H) as [c ->]; [congruence|]. destruct (scalar_shape b H0) as [c' ->]; [congruence|].
      split; [|constructor; [exact SG|constructor; [exact SG|constructor]]]. rewrite !mul_scalar_r by auto. cbn [bind]. eexists. split; [reflexivity|]. split; [reflexivity|repeat constructor; apply tabulate_wf].
Qed.

(** ** ... and only there *)

Lemma jdb_inv (diag : raw T) d n bs ish (g j : raw T) : jvp_from_diagonal_broadcast diag (Some [d; n]) bs ish g = Ret j ->
  length (shape g) <= 2 /\ (length (shape g) <= 1 -> d = 1) /\ length (array j) = d * n.
Proof.
  unfold jvp_from_diagonal_broadcast. intros E. apply bind_Ret_inv in E as (u & E0 & E). apply assert_inv in E0. apply Nat.leb_le in E0.
  apply bind_Ret_inv in E as (d0 & Ed & E). change (vindex [d; n] 0) with (Ret d) in E. cbn [bind] in E. apply bind_Ret_inv in E as (v & E1 & E). apply assert_inv in E1. apply Nat.eqb_eq in E1.
  change (vindex [d; n] 1) with (Ret n) in E. cbn [bind] in E. apply bind_Ret_inv in E as (arr & _ & E). apply raw_new_inv in E as [-> E].
  split; [exact E0|]. split; [|cbn [array]; rewrite E; cbn; lia]. intros L. apply Nat.leb_le in L. rewrite L in Ed. injection Ed as <-. auto.
Qed.

Lemma unary_only (a G : raw T) d gs : wf a -> positive (shape a) -> size (shape G) = size (shape a) -> generic_unary_jvp a G d = Ret gs ->
  Forall2 (fun g x => length (array g) = size (shape x)) gs [a] -> one_row (size (shape a)) (shape G).
Proof.
  intros Wa Pa SG E L. pose proof (proj1 (size_pos _) Pa) as PN. unfold generic_unary_jvp in E. apply bind_Ret_inv in E as (x & _ & E). apply bind_Ret_inv in E as (di & _ & E).
  apply bind_Ret_inv in E as (j & Ej & E). apply Ret_inj in E. subst gs. inversion L as [|? ? ? ? L1 _]; subst. apply jdb_inv in Ej as (R & D & Lj).
  unfold wf in Wa. rewrite Wa in Lj. destruct (shape G) as [|d0 [|d1 [|]]] eqn:EG; cbn [length size] in *.
  - right. auto.
  - specialize (D (le_n 1)). right. split; [lia|]. right. congruence.
  - assert (d0 = 1) by nia. left. f_equal; [auto|f_equal; nia].
  - lia.
Qed.

Lemma binop_only (a b G : raw T) d s gs : positive (shape a) -> positive (shape b) -> bcast (shape a) (shape b) s ->
  size (shape G) = size s -> generic_binop_jvp a b G d = Ret gs -> one_row (size s) (shape G).
Proof.
  intros Pa Pb B SG E. assert (PN : 0 < size s) by exact (proj1 (size_pos _) (bcast_positive _ _ _ Pa Pb B)).
  unfold generic_binop_jvp in E. rewrite product_size, <- (bcast_max_shape _ _ _ Pa Pb B) in E. apply bind_Ret_inv in E as (u & E1 & E).
  apply bind_Ret_inv in E as (x & _ & E). apply bind_Ret_inv in E as (di & _ & E). apply bind_Ret_inv in E as (j & Ej & E). apply jdb_inv in Ej as (R & D & _).
  destruct (shape G) as [|d0 [|d1 [|]]] eqn:EG; cbn [length size] in *.
  - right. auto.
  - specialize (D (le_n 1)). right. split; [lia|]. right. congruence.
  - change (vindex [d0; d1] 1) with (Ret d1) in E1. cbn [Nat.leb bind] in E1. apply assert_inv in E1. apply Nat.eqb_eq in E1. left. f_equal; [nia|f_equal; auto].
  - lia.
Qed.

Lemma size_one_ones s : size s = 1 -> s = repeat 1 (length s).
Proof. induction s as [|d s IH]; cbn [size length repeat]; intros H; [reflexivity|]. apply Nat.eq_mul_1 in H as [-> H]. f_equal. auto. Qed.
Lemma size_snoc s n : size (s ++ [n]) = size s * n.
Proof. induction s as [|d s IH]; cbn [app size]; [lia|]. rewrite IH. lia. Qed.

Lemma hands_on_only k xs (y G : raw T) rs :
  opspec k xs y -> wf G -> size (shape G) = size (shape y) -> (k = KBmm -> length (shape G) <= 2) ->
  jvp k xs [G] = Ret rs -> Forall2 (fun g x => length (array g) = size (shape x)) rs xs ->
  exists gs, hands_on k (map shape xs) (shape G) gs.
Proof.
  intros HO WG SG HB E L. destruct HO; cbn [map]; unfold jvp in E.
  - unfold add_jvp in E. cbn [two_one bind] in E. eexists. eapply ho_add; [exact H3|]. exact (binop_only a b G _ s rs H1 H2 H3 SG E).
  - unfold neg_jvp in E. change (vindex [a] 0) with (Ret a) in E. change (vindex [G] 0) with (Ret G) in E. cbn [bind] in E. eexists. apply ho_neg. exact (unary_only a G _ rs H H0 SG E L).
  - unfold abs_jvp in E. cbn [one_one bind] in E. apply bind_Ret_inv in E as (u & E0 & E). apply assert_inv in E0. apply Nat.eqb_eq in E0.
    assert (R : one_row (size (shape a)) (shape G)) by exact (unary_only a G _ rs H H0 SG E L). destruct R as [-> |[_ [R|R]]]; [|rewrite R in E0; discriminate|rewrite R in E0; discriminate].
    eexists. apply ho_abs.
  - unfold relu_jvp in E. cbn [one_one bind] in E. eexists. apply ho_relu. exact (unary_only a G _ rs H H0 SG E L).
  - unfold tanh_jvp in E. cbn [one_one bind] in E. destruct (tanh_jac a H) as (J & EJ & WJ & SJ). rewrite EJ in E. cbn [bind] in E.
    cbn [shape tabulate] in SG. pose proof (proj1 (size_pos _) H0) as PN. apply bind_Ret_inv in E as (ng & E & _). unfold jvp_from_full_jacobians in E. rewrite !product_size, SJ, SG, size_row in E.
    assert (NJ : is_scalar J = false) by (unfold is_scalar; rewrite SJ; apply andb_false_r). rewrite NJ in E. cbn [orb] in E.
    destruct (Nat.eq_dec (size (shape a)) 1) as [E1|E1].
    + rewrite E1 in E. cbn [Nat.mul Nat.add Nat.eqb orb] in E. rewrite orb_true_r in E. cbn [assert bind] in E.
      destruct (list_eq_dec Nat.eq_dec (shape G) []) as [EG|EG]; [rewrite EG; eexists; apply ho_tanh_one; exact E1|].
      destruct (list_eq_dec Nat.eq_dec (shape G) [1; 1]) as [EG'|EG'].
      * rewrite EG'. replace [1; 1] with [1; size (shape a)] by (rewrite E1; reflexivity). eexists. apply ho_tanh.
      * rewrite mul_refused in E; [discriminate|exact EG|cbn [tl_shape]; rewrite SJ; discriminate|cbn [tl_shape]; rewrite SJ, E1; exact EG'].
    + destruct (Nat.eqb_spec (size (shape a) * size (shape a)) 1); [nia|]. destruct (Nat.eqb_spec (size (shape a)) 1); [contradiction|].
      assert (EG : is_scalar G = false). { unfold is_scalar. destruct (shape G) eqn:Q; [cbn in SG; lia|]. apply andb_false_r. }
      rewrite EG in E. cbn [orb] in E.
      destruct (shape G) as [|d0 s0] eqn:Es; [cbn in SG; lia|]. destruct (exists_last (l := d0 :: s0)) as (ls & d & El); [discriminate|].
      destruct ls as [|l0 ls].
      { rewrite bmm_refused_rank in E; [discriminate|]. left. cbn [tl_shape]. rewrite Es, El. cbn. lia. }
      destruct (Nat.eq_dec d (size (shape a))) as [Ed|Ed].
      2: { rewrite (bmm_refused_inner _ _ d (size (shape a)) (size (shape a)) (l0 :: ls)) in E; [discriminate|cbn [tl_shape]; congruence|discriminate|cbn [tl_shape]; exact SJ|exact Ed]. }
      rewrite El in SG |- *. rewrite size_snoc, Ed in SG. assert (S1 : size (l0 :: ls) = 1) by nia. rewrite (size_one_ones _ S1), Ed.
      destruct ls as [|l1 ls]; [eexists; apply ho_tanh|]. eexists. apply ho_tanh_deep; [cbn; lia|exact E1].
  - eexists. apply ho_sum.
  - specialize (HB eq_refl). unfold bmm_jvp in E. cbn [two_one bind] in E. rewrite H3, H4 in E.
    change (vindex [n; k] 1) with (Ret k) in E. change (vindex [k; m] 0) with (Ret k) in E. change (vindex [n; k] 0) with (Ret n) in E. change (vindex [k; m] 1) with (Ret m) in E.
    cbn [bind] in E. apply bind_Ret_inv in E as (u & _ & E). apply bind_Ret_inv in E as (j0 & Ej0 & E). apply bind_Ret_inv in E as (tasks & ET & _).
    rewrite H3 in H1. rewrite H4 in H2. inversion H1 as [|? ? P1 P2]; subst. inversion P2; subst. inversion H2 as [|? ? P3 P4]; subst. inversion P4; subst.
    assert (HT : exists ts, bmm_task a b G [n; m] [n * m; n * k] [j0; n * k] [j0; k * m] (n - 1) 0 (m - 1) = Ret ts).
    { apply mapM_Forall2 in ET. assert (I : In (n - 1, 0, m - 1) (ikj n k m)) by (unfold ikj; repeat apply in_prod; apply in_seq; lia).
      revert I ET. generalize (ikj n k m). clear. intros l I ET. induction ET as [|x y l l' Hx HF IH]; [contradiction|]. destruct I as [-> |I]; [exists y; exact Hx|auto]. }
    destruct HT as (ts & ET'). unfold bmm_task in ET'. rewrite (global_index_in_range [n; m] [n - 1; m - 1]) in ET' by (constructor; [lia|constructor; [lia|constructor]]).
    cbn [unwrap bind] in ET'. do 2 (apply bind_Ret_inv in ET' as (? & _ & ET'); apply bind_Ret_inv in ET' as (? & _ & ET')).
    apply bind_Ret_inv in ET' as (? & _ & ET'). apply bind_Ret_inv in ET' as (? & _ & ET'). apply bind_Ret_inv in ET' as (j1 & Ej1 & ET'). apply bind_Ret_inv in ET' as (? & EA & _).
    apply assert_inv in EA. apply Nat.ltb_lt in EA. cbn [shape tabulate] in SG.
    destruct (shape G) as [|d0 [|d1 [|]]] eqn:EG; [discriminate|discriminate| |cbn in HB; lia]. injection Ej1 as <-. cbn in EA, SG.
    assert (n * m = (n - 1) * m + m) by (destruct n; [lia|cbn; lia]). assert (n * m <= d1) by lia. assert (0 < n * m) by (apply Nat.mul_pos_pos; auto).
    assert (d0 = 1) by nia. subst d0. replace d1 with (n * m) by nia. rewrite H3, H4. eexists. apply ho_bmm.
  - unfold dot_jvp in E. cbn [two_one bind] in E. unfold jvp_from_full_jacobians in E. cbn [shape size] in SG. rewrite !product_size, SG in E. cbn [Nat.mul Nat.add Nat.eqb] in E. rewrite !orb_true_r in E. cbn [assert bind] in E.
    apply bind_Ret_inv in E as (g1 & E1 & _). rewrite <- H3. cbn in SG.
    destruct (list_eq_dec Nat.eq_dec (shape G) []) as [EG|EG]; [rewrite EG; eexists; apply ho_dot|].
    destruct (list_eq_dec Nat.eq_dec (shape a) []) as [EA|EA]; [rewrite EA; eexists; apply ho_dot_numbers; exact EG|].
    destruct (list_eq_dec Nat.eq_dec (shape G) (shape b)) as [EB|EB].
    + rewrite EB in SG |- *. rewrite <- H3 in SG |- *. eexists. apply ho_dot_same. exact SG.
    + rewrite mul_refused in E1; [discriminate|exact EG|cbn [tl_shape]; congruence|exact EB].
Qed.

Lemma jvp_count k xs (y G : raw T) rs : opspec k xs y -> jvp k xs [G] = Ret rs -> length rs = length xs.
Proof.
  intros HO E. destruct HO; unfold jvp in E.
  - unfold add_jvp in E. cbn [two_one bind] in E. unfold generic_binop_jvp in E. do 5 (apply bind_Ret_inv in E as (? & _ & E)). apply Ret_inj in E. subst rs. reflexivity.
  - unfold neg_jvp in E. change (vindex [a] 0) with (Ret a) in E. change (vindex [G] 0) with (Ret G) in E. cbn [bind] in E. unfold generic_unary_jvp in E.
    do 3 (apply bind_Ret_inv in E as (? & _ & E)). apply Ret_inj in E. subst rs. reflexivity.
  - unfold abs_jvp in E. cbn [one_one bind] in E. apply bind_Ret_inv in E as (? & _ & E). unfold generic_unary_jvp in E.
    do 3 (apply bind_Ret_inv in E as (? & _ & E)). apply Ret_inj in E. subst rs. reflexivity.
  - unfold relu_jvp in E. cbn [one_one bind] in E. unfold generic_unary_jvp in E.
    do 3 (apply bind_Ret_inv in E as (? & _ & E)). apply Ret_inj in E. subst rs. reflexivity.
  - unfold tanh_jvp in E. cbn [one_one bind] in E. do 2 (apply bind_Ret_inv in E as (? & _ & E)). apply Ret_inj in E. subst rs. reflexivity.
  - unfold ones in E. cbn [one_one bind] in E. apply Ret_inj in E. subst rs. reflexivity.
  - unfold bmm_jvp in E. cbn [two_one bind] in E. repeat (apply bind_Ret_inv in E as (? & _ & E); try (apply Ret_inj in E; subst rs; reflexivity)).
  - unfold dot_jvp in E. cbn [two_one bind] in E. do 2 (apply bind_Ret_inv in E as (? & _ & E)). apply Ret_inj in E. subst rs. reflexivity.
Qed.

(** ** Matrix products with more than two dimensions on the left *)

(** What [bmm] computed, for ranks above 2 *)
Definition deep_bmm (k : opk) (xs : list (raw T)) (y : raw T) : Prop :=
  k = KBmm /\ exists a b, xs = [a; b] /\ wf a /\ wf b /\ positive (shape a) /\ positive (shape b) /\ 3 <= length (shape a) /\ matmul (shape a) (shape b) (shape y).
Definition computed (k : opk) (xs : list (raw T)) (y : raw T) : Prop := opspec k xs y \/ deep_bmm k xs y.

Lemma fwd_computed k xs y : fwd k xs = Ret y -> Forall (fun x => wf x /\ positive (shape x)) xs -> computed k xs y.
Proof.
  intros E H. assert (D : rank_ok k xs \/ exists a b, k = KBmm /\ xs = [a; b] /\ length (shape a) <> 2).
  { destruct k; cbn [rank_ok]; auto. destruct xs as [|a [|b [|? ?]]]; cbn [fwd] in E; try discriminate.
    destruct (Nat.eq_dec (length (shape a)) 2) as [La|La]; [|right; eauto]. left. constructor; [exact La|]. constructor; [|constructor].
    destruct (Nat.eq_dec (length (shape b)) 2) as [Lb|Lb]; [exact Lb|]. rewrite bmm_refused_rank in E by (right; exact Lb). discriminate. }
  destruct D as [D|(a & b & -> & -> & La)]; [left; apply fwd_opspec; auto|right].
  inversion H as [|? ? Ga H']; subst. inversion H' as [|? ? Gb _]; subst. cbn [fwd] in E. destruct (fits_bmm a b Ga Gb) as [F1 F2].
  destruct (F2 y E) as [sh Hs]. destruct (F1 sh Hs) as (y' & E' & Sy & _). rewrite E in E'. apply Ret_inj in E'. subst y' sh.
  split; [reflexivity|]. exists a, b. destruct Ga, Gb. repeat (split; [auto; fail|]). split; [|exact Hs]. inversion Hs as [n k m E1 E2 E3|d n k m E1 E2 E3|ones n k m Ho Hf E1 E2 E3]; [exfalso; apply La; rewrite <- E1; reflexivity|cbn; lia|rewrite app_length; cbn; lia].
Qed.

Lemma task_same (a b jac : raw T) r m j0 :
  shape a = repeat 1 r -> 2 <= r -> wf a -> wf jac -> 0 < m ->
  (shape jac = [1; m] \/ shape jac = [1; 1; 1] /\ m = 1) -> j0 = 1 -> shape b = [1; m] ->
  forall i k j, In (i, k, j) (ikj 1 1 m) ->
  bmm_task a b jac [1; m] [1 * m; 1 * 1] [j0; 1 * 1] [j0; 1 * m] i k j =
  bmm_task (mkRaw (array a) [1; 1]) b (mkRaw (array jac) [1; m]) [1; m] [1 * m; 1 * 1] [j0; 1 * 1] [j0; 1 * m] i k j.
Proof.
  intros Sa R2 Wa Wj Hm Sj -> Sb i k j I. unfold ikj in I. apply in_prod_iff in I as [I Ij]. apply in_prod_iff in I as [Ii Ik]. apply in_seq in Ii, Ik, Ij.
  assert (i = 0) by lia. assert (k = 0) by lia. subst i k.
  assert (GA : global_index [0; 0] (shape a) None = Ret (Ok 0)).
  { rewrite Sa. destruct r as [|[|q]]; [lia|lia|]. rewrite (global_index_resolves _ _ (repeat 0 (S (S q)))).
    - do 2 f_equal. clear. generalize (S (S q)). induction n; cbn [repeat rm size]; [reflexivity|]. rewrite IHn. lia.
    - apply Forall_forall. intros d Hd. apply repeat_spec in Hd. lia.
    - unfold resolves. rewrite !rev_repeat. cbn [rev app repeat]. constructor. constructor. clear. induction q; cbn [repeat]; constructor; auto. }
  assert (AA : raw_at a [0; 0] = raw_at (mkRaw (array a) [1; 1]) [0; 0]) by (unfold raw_at, raw_get; rewrite GA; reflexivity).
  unfold bmm_task. cbn [shape]. rewrite GA, AA. change (global_index [0; 0] [1; 1] None) with (Ret (Ok 0)).
  destruct Sj as [Sj|[Sj Em]].
  - destruct jac as [x s]. cbn [shape array] in *. subst s. reflexivity.
  - subst m. assert (j = 0) by lia. subst j. destruct jac as [x s]. cbn [shape array] in *. subst s. reflexivity.
Qed.

Lemma bmm_jvp_same (a b jac : raw T) r m :
  shape a = repeat 1 r -> 2 <= r -> wf a -> wf jac -> 0 < m ->
  (shape jac = [1; m] \/ shape jac = [1; 1; 1] /\ m = 1) -> shape b = [1; m] ->
  bmm_jvp [a; b] [jac] = bmm_jvp [mkRaw (array a) [1; 1]; b] [mkRaw (array jac) [1; m]].
Proof.
  intros Sa R2 Wa Wj Hm Sj Sb. unfold bmm_jvp. cbn [two_one bind shape]. rewrite Sb.
  assert (vindex (shape a) 1 = Ret 1 /\ vindex (shape a) 0 = Ret 1) as [-> ->] by (rewrite Sa; destruct r as [|[|q]]; [lia|lia|]; split; reflexivity).
  assert (vindex (shape jac) 0 = Ret 1) as -> by (destruct Sj as [Sj|[Sj _]]; rewrite Sj; reflexivity).
  change (vindex [1; m] 0) with (Ret 1). change (vindex [1; m] 1) with (Ret m). change (vindex [1; 1] 0) with (Ret 1). change (vindex [1; 1] 1) with (Ret 1).
  cbn [bind assert Nat.eqb].
  rewrite (mapM_ext_in _ _ _ (fun '(i, k, j) => bmm_task (mkRaw (array a) [1; 1]) b (mkRaw (array jac) [1; m]) [1; m] [1 * m; 1 * 1] [1; 1 * 1] [1; 1 * m] i k j)); [reflexivity|].
  intros [[i k] j] I. apply (task_same a b jac r m 1); auto.
Qed.

Lemma bmm_ones_yields (a b G : raw T) r m :
  shape a = repeat 1 r -> 2 <= r -> wf a -> wf b -> wf G -> 0 < m -> (shape G = [1; m] \/ shape G = [1; 1; 1] /\ m = 1) -> shape b = [1; m] ->
  yields (jvp KBmm [a; b] [G]) [[1; 1]; [1; m]].
Proof.
  intros Sa R2 Wa Wb WG Hm SG Sb. unfold jvp. rewrite (bmm_jvp_same a b G r m) by auto.
  assert (S1 : size (repeat 1 r) = 1) by (clear; induction r; cbn [repeat size]; lia).
  destruct (bmm_jvp_ok (mkRaw (array a) [1; 1]) b (mkRaw (array G) [1; m]) 1 1 m 1) as (L & R & E & LL & LR & _); auto.
  - unfold wf in *. cbn [array shape]. rewrite Wa, Sa, S1. reflexivity.
  - unfold wf in *. cbn [array shape]. rewrite WG. destruct SG as [-> |[-> ->]]; reflexivity.
  - cbn [shape]. f_equal. f_equal. lia.
  - rewrite E. eexists. split; [reflexivity|]. split; [cbn [map shape]; do 4 f_equal; lia|]. repeat constructor; unfold wf; cbn [array shape size]; lia.
Qed.

(** Gradients are one row, perhaps deeper, or have the shape of the tensor *)
Definition form (s g : list nat) : Prop :=
  length g <= 2 /\ (g = [] \/ hd 0 g = 1) \/ g = s \/ 3 <= length s /\ g = [1; 1; size s].

Lemma deep_only (a b y G : raw T) rs :
  wf a -> wf b -> positive (shape a) -> positive (shape b) -> 3 <= length (shape a) -> matmul (shape a) (shape b) (shape y) ->
  size (shape G) = size (shape y) -> form (shape y) (shape G) ->
  jvp KBmm [a; b] [G] = Ret rs -> Forall2 (fun g x => length (array g) = size (shape x)) rs [a; b] ->
  exists r m, 3 <= r /\ 0 < m /\ shape a = repeat 1 r /\ shape b = [1; m] /\ (shape G = [1; m] \/ shape G = [1; 1; 1] /\ m = 1).
Proof.
  intros Wa Wb Pa Pb L3 MM SG FG E L.
  assert (Hab : exists pre n k m, shape a = pre ++ [n; k] /\ shape b = [k; m] /\ pre <> [] /\
    (shape y = [1; 1; m] /\ 2 <= length pre \/ exists d, pre = [d] /\ shape y = [d; n; m])).
  { inversion MM as [n k m E1 E2 E3|d n k m E1 E2 E3|ones n k m Ho Hf E1 E2 E3].
    - rewrite <- E1 in L3. cbn in L3. lia.
    - exists [d], n, k, m. split; [reflexivity|]. split; [reflexivity|]. split; [discriminate|]. right. eauto.
    - exists ones, n, k, m. split; [reflexivity|]. split; [reflexivity|]. split; [intros ->; cbn in Ho; lia|]. left. auto. }
  destruct Hab as (pre & n & k & m & Sa & Sb & Np & Sy).
  assert (Hpos : Forall (fun d => 0 < d) pre /\ 0 < n /\ 0 < k /\ 0 < m).
  { rewrite Sa in Pa. rewrite Sb in Pb. apply Forall_app in Pa as [P1 P2]. inversion P2 as [|? ? P3 P4]; subst. inversion P4; subst. inversion Pb as [|? ? P5 P6]; subst. inversion P6; subst. auto. }
  destruct Hpos as (Pp & Pn & Pk & Pm).
  unfold jvp, bmm_jvp in E. cbn [two_one bind] in E. rewrite Sb in E. change (vindex [k; m] 0) with (Ret k) in E. change (vindex [k; m] 1) with (Ret m) in E.
  apply bind_Ret_inv in E as (a1 & Ea1 & E). cbn [bind] in E. apply bind_Ret_inv in E as (u & E0 & E). apply assert_inv in E0. apply Nat.eqb_eq in E0. subst a1.
  apply bind_Ret_inv in E as (a0 & Ea0 & E). cbn [bind] in E. apply bind_Ret_inv in E as (j0 & Ej0 & E). apply bind_Ret_inv in E as (tasks & ET & E).
  apply bind_Ret_inv in E as (ls & _ & E). apply bind_Ret_inv in E as (rsg & _ & E). apply bind_Ret_inv in E as (lt & El & E). apply bind_Ret_inv in E as (rt & Er & E). apply Ret_inj in E. subst rs.
  apply raw_new_inv in El as [-> El]. inversion L as [|? ? ? ? L1 _]; subst. cbn [array] in L1. rewrite El in L1. cbn [size] in L1.
  assert (Pa0 : 0 < a0). { unfold vindex in Ea0. destruct (nth_error (shape a) 0) eqn:Q; [|discriminate]. injection Ea0 as <-. apply nth_error_In in Q. unfold positive in Pa. rewrite Forall_forall in Pa. auto. }
  assert (HT : exists ts, bmm_task a b G [a0; m] [a0 * m; a0 * k] [j0; a0 * k] [j0; k * m] 0 0 (m - 1) = Ret ts).
  { apply mapM_Forall2 in ET. assert (I : In (0, 0, m - 1) (ikj a0 k m)) by (unfold ikj; repeat apply in_prod; apply in_seq; lia).
    revert I ET. generalize (ikj a0 k m). clear. intros l I ET. induction ET as [|x y l l' Hx HF IH]; [contradiction|]. destruct I as [-> |I]; [exists y; exact Hx|auto]. }
  destruct HT as (ts & ET'). unfold bmm_task in ET'. rewrite (global_index_in_range [a0; m] [0; m - 1]) in ET' by (constructor; [lia|constructor; [lia|constructor]]).
  cbn [unwrap bind] in ET'. apply bind_Ret_inv in ET' as (gi & Egi & ET'). apply bind_Ret_inv in ET' as (li & Eli & ET').
  assert (Ones : Forall (fun d => d = 1) pre).
  { destruct (global_index_none [0; 0] (shape a) Pa) as [(i & Hi & _)|[_ [e Ee]]]; [|rewrite Ee in Egi; injection Egi as <-; discriminate].
    apply resolves_short_ones in Hi. cbn [rev app length] in Hi. rewrite Sa, rev_app_distr in Hi. cbn [rev app skipn] in Hi. apply Forall_rev in Hi. rewrite rev_involutive in Hi.
    rewrite Forall_forall in *. intros d Hd. specialize (Hi d Hd). specialize (Pp d Hd). lia. }
  do 2 (apply bind_Ret_inv in ET' as (? & _ & ET')). apply bind_Ret_inv in ET' as (? & _ & ET'). apply bind_Ret_inv in ET' as (? & _ & ET').
  apply bind_Ret_inv in ET' as (j1 & Ej1 & ET'). apply bind_Ret_inv in ET' as (? & EA & _). apply assert_inv in EA. apply Nat.ltb_lt in EA. cbn [rm size] in EA.
  assert (A0 : a0 = 1). { destruct pre as [|d pre]; [congruence|]. rewrite Sa in Ea0. injection Ea0 as <-. inversion Ones; auto. }
  assert (Sz : size (shape a) = n * k). { rewrite Sa. clear - Ones. induction Ones as [|d pre -> _ IH]; cbn [app size]; [lia|]. rewrite IH. lia. }
  (* the first dimension of the gradient *)
  assert (J0 : j0 = 1).
  { destruct FG as [[_ [FG|FG]]|[FG|[_ FG]]].
    - rewrite FG in Ej0. discriminate.
    - destruct (shape G) as [|d s]; [discriminate|]. injection Ej0 as <-. exact FG.
    - rewrite FG in Ej0. destruct Sy as [[Sy _]|(d & -> & Sy)]; rewrite Sy in Ej0; injection Ej0 as <-; [reflexivity|]. inversion Ones; auto.
    - rewrite FG in Ej0. injection Ej0 as <-. reflexivity. }
  rewrite Sz, A0, J0 in L1. assert (N1 : n = 1) by nia. subst n.
  assert (K1 : k = 1).
  { destruct Sy as [[_ Lp]|(d & -> & _)].
    - destruct pre as [|d0 [|d1 pre]]; [cbn in Lp; lia|cbn in Lp; lia|]. rewrite Sa in Ea1. injection Ea1 as <-. inversion Ones as [|? ? ? O2]; subst. inversion O2; auto.
    - rewrite Sa in Ea1. injection Ea1 as <-. reflexivity. }
  subst k. exists (length (shape a)), m.
  assert (OA : shape a = repeat 1 (length (shape a))). { apply size_one_ones. rewrite Sz. reflexivity. }
  split; [exact L3|]. split; [exact Pm|]. split; [exact OA|]. split; [exact Sb|].
  assert (SM : shape y = [1; 1; m]). { destruct Sy as [[-> _]|(d & -> & ->)]; [reflexivity|]. inversion Ones; subst. reflexivity. }
  rewrite SM in SG, FG. cbn in EA, SG. destruct FG as [[RG _]|FG].
  - left. destruct (shape G) as [|d0 [|d1 [|]]] eqn:EG; [discriminate|discriminate| |cbn in RG; lia].
    injection Ej0 as ->. subst j0. f_equal. f_equal. cbn in SG. lia.
  - right. assert (EG : shape G = [1; 1; m]). { destruct FG as [FG|[_ FG]]; rewrite FG; [reflexivity|]. cbn. do 3 f_equal. lia. }
    rewrite EG in Ej1. injection Ej1 as <-. assert (m = 1) by lia. subst m. auto.
Qed.

(** ** All operations together *)

Lemma computed_yields k xs (y G : raw T) gs :
  computed k xs y -> wf G -> size (shape G) = size (shape y) -> hands_on k (map shape xs) (shape G) gs ->
  yields (jvp k xs [G]) gs /\ Forall2 (fun g x => size g = size (shape x)) gs xs.
Proof.
  intros [HO|(-> & a & b & -> & Wa & Wb & Pa & Pb & L3 & MM)] WG SG HH; [apply (hands_on_yields k xs y); auto|].
  assert (S1 : forall r, size (repeat 1 r) = 1) by (induction r; cbn [repeat size]; lia).
  cbn [map] in HH. inversion HH as [| | | | | | | |n' k' m' E1 E2 E3|r m R3 E1 E2 E3|r R3 E1 E2 E3| | |]; subst.
  - rewrite <- E2 in L3. cbn in L3. lia.
  - match goal with Q : [1; m] = shape b |- _ => rename Q into Eb end. match goal with Q : [1; m] = shape G |- _ => rename Q into EG end.
    assert (Pm : 0 < m) by (rewrite <- Eb in Pb; inversion Pb as [|? ? ? Q]; inversion Q; auto).
    split; [apply (bmm_ones_yields a b G r m); auto; lia|]. constructor; [rewrite <- E2, S1; reflexivity|]. constructor; [rewrite <- Eb; reflexivity|constructor].
  - match goal with Q : [1; 1] = shape b |- _ => rename Q into Eb end. match goal with Q : [1; 1; 1] = shape G |- _ => rename Q into EG end.
    split; [apply (bmm_ones_yields a b G r 1); auto; lia|]. constructor; [rewrite <- E2, S1; reflexivity|]. constructor; [rewrite <- Eb; reflexivity|constructor].
Qed.

Lemma computed_only k xs (y G : raw T) rs :
  computed k xs y -> wf G -> size (shape G) = size (shape y) -> form (shape y) (shape G) ->
  jvp k xs [G] = Ret rs -> Forall2 (fun g x => length (array g) = size (shape x)) rs xs ->
  exists gs, hands_on k (map shape xs) (shape G) gs.
Proof.
  intros [HO|(-> & a & b & -> & Wa & Wb & Pa & Pb & L3 & MM)] WG SG FG E L.
  - apply (hands_on_only k xs y G rs); auto. intros ->.
    assert (Ly : length (shape y) = 2) by (inversion HO; reflexivity). destruct FG as [[RG _]|[FG|[L3 _]]]; [exact RG|rewrite FG, Ly; auto|lia].
  - destruct (deep_only a b y G rs) as (r & m & R3 & Pm & Sa & Sb & Q); auto. cbn [map]. rewrite Sa, Sb. destruct Q as [Q|[Q ->]]; rewrite Q; eexists.
    + apply ho_bmm_ones. exact R3.
    + apply ho_bmm_one. exact R3.
Qed.

Lemma computed_count k xs (y G : raw T) rs : computed k xs y -> jvp k xs [G] = Ret rs -> length rs = length xs.
Proof.
  intros [HO|(-> & a & b & -> & _)] E; [exact (jvp_count _ _ _ _ _ HO E)|].
  unfold jvp, bmm_jvp in E. cbn [two_one bind] in E. repeat (apply bind_Ret_inv in E as (? & _ & E); try (apply Ret_inj in E; subst rs; reflexivity)).
Qed.

Lemma form_row s n : form s [1; n].
Proof. left. cbn. auto. Qed.

Lemma form_closed k xs (y : raw T) g gs : computed k xs y -> hands_on k (map shape xs) g gs -> form (shape y) g ->
  Forall2 (fun g x => form (shape x) g) gs xs.
Proof.
  intros HO HH FG.
  assert (A2 : forall (P : list nat -> raw T -> Prop) g1 g2 x1 x2, P g1 x1 -> P g2 x2 -> Forall2 P [g1; g2] [x1; x2]) by (intros; repeat constructor; auto).
  assert (A1 : forall (P : list nat -> raw T -> Prop) g1 x1, P g1 x1 -> Forall2 P [g1] [x1]) by (intros; repeat constructor; auto).
  destruct HO as [HO|(-> & a & b & -> & _)].
  - destruct HO; cbn [map] in HH; inversion HH; subst; try (apply A2; apply form_row); try (apply A1; apply form_row); cbn [shape tabulate] in FG.
    + (* tanh *) apply A1. right. right. split; [|reflexivity].
      destruct FG as [[FG _]|[FG|[FG _]]]; [|rewrite <- FG|exact FG]; try (rewrite app_length, repeat_length in *; cbn [length] in *; lia).
    + apply A2; right; left; auto.
    + apply A2; right; left; auto.
    + assert (Q : forall x : raw T, form (shape x) g).
      { intros x. left. destruct FG as [FG|[-> |[L3 _]]]; [exact FG|cbn; auto|cbn in L3; lia]. }
      apply A2; apply Q.
  - cbn [map] in HH. inversion HH; subst; apply A2; apply form_row.
Qed.

(** ** The whole traversal *)
Variable ns : list (node T).

(** Every node is a non-empty tensor and the value of its operation on earlier nodes *)
Definition graph_any : Prop := forall n nd, nth_error ns n = Some nd ->
  wf (n_val nd) /\ positive (shape (n_val nd)) /\
  forall k ins, n_fn nd = Some (k, ins) -> Forall (fun i => i < n) ins /\ computed k (map (vof ns) ins) (n_val nd).
Hypothesis HG : graph_any.

Lemma vof_any n : n < length ns -> wf (vof ns n) /\ positive (shape (vof ns n)).
Proof. intros Hn. destruct (node_lt ns n Hn) as [nd E]. rewrite (vof_some ns _ _ E). destruct (HG n nd E) as (H1 & H2 & _). auto. Qed.

Lemma op_any n k ins : fn_of ns n = Some (k, ins) -> n < length ns /\ Forall (fun i => i < n) ins /\ computed k (map (vof ns) ins) (vof ns n).
Proof.
  intros E. unfold fn_of in E. destruct (nth_error ns n) as [nd|] eqn:En; [|discriminate].
  split; [apply nth_error_Some; congruence|]. rewrite (vof_some ns _ _ En). apply (HG n nd En). exact E.
Qed.

Lemma update_any gr i (g : raw T) :
  i < length ns -> gr_ok ns gr -> wf g -> shape g = shape (vof ns i) ->
  exists gr', update_grad gr i g = Ret gr' /\ gr_ok ns gr'.
Proof.
  intros Hi Hgr Hg Hs. unfold update_grad. destruct (vof_any i Hi) as [Hv Hp].
  assert (Hupd : forall s, wf s /\ positive (shape s) /\ ((forall ins, fn_of ns i <> Some (KSum, ins)) -> shape s = shape (vof ns i)) -> gr_ok ns (upd gr i (Some s))).
  { intros s Hs' n g' E Hn. unfold upd in E. destruct (Nat.eqb_spec n i) as [->|]; [|apply Hgr; auto]. injection E as <-. exact Hs'. }
  destruct (gr i) as [o|] eqn:Eo.
  - destruct (Hgr i o Eo Hi) as (Ho & Po & So).
    assert (Hb : exists s, bcast (shape o) (shape g) s /\ positive s /\ ((forall ins, fn_of ns i <> Some (KSum, ins)) -> s = shape (vof ns i))).
    { assert (D : (exists ins, fn_of ns i = Some (KSum, ins)) \/ (forall ins, fn_of ns i <> Some (KSum, ins))).
      { destruct (fn_of ns i) as [[[] ins]|]; try (right; congruence). left; eauto. }
      destruct D as [(ins & Ef)|D].
      - destruct (op_any i _ ins Ef) as (_ & _ & [HO|(Q & _)]); [|discriminate].
        assert (E0 : shape (vof ns i) = []) by (inversion HO; reflexivity).
        rewrite E0 in Hs. exists (shape o). rewrite Hs. split; [constructor|]. split; [exact Po|].
        intros X. exfalso. exact (X ins Ef).
      - exists (shape (vof ns i)). rewrite Hs, So by auto. split; [apply bcast_self|]. auto. }
    destruct Hb as (s & B1 & B2 & B3).
    unfold add_raw. rewrite (binop_raw_ok o g s) by (auto; congruence). cbn [bind]. eexists. split; [reflexivity|].
    apply Hupd. split; [apply tabulate_wf|]. cbn [shape tabulate]. auto.
  - eexists. split; [reflexivity|]. apply Hupd. rewrite Hs. auto.
Qed.


Definition ready f (g : raw T) i : Prop :=
  i < length ns /\ length (array g) = size (shape (vof ns i)) /\
  forall k ins' gr, fn_of ns i = Some (k, ins') -> gr_ok ns gr -> exists gr', compute_jvp f ns k ins' [g] gr = Ret gr' /\ gr_ok ns gr'.

Definition visit f (gr : nat -> option (raw T)) (u : raw T * (nat * node T)) : outcome (nat -> option (raw T)) :=
  let (g, ind) := u in let (i, nd) := ind in
  assert (length (array g) =? length (array (n_val nd))) ;;
  let* shaped_grad := raw_new (array g) (shape (n_val nd)) in
  let* gr' := update_grad gr i shaped_grad in
  match n_fn nd with
  | Some (k', inputs') => compute_jvp f ns k' inputs' [g] gr'
  | None => Ret gr'
  end.

Lemma inputs_flow f : forall ins gs gr, Forall2 (ready f) gs ins -> gr_ok ns gr ->
  exists nds gr', mapM (vindex ns) ins = Ret nds /\ map n_val nds = map (vof ns) ins /\
    foldM (visit f) (combine gs (combine ins nds)) gr = Ret gr' /\ gr_ok ns gr'.
Proof.
  induction ins as [|i ins IH]; intros gs gr HM Hgr.
  - inversion HM; subst. exists [], gr. auto.
  - inversion HM as [|g ? gs' ? (Hi & Hsz & Hs) HM']; subst.
    destruct (node_lt ns i Hi) as [nd End].
    assert (Ev : vof ns i = n_val nd) by (apply vof_some; auto).
    destruct (vof_any i Hi) as [Hv Hp].
    set (sg := mkRaw (array g) (shape (vof ns i))).
    destruct (update_any gr i sg Hi Hgr) as (gr1 & U1 & U2); [unfold wf; auto|reflexivity|].
    assert (Hstep : exists gr2,
      (match n_fn nd with Some (k', inputs') => compute_jvp f ns k' inputs' [g] gr1 | None => Ret gr1 end) = Ret gr2 /\ gr_ok ns gr2).
    { destruct (n_fn nd) as [[k' ins']|] eqn:Ef; [|eauto].
      apply Hs; [|exact U2]. rewrite (fn_some ns _ _ End). exact Ef. }
    destruct Hstep as (gr2 & S1 & S2).
    destruct (IH gs' gr2) as (nds & gr' & F1 & F2 & F3 & F4); auto.
    exists (nd :: nds), gr'. cbn [mapM]. rewrite (vindex_some _ _ _ _ End). cbn [bind]. rewrite F1. cbn [bind].
    split; [reflexivity|]. split; [cbn; congruence|]. split; [|auto].
    cbn [combine foldM]. unfold visit at 1. rewrite <- Ev.
    assert (length (array (vof ns i)) = size (shape (vof ns i))) as -> by exact Hv.
    rewrite Hsz, Nat.eqb_refl. cbn [assert bind]. rewrite raw_new_ok by auto. cbn [bind]. fold sg. rewrite U1. cbn [bind].
    rewrite S1. cbn [bind]. exact F3.
Qed.

Theorem flow_succeeds : forall fuel n k ins G gr,
  n < fuel -> fn_of ns n = Some (k, ins) -> wf G -> size (shape G) = size (shape (vof ns n)) -> gets_through ns n (shape G) -> gr_ok ns gr ->
  exists gr', compute_jvp fuel ns k ins [G] gr = Ret gr' /\ gr_ok ns gr'.
Proof.
  induction fuel as [|fuel IH]; intros n k ins G gr Hf Ef WG SG HT Hgr; [lia|].
  destruct (op_any n k ins Ef) as (Hn & Hlt & HO).
  inversion HT as [|? k' ins' ? gs E' HH HF]; subst; [congruence|]. rewrite Ef in E'. injection E' as <- <-.
  rewrite <- (map_map (vof ns) shape) in HH.
  destruct (computed_yields k (map (vof ns) ins) (vof ns n) G gs HO WG SG HH) as [(rs & Ej & Es & HW) HS].
  destruct (inputs_flow fuel ins rs gr) as (nds & gr' & E1 & E2 & E3 & E4); auto.
  - subst gs. clear HT HH HO Ej Ef SG. revert rs HW HF HS. induction ins as [|i ins IHl]; intros [|r rs] HW HF HS; cbn [map] in *; try solve [inversion HF]; [constructor|].
    inversion HW as [|? ? Wr HW']; subst. inversion HF as [|? ? ? ? Fr HF']; subst. inversion HS as [|? ? ? ? Sr HS']; subst. inversion Hlt as [|? ? Li Hlt']; subst.
    constructor; [|auto]. split; [lia|]. split; [unfold wf in Wr; congruence|]. intros k' ins' gr0 E' Hg0. apply (IH i); auto. lia.
  - exists gr'. cbn [compute_jvp]. rewrite E1. cbn [bind]. rewrite E2, Ej. cbn [bind]. auto.
Qed.

Lemma visit_inv f : forall l gr gr', foldM (visit f) l gr = Ret gr' ->
  Forall (fun '(g, (i, nd)) => length (array g) = length (array (n_val nd)) /\
     forall k' ins', n_fn nd = Some (k', ins') -> exists gr1 gr2, compute_jvp f ns k' ins' [g] gr1 = Ret gr2) l.
Proof.
  induction l as [|[g [i nd]] l IH]; intros gr gr' E; [constructor|]. cbn [foldM] in E. apply bind_Ret_inv in E as (gr1 & E1 & E). constructor; [|exact (IH _ _ E)].
  unfold visit in E1. apply bind_Ret_inv in E1 as (u & Ea & E1). apply assert_inv in Ea. apply Nat.eqb_eq in Ea. split; [exact Ea|].
  apply bind_Ret_inv in E1 as (sg & _ & E1). apply bind_Ret_inv in E1 as (gr2 & _ & E1). intros k' ins' Ef. rewrite Ef in E1. eauto.
Qed.

Theorem flow_only : forall fuel n k ins G gr gr',
  fn_of ns n = Some (k, ins) -> wf G -> size (shape G) = size (shape (vof ns n)) -> form (shape (vof ns n)) (shape G) ->
  compute_jvp fuel ns k ins [G] gr = Ret gr' -> gets_through ns n (shape G).
Proof.
  induction fuel as [|fuel IH]; intros n k ins G gr gr' Ef WG SG RG E; [discriminate|].
  destruct (op_any n k ins Ef) as (Hn & Hlt & HO). cbn [compute_jvp] in E.
  apply bind_Ret_inv in E as (nds & E1 & E). apply bind_Ret_inv in E as (rs & Ej & E).
  change (foldM (visit fuel) (combine rs (combine ins nds)) gr = Ret gr') in E. apply visit_inv in E.
  apply mapM_Forall2 in E1.
  assert (Ev : map n_val nds = map (vof ns) ins /\ map n_fn nds = map (fn_of ns) ins).
  { clear - E1. induction E1 as [|i nd ins nds Hi _ [IH1 IH2]]; [auto|]. cbn [map].
    assert (Q : nth_error ns i = Some nd) by (unfold vindex in Hi; destruct (nth_error ns i); [injection Hi as <-; reflexivity|discriminate]).
    rewrite IH1, IH2, (vof_some ns _ _ Q), (fn_some ns _ _ Q). auto. }
  destruct Ev as [Ev Efn]. rewrite Ev in Ej. pose proof (computed_count _ _ _ _ _ HO Ej) as Lc. rewrite map_length in Lc.
  assert (HF : Forall2 (fun g i => length (array g) = size (shape (vof ns i)) /\
     forall k' ins', fn_of ns i = Some (k', ins') -> exists gr1 gr2, compute_jvp fuel ns k' ins' [g] gr1 = Ret gr2) rs ins).
  { clear - E Lc Ev Efn Hlt Hn HG. revert rs nds E Lc Ev Efn. induction ins as [|i ins IHl]; intros [|r rs] [|nd nds] E Lc Ev Efn; try discriminate; [constructor|].
    cbn [map combine length] in *. injection Ev as Ev1 Ev. injection Efn as Ef1 Efn. inversion E as [|? ? EE E']; subst. cbv beta iota in EE. destruct EE as [E1 E2]. inversion Hlt as [|? ? Li Hlt']; subst.
    constructor; [|apply (IHl Hlt' rs nds); auto]. split.
    - rewrite E1, Ev1. apply (vof_any). lia.
    - intros k' ins' Q. rewrite Ef1 in E2. eauto. }
  destruct (computed_only k (map (vof ns) ins) (vof ns n) G rs HO WG SG RG) as [gs HH]; [exact Ej| |].
  { clear - HF. induction HF as [|g i rs ins [H1 _] _ IH]; constructor; auto. }
  destruct (computed_yields k (map (vof ns) ins) (vof ns n) G gs HO WG SG HH) as [(rs' & Ej' & Es & HW) HS].
  rewrite Ej in Ej'. apply Ret_inj in Ej'. subst rs'. pose proof (form_closed _ _ _ _ _ HO HH RG) as HR.
  rewrite (map_map (vof ns) shape) in HH. eapply gt_op; [exact Ef|exact HH|]. subst gs.
  clear - HW HS HR HF IH. revert rs HW HS HR HF. induction ins as [|i ins IHl]; intros rs HW HS HR HF; inversion HF as [|r ? rs' ? [F1 F2] HF']; subst; [constructor|].
  cbn [map] in *. inversion HW as [|? ? W1 HW']; subst. inversion HS as [|? ? ? ? S1 HS']; subst. inversion HR as [|? ? ? ? R1 HR']; subst.
  constructor; [|apply IHl; auto]. destruct (fn_of ns i) as [[k' ins']|] eqn:Efi; [|apply gt_leaf; exact Efi].
  destruct (F2 _ _ eq_refl) as (gr1 & gr2 & E2). exact (IH _ _ _ _ _ _ Efi W1 S1 R1 E2).
Qed.

End FlowFacts.

Fixpoint gets_through_same (T U : Type) (NT : Num T) (NU : Num U) (ns : list (node T)) (ns' : list (node U))
    (HS : forall i, shape (vof ns i) = shape (vof ns' i) /\ fn_of ns i = fn_of ns' i) i g (H : gets_through ns i g) {struct H} : gets_through ns' i g.
Proof.
  destruct H as [i g E|i k ins g gs E HH HF].
  - apply gt_leaf. rewrite <- (proj2 (HS i)). exact E.
  - apply (gt_op ns' i k ins g gs).
    + rewrite <- (proj2 (HS i)). exact E.
    + rewrite <- (map_ext (fun j => shape (vof ns j)) (fun j => shape (vof ns' j)) (fun j => proj1 (HS j))). exact HH.
    + clear HH E. induction HF as [|j g' ins' gs' Hj HF' IH]; constructor; [|exact IH]. exact (gets_through_same T U NT NU ns ns' HS j g' Hj).
Qed.

Lemma graph_any_of (T : Type) (NT : Num T) (ns : list (node T)) : recorded ns -> nonempty ns -> graph_any ns.
Proof.
  intros HR HN n nd En. destruct (HR n nd En) as [W Q].
  assert (Hn : n < length ns) by (apply nth_error_Some; congruence).
  assert (Ev : vof ns n = n_val nd) by (unfold vof; rewrite En; reflexivity).
  split; [exact W|]. split; [rewrite <- Ev; auto|]. intros k ins E. destruct (Q k ins E) as [Q1 Q2]. split; [exact Q1|].
  apply fwd_computed; [exact Q2|].
  apply Forall_forall. intros x Hx. apply in_map_iff in Hx as (i & <- & Hi). rewrite Forall_forall in Q1. specialize (Q1 i Hi).
  split; [|apply HN; lia]. unfold vof. destruct (nth_error ns i) as [ndi|] eqn:Ei; [|reflexivity]. apply (HR i ndi Ei).
Qed.

(** Whatever the root uses gets a gradient. *)
Lemma gets_through_uses (T : Type) (NT : Num T) (ns : list (node T)) r n : uses ns r n -> forall g, gets_through ns r g -> exists g', gets_through ns n g'.
Proof.
  induction 1 as [i|i k ins j n E Hj U IH]; intros g HT; [eauto|].
  inversion HT as [|? k' ins' ? gs E' HH FF]; subst; [congruence|]. rewrite E in E'. injection E' as <- <-.
  assert (D : exists g', gets_through ns j g').
  { clear - FF Hj. induction FF as [|x y l l' H FF IH]; [destruct Hj|]. destruct Hj as [<-|Hj]; eauto. }
  destruct D as [g' D]. eauto.
Qed.
