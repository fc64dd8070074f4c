(** * Adjoint: every backward rule is the transpose of the operation's directional derivative *)
From Coq Require Import Ring Ring_theory.
From Verif Require Import Base ModelIndex ModelTensor ModelOps ModelJvp ModelGraph Spec SpecDual
  Lists IndexFacts TensorFacts OpsFacts Sums JvpFacts Dual ClaimsOps ClaimsMat.

Section Adjoint.
Context {T : Type} {NT : Num T} (RT : is_ring T).
Let RT' : ring_theory n_zero n_one n_add n_mul n_sub n_neg (@eq T) := RT.
Add Ring TRing : RT'.

Lemma nth_tabulate s (f : list nat -> T) o d : o < size s -> nth o (array (tabulate s f)) d = f (unravel s o).
Proof.
  intros H. unfold tabulate. cbn [array]. rewrite (nth_map' _ _ f _ _ _ []) by (rewrite all_indices_length; auto).
  rewrite nth_all_indices by auto. reflexivity.
Qed.

Lemma tval_unravel (x : raw T) s o : shape x = s -> o < size s -> tval x (unravel s o) = nth o (array x) n_zero.
Proof. intros <- H. unfold tval. rewrite rm_unravel by auto. reflexivity. Qed.

Lemma tab_length s (f : list nat -> T) : length (array (tabulate s f)) = size s.
Proof. apply (tabulate_wf s f). Qed.

Lemma total_one g r d : total [g] r [d] = row_dot g r d.
Proof. unfold total, lsum. cbn. ring. Qed.
Lemma total_two g g' r d d' : total [g; g'] r [d; d'] = n_add (row_dot g r d) (row_dot g' r d').
Proof. unfold total, lsum. cbn. ring. Qed.

Lemma row_dot_tab d0 N f r d :
  r < d0 -> length (array d) = N ->
  row_dot (tabulate [d0; N] f) r d = sumn N (fun p => n_mul (f [r; p]) (nth p (array d) n_zero)).
Proof.
  intros Hr Hd. unfold row_dot. rewrite Hd. apply sumn_ext. intros p Hp.
  rewrite tval_tabulate by (apply in_range_pair; auto). reflexivity.
Qed.

Lemma adj_unary (a G : raw T) d0 deriv :
  wf a -> positive (shape a) -> grad_rows G d0 (size (shape a)) ->
  exists gs, generic_unary_jvp a G deriv = Ret gs /\ matrices gs [a] d0 /\
    forall da r dy, tangent a da -> r < d0 -> tangent a dy ->
      (forall o, o < size (shape a) -> nth o (array dy) n_zero = n_mul (deriv (nth o (array a) n_zero)) (nth o (array da) n_zero)) ->
      total gs r [da] = rhs G r dy.
Proof.
  intros Ha Pa HG. rewrite (unary_jvp_ok a G d0) by auto. eexists. split; [reflexivity|]. split.
  - constructor; [|constructor]. split; [apply tabulate_wf|reflexivity].
  - intros da r dy (H1 & H2) Hr (H3 & H4) E. unfold wf in *. rewrite total_one, row_dot_tab by congruence.
    unfold rhs. rewrite H3, H4. apply sumn_ext. intros p Hp. unfold ix. cbn [nth].
    rewrite (E p Hp). ring.
Qed.

Lemma side_dot (G d : raw T) d0 N bs s (r : nat) :
  r < d0 -> wf d -> shape d = s -> N = size bs ->
  (forall g, g < N -> src s bs g < size s) ->
  row_dot (tabulate [d0; size s] (fun i =>
    lsum (map (fun g => n_mul n_one (gval G (ix 0 i) g)) (filter (fun g => src s bs g =? ix 1 i) (seq 0 N))))) r d =
  sumn N (fun o => n_mul (gval G r o) (tval d (clamp s (unravel bs o)))).
Proof.
  intros Hr Hd Hs HN Hsrc. unfold wf in Hd. rewrite row_dot_tab by (auto; congruence).
  unfold ix. cbn [nth]. rewrite !sumn_bsum.
  transitivity (bsum (seq 0 (size s)) (fun p => bsum (seq 0 N) (fun g => if src s bs g =? p then n_mul (gval G r g) (nth (src s bs g) (array d) n_zero) else n_zero))).
  - apply bsum_ext. intros p _.
    change (lsum (map ?f ?l)) with (bsum l f).
    induction (seq 0 N) as [|g l IH]; cbn [filter].
    + unfold bsum, lsum. cbn. ring.
    + rewrite (bsum_cons RT _ g l). destruct (Nat.eqb_spec (src s bs g) p) as [<-|].
      * rewrite (bsum_cons RT). rewrite <- IH. ring.
      * rewrite <- IH. ring.
  - rewrite (bsum_group RT _ _ Nat.eqb).
    + apply bsum_ext. intros g Hg. f_equal. unfold tval, src. rewrite Hs. reflexivity.
    + intros; apply Nat.eqb_eq.
    + apply seq_NoDup.
    + intros g Hg. apply in_seq in Hg. apply in_seq. pose proof (Hsrc g ltac:(lia)). lia.
Qed.

Lemma bsum_seq_mul n m (f : nat -> T) :
  bsum (seq 0 (n * m)) f = bsum (seq 0 n) (fun i => bsum (seq 0 m) (fun j => f (i * m + j))).
Proof.
  rewrite seq_flat, (bsum_flat_map RT). apply bsum_ext. intros i _. rewrite seq_shift', (bsum_map). reflexivity.
Qed.

Lemma adjoint k xs y G d0 :
  opspec k xs y -> grad_rows G d0 (size (shape y)) -> vjp_ok k xs G d0 ->
  exists gs, jvp k xs [G] = Ret gs /\ matrices gs xs d0 /\
    forall ds r, Forall2 tangent xs ds -> r < d0 -> total gs r ds = rhs G r (tan k xs ds).
Proof.
  intros HO HG HV.
  pose proof (opspec_wf _ _ _ HO) as [Hwy Hpy].
  destruct HO; cbn [vjp_ok] in HV; cbn [shape tabulate raw_scalar] in HG.
  - (* add *)
    unfold jvp, add_jvp. cbn [two_one bind].
    rewrite (binop_jvp_ok a b G d0 s) by auto. eexists. split; [reflexivity|]. split.
    + constructor; [|constructor; [|constructor]]; (split; [apply tabulate_wf|reflexivity]).
    + intros ds r HF Hr. inversion HF as [|? da ? ds' Ta HF1]; subst. inversion HF1 as [|? db ? ds'' Tb HF2]; subst. inversion HF2; subst.
      rewrite total_two. destruct Ta as [A1 A2], Tb as [B1 B2].
      rewrite (side_dot G da d0 _ s (shape a) r Hr A1 A2 eq_refl (fun g => src_lt _ _ s g H3)).
      rewrite (side_dot G db d0 _ s (shape b) r Hr B1 B2 eq_refl (fun g => src_lt _ _ s g (bcast_sym _ _ _ H3))).
      unfold rhs. cbn [tan]. rewrite tab_length. rewrite <- (bcast_max_shape _ _ _ H1 H2 H3).
      rewrite <- (sumn_add RT). apply sumn_ext. intros o Ho. rewrite nth_tabulate by auto. ring.
  - (* neg *)
    unfold jvp, neg_jvp. change (vindex [a] 0) with (Ret a). change (vindex [G] 0) with (Ret G). cbn [bind].
    destruct (adj_unary a G d0 (fun _ => n_neg n_one) H H0 HG) as (gs & E & M & A).
    exists gs. split; [exact E|]. split; [exact M|]. intros ds r HF Hr.
    inversion HF as [|? da ? ds' Ta HF1]; subst. inversion HF1; subst. apply A; auto.
    + split; [apply tabulate_wf|reflexivity].
    + intros o Ho. cbn [tan]. rewrite nth_tabulate by auto. destruct Ta. rewrite tval_unravel by auto. ring.
  - (* abs *)
    unfold jvp, abs_jvp. cbn [one_one bind].
    destruct HG as (G1 & G2 & G3 & [G4|(G4 & _)]); [|congruence]. rewrite G4. cbn [length Nat.eqb assert bind].
    destruct (adj_unary a G d0 (fun x => if n_ge x n_zero then n_one else n_sub n_zero n_one) H H0) as (gs & E & M & A).
    { repeat split; auto. }
    exists gs. split; [exact E|]. split; [exact M|]. intros ds r HF Hr.
    inversion HF as [|? da ? ds' Ta HF1]; subst. inversion HF1; subst. apply A; auto.
    + split; [apply tabulate_wf|reflexivity].
    + intros o Ho. cbn [tan]. rewrite nth_tabulate by auto. destruct Ta. rewrite !tval_unravel by auto.
      destruct (n_ge (nth o (array a) n_zero) n_zero); ring.
  - (* relu *)
    unfold jvp, relu_jvp. cbn [one_one bind].
    destruct (adj_unary a G d0 (fun x => if n_lt x n_zero then n_zero else n_one) H H0 HG) as (gs & E & M & A).
    exists gs. split; [exact E|]. split; [exact M|]. intros ds r HF Hr.
    inversion HF as [|? da ? ds' Ta HF1]; subst. inversion HF1; subst. apply A; auto.
    + split; [apply tabulate_wf|reflexivity].
    + intros o Ho. cbn [tan]. rewrite nth_tabulate by auto. destruct Ta. rewrite !tval_unravel by auto.
      destruct (n_lt (nth o (array a) n_zero) n_zero); ring.
  - (* tanh *)
    unfold jvp, tanh_jvp. cbn [one_one bind].
    set (N := size (shape a)) in *.
    set (d := fun x : T => n_sub n_one (n_mul (n_tanh x) (n_tanh x))).
    set (J := tabulate [N; N] (fun i => if ix 0 i =? ix 1 i then d (nth (ix 0 i) (array a) n_zero) else n_zero)).
    assert (EJ : tanh_derivative a = Ret J).
    { unfold tanh_derivative. rewrite product_size. fold N.
      rewrite (mapM_pure _ _ _ (fun '(i, j) => if i =? j then d (nth i (array a) n_zero) else n_zero)).
      - cbn [bind]. rewrite list_prod_flat, map_flat_map.
        replace (flat_map _ _) with (map (fun i => if ix 0 i =? ix 1 i then d (nth (ix 0 i) (array a) n_zero) else n_zero) (all_indices [N; N])).
        + apply raw_new_tab.
        + rewrite all_indices_2, map_flat_map. apply flat_map_ext_in. intros i _. rewrite !map_map. reflexivity.
      - intros [i j] Hij. apply in_prod_iff in Hij as [Hi Hj]. apply in_seq in Hi, Hj.
        destruct (Nat.eqb_spec i j); [|reflexivity]. rewrite (vindex_lt _ _ _ n_zero) by (unfold wf in H; fold N in H; lia). reflexivity. }
    rewrite EJ. cbn [bind].
    assert (EG : jvp_from_full_jacobians G J =
       Ret (tabulate [d0; N] (fun i => n_mul (gval G (ix 0 i) (ix 1 i)) (d (nth (ix 1 i) (array a) n_zero))))).
    { unfold jvp_from_full_jacobians. rewrite !product_size. cbn [is_scalar J shape tabulate].
      destruct HG as (G1 & G2 & G3 & G4).
      destruct G4 as [G4|(G4 & -> & EN)].
      - rewrite G4. rewrite !size_row.
        assert (is_scalar G = false) as -> by (unfold is_scalar; rewrite G4; apply andb_false_r).
        assert (is_scalar J = false) as -> by apply andb_false_r. cbn [orb].
        destruct (Nat.eqb_spec (d0 * N) 1) as [E1|E1].
        + assert (d0 = 1 /\ N = 1) as [-> EN] by nia. rewrite orb_true_r. cbn [assert bind].
          rewrite (mul_same G (LRaw J)); [|auto| |cbn [tl_shape J shape tabulate]; rewrite G4, EN; reflexivity|rewrite G4; congruence].
          * rewrite G4. f_equal. apply tabulate_ext. intros i Hi. apply in_range2 in Hi as (r & p & -> & Hr & Hp).
            unfold gval. rewrite G4. unfold ix. cbn [nth]. assert (r = 0) by lia. assert (p = 0) by lia. subst r p. f_equal.
            unfold tl_val, J. rewrite tval_tabulate by (apply in_range_pair; lia). reflexivity.
          * split; [cbn; apply tabulate_wf|]. cbn [tl_shape J shape tabulate]. repeat constructor; lia.
        + destruct HV as [->|HV].
          * rewrite Nat.mul_1_l in E1. destruct (Nat.eqb_spec (N * N) 1) as [E2|E2]; [nia|]. cbn [orb].
            rewrite (bmm2_ok (LRaw G) (LRaw J) 1 N N) by (auto; cbn; apply tabulate_wf).
            unfold mm. f_equal. apply tabulate_ext. intros i Hi. apply in_range2 in Hi as (r & p & -> & Hr & Hp).
            unfold gval. rewrite G4. unfold ix. cbn [nth tl_val].
            rewrite <- (sumn_delta RT N p (fun t => n_mul (tval G [r; t]) (d (nth t (array a) n_zero)))) by auto.
            apply sumn_ext. intros t Ht. unfold J. rewrite tval_tabulate by (apply in_range_pair; auto). unfold ix. cbn [nth].
            destruct (t =? p); ring.
          * inversion HV as [|? ? HV1 _]; subst. fold N in HV1. destruct (Nat.eqb_spec (N * N) 1) as [E2|E2]; [nia|]. cbn [orb].
            rewrite (bmm2_ok (LRaw G) (LRaw J) d0 N N) by (auto; cbn; apply tabulate_wf).
            unfold mm. f_equal. apply tabulate_ext. intros i Hi. apply in_range2 in Hi as (r & p & -> & Hr & Hp).
            unfold gval. rewrite G4. unfold ix. cbn [nth tl_val].
            rewrite <- (sumn_delta RT N p (fun t => n_mul (tval G [r; t]) (d (nth t (array a) n_zero)))) by auto.
            apply sumn_ext. intros t Ht. unfold J. rewrite tval_tabulate by (apply in_range_pair; auto). unfold ix. cbn [nth].
            destruct (t =? p); ring.
      - destruct (scalar_shape G G1 G4) as [c ->]. change (is_scalar (raw_scalar c)) with true. cbn [orb]. rewrite orb_true_r. cbn [assert bind].
        rewrite mul_scalar_l by apply tabulate_wf. cbn [J shape tabulate]. rewrite EN. f_equal. apply tabulate_ext.
        intros i Hi. apply in_range2 in Hi as (r & p & -> & Hr & Hp). assert (r = 0) by lia. assert (p = 0) by lia. subst r p.
        unfold J. rewrite EN. rewrite tval_tabulate by (apply in_range_pair; lia). reflexivity. }
    rewrite EG. cbn [bind]. eexists. split; [reflexivity|]. split.
    + constructor; [|constructor]. split; [apply tabulate_wf|reflexivity].
    + intros ds r HF Hr. inversion HF as [|? da ? ds' Ta HF1]; subst. inversion HF1; subst. destruct Ta as [A1 A2].
      unfold wf in A1. rewrite total_one, row_dot_tab by (auto; rewrite A1, A2; reflexivity).
      unfold rhs. cbn [tan]. rewrite tab_length. fold N. apply sumn_ext. intros o Ho. rewrite nth_tabulate by auto.
      rewrite !tval_unravel by auto. unfold ix, d. cbn [nth]. ring.
  - (* sum *)
    destruct HV as [-> HV]. unfold jvp. rewrite (ones_ok a G 1 1) by auto. cbn [Nat.mul Nat.add]. eexists. split; [reflexivity|]. split.
    + constructor; [|constructor]. split; [apply tabulate_wf|reflexivity].
    + intros ds r HF Hr. inversion HF as [|? da ? ds' Ta HF1]; subst. inversion HF1; subst. destruct Ta as [A1 A2].
      unfold wf in A1. rewrite total_one, row_dot_tab by (auto; rewrite A1, A2; reflexivity).
      assert (r = 0) by lia. subst r. unfold rhs. cbn [tan raw_scalar array length]. unfold sumn at 2. cbn [seq map]. rewrite HV.
      unfold lsum at 1. cbn [fold_left nth]. rewrite A2 in A1. rewrite <- A1.
      transitivity (lsum (map (fun i => nth i (array da) n_zero) (seq 0 (length (array da))))).
      * apply sumn_ext. intros; ring.
      * rewrite map_nth_seq. ring.
  - (* bmm *)
    destruct HV as [HV1 HV2]. inversion HV2 as [|? ? HVa HV3]; subst. inversion HV3 as [|? ? HVb _]; subst.
    rewrite H3 in *. rewrite H4 in *. rewrite !size_row in *.
    destruct HG as (G1 & G2 & G3 & [G4|(G4 & _)]); [|congruence]. cbn [shape tabulate] in G4.
    assert (0 < n /\ 0 < k /\ 0 < m) as (Pn & Pk & Pm).
    { inversion H1 as [|? ? P1 Q1]; subst. inversion Q1; subst. inversion H2 as [|? ? P2 Q2]; subst. inversion Q2; subst. auto. }
    unfold jvp. rewrite (bmm_jvp_small a b G n k m d0) by auto. eexists. split; [reflexivity|]. split.
    + constructor; [|constructor; [|constructor]]; (split; [apply tabulate_wf|cbn [shape tabulate]; rewrite ?H3, ?H4, size_row; reflexivity]).
    + intros ds r HF Hr. inversion HF as [|? da ? ds' Ta HF1]; subst. inversion HF1 as [|? db ? ds'' Tb HF2]; subst. inversion HF2; subst.
      rewrite total_two. destruct Ta as [A1 A2], Tb as [B1 B2]. rewrite H3 in A2. rewrite H4 in B2.
      unfold wf in A1, B1.
      rewrite row_dot_tab by (auto; rewrite A1, A2; apply size_row).
      rewrite row_dot_tab by (auto; rewrite B1, B2; apply size_row).
      unfold rhs. cbn [tan]. rewrite tab_length. rewrite H3, H4. cbn [nth]. rewrite size_row.
      unfold ix. cbn [nth]. rewrite !sumn_bsum, !bsum_seq_mul.
      assert (gv : forall o, gval G r o = tval G [r; o]) by (intros; unfold gval; rewrite G4; reflexivity).
      (* the right-hand side, expanded *)
      transitivity (n_add
        (bsum (seq 0 n) (fun i => bsum (seq 0 k) (fun t => bsum (seq 0 m) (fun j =>
           n_mul (n_mul (tval G [r; i * m + j]) (tval b [t; j])) (tval da [i; t])))))
        (bsum (seq 0 k) (fun t => bsum (seq 0 m) (fun j => bsum (seq 0 n) (fun i =>
           n_mul (n_mul (tval G [r; i * m + j]) (tval a [i; t])) (tval db [t; j])))))).
      { f_equal.
        - apply bsum_ext. intros i Hi. apply bsum_ext. intros t Ht. apply in_seq in Hi, Ht.
          rewrite sumn_bsum, <- (bsum_mul_r RT). apply bsum_ext. intros j Hj. apply in_seq in Hj.
          replace ((i * k + t) / k) with i by (apply Nat.div_unique with t; lia).
          replace ((i * k + t) mod k) with t by (apply Nat.mod_unique with i; lia).
          f_equal. unfold tval. rewrite A2, rm_pair. reflexivity.
        - apply bsum_ext. intros t Ht. apply bsum_ext. intros j Hj. apply in_seq in Ht, Hj.
          rewrite sumn_bsum, <- (bsum_mul_r RT). apply bsum_ext. intros i Hi. apply in_seq in Hi.
          replace ((t * m + j) / m) with t by (apply Nat.div_unique with j; lia).
          replace ((t * m + j) mod m) with j by (apply Nat.mod_unique with t; lia).
          f_equal. unfold tval. rewrite B2, rm_pair. reflexivity. }
      transitivity (bsum (seq 0 n) (fun i => bsum (seq 0 m) (fun j => bsum (seq 0 k) (fun t =>
         n_add (n_mul (n_mul (tval G [r; i * m + j]) (tval b [t; j])) (tval da [i; t]))
               (n_mul (n_mul (tval G [r; i * m + j]) (tval a [i; t])) (tval db [t; j])))))).
      { symmetry.
        rewrite (bsum_ext _ (seq 0 n) _ (fun i => n_add
           (bsum (seq 0 k) (fun t => bsum (seq 0 m) (fun j => n_mul (n_mul (tval G [r; i * m + j]) (tval b [t; j])) (tval da [i; t]))))
           (bsum (seq 0 k) (fun t => bsum (seq 0 m) (fun j => n_mul (n_mul (tval G [r; i * m + j]) (tval a [i; t])) (tval db [t; j])))))).
        - rewrite (bsum_add RT). f_equal.
          rewrite (bsum_swap RT). apply bsum_ext. intros t _. apply (bsum_swap RT).
        - intros i _. rewrite (bsum_swap RT). rewrite <- (bsum_add RT). apply bsum_ext. intros t _. apply (bsum_add RT). }
      apply bsum_ext. intros i Hi. apply bsum_ext. intros j Hj. apply in_seq in Hi, Hj.
      rewrite nth_tabulate by (rewrite size_row; nia).
      rewrite unravel_pair by nia.
      replace ((i * m + j) / m) with i by (apply Nat.div_unique with j; lia).
      replace ((i * m + j) mod m) with j by (apply Nat.mod_unique with i; lia).
      cbn [nth]. rewrite gv, sumn_bsum, <- (bsum_mul_l RT). apply bsum_ext. intros t _. ring.
  - contradiction.
Qed.


(** [dot] with a scalar incoming gradient *)
Lemma adjoint_dot (a b : raw T) (c : T) y :
  opspec KDot [a; b] y ->
  jvp KDot [a; b] [raw_scalar c] =
    Ret [tabulate (shape b) (fun i => n_mul c (tval b i)); tabulate (shape a) (fun i => n_mul c (tval a i))] /\
  forall da db, tangent a da -> tangent b db ->
    n_add (sumn (length (array da)) (fun p => n_mul (nth p (array (tabulate (shape b) (fun i => n_mul c (tval b i)))) n_zero) (nth p (array da) n_zero)))
          (sumn (length (array db)) (fun p => n_mul (nth p (array (tabulate (shape a) (fun i => n_mul c (tval a i)))) n_zero) (nth p (array db) n_zero))) =
    n_mul c (nth 0 (array (tan KDot [a; b] [da; db])) n_zero).
Proof.
  intros HO. inversion HO as [| | | | | | |a' b' Ha Hb Pa Pb Hs]; subst. split.
  - unfold jvp, dot_jvp. cbn [two_one bind]. unfold jvp_from_full_jacobians.
    change (is_scalar (raw_scalar c)) with true. cbn [orb]. rewrite !orb_true_r. cbn [assert bind].
    rewrite !mul_scalar_l by auto. reflexivity.
  - intros da db (A1 & A2) (B1 & B2). cbn [tan array nth]. unfold wf in A1, B1. rewrite A1, B1, A2, B2.
    rewrite <- Hs in *. rewrite all_indices_unravel, map_map.
    match goal with |- _ = n_mul c (lsum (map ?f ?l)) => change (lsum (map f l)) with (sumn (size (shape a)) f) end.
    rewrite <- (sumn_add RT), <- (sumn_mul_l RT). apply sumn_ext. intros o Ho.
    rewrite !nth_tabulate by auto. rewrite !tval_unravel by (auto; congruence). ring.
Qed.

End Adjoint.
