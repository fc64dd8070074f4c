(** * ClaimsMat: proofs of C27-C30 *)
From Coq Require Import ZArith Ring Permutation.
From Verif Require Import Base ModelIndex ModelTensor ModelOps Spec Lists IndexFacts
  TensorFacts OpsFacts Sums Instances ClaimsTensor ClaimsView ClaimsOps.

(** ** C27 *)

Section Mat.
Context {T : Type} {NT : Num T} (RT : is_ring T).
Let RT' : ring_theory n_zero n_one n_add n_mul n_sub n_neg (@eq T) := RT.
Add Ring TRing : RT'.

Lemma sumn_ext n (f g : nat -> T) : (forall t, t < n -> f t = g t) -> sumn n f = sumn n g.
Proof. intros H. apply bsum_ext. intros a Ha. apply in_seq in Ha. apply H. lia. Qed.
Lemma sumn_add n (f g : nat -> T) : sumn n (fun t => n_add (f t) (g t)) = n_add (sumn n f) (sumn n g).
Proof. apply (bsum_add RT). Qed.
Lemma sumn_mul_l n c (f : nat -> T) : sumn n (fun t => n_mul c (f t)) = n_mul c (sumn n f).
Proof. apply (bsum_mul_l RT). Qed.
Lemma sumn_mul_r n c (f : nat -> T) : sumn n (fun t => n_mul (f t) c) = n_mul (sumn n f) c.
Proof. apply (bsum_mul_r RT). Qed.
Lemma sumn_swap n m (f : nat -> nat -> T) :
  sumn n (fun a => sumn m (fun b => f a b)) = sumn m (fun b => sumn n (fun a => f a b)).
Proof. apply (bsum_swap RT). Qed.
Lemma sumn_delta n k (f : nat -> T) : k < n -> sumn n (fun x => if x =? k then f x else n_zero) = f k.
Proof. apply (bsum_seq_delta RT). Qed.

Lemma in_range2 n m i : in_range [n; m] i <-> exists a b, i = [a; b] /\ a < n /\ b < m.
Proof.
  unfold in_range. split.
  - intros H. inversion H as [|? a ? l1 H1 H2]; subst. inversion H2 as [|? b ? l2 H3 H4]; subst.
    inversion H4; subst. eauto.
  - intros (a & b & -> & Ha & Hb). repeat constructor; auto.
Qed.
Lemma in_range3 n m p i : in_range [n; m; p] i <-> exists a b c, i = [a; b; c] /\ a < n /\ b < m /\ c < p.
Proof.
  unfold in_range. split.
  - intros H. inversion H as [|? a ? l1 H1 H2]; subst. apply in_range2 in H2 as (b & c & -> & Hb & Hc). eauto 10.
  - intros (a & b & c & -> & Ha & Hb & Hc). repeat constructor; auto.
Qed.

Lemma mm_assoc_aux k m (f : nat -> T) (g : nat -> nat -> T) (h : nat -> T) :
  sumn m (fun u => n_mul (sumn k (fun t => n_mul (f t) (g t u))) (h u)) =
  sumn k (fun t => n_mul (f t) (sumn m (fun u => n_mul (g t u) (h u)))).
Proof.
  transitivity (sumn m (fun u => sumn k (fun t => n_mul (n_mul (f t) (g t u)) (h u)))).
  - apply sumn_ext. intros u _. rewrite <- sumn_mul_r. reflexivity.
  - rewrite sumn_swap. apply sumn_ext. intros t _. rewrite <- sumn_mul_l. apply sumn_ext. intros u _. ring.
Qed.

End Mat.

(** C27: the matrix product is associative, for a matrix or a batch of matrices on the left. *)
Lemma c27_bmm_assoc :
  forall (T : Type) (NT : Num T) (a b c : raw T) (pre : list nat) (n k m p : nat),
    is_ring T -> wf a -> wf b -> wf c -> length pre <= 1 ->
    shape a = pre ++ [n; k] -> shape b = [k; m] -> shape c = [m; p] ->
    exists abc, (let* x := bmm_raw (LRaw a) (LRaw b) in bmm_raw (LRaw x) (LRaw c)) = Ret abc /\
                (let* y := bmm_raw (LRaw b) (LRaw c) in bmm_raw (LRaw a) (LRaw y)) = Ret abc.
Proof.
  intros T NT a b c pre n k m p RT Ha Hb Hc Hpre Hsa Hsb Hsc.
  rewrite (bmm2_ok (LRaw b) (LRaw c) k m p) by auto. cbn [bind].
  destruct pre as [|q [|? ?]]; [| |cbn in Hpre; lia]; cbn [app] in Hsa.
  - rewrite (bmm2_ok (LRaw a) (LRaw b) n k m) by auto. cbn [bind].
    rewrite (bmm2_ok (LRaw a) (LRaw (mm _ _ k m p)) n k p) by (auto; apply tabulate_wf).
    eexists. split; [|reflexivity]. rewrite (bmm2_ok _ (LRaw c) n m p) by (auto; apply tabulate_wf).
    f_equal. unfold mm at 1 3. apply tabulate_ext. intros i Hi. apply in_range2 in Hi as (x & y & -> & Hx & Hy).
    cbn [ix nth tl_val].
    transitivity (sumn m (fun u => n_mul (sumn k (fun t => n_mul (tval a [x; t]) (tval b [t; u]))) (tval c [u; y]))).
    + apply sumn_ext. intros u Hu. unfold mm. rewrite tval_tabulate by (apply in_range2; eauto 10). reflexivity.
    + rewrite (mm_assoc_aux RT). apply sumn_ext. intros t Ht. unfold mm.
      rewrite tval_tabulate by (apply in_range2; eauto 10). reflexivity.
  - rewrite (bmm3_ok (LRaw a) (LRaw b) q n k m) by auto. cbn [bind].
    rewrite (bmm3_ok (LRaw a) (LRaw (mm _ _ k m p)) q n k p) by (auto; apply tabulate_wf).
    eexists. split; [|reflexivity]. rewrite (bmm3_ok _ (LRaw c) q n m p) by (auto; apply tabulate_wf).
    f_equal. apply tabulate_ext. intros i Hi. apply in_range3 in Hi as (w & x & y & -> & Hw & Hx & Hy).
    cbn [ix nth tl_val].
    transitivity (sumn m (fun u => n_mul (sumn k (fun t => n_mul (tval a [w; x; t]) (tval b [t; u]))) (tval c [u; y]))).
    + apply sumn_ext. intros u Hu. rewrite tval_tabulate by (apply in_range3; eauto 10). reflexivity.
    + rewrite (mm_assoc_aux RT). apply sumn_ext. intros t Ht. unfold mm.
      rewrite tval_tabulate by (apply in_range2; eauto 10). reflexivity.
Qed.
Example c27_bmm_assoc_ex :
  (let* x := bmm_raw (LRaw (mkRaw [1; 2]%Z [1; 2])) (LRaw (mkRaw [1; 2; 3; 4]%Z [2; 2])) in
   bmm_raw (LRaw x) (LRaw (mkRaw [5; 6]%Z [2; 1]))) = Ret (mkRaw [95%Z] [1; 1]).
Proof. reflexivity. Qed.

(** C27: the matrix product distributes over addition on both sides. *)
Lemma c27_bmm_distr :
  forall (T : Type) (NT : Num T) (a a' b b' : raw T) (n k m : nat),
    is_ring T -> wf a -> wf a' -> wf b -> wf b' ->
    0 < n -> 0 < k -> 0 < m ->
    shape a = [n; k] -> shape a' = [n; k] -> shape b = [k; m] -> shape b' = [k; m] ->
    (exists t, (let* x := add_raw (LRaw a) (LRaw a') in bmm_raw (LRaw x) (LRaw b)) = Ret t /\
       (let* x := bmm_raw (LRaw a) (LRaw b) in let* y := bmm_raw (LRaw a') (LRaw b) in
        add_raw (LRaw x) (LRaw y)) = Ret t) /\
    (exists t, (let* x := add_raw (LRaw b) (LRaw b') in bmm_raw (LRaw a) (LRaw x)) = Ret t /\
       (let* x := bmm_raw (LRaw a) (LRaw b) in let* y := bmm_raw (LRaw a) (LRaw b') in
        add_raw (LRaw x) (LRaw y)) = Ret t).
Proof.
  intros T NT a a' b b' n k m RT Ha Ha' Hb Hb' Hn Hk Hm Hsa Hsa' Hsb Hsb'.
  pose (RT' := RT : ring_theory n_zero n_one n_add n_mul n_sub n_neg (@eq T)).
  assert (Hp1 : positive [n; m]) by (repeat constructor; auto).
  split.
  - rewrite add_same_shape by (auto; rewrite ?Hsa, ?Hsa'; repeat constructor; auto).
    rewrite (bmm2_ok (LRaw a) (LRaw b) n k m), (bmm2_ok (LRaw a') (LRaw b) n k m) by auto. cbn [bind].
    rewrite add_same_shape by (auto; apply tabulate_wf).
    eexists. split; [|reflexivity].
    rewrite (bmm2_ok _ (LRaw b) n k m) by (auto; apply tabulate_wf).
    f_equal. unfold mm. cbn [shape tabulate]. apply tabulate_ext. intros i Hi.
    pose proof Hi as Hi0. apply in_range2 in Hi as (x & y & -> & Hx & Hy).
    rewrite !(tval_tabulate [n; m]) by auto. cbn [ix nth tl_val]. rewrite <- (sumn_add RT).
    apply sumn_ext. intros t Ht. rewrite tval_tabulate by (rewrite Hsa; apply in_range2; eauto 10).
    apply (Rdistr_l RT').
  - rewrite add_same_shape by (auto; rewrite ?Hsb, ?Hsb'; repeat constructor; auto).
    rewrite (bmm2_ok (LRaw a) (LRaw b) n k m), (bmm2_ok (LRaw a) (LRaw b') n k m) by auto. cbn [bind].
    rewrite add_same_shape by (auto; apply tabulate_wf).
    eexists. split; [|reflexivity].
    rewrite (bmm2_ok (LRaw a) _ n k m) by (auto; apply tabulate_wf).
    f_equal. unfold mm. cbn [shape tabulate]. apply tabulate_ext. intros i Hi.
    pose proof Hi as Hi0. apply in_range2 in Hi as (x & y & -> & Hx & Hy).
    rewrite !(tval_tabulate [n; m]) by auto. cbn [ix nth tl_val]. rewrite <- (sumn_add RT).
    apply sumn_ext. intros t Ht. rewrite tval_tabulate by (rewrite Hsb; apply in_range2; eauto 10).
    rewrite (Rmul_comm RT'), (Rdistr_l RT'), !(Rmul_comm RT' _ (tval a _)). reflexivity.
Qed.
Example c27_bmm_distr_ex :
  (let* x := add_raw (LRaw (mkRaw [1; 2]%Z [1; 2])) (LRaw (mkRaw [3; 4]%Z [1; 2])) in
   bmm_raw (LRaw x) (LRaw (mkRaw [5; 6]%Z [2; 1]))) = Ret (mkRaw [56%Z] [1; 1]).
Proof. reflexivity. Qed.

(** C27: identity matrices are neutral on both sides, and scalars pass through. *)
Lemma c27_bmm_identity :
  forall (T : Type) (NT : Num T) (a : raw T) (n k : nat),
    is_ring T -> wf a -> shape a = [n; k] ->
    bmm_raw (LRaw a) (LRaw (eye k)) = Ret a /\ bmm_raw (LRaw (eye n)) (LRaw a) = Ret a.
Proof.
  intros T NT a n k RT Ha Hs.
  pose (RT' := RT : ring_theory n_zero n_one n_add n_mul n_sub n_neg (@eq T)).
  assert (M0 : forall x : T, n_mul n_zero x = n_zero).
  { intros x. apply (ARmul_0_l (Rth_ARth (Eqsth T) (Eq_ext n_add n_mul n_neg) RT')). }
  split.
  - rewrite (bmm2_ok (LRaw a) (LRaw (eye k)) n k k) by (auto; apply tabulate_wf).
    transitivity (Ret (tabulate (shape a) (tval a))); [|rewrite tabulate_eta; auto].
    rewrite Hs. unfold mm. f_equal. apply tabulate_ext. intros i Hi. apply in_range2 in Hi as (x & y & -> & Hx & Hy).
    cbn [ix nth tl_val]. rewrite <- (sumn_delta RT k y (fun t => tval a [x; t])) by auto.
    apply sumn_ext. intros t Ht. unfold eye. rewrite tval_tabulate by (apply in_range2; eauto 10).
    destruct (t =? y); rewrite (Rmul_comm RT'); [apply (Rmul_1_l RT')|apply M0].
  - rewrite (bmm2_ok (LRaw (eye n)) (LRaw a) n n k) by (auto; apply tabulate_wf).
    transitivity (Ret (tabulate (shape a) (tval a))); [|rewrite tabulate_eta; auto].
    rewrite Hs. unfold mm. f_equal. apply tabulate_ext. intros i Hi. apply in_range2 in Hi as (x & y & -> & Hx & Hy).
    cbn [ix nth tl_val]. rewrite <- (sumn_delta RT n x (fun t => tval a [t; y])) by auto.
    apply sumn_ext. intros t Ht. unfold eye. rewrite tval_tabulate by (apply in_range2; eauto 10).
    rewrite (Nat.eqb_sym x t). destruct (t =? x); [apply (Rmul_1_l RT')|apply M0].
Qed.
Example c27_bmm_identity_ex :
  eye 2 = mkRaw [1; 0; 0; 1]%Z [2; 2] /\
  bmm_raw (LRaw (mkRaw [1; 2; 3; 4; 5; 6]%Z [3; 2])) (LRaw (eye 2)) = Ret (mkRaw [1; 2; 3; 4; 5; 6]%Z [3; 2]).
Proof. split; reflexivity. Qed.

(** ** C28 *)

(** C28 is false: with a left operand of shape [1,1,n,k] [bmm] succeeds and drops rows. *)
Lemma c28_bmm_rank4_refuted :
  ~ (forall (T : Type) (NT : Num T) (l r t : raw T) (pre : list nat) (n k m : nat),
       wf l -> wf r -> shape l = pre ++ [n; k] -> shape r = [k; m] ->
       bmm_raw (LRaw l) (LRaw r) = Ret t -> shape t = pre ++ [n; m]).
Proof.
  intros H.
  specialize (H Z ZNum (mkRaw [5; 7]%Z [1; 1; 2; 1]) (mkRaw [3%Z] [1; 1]) (mkRaw [15%Z] [1; 1; 1])
     [1; 1] 2 1 1 eq_refl eq_refl eq_refl eq_refl eq_refl). discriminate H.
Qed.
Example c28_bmm_rank4_refuted_ex :
  bmm_raw (LRaw (mkRaw [5; 7]%Z [1; 1; 2; 1])) (LRaw (mkRaw [3%Z] [1; 1])) = Ret (mkRaw [15%Z] [1; 1; 1]).
Proof. reflexivity. Qed.

Lemma vindex_app_r A (u v : list A) i : vindex (u ++ v) (length u + i) = vindex v i.
Proof. unfold vindex. rewrite nth_error_app2 by lia. replace (length u + i - length u) with i by lia. auto. Qed.

Lemma vset_app_r A (u v : list A) i x w : vset v i x = Ret w -> vset (u ++ v) (length u + i) x = Ret (u ++ w).
Proof.
  unfold vset. rewrite app_length. destruct (i <? length v) eqn:E; [|discriminate]. intros H. injection H as <-.
  apply Nat.ltb_lt in E. destruct (length u + i <? length u + length v) eqn:E2; [|apply Nat.ltb_ge in E2; lia].
  rewrite list_set_app_r. reflexivity.
Qed.

Lemma bmm_high (T : Type) (NT : Num T) (l r : raw T) (pre : list nat) (n k m d0 d1 : nat) :
  shape l = d0 :: d1 :: pre ++ [n; k] -> shape r = [k; m] ->
  bmm_raw (LRaw l) (LRaw r) =
  (let* arr := bmm_rows (LRaw l) (LRaw r) d0 d1 m in Ret (mkRaw arr [d0; d1; m])).
Proof.
  intros Hl Hr. unfold bmm_raw. cbn [tl_shape]. rewrite Hl, Hr.
  replace (length (d0 :: d1 :: pre ++ [n; k])) with (4 + length pre) by (cbn; rewrite app_length; cbn; lia).
  change (2 <=? 4 + length pre) with true. cbn [assert bind]. change (length [k; m] =? 2) with true. cbn [assert bind].
  replace (4 + length pre - 1) with (length (d0 :: d1 :: pre) + 1) by (cbn; lia).
  change (d0 :: d1 :: pre ++ [n; k]) with ((d0 :: d1 :: pre) ++ [n; k]).
  rewrite vindex_app_r. change (vindex [n; k] 1) with (Ret k).
  change (vindex [k; m] (length [k; m] - 2)) with (Ret k). cbn [bind]. rewrite Nat.eqb_refl. cbn [assert bind].
  change (vindex ((d0 :: d1 :: pre) ++ [n; k]) 0) with (Ret d0).
  change (vindex ((d0 :: d1 :: pre) ++ [n; k]) 1) with (Ret d1). change (vindex [k; m] 1) with (Ret m). cbn [bind].
  change (4 + length pre =? 2) with false. cbv beta iota. reflexivity.
Qed.

Lemma not_resolves_last rs x : In x rs -> 2 <= x -> forall ri i, length ri = length rs ->
  (forall p d, nth_error rs p = Some d -> 2 <= d -> nth_error ri p = Some d) -> ~ resolves_rev rs ri i.
Proof.
  intros Hin Hx. induction rs as [|d rs IH]; [inversion Hin|]. intros ri i Hlen Hp Hr.
  destruct (Nat.le_gt_cases 2 d) as [Hd|Hd].
  - specialize (Hp 0 d eq_refl Hd). inversion Hr; subst; cbn in Hp; try lia; try discriminate. injection Hp as ->. lia.
  - destruct Hin as [->|Hin]; [lia|]. destruct ri as [|y ri]; [discriminate|].
    inversion Hr; subst; eapply (IH Hin ri); eauto; try (intros p e Hn He; apply (Hp (S p) e); auto).
Qed.

(** The exact behaviour of ranks 4 and above on non-empty operands: if some dimension before the last
    two is at least 2 it panics; if they are all 1 the result is the first row only, under a rank-3
    shape. *)
Lemma c28_bmm_high_rank :
  forall (T : Type) (NT : Num T) (l r : raw T) (pre : list nat) (n k m : nat),
    wf l -> wf r -> positive (shape l) -> positive (shape r) ->
    2 <= length pre -> shape l = pre ++ [n; k] -> shape r = [k; m] ->
    (Exists (fun d => 2 <= d) pre -> bmm_raw (LRaw l) (LRaw r) = Panic PUnwrap) /\
    (Forall (fun d => d = 1) pre ->
       exists t row, bmm_raw (LRaw l) (LRaw r) = Ret t /\ shape t = [1; 1; m] /\ array t = row /\
         length row = m /\
         forall (f g : nat -> T) j, j < m ->
           (forall u, u < k -> raw_get l (map (fun _ => 0) pre ++ [0; u]) = Ret (Ok (f u))) ->
           (forall u, u < k -> raw_get r [u; j] = Ret (Ok (g u))) ->
           nth_error row j = Some (fold_left n_add (map (fun u => n_mul (f u) (g u)) (seq 0 k)) n_zero)).
Proof.
  intros T NT l r pre n k m Hl Hr Hpl Hpr Hlen Hsl Hsr.
  destruct pre as [|d0 [|d1 pre]]; [cbn in Hlen; lia|cbn in Hlen; lia|]. clear Hlen.
  assert (Hpos : 0 < d0 /\ 0 < d1 /\ Forall (fun d => 0 < d) pre /\ 0 < n /\ 0 < k /\ 0 < m).
  { rewrite Hsl in Hpl. rewrite Hsr in Hpr. inversion Hpl as [|? ? P1 Q1]. inversion Q1 as [|? ? P2 Q2].
    apply Forall_app in Q2 as [P3 Q3]. inversion Q3 as [|? ? P4 Q4]. inversion Q4 as [|? ? P5 Q5].
    inversion Hpr as [|? ? P6 Q6]. inversion Q6 as [|? ? P7 Q7]. repeat split; auto. }
  destruct Hpos as (Hd0 & Hd1 & Hpp & Hn & Hk & Hm).
  rewrite (bmm_high T NT l r pre n k m d0 d1) by auto.
  set (P := d0 :: d1 :: pre).
  assert (Hrank : length (tl_shape (LRaw l)) = length P + 2) by (cbn [tl_shape]; rewrite Hsl, app_length; reflexivity).
  split.
  - intros HE. unfold bmm_rows. rewrite Hrank.
    replace (length P + 2 =? 3) with false by (symmetry; apply Nat.eqb_neq; cbn; lia).
    destruct d0 as [|d0]; [lia|]. cbn [seq foldM bind]. destruct d1 as [|d1]; [lia|]. cbn [seq foldM bind].
    cbn [tl_shape]. rewrite Hsl.
    replace (length P + 2 - 2) with (length P + 0) by lia.
    change (S d0 :: S d1 :: pre) with P. rewrite (vset_app_r _ P [n; k] 0 0 [0; k]) by reflexivity. cbn [bind].
    destruct m as [|m]; [lia|]. cbn [seq mapM]. unfold bmm_cell at 1. cbn [tl_shape]. rewrite Hsr.
    change (vset [k; S m] 1 0) with (Ret [k; 0]). change (vindex [k; S m] 0) with (Ret k). cbn [bind].
    destruct k as [|k]; [lia|]. cbn [seq foldM].
    rewrite app_length. replace (length P + length [0; S k] - 1) with (length P + 1) by (cbn; lia).
    rewrite (vset_app_r _ P [0; S k] 1 0 [0; 0]) by reflexivity. change (vset [S k; 0] 0 0) with (Ret [0; 0]). cbn [bind].
    unfold tl_get_unwrap, tl_get.
    destruct (raw_get_err l (P ++ [0; 0])) as [e He]; [auto| |rewrite He; reflexivity].
    intros i Hi. unfold resolves in Hi. rewrite Hsl in Hi. change (S d0 :: S d1 :: pre) with P in Hi.
    rewrite !rev_app_distr in Hi. cbn [rev app] in Hi.
    assert (Hrr : exists i', resolves_rev (rev P) (rev P) i').
    { inversion Hi; subst; match goal with H : resolves_rev (n :: _) _ _ |- _ => inversion H; subst; eauto end. }
    destruct Hrr as [i' Hi']. apply Exists_exists in HE as (x & Hx & Hx2).
    eapply (not_resolves_last (rev P) x); [apply -> in_rev; exact Hx|exact Hx2| |auto|exact Hi']; auto.
  - intros HF.
    assert (Hpe : d0 = 1 /\ d1 = 1 /\ Forall (fun d => d = 1) pre).
    { inversion HF as [|? ? P1 Q1]. inversion Q1 as [|? ? P2 Q2]. auto. }
    destruct Hpe as (-> & -> & HF').
    set (Z0 := map (fun _ : nat => 0) P).
    assert (HZin : forall u, u < k -> in_range (shape l) (Z0 ++ [0; u])).
    { intros u Hu. rewrite Hsl. apply in_range_app; [|repeat constructor; auto].
      subst Z0 P. clear - Hpp. repeat constructor. induction Hpp; cbn; constructor; auto. }
    assert (Hrd : forall u, u < k -> tl_get_unwrap (LRaw l) (P ++ [0; u]) = Ret (tval l (Z0 ++ [0; u]))).
    { intros u Hu. unfold tl_get_unwrap, tl_get. rewrite (raw_get_resolves l _ (Z0 ++ [0; u])); auto.
      rewrite Hsl. unfold resolves. rewrite !rev_app_distr. cbn [rev app].
      assert (Hz : resolves_rev (rev P) (rev P) (rev Z0)).
      { subst Z0. rewrite <- map_rev. assert (HF2 : Forall (fun d => d = 1) (rev P)) by (apply Forall_rev; exact HF).
        clear - HF2. induction HF2 as [|d q Hd HF2 IH]; [constructor|]. subst. cbn. constructor. exact IH. }
      destruct (Nat.eq_dec k 1) as [->|Hk1].
      - replace u with 0 by lia. constructor. destruct (Nat.eq_dec n 1) as [->|Hn1]; constructor; auto; lia.
      - constructor; [lia|lia|]. destruct (Nat.eq_dec n 1) as [->|Hn1]; constructor; auto; lia. }
    assert (Hrows : bmm_rows (LRaw l) (LRaw r) 1 1 m =
       Ret (map (fun j => sumn k (fun u => n_mul (tval l (Z0 ++ [0; u])) (tval r [u; j]))) (seq 0 m))).
    { unfold bmm_rows. rewrite Hrank.
      replace (length P + 2 =? 3) with false by (symmetry; apply Nat.eqb_neq; cbn; lia).
      cbn [seq foldM bind]. cbn [tl_shape]. rewrite Hsl. replace (length P + 2 - 2) with (length P + 0) by lia.
      change (1 :: 1 :: pre) with P. rewrite (vset_app_r _ P [n; k] 0 0 [0; k]) by reflexivity. cbn [bind].
      rewrite (mapM_pure _ _ _ (fun j => sumn k (fun u => n_mul (tval l (Z0 ++ [0; u])) (tval r [u; j])))).
      - reflexivity.
      - intros j Hj. apply in_seq in Hj. unfold bmm_cell. cbn [tl_shape]. rewrite Hsr.
        change (vset [k; m] 1 j) with (Ret [k; j]). change (vindex [k; m] 0) with (Ret k). cbn [bind].
        rewrite (foldM_pure _ _ _ (fun acc u => n_add acc (n_mul (tval l (Z0 ++ [0; u])) (tval r [u; j])))).
        + unfold sumn, lsum. rewrite fold_left_map. reflexivity.
        + intros acc u Hu. apply in_seq in Hu.
          rewrite app_length. replace (length P + length [0; k] - 1) with (length P + 1) by (cbn; lia).
          rewrite (vset_app_r _ P [0; k] 1 u [0; u]) by reflexivity. change (vset [k; j] 0 u) with (Ret [u; j]). cbn [bind].
          rewrite Hrd by lia. cbn [bind].
          rewrite (tl_get_unwrap_in_range (LRaw r) [u; j]); [reflexivity|exact Hr|].
          cbn [tl_shape]. rewrite Hsr. apply in_range2. exists u, j. split; auto; lia. }
    rewrite Hrows. cbn [bind]. eexists _, _. split; [reflexivity|]. split; [reflexivity|]. split; [reflexivity|].
    cbn [array]. split; [rewrite map_length, seq_length; reflexivity|].
    intros f g j Hj Hf Hg. rewrite nth_error_map. rewrite nth_error_nth' with (d := 0) by (rewrite seq_length; auto).
    rewrite seq_nth by auto. cbn [option_map]. f_equal. unfold sumn, lsum. f_equal. apply map_ext_in.
    intros u Hu. apply in_seq in Hu. cbn [plus].
    assert (E1 := raw_get_in_range l _ Hl (HZin u ltac:(lia))). fold P Z0 in Hf. rewrite Hf in E1 by lia.
    assert (E2 := raw_get_in_range r [u; j] Hr). rewrite Hg in E2 by lia.
    assert (in_range (shape r) [u; j]) by (rewrite Hsr; apply in_range2; exists u, j; split; auto; lia).
    specialize (E2 H). congruence.
Qed.
Example c28_bmm_high_rank_ex :
  bmm_raw (LRaw (mkRaw [5; 7; 9; 11]%Z [1; 1; 2; 2])) (LRaw (mkRaw [1; 0; 0; 1]%Z [2; 2])) = Ret (mkRaw [5; 7]%Z [1; 1; 2]) /\
  bmm_raw (LRaw (mkRaw [5; 7]%Z [2; 1; 1; 1])) (LRaw (mkRaw [1%Z] [1; 1])) = Panic PUnwrap.
Proof. split; reflexivity. Qed.

(** ** C29 *)

(** C29: dot is the sum of products, and is refused for different shapes. *)
Lemma c29_dot :
  forall (T : Type) (NT : Num T) (a b : raw T), wf a -> wf b ->
    (shape a = shape b ->
       dot_raw (LRaw a) (LRaw b) =
       Ret (mkRaw [fold_left n_add (map (fun p => n_mul (fst p) (snd p)) (combine (array a) (array b))) n_zero] [1])) /\
    (shape a <> shape b -> dot_raw (LRaw a) (LRaw b) = Panic PAssert) /\
    (is_ring T -> dot_raw (LRaw a) (LRaw b) = dot_raw (LRaw b) (LRaw a)).
Proof.
  intros T NT a b Ha Hb.
  assert (H2 : forall x y : raw T, shape x <> shape y -> dot_raw (LRaw x) (LRaw y) = Panic PAssert).
  { intros x y H. unfold dot_raw, same_shape. cbn [tl_shape]. destruct (shape_eqb_spec (shape x) (shape y)); [congruence|reflexivity]. }
  split; [|split; auto].
  - intros H. rewrite dot_ok by auto. rewrite (map_tval_combine T NT a b n_mul) by auto. reflexivity.
  - intros RT. destruct (shape_eqb_spec (shape a) (shape b)) as [H|H].
    + rewrite !dot_ok by auto. do 3 f_equal. rewrite H. f_equal. apply map_ext. intros i. apply (Rmul_comm RT).
    + rewrite !H2 by auto. reflexivity.
Qed.
Example c29_dot_ex :
  dot_raw (LRaw (mkRaw [1; 2; 3]%Z [3])) (LRaw (mkRaw [4; 5; 6]%Z [3])) = Ret (mkRaw [32%Z] [1]) /\
  dot_raw (LRaw (mkRaw [1; 2; 3]%Z [3])) (LRaw (mkRaw [4; 5; 6]%Z [3; 1])) = Panic PAssert.
Proof. split; reflexivity. Qed.

(** ** C30 *)

(** C30 is false: dot with a view reads the start of the underlying array. *)
Lemma c30_dot_view_refuted :
  ~ (forall (T : Type) (NT : Num T) (a t : raw T) (o : list slice_range) (v : view T) (m : raw T),
       wf a -> wf t -> view_new t o = Ret v -> positive (v_shape v) -> shape a = v_shape v ->
       tl_to_tensor (LView v) = Ret m ->
       dot_raw (LRaw a) (LView v) = dot_raw (LRaw a) (LRaw m)).
Proof.
  intros H.
  specialize (H Z ZNum (mkRaw [1%Z] [1]) (mkRaw [1; 2; 3]%Z [3]) [mkSR 1 2] (mkView (mkRaw [1; 2; 3]%Z [3]) [1] [mkSR 1 2])
     (mkRaw [2%Z] [1]) eq_refl eq_refl eq_refl ltac:(repeat constructor) eq_refl eq_refl). discriminate H.
Qed.
Example c30_dot_view_refuted_ex :
  exists v, view_new (mkRaw [1; 2; 3]%Z [3]) [mkSR 1 2] = Ret v /\
    dot_raw (LRaw (mkRaw [1%Z] [1])) (LView v) = Ret (mkRaw [1%Z] [1]).
Proof. eexists. split; reflexivity. Qed.

(** C30, the part that holds: a view of the whole tensor, on either side. *)
Lemma c30_dot_full_view :
  forall (T : Type) (NT : Num T) (a t : raw T) (o : list slice_range) (v : view T),
    wf a -> wf t -> view_new t o = Ret v -> positive (shape t) ->
    Forall2 (fun d r => sr_start r = 0 /\ sr_end r = d) (shape t) o ->
    exists m, tl_to_tensor (LView v) = Ret m /\
      dot_raw (LRaw a) (LView v) = dot_raw (LRaw a) (LRaw m) /\
      dot_raw (LView v) (LRaw a) = dot_raw (LRaw m) (LRaw a).
Proof.
  intros T NT a t o v Ha Hw Hv Hp HF. destruct (full_view_tensor T NT t o v Hw Hv Hp HF) as [Hs Ht].
  exists t. split; auto. apply view_new_inv in Hv as (_ & _ & E).
  assert (Hvt : v_tensor v = t) by (rewrite E; reflexivity).
  unfold dot_raw, same_shape. cbn [tl_shape tl_tensor]. rewrite Hs, Hvt. split; reflexivity.
Qed.
Example c30_dot_full_view_ex :
  exists v, view_new (mkRaw [1; 2]%Z [2]) [mkSR 0 2] = Ret v /\
    dot_raw (LRaw (mkRaw [3; 4]%Z [2])) (LView v) = Ret (mkRaw [11%Z] [1]).
Proof. eexists. split; reflexivity. Qed.

(** What [dot] computes for a view in general: the products with the underlying array from its start,
    panicking when that array is shorter than the other operand's. *)
Lemma c30_dot_view_exact :
  forall (T : Type) (NT : Num T) (a : raw T) (v : view T),
    shape a = v_shape v ->
    (length (array a) <= length (array (v_tensor v)) ->
       dot_raw (LRaw a) (LView v) =
       Ret (mkRaw [fold_left n_add (map (fun p => n_mul (fst p) (snd p))
                    (combine (array a) (array (v_tensor v)))) n_zero] [1])) /\
    (length (array (v_tensor v)) < length (array a) -> dot_raw (LRaw a) (LView v) = Panic PIndex).
Proof.
  intros T NT a v Hs. unfold dot_raw, same_shape. cbn [tl_shape tl_tensor]. rewrite Hs, shape_eqb_refl. cbn [assert bind].
  generalize (array a) as x, (array (v_tensor v)) as y. intros x y. clear.
  assert (G2 : forall z acc, (length x <= length z ->
     foldM (fun acc i => let* p := vindex x i in let* q := vindex z i in Ret (n_add acc (n_mul p q))) (seq 0 (length x)) acc =
     Ret (fold_left n_add (map (fun p => n_mul (fst p) (snd p)) (combine x z)) acc)) /\
     (length z < length x ->
     foldM (fun acc i => let* p := vindex x i in let* q := vindex z i in Ret (n_add acc (n_mul p q))) (seq 0 (length x)) acc =
     Panic PIndex)).
  { clear. induction x as [|p x IH]; intros z acc.
    - split; intros H; [reflexivity|cbn in H; lia].
    - destruct z as [|q z].
      + split; intros H; [cbn in H; lia|reflexivity].
      + cbn [length seq foldM]. change (vindex (p :: x) 0) with (Ret p). change (vindex (q :: z) 0) with (Ret q).
        cbn [bind combine map fold_left fst snd]. rewrite <- seq_shift, foldM_map.
        destruct (IH z (n_add acc (n_mul p q))) as [I1 I2]. split; intros H.
        * rewrite <- I1 by lia. apply foldM_ext. reflexivity.
        * rewrite <- I2 by lia. apply foldM_ext. reflexivity. }
  destruct (G2 y n_zero) as [I1 I2]. split; intros H; [rewrite I1 by auto|rewrite I2 by auto]; reflexivity.
Qed.
Example c30_dot_view_exact_ex :
  dot_raw (LRaw (mkRaw [1; 2]%Z [2])) (LView (mkView (mkRaw [1; 2; 3]%Z [3]) [2] [mkSR 1 3])) = Ret (mkRaw [5%Z] [1]).
Proof. reflexivity. Qed.
