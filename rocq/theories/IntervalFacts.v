(** * IntervalFacts: rational bounds that enclose a run with error bounds *)
From Coq Require Import Reals ZArith QArith Qreals Qabs Lia Lra.
From Flocq Require Import Core BinarySingleNaN.
From Verif Require Import Base ModelTensor ModelOps ModelGraph Spec RealInst SpecParam SpecRound SpecError ErrorFacts.
Local Open Scope R_scope.

Lemma Q2R_red x : Q2R (Qred x) = Q2R x.
Proof. apply Qeq_eqR, Qred_correct. Qed.
Lemma Qle_bool_R x y : Qle_bool x y = true <-> Q2R x <= Q2R y.
Proof. rewrite Qle_bool_iff. split; [apply Qle_Rle|apply Rle_Qle]. Qed.
Lemma Qle_bool_F x y : Qle_bool x y = false <-> Q2R y < Q2R x.
Proof.
  split.
  - intros H. destruct (Rlt_le_dec (Q2R y) (Q2R x)) as [L|L]; [exact L|]. apply Qle_bool_R in L. congruence.
  - intros H. destruct (Qle_bool x y) eqn:E; [|reflexivity]. apply Qle_bool_R in E. lra.
Qed.
Lemma Q2R_max x y : Q2R (qmax x y) = Rmax (Q2R x) (Q2R y).
Proof. unfold qmax. destruct (Qle_bool x y) eqn:E; [apply Qle_bool_R in E; rewrite Rmax_right; auto|apply Qle_bool_F in E; rewrite Rmax_left; lra]. Qed.
Lemma Q2R_min x y : Q2R (qmin x y) = Rmin (Q2R x) (Q2R y).
Proof. unfold qmin. destruct (Qle_bool x y) eqn:E; [apply Qle_bool_R in E; rewrite Rmin_left; auto|apply Qle_bool_F in E; rewrite Rmin_right; lra]. Qed.
Lemma Q2R_abs x : Q2R (Qabs x) = Rabs (Q2R x).
Proof.
  destruct (Qlt_le_dec x 0) as [L|L].
  - rewrite (Qeq_eqR _ _ (Qabs_neg x (Qlt_le_weak _ _ L))), Q2R_opp. apply Qlt_Rlt in L. rewrite RMicromega.Q2R_0 in L. rewrite Rabs_left; auto.
  - rewrite (Qeq_eqR _ _ (Qabs_pos x L)). apply Qle_Rle in L. rewrite RMicromega.Q2R_0 in L. rewrite Rabs_pos_eq; auto.
Qed.
Lemma Q2R_top l h : Q2R (top l h) = Rmax (Rabs (Q2R l)) (Rabs (Q2R h)).
Proof. unfold top. rewrite Q2R_max, !Q2R_abs. reflexivity. Qed.
Lemma qlt_R x y : qlt x y = true <-> Q2R x < Q2R y.
Proof. unfold qlt. rewrite Bool.negb_true_iff. apply Qle_bool_F. Qed.
Lemma qlt_F x y : qlt x y = false <-> Q2R y <= Q2R x.
Proof. unfold qlt. rewrite Bool.negb_false_iff. apply Qle_bool_R. Qed.

Lemma top_le x l h : l <= x <= h -> Rabs x <= Rmax (Rabs l) (Rabs h).
Proof.
  intros H. unfold Rmax. destruct (Rle_dec (Rabs l) (Rabs h)) as [L|L]; revert L; unfold Rabs; destruct (Rcase_abs x), (Rcase_abs l), (Rcase_abs h); lra.
Qed.
Lemma seg_max x y l h : l <= x <= h -> x * y <= Rmax (l * y) (h * y).
Proof.
  intros H. destruct (Rle_lt_dec 0 y) as [Y|Y].
  - eapply Rle_trans; [|apply Rmax_r]. apply Rmult_le_compat_r; lra.
  - eapply Rle_trans; [|apply Rmax_l]. nra.
Qed.
Lemma seg_min x y l h : l <= x <= h -> Rmin (l * y) (h * y) <= x * y.
Proof.
  intros H. destruct (Rle_lt_dec 0 y) as [Y|Y].
  - eapply Rle_trans; [apply Rmin_l|]. apply Rmult_le_compat_r; lra.
  - eapply Rle_trans; [apply Rmin_r|]. nra.
Qed.
Lemma box x y l h l' h' : l <= x <= h -> l' <= y <= h' ->
  Rmin (Rmin (l * l') (l * h')) (Rmin (h * l') (h * h')) <= x * y <= Rmax (Rmax (l * l') (l * h')) (Rmax (h * l') (h * h')).
Proof.
  intros H H'. pose proof (seg_max x y l h H) as U. pose proof (seg_min x y l h H) as L.
  pose proof (seg_max y l l' h' H') as U1. pose proof (seg_min y l l' h' H') as L1. pose proof (seg_max y h l' h' H') as U2. pose proof (seg_min y h l' h' H') as L2.
  rewrite (Rmult_comm y l), (Rmult_comm l' l), (Rmult_comm h' l) in *. rewrite (Rmult_comm y h), (Rmult_comm l' h), (Rmult_comm h' h) in *.
  split.
  - eapply Rle_trans; [|exact L]. apply Rmin_glb; [eapply Rle_trans; [apply Rmin_l|exact L1]|eapply Rle_trans; [apply Rmin_r|exact L2]].
  - eapply Rle_trans; [exact U|]. apply Rmax_lub; [eapply Rle_trans; [exact U1|apply Rmax_l]|eapply Rle_trans; [exact U2|apply Rmax_r]].
Qed.
Lemma tanh_range x : -1 <= tanh x <= 1.
Proof. unfold tanh, sinh. pose proof (cosh_pos x) as C. pose proof (exp_pos x). pose proof (exp_pos (- x)). unfold cosh in *. split; [apply Rmult_le_reg_r with ((exp x + exp (- x)) / 2)|apply Rmult_le_reg_r with ((exp x + exp (- x)) / 2)]; try lra; unfold Rdiv at 1; field_simplify; lra. Qed.

Section Interval.
Context (prec emax : Z) {prec_gt_0 : Prec_gt_0 prec} {prec_lt_emax : Prec_lt_emax prec emax}.
Context (tau : Q) (Htau : 0 <= Q2R tau).
Local Notation u := (unit_roundoff prec).
Local Notation eta := (tiny_error prec emax).
Local Notation NE := (ErrNum prec emax (Q2R tau)).
Local Notation NI := (IntNum prec emax tau).
Local Notation enc := enclosed.

Lemma Q2R_pow k : (0 <= k)%Z -> Q2R (/ inject_Z (2 ^ k)) = bpow radix2 (- k).
Proof.
  intros H. rewrite Q2R_inv.
  - rewrite bpow_opp. f_equal. rewrite <- IZR_Zpower by exact H. unfold Q2R, inject_Z. cbn [Qnum Qden]. change (radix_val radix2) with 2%Z. field.
  - intros E. unfold Qeq in E. cbn in E. pose proof (Z.pow_pos_nonneg 2 k). lia.
Qed.
Lemma qu_R : Q2R (qu prec) = u.
Proof. unfold Prec_gt_0 in prec_gt_0. unfold qu, unit_roundoff. apply Q2R_pow. lia. Qed.
Lemma qeta_R : Q2R (qeta prec emax) = eta.
Proof.
  unfold Prec_gt_0 in prec_gt_0. pose proof prec_lt_emax as L. unfold Prec_lt_emax in L. unfold qeta, tiny_error. rewrite Q2R_pow by lia.
  change (/ 2) with (bpow radix2 (-1)). rewrite <- bpow_plus. f_equal. lia.
Qed.
Lemma u_pos : 0 <= u. Proof. unfold unit_roundoff. apply bpow_ge_0. Qed.
Lemma eta_pos : 0 <= eta. Proof. unfold tiny_error. pose proof (bpow_ge_0 radix2 (3 - emax - prec)). lra. Qed.

Lemma enc_rounded x c r m l h c' r' m' : Q2R l <= x <= Q2R h -> 0 <= c <= Q2R c' -> 0 <= r <= Q2R r' -> m <= Q2R m' ->
  enc (rounded x c r m) (irounded l h c' r' m').
Proof.
  intros Hx Hc Hr Hm. unfold enc, rounded, irounded. cbn [val err mag lo hi er mg]. rewrite !Q2R_red, Q2R_max, !Q2R_plus, Q2R_top.
  split; [exact Hx|]. split; [lra|]. pose proof (top_le _ _ _ Hx). apply Rmax_lub; [eapply Rle_trans; [exact Hm|apply Rmax_l]|eapply Rle_trans; [|apply Rmax_r]; lra].
Qed.

Lemma enc_zero : enc (n_zero (Num := NE)) (n_zero (Num := NI)).
Proof. unfold enc. cbn. rewrite RMicromega.Q2R_0. lra. Qed.
Lemma enc_one : enc (n_one (Num := NE)) (n_one (Num := NI)).
Proof. unfold enc. cbn. rewrite RMicromega.Q2R_0, RMicromega.Q2R_1. lra. Qed.
Lemma u_le x y : 0 <= x <= y -> 0 <= u * x <= u * y.
Proof. intros H. pose proof u_pos. split; [apply Rmult_le_pos; lra|apply Rmult_le_compat_l; lra]. Qed.
Lemma enc_add b c i j : enc b i -> enc c j -> enc (n_add (Num := NE) b c) (n_add (Num := NI) i j).
Proof.
  intros (V & E & M) (V' & E' & M'). cbn [n_add ErrNum IntNum].
  assert (S : Q2R (lo i + lo j) <= val b + val c <= Q2R (hi i + hi j)) by (rewrite !Q2R_plus; lra).
  apply enc_rounded; [exact S|rewrite Q2R_plus; lra| |].
  - rewrite Q2R_mult, qu_R, Q2R_plus, Q2R_top, Q2R_plus. apply u_le. pose proof (top_le _ _ _ S). pose proof (Rabs_pos (val b + val c)). rewrite !Q2R_plus in *. lra.
  - rewrite Q2R_max. apply Rmax_lub; [eapply Rle_trans; [exact M|apply Rmax_l]|eapply Rle_trans; [exact M'|apply Rmax_r]].
Qed.
Lemma enc_sub b c i j : enc b i -> enc c j -> enc (n_sub (Num := NE) b c) (n_sub (Num := NI) i j).
Proof.
  intros (V & E & M) (V' & E' & M'). cbn [n_sub ErrNum IntNum].
  assert (S : Q2R (lo i - hi j) <= val b - val c <= Q2R (hi i - lo j)) by (rewrite !Q2R_minus; lra).
  apply enc_rounded; [exact S|rewrite Q2R_plus; lra| |].
  - rewrite Q2R_mult, qu_R, Q2R_plus, Q2R_top, Q2R_plus. apply u_le. pose proof (top_le _ _ _ S). pose proof (Rabs_pos (val b - val c)). rewrite !Q2R_minus in *. lra.
  - rewrite Q2R_max. apply Rmax_lub; [eapply Rle_trans; [exact M|apply Rmax_l]|eapply Rle_trans; [exact M'|apply Rmax_r]].
Qed.
Lemma mul_le a b a' b' : 0 <= a <= a' -> 0 <= b <= b' -> 0 <= a * b <= a' * b'.
Proof. intros H H'. split; [apply Rmult_le_pos; lra|apply Rmult_le_compat; lra]. Qed.
Lemma enc_carried b c i j : enc b i -> enc c j -> 0 <= carried_mul b c <= Q2R (icarried i j).
Proof.
  intros (V & E & M) (V' & E' & M'). unfold carried_mul, icarried. rewrite !Q2R_plus, !Q2R_mult, !Q2R_top.
  pose proof (top_le _ _ _ V) as T. pose proof (top_le _ _ _ V') as T'. pose proof (Rabs_pos (val b)). pose proof (Rabs_pos (val c)).
  pose proof (mul_le _ _ _ _ (conj H T) E'). pose proof (mul_le _ _ _ _ (conj H0 T') E). pose proof (mul_le _ _ _ _ E E'). lra.
Qed.
Lemma enc_mul b c i j : enc b i -> enc c j -> enc (n_mul (Num := NE) b c) (n_mul (Num := NI) i j).
Proof.
  intros Hb Hc. pose proof (enc_carried _ _ _ _ Hb Hc) as C. destruct Hb as (V & E & M), Hc as (V' & E' & M'). cbn [n_mul ErrNum IntNum].
  set (l := qmin _ _). set (h := qmax (qmax _ _) _).
  assert (S : Q2R l <= val b * val c <= Q2R h).
  { unfold l, h. rewrite !Q2R_min, !Q2R_max, !Q2R_mult. apply box; assumption. }
  apply enc_rounded; [exact S|exact C| |].
  - rewrite Q2R_plus, Q2R_mult, qu_R, qeta_R, Q2R_plus, Q2R_top. pose proof eta_pos. pose proof (top_le _ _ _ S). pose proof (Rabs_pos (val b * val c)).
    match goal with |- _ <= u * ?x + _ <= u * ?y + _ => pose proof (u_le x y) as U end. lra.
  - rewrite Q2R_max. apply Rmax_lub; [eapply Rle_trans; [exact M|apply Rmax_l]|eapply Rle_trans; [exact M'|apply Rmax_r]].
Qed.
Lemma enc_neg b i : enc b i -> enc (n_neg (Num := NE) b) (n_neg (Num := NI) i).
Proof. intros (V & E & M). unfold enc. cbn [n_neg ErrNum IntNum val err mag lo hi er mg]. rewrite !Q2R_opp. lra. Qed.
Lemma enc_abs b i : enc b i -> enc (n_abs (Num := NE) b) (n_abs (Num := NI) i).
Proof.
  intros (V & E & M). unfold enc. cbn [n_abs ErrNum IntNum val err mag lo hi er mg]. rewrite !Q2R_max, Q2R_top, Q2R_opp, RMicromega.Q2R_0.
  split; [|split; assumption]. split; [|apply top_le; exact V].
  apply Rmax_lub; [apply Rabs_pos|]. pose proof (Rle_abs (val b)). pose proof (Rle_abs (- val b)) as RA; rewrite Rabs_Ropp in RA. apply Rmax_lub; lra.
Qed.
Lemma enc_tanh b i : enc b i -> enc (n_tanh (Num := NE) b) (n_tanh (Num := NI) i).
Proof.
  intros (V & E & M). cbn [n_tanh ErrNum IntNum]. apply enc_rounded; [|exact E|lra|exact M].
  rewrite Q2R_opp, RMicromega.Q2R_1. pose proof (tanh_range (val b)). lra.
Qed.
Lemma enc_ring : respects_ring (NA := NE) (NB := NI) enc.
Proof. constructor; intros; [apply enc_zero|apply enc_one|apply enc_add|apply enc_mul]; assumption. Qed.
Lemma enc_respects_tanh : respects_tanh (NA := NE) (NB := NI) enc.
Proof. intros b i H. split; [apply enc_tanh; exact H|]. apply enc_sub; [apply enc_one|]. apply enc_mul; apply enc_tanh; exact H. Qed.

Lemma Q2R_big : Q2R (inject_Z (2 ^ emax)) = bpow radix2 emax.
Proof.
  pose proof prec_lt_emax as L. unfold Prec_lt_emax in L. unfold Prec_gt_0 in prec_gt_0.
  rewrite <- IZR_Zpower by lia. unfold Q2R, inject_Z. cbn [Qnum Qden]. change (radix_val radix2) with 2%Z. field.
Qed.
Lemma signed_agrees b i : enc b i -> signed i = true ->
  n_lt (Num := NE) b (n_zero (Num := NE)) = n_lt (Num := NI) i (n_zero (Num := NI)) /\
  n_ge (Num := NE) b (n_zero (Num := NE)) = n_ge (Num := NI) i (n_zero (Num := NI)).
Proof.
  intros (V & E & M) D. unfold signed in D. cbn [n_lt n_ge n_zero ErrNum IntNum RNum val lo hi].
  assert (Z : Q2R 0 = 0) by apply RMicromega.Q2R_0.
  destruct (qlt (hi i) 0) eqn:L1, (Qle_bool 0 (lo i)) eqn:L2; try discriminate D; try apply qlt_R in L1; try apply qlt_F in L1; try apply Qle_bool_R in L2; try apply Qle_bool_F in L2;
  destruct (Rlt_dec (val b) 0), (Rge_dec (val b) 0); split; try reflexivity; exfalso; lra.
Qed.
Lemma decided b i : enc b i -> idecided emax i = true -> sign_known emax b.
Proof.
  intros (V & E & M) D. unfold idecided in D. apply andb_prop in D as [D D2]. apply andb_prop in D as [D1 _]. apply qlt_R in D1. rewrite Q2R_big in D1. unfold sign_known.
  assert (Z : Q2R 0 = 0) by apply RMicromega.Q2R_0. split; [lra|].
  apply Bool.orb_prop in D2 as [D2|D2]; [apply Bool.orb_prop in D2 as [D2|D2]|].
  - apply Qeq_bool_eq, Qeq_eqR in D2. left. lra.
  - apply qlt_R in D2. right. pose proof (Rle_abs (val b)). lra.
  - apply qlt_R in D2. rewrite Q2R_opp in D2. right. pose proof (Rle_abs (- val b)) as RA. rewrite Rabs_Ropp in RA. lra.
Qed.
Lemma enc_respects_abs b i : enc b i -> signed i = true -> enc (n_abs (Num := NE) b) (n_abs (Num := NI) i) /\
  enc (if n_ge (Num := NE) b (n_zero (Num := NE)) then n_one (Num := NE) else n_sub (Num := NE) (n_zero (Num := NE)) (n_one (Num := NE)))
    (if n_ge (Num := NI) i (n_zero (Num := NI)) then n_one (Num := NI) else n_sub (Num := NI) (n_zero (Num := NI)) (n_one (Num := NI))).
Proof.
  intros H D. destruct (signed_agrees _ _ H D) as (_ & G). split; [apply enc_abs; exact H|]. rewrite G.
  destruct (n_ge (Num := NI) i (n_zero (Num := NI))); [apply enc_one|apply enc_sub; [apply enc_zero|apply enc_one]].
Qed.
Lemma enc_respects_relu b i : enc b i -> signed i = true -> enc (relu_fn (NT := NE) b) (relu_fn (NT := NI) i) /\
  enc (if n_lt (Num := NE) b (n_zero (Num := NE)) then n_zero (Num := NE) else n_one (Num := NE))
    (if n_lt (Num := NI) i (n_zero (Num := NI)) then n_zero (Num := NI) else n_one (Num := NI)).
Proof.
  intros H D. destruct (signed_agrees _ _ H D) as (G & _). unfold relu_fn. rewrite G.
  destruct (n_lt (Num := NI) i (n_zero (Num := NI))); split; auto using enc_zero, enc_one.
Qed.
End Interval.

Lemma decided_signed emax a : idecided emax a = true -> signed a = true.
Proof. intros D. unfold idecided in D. apply andb_prop in D as [D _]. apply andb_prop in D as [_ D]. exact D. Qed.

(** Deciding [signs_known] *)
Definition signs_check {B : Type} (ok : B -> bool) (ns : list (node B)) : bool :=
  forallb (fun n => match nth_error ns n with
    | Some nd => match n_fn nd with
      | Some (KAbs, ins) | Some (KRelu, ins) =>
        forallb (fun i => (i <? n)%nat && match nth_error ns i with Some ndi => forallb ok (array (n_val ndi)) | None => false end) ins
      | _ => true end
    | None => true end) (seq 0 (length ns)).
Lemma signs_check_ok {B : Type} (ok : B -> bool) ns : signs_check ok ns = true -> signs_known (fun a => ok a = true) ns.
Proof.
  intros H n nd k ins En Ef Hk. unfold signs_check in H. rewrite forallb_forall in H.
  assert (Hn : (n < length ns)%nat) by (apply nth_error_Some; congruence).
  specialize (H n). rewrite in_seq in H. specialize (H ltac:(lia)). rewrite En, Ef in H.
  assert (G : forallb (fun i => (i <? n)%nat && match nth_error ns i with Some ndi => forallb ok (array (n_val ndi)) | None => false end) ins = true) by (destruct Hk as [-> | ->]; exact H).
  rewrite forallb_forall in G. apply Forall_forall. intros i Hi. specialize (G i Hi). apply andb_prop in G as [G1 G2]. apply Nat.ltb_lt in G1. split; [exact G1|].
  destruct (nth_error ns i) as [ndi|]; [|discriminate]. exists ndi. split; [reflexivity|]. apply Forall_forall. rewrite forallb_forall in G2. exact G2.
Qed.
Lemma signs_known_mono {B : Type} (P Q : B -> Prop) ns : (forall b, P b -> Q b) -> signs_known P ns -> signs_known Q ns.
Proof.
  intros H HS n nd k ins En Ef Hk. specialize (HS n nd k ins En Ef Hk). eapply Forall_impl; [|exact HS]. intros i (L & ndi & Ei & F). split; [exact L|].
  exists ndi. split; [exact Ei|]. eapply Forall_impl; [|exact F]. exact H.
Qed.
