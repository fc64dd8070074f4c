(** * SpreadInterval: rational bounds that cover a run with order-independent bounds *)
From Coq Require Import Reals ZArith QArith Qreals Qabs Qround Lia Lra.
From Flocq Require Import Core BinarySingleNaN.
From Verif Require Import Base ModelTensor ModelOps ModelGraph Spec RealInst SpecParam SpecRound SpecError SpecSpread ErrorFacts IntervalFacts SpreadFacts.
Local Open Scope R_scope.

Lemma qup_le x : Q2R x <= Q2R (qup x).
Proof.
  apply Qle_Rle. unfold qup. pose proof (Qle_ceiling (x * inject_Z (2 ^ 80))) as H. set (c := Qceiling _) in *. clearbody c.
  assert (P : (0 < inject_Z (2 ^ 80))%Q) by reflexivity. apply Qmult_le_r with (z := inject_Z (2 ^ 80)); [exact P|]. eapply Qle_trans; [exact H|].
  unfold Qle, Qmult, inject_Z. cbn [Qnum Qden]. change (Z.pos (2 ^ 80 * 1)) with (2 ^ 80)%Z. lia.
Qed.
Lemma qdown_le x : Q2R (qdown x) <= Q2R x.
Proof. unfold qdown. rewrite Q2R_opp. pose proof (qup_le (- x)) as H. rewrite Q2R_opp in H. lra. Qed.

Section Interval.
Context (prec emax : Z) {prec_gt_0 : Prec_gt_0 prec} {prec_lt_emax : Prec_lt_emax prec emax}.
Context (tau : Q) (Htau : 0 <= Q2R tau).
Local Notation u := (unit_roundoff prec).
Local Notation eta := (tiny_error prec emax).
Local Notation NS := (SpreadNum prec emax (Q2R tau)).
Local Notation NI := (SivalNum prec emax tau).
Local Notation cov := covers.
Local Notation Q2R_0 := RMicromega.Q2R_0.
Local Notation Q2R_1 := RMicromega.Q2R_1.

Lemma growth_le n : (1 + u) ^ n <= Q2R (igrowth prec n).
Proof.
  pose proof (u_pos prec) as Up. induction n as [|n IH]; [cbn; rewrite Q2R_1; lra|]. cbn [pow igrowth]. eapply Rle_trans; [|apply qup_le]. rewrite Q2R_mult, Q2R_plus, Q2R_1, (qu_R prec).
  apply Rmult_le_compat_l; lra.
Qed.
Lemma reach_le b a : cov b a -> 0 <= reach prec b <= Q2R (ireach prec a).
Proof.
  intros (V & T & I & N & P). unfold reach, ireach. pose proof (growth_le (adds b)) as G. rewrite N in *. pose proof (growth_one prec (sadds a)) as G1.
  assert (H : 0 <= (1 + u) ^ sadds a * (total b + inherited b) <= Q2R (igrowth prec (sadds a)) * Q2R (stotal a + sinherited a)) by (apply mul_le; [lra|rewrite Q2R_plus; lra]).
  split; [lra|]. eapply Rle_trans; [|apply qup_le]. rewrite Q2R_mult. lra.
Qed.
Lemma slack_le b a : cov b a -> 0 <= slack prec b <= Q2R (islack prec a).
Proof.
  intros (V & T & I & N & P). unfold slack, reach, islack. pose proof (growth_le (adds b)) as G. rewrite N in *. pose proof (growth_one prec (sadds a)) as G1.
  pose proof (mul_le ((1 + u) ^ sadds a - 1) (total b) (Q2R (igrowth prec (sadds a)) - 1) (Q2R (stotal a))) as M1.
  pose proof (mul_le ((1 + u) ^ sadds a) (inherited b) (Q2R (igrowth prec (sadds a))) (Q2R (sinherited a))) as M2.
  replace ((1 + u) ^ sadds a * (total b + inherited b) - total b) with (((1 + u) ^ sadds a - 1) * total b + (1 + u) ^ sadds a * inherited b) by ring.
  split; [lra|]. eapply Rle_trans; [|apply qup_le]. rewrite Q2R_plus, !Q2R_mult, Q2R_minus, Q2R_1. lra.
Qed.
Lemma cov_single x e m l h e' m' : Q2R l <= x <= Q2R h -> 0 <= e <= Q2R e' -> m <= Q2R m' -> cov (single x e m) (isingle l h e' m').
Proof.
  intros Hx He Hm. unfold cov, single, isingle. cbn [sval total inherited adds peak slo shi stotal sinherited sadds speak].
  pose proof (qdown_le l). pose proof (qup_le h). pose proof (qup_le e'). pose proof (qup_le m'). pose proof (qup_le (top l h)) as HT. rewrite Q2R_top in HT.
  pose proof (top_le _ _ _ Hx). pose proof (Rabs_pos x). repeat split; lra.
Qed.
Lemma cov_zero : cov (n_zero (Num := NS)) (n_zero (Num := NI)).
Proof. cbn [n_zero SpreadNum SivalNum]. apply cov_single; rewrite ?Q2R_0; lra. Qed.
Lemma cov_one : cov (n_one (Num := NS)) (n_one (Num := NI)).
Proof. cbn [n_one SpreadNum SivalNum]. apply cov_single; rewrite ?Q2R_0, ?Q2R_1; lra. Qed.
Lemma cov_add b c i j : cov b i -> cov c j -> cov (n_add (Num := NS) b c) (n_add (Num := NI) i j).
Proof.
  intros (V & T & I & N & P) (V' & T' & I' & N' & P'). unfold cov. cbn [n_add SpreadNum SivalNum sval total inherited adds peak slo shi stotal sinherited sadds speak].
  pose proof (qdown_le (slo i + slo j)) as H1. pose proof (qup_le (shi i + shi j)) as H2. pose proof (qup_le (stotal i + stotal j)) as H3. pose proof (qup_le (sinherited i + sinherited j)) as H4.
  rewrite Q2R_plus in H1, H2, H3, H4. rewrite Q2R_max. split; [lra|]. split; [lra|]. split; [lra|]. split; [congruence|].
  apply Rmax_lub; [eapply Rle_trans; [exact P|apply Rmax_l]|eapply Rle_trans; [exact P'|apply Rmax_r]].
Qed.
Lemma cov_neg b i : cov b i -> cov (n_neg (Num := NS) b) (n_neg (Num := NI) i).
Proof. intros (V & T & I & N & P). unfold cov. cbn [n_neg SpreadNum SivalNum sval total inherited adds peak slo shi stotal sinherited sadds speak]. rewrite !Q2R_opp. split; [lra|auto]. Qed.
Lemma cov_sub b c i j : cov b i -> cov c j -> cov (n_sub (Num := NS) b c) (n_sub (Num := NI) i j).
Proof. intros Hb Hc. exact (cov_add _ _ _ _ Hb (cov_neg _ _ Hc)). Qed.
Lemma cov_carried b c i j : cov b i -> cov c j -> 0 <= carried_product prec b c <= Q2R (icarried_product prec i j).
Proof.
  intros Hb Hc. pose proof (slack_le _ _ Hb) as E. pose proof (slack_le _ _ Hc) as E'. destruct Hb as (V & _), Hc as (V' & _). unfold carried_product, icarried_product. rewrite !Q2R_plus, !Q2R_mult, !Q2R_top.
  pose proof (top_le _ _ _ V) as T. pose proof (top_le _ _ _ V') as T'. pose proof (Rabs_pos (sval b)) as A. pose proof (Rabs_pos (sval c)) as A'.
  pose proof (mul_le _ _ _ _ (conj A T) E'). pose proof (mul_le _ _ _ _ (conj A' T') E). pose proof (mul_le _ _ _ _ E E'). lra.
Qed.
Lemma cov_mul b c i j : cov b i -> cov c j -> cov (n_mul (Num := NS) b c) (n_mul (Num := NI) i j).
Proof.
  intros Hb Hc. pose proof (cov_carried _ _ _ _ Hb Hc) as C. pose proof (reach_le _ _ Hb) as R1. pose proof (reach_le _ _ Hc) as R2.
  destruct Hb as (V & _ & _ & _ & P), Hc as (V' & _ & _ & _ & P'). cbn [n_mul SpreadNum SivalNum].
  set (l := qmin _ _). set (h := qmax (qmax (slo i * slo j) _) _).
  assert (S : Q2R l <= sval b * sval c <= Q2R h).
  { unfold l, h. rewrite !Q2R_min, !Q2R_max, !Q2R_mult. apply box; assumption. }
  apply cov_single; [exact S| |].
  - rewrite !Q2R_plus, Q2R_mult, (qu_R prec), (qeta_R prec emax), Q2R_plus, Q2R_top. pose proof (eta_pos prec emax). pose proof (top_le _ _ _ S). pose proof (Rabs_pos (sval b * sval c)).
    match goal with |- _ <= _ + (u * ?x + _) <= _ + (u * ?y + _) => pose proof (u_le prec x y) as U end. lra.
  - rewrite !Q2R_max. assert (X : forall p q p' q', p <= p' -> q <= q' -> Rmax p q <= Rmax p' q').
    { intros p q p' q' L L'. apply Rmax_lub; [eapply Rle_trans; [exact L|apply Rmax_l]|eapply Rle_trans; [exact L'|apply Rmax_r]]. }
    apply X; apply X; lra.
Qed.
Lemma cov_abs b i : cov b i -> cov (n_abs (Num := NS) b) (n_abs (Num := NI) i).
Proof.
  intros (V & T). unfold cov. cbn [n_abs SpreadNum SivalNum sval total inherited adds peak slo shi stotal sinherited sadds speak]. rewrite !Q2R_max, Q2R_top, Q2R_opp, Q2R_0.
  split; [|exact T]. split; [|apply top_le; exact V].
  apply Rmax_lub; [apply Rabs_pos|]. pose proof (Rle_abs (sval b)). pose proof (Rle_abs (- sval b)) as RA; rewrite Rabs_Ropp in RA. apply Rmax_lub; lra.
Qed.
Lemma cov_tanh b i : cov b i -> cov (n_tanh (Num := NS) b) (n_tanh (Num := NI) i).
Proof.
  intros H. pose proof (slack_le _ _ H) as E. pose proof (reach_le _ _ H) as R1. destruct H as (V & _ & _ & _ & P). cbn [n_tanh SpreadNum SivalNum]. apply cov_single.
  - rewrite Q2R_opp, Q2R_1. pose proof (tanh_range (sval b)). lra.
  - rewrite Q2R_plus. lra.
  - rewrite Q2R_max. apply Rmax_lub; [eapply Rle_trans; [exact P|apply Rmax_l]|eapply Rle_trans; [apply R1|apply Rmax_r]].
Qed.
Lemma cov_ring : respects_ring (NA := NS) (NB := NI) cov.
Proof. constructor; intros; [apply cov_zero|apply cov_one|apply cov_add|apply cov_mul]; assumption. Qed.
Lemma cov_respects_tanh : respects_tanh (NA := NS) (NB := NI) cov.
Proof. intros b i H. split; [apply cov_tanh; exact H|]. apply cov_sub; [apply cov_one|]. apply cov_mul; apply cov_tanh; exact H. Qed.

Lemma ssigned_agrees b i : cov b i -> ssigned i = true ->
  n_lt (Num := NS) b (n_zero (Num := NS)) = n_lt (Num := NI) i (n_zero (Num := NI)) /\
  n_ge (Num := NS) b (n_zero (Num := NS)) = n_ge (Num := NI) i (n_zero (Num := NI)).
Proof.
  intros (V & _) D. unfold ssigned in D. cbn [n_lt n_ge n_zero SpreadNum SivalNum RNum sval single isingle slo shi].
  assert (Z : Q2R 0 = 0) by apply Q2R_0. 
  assert (Z1 : Q2R (qup 0) = 0) by (rewrite (Qeq_eqR (qup 0) 0); [exact Z|reflexivity]). assert (Z2 : Q2R (qdown 0) = 0) by (rewrite (Qeq_eqR (qdown 0) 0); [exact Z|reflexivity]).
  assert (L : forall x, qlt x (qdown 0) = qlt x 0) by (intros x; apply Bool.eq_true_iff_eq; rewrite !qlt_R, Z, Z2; reflexivity).
  assert (G : forall x, Qle_bool (qup 0) x = Qle_bool 0 x) by (intros x; apply Bool.eq_true_iff_eq; rewrite !Qle_bool_R, Z, Z1; reflexivity).
  rewrite L, G.
  destruct (qlt (shi i) 0) eqn:L1, (Qle_bool 0 (slo i)) eqn:L2; try discriminate D; try apply qlt_R in L1; try apply qlt_F in L1; try apply Qle_bool_R in L2; try apply Qle_bool_F in L2;
  destruct (Rlt_dec (sval b) 0), (Rge_dec (sval b) 0); split; try reflexivity; exfalso; lra.
Qed.
Lemma sure b i : cov b i -> sdecided prec emax i = true -> sign_sure prec emax b.
Proof.
  intros H D. pose proof (slack_le _ _ H) as E. pose proof (reach_le _ _ H) as R1. destruct H as (V & _ & _ & _ & P). unfold sdecided in D.
  apply andb_prop in D as [D D2]. apply andb_prop in D as [D _]. apply andb_prop in D as [D0 D1]. apply qlt_R in D0, D1. rewrite (Q2R_big prec emax) in D0, D1. unfold sign_sure, fits.
  assert (Z : Q2R 0 = 0) by apply Q2R_0. split; [lra|].
  apply Bool.orb_prop in D2 as [D2|D2]; [apply Bool.orb_prop in D2 as [D2|D2]|].
  - apply Qeq_bool_eq, Qeq_eqR in D2. left. lra.
  - apply qlt_R in D2. right. pose proof (Rle_abs (sval b)). lra.
  - apply qlt_R in D2. rewrite Q2R_opp in D2. right. pose proof (Rle_abs (- sval b)) as RA. rewrite Rabs_Ropp in RA. lra.
Qed.
Lemma cov_respects_abs b i : cov b i -> ssigned i = true -> cov (n_abs (Num := NS) b) (n_abs (Num := NI) i) /\
  cov (if n_ge (Num := NS) b (n_zero (Num := NS)) then n_one (Num := NS) else n_sub (Num := NS) (n_zero (Num := NS)) (n_one (Num := NS)))
    (if n_ge (Num := NI) i (n_zero (Num := NI)) then n_one (Num := NI) else n_sub (Num := NI) (n_zero (Num := NI)) (n_one (Num := NI))).
Proof.
  intros H D. destruct (ssigned_agrees _ _ H D) as (_ & G). split; [apply cov_abs; exact H|]. rewrite G.
  destruct (n_ge (Num := NI) i (n_zero (Num := NI))); [apply cov_one|apply cov_sub; [apply cov_zero|apply cov_one]].
Qed.
Lemma cov_respects_relu b i : cov b i -> ssigned i = true -> cov (relu_fn (NT := NS) b) (relu_fn (NT := NI) i) /\
  cov (if n_lt (Num := NS) b (n_zero (Num := NS)) then n_zero (Num := NS) else n_one (Num := NS))
    (if n_lt (Num := NI) i (n_zero (Num := NI)) then n_zero (Num := NI) else n_one (Num := NI)).
Proof.
  intros H D. destruct (ssigned_agrees _ _ H D) as (G & _). unfold relu_fn. rewrite G.
  destruct (n_lt (Num := NI) i (n_zero (Num := NI))); split; auto using cov_zero, cov_one.
Qed.
End Interval.

Lemma sdecided_signed prec emax a : sdecided prec emax a = true -> ssigned a = true.
Proof. intros D. unfold sdecided in D. apply andb_prop in D as [D _]. apply andb_prop in D as [_ D]. exact D. Qed.
