(** * SpreadFacts: one operation with a bound that does not depend on the order of additions *)
From Coq Require Import Reals ZArith Lra Lia.
From Flocq Require Import Core BinarySingleNaN.
From Verif Require Import Base ModelOps Spec RealInst SpecRound SpecParam SpecSpread RoundFacts ErrorFacts.
Local Open Scope R_scope.

Section Spread.
Context (prec emax : Z) {prec_gt_0 : Prec_gt_0 prec} {prec_lt_emax : Prec_lt_emax prec emax}.
Context (tau : R) (ftanh : float prec emax -> float prec emax).
Hypothesis Htau : forall f, is_finite f = true -> is_finite (ftanh f) = true /\ Rabs (B2R (ftanh f) - tanh (B2R f)) <= tau.
Local Notation float := (float prec emax).
Local Notation u := (unit_roundoff prec).
Local Notation eta := (tiny_error prec emax).
Local Notation NF := (FloatNum prec emax ftanh).
Local Notation NS := (SpreadNum prec emax tau).
Local Notation reach := (reach prec).
Local Notation slack := (slack prec).
Local Notation fits := (fits prec emax).

Lemma spread_comm (a b : spread) : n_add (Num := NS) a b = n_add (Num := NS) b a.
Proof. cbn. f_equal; [apply Rplus_comm|apply Rplus_comm|apply Rplus_comm|lia|apply Rmax_comm]. Qed.
Lemma spread_assoc (a b c : spread) : n_add (Num := NS) (n_add (Num := NS) a b) c = n_add (Num := NS) a (n_add (Num := NS) b c).
Proof. cbn. f_equal; [apply Rplus_assoc|apply Rplus_assoc|apply Rplus_assoc|lia|symmetry; apply Rmax_assoc]. Qed.

Definition sound (b : spread) : Prop := Rabs (sval b) <= total b /\ 0 <= inherited b.
Definition tracks (f : float) (b : spread) : Prop := sound b /\ near prec emax f b.

Lemma growth_one n : 1 <= (1 + u) ^ n.
Proof. pose proof (u_pos prec). apply pow_R1_Rle. lra. Qed.
Lemma growth_mono n m : (n <= m)%nat -> (1 + u) ^ n <= (1 + u) ^ m.
Proof. intros H. pose proof (u_pos prec). apply Rle_pow; [lra|exact H]. Qed.
Lemma sound_pos b : sound b -> 0 <= total b + inherited b.
Proof. intros [H1 H2]. pose proof (Rabs_pos (sval b)). lra. Qed.
Lemma slack_pos b : sound b -> 0 <= slack b.
Proof.
  intros H. pose proof (sound_pos b H) as P. destruct H as [H1 H2]. unfold slack, reach. pose proof (growth_one (adds b)).
  assert (total b + inherited b <= (1 + u) ^ adds b * (total b + inherited b)); [|lra]. rewrite <- (Rmult_1_l (total b + inherited b)) at 1. apply Rmult_le_compat_r; lra.
Qed.
Lemma slack_single x e m : slack (single x e m) = e.
Proof. unfold slack, reach, single. cbn. ring. Qed.
Lemma reach_single x e m : reach (single x e m) = Rabs x + e.
Proof. unfold reach, single. cbn. ring. Qed.

(** A sum that fits has parts that fit, and the bound covers one more rounding. *)
Lemma reach_add b c : sound b -> sound c -> (1 + u) * (reach b + reach c) <= reach (n_add (Num := NS) b c).
Proof.
  intros Hb Hc. pose proof (sound_pos b Hb) as Pb. pose proof (sound_pos c Hc) as Pc. unfold reach. cbn [n_add SpreadNum adds total inherited].
  pose proof (growth_mono (adds b) (adds b + adds c) ltac:(lia)) as G1. pose proof (growth_mono (adds c) (adds b + adds c) ltac:(lia)) as G2.
  rewrite (pow_add (1 + u) (adds b + adds c) 1), pow_1. pose proof (u_pos prec).
  replace (total b + total c + (inherited b + inherited c)) with ((total b + inherited b) + (total c + inherited c)) by ring.
  rewrite (Rmult_comm _ (1 + u)), Rmult_assoc. apply Rmult_le_compat_l; [lra|]. rewrite (Rmult_plus_distr_l ((1 + u) ^ (adds b + adds c)) (total b + inherited b)). apply Rplus_le_compat; apply Rmult_le_compat_r; assumption.
Qed.
Lemma reach_pos b : sound b -> 0 <= reach b.
Proof. intros H. unfold reach. apply Rmult_le_pos; [|apply sound_pos; exact H]. pose proof (growth_one (adds b)). lra. Qed.

Lemma sound_add b c : sound b -> sound c -> sound (n_add (Num := NS) b c).
Proof. intros [H1 H2] [H3 H4]. split; cbn [n_add SpreadNum sval total inherited]; [|lra]. eapply Rle_trans; [apply Rabs_triang|]. lra. Qed.
Lemma fits_add b c : sound b -> sound c -> fits (n_add (Num := NS) b c) -> fits b /\ fits c.
Proof.
  intros Hb Hc [F1 F2]. pose proof (reach_add b c Hb Hc) as RA. pose proof (reach_pos b Hb). pose proof (reach_pos c Hc). pose proof (u_pos prec).
  cbn [n_add SpreadNum peak] in F1. pose proof (Rmax_l (peak b) (peak c)). pose proof (Rmax_r (peak b) (peak c)).
  assert (reach b + reach c <= (1 + u) * (reach b + reach c)). { rewrite <- (Rmult_1_l (reach b + reach c)) at 1. apply Rmult_le_compat_r; lra. }
  unfold fits. repeat split; lra.
Qed.

Lemma track_zero : tracks (n_zero (Num := NF)) (n_zero (Num := NS)).
Proof. split; [split; cbn; [rewrite Rabs_R0|]; lra|]. intros _. cbn [n_zero SpreadNum FloatNum]. rewrite slack_single. cbn. rewrite Rminus_0_r, Rabs_R0. split; [reflexivity|lra]. Qed.
Lemma track_one : tracks (n_one (Num := NF)) (n_one (Num := NS)).
Proof.
  split; [split; cbn; lra|]. intros _. cbn [n_one SpreadNum FloatNum]. rewrite slack_single. cbn [single sval]. rewrite Bone_correct, is_finite_Bone, Rminus_eq_0, Rabs_R0. split; [reflexivity|lra].
Qed.

Lemma track_add f g b c : tracks f b -> tracks g c -> tracks (n_add (Num := NF) f g) (n_add (Num := NS) b c).
Proof.
  intros [Hb Wb] [Hc Wc]. pose proof (sound_add b c Hb Hc) as HS. split; [exact HS|]. intros HF. destruct (fits_add b c Hb Hc HF) as [Fb Fc].
  destruct (Wb Fb) as [Ff Cf]. destruct (Wc Fc) as [Fg Cg]. pose proof (reach_add b c Hb Hc) as RA. pose proof (u_pos prec) as Up.
  destruct HS as [Ht _]. cbn [n_add SpreadNum sval total] in Ht.
  assert (X : Rabs (sval b + sval c) + (slack b + slack c + u * (Rabs (sval b + sval c) + (slack b + slack c))) <= (1 + u) * (reach b + reach c)).
  { unfold slack. assert (u * Rabs (sval b + sval c) <= u * (total b + total c)) by (apply Rmult_le_compat_l; lra). lra. }
  assert (Y : slack b + slack c + u * (Rabs (sval b + sval c) + (slack b + slack c)) <= slack (n_add (Num := NS) b c)).
  { unfold slack at 5. change (total (n_add (Num := NS) b c)) with (total b + total c). unfold slack.
    assert (u * Rabs (sval b + sval c) <= u * (total b + total c)) by (apply Rmult_le_compat_l; lra). lra. }
  destruct (err_plus prec emax f g (sval b) (sval c) (slack b) (slack c) (reach (n_add (Num := NS) b c)) Ff Fg Cf Cg) as [F C]; [lra|apply HF|].
  split; [exact F|]. cbn [n_add FloatNum]. change (sval (n_add (Num := NS) b c)) with (sval b + sval c). lra.
Qed.

Lemma carried_pos b c : sound b -> sound c -> 0 <= carried_product prec b c.
Proof.
  intros Hb Hc. pose proof (slack_pos b Hb). pose proof (slack_pos c Hc). pose proof (Rabs_pos (sval b)). pose proof (Rabs_pos (sval c)). unfold carried_product.
  assert (0 <= Rabs (sval b) * slack c) by (apply Rmult_le_pos; lra). assert (0 <= Rabs (sval c) * slack b) by (apply Rmult_le_pos; lra).
  assert (0 <= slack b * slack c) by (apply Rmult_le_pos; lra). lra.
Qed.
Lemma track_mul f g b c : tracks f b -> tracks g c -> tracks (n_mul (Num := NF) f g) (n_mul (Num := NS) b c).
Proof.
  intros [Hb Wb] [Hc Wc]. pose proof (carried_pos b c Hb Hc) as PC. pose proof (u_pos prec) as Up. pose proof (eta_pos prec emax) as Ep. pose proof (Rabs_pos (sval b * sval c)) as PA.
  assert (PU : 0 <= u * (Rabs (sval b * sval c) + carried_product prec b c)) by (apply Rmult_le_pos; lra).
  split; [split; cbn [n_mul SpreadNum single sval total inherited]; lra|]. intros [F1 F2]. cbn [n_mul SpreadNum] in F1, F2 |- *. rewrite reach_single in F2. rewrite slack_single.
  cbn [single peak sval] in F1 |- *.
  pose proof (Rmax_l (Rmax (peak b) (peak c)) (Rmax (reach b) (reach c))). pose proof (Rmax_r (Rmax (peak b) (peak c)) (Rmax (reach b) (reach c))).
  pose proof (Rmax_l (peak b) (peak c)). pose proof (Rmax_r (peak b) (peak c)). pose proof (Rmax_l (reach b) (reach c)). pose proof (Rmax_r (reach b) (reach c)).
  destruct Wb as [Ff Cf]; [split; lra|]. destruct Wc as [Fg Cg]; [split; lra|].
  exact (err_mult prec emax f g (sval b) (sval c) (slack b) (slack c) _ Ff Fg Cf Cg (Rle_refl _) F2).
Qed.

Lemma track_neg f b : tracks f b -> tracks (n_neg (Num := NF) f) (n_neg (Num := NS) b).
Proof.
  intros [[H1 H2] Wb]. split; [split; cbn [n_neg SpreadNum sval total inherited]; [rewrite Rabs_Ropp|]; lra|]. intros HF. destruct (Wb HF) as [F C].
  cbn [n_neg SpreadNum FloatNum sval]. rewrite is_finite_Bopp, B2R_Bopp. split; [exact F|]. replace (- B2R f - - sval b) with (- (B2R f - sval b)) by ring. rewrite Rabs_Ropp. exact C.
Qed.
Lemma track_sub f g b c : tracks f b -> tracks g c -> tracks (n_sub (Num := NF) f g) (n_sub (Num := NS) b c).
Proof.
  intros Hf Hg. assert (E : n_sub (Num := NF) f g = n_add (Num := NF) f (n_neg (Num := NF) g) \/ is_finite g = false).
  { cbn [n_sub n_add n_neg FloatNum]. destruct g; auto; left; destruct f; reflexivity. }
  pose proof (track_neg g c Hg) as HN. assert (A : tracks (n_add (Num := NF) f (n_neg (Num := NF) g)) (n_add (Num := NS) b (n_neg (Num := NS) c))) by (apply track_add; assumption).
  change (n_sub (Num := NS) b c) with (n_add (Num := NS) b (n_neg (Num := NS) c)).
  destruct E as [-> |E]; [exact A|]. split; [apply A|]. intros HF. exfalso. destruct (fits_add b (n_neg (Num := NS) c) (proj1 Hf) (proj1 HN) HF) as [_ FN].
  destruct Hg as [_ Wg]. destruct (Wg FN) as [F _]. congruence.
Qed.
Lemma track_abs f b : tracks f b -> tracks (n_abs (Num := NF) f) (n_abs (Num := NS) b).
Proof.
  intros [[H1 H2] Wb]. split; [split; cbn [n_abs SpreadNum sval total inherited]; [rewrite Rabs_Rabsolu|]; lra|]. intros HF. destruct (Wb HF) as [F C].
  cbn [n_abs SpreadNum FloatNum sval]. rewrite is_finite_Babs, B2R_Babs. split; [exact F|]. eapply Rle_trans; [apply Rabs_triang_inv2|exact C].
Qed.
Lemma track_tanh f b : tracks f b -> tracks (n_tanh (Num := NF) f) (n_tanh (Num := NS) b).
Proof.
  intros [Hb Wb]. pose proof (tau_pos prec emax tau ftanh Htau). pose proof (slack_pos b Hb). split; [split; cbn [n_tanh SpreadNum single sval total inherited]; lra|].
  intros [F1 F2]. cbn [n_tanh SpreadNum FloatNum] in F1 |- *. rewrite slack_single. cbn [single peak sval] in F1 |- *.
  pose proof (Rmax_l (peak b) (reach b)). pose proof (Rmax_r (peak b) (reach b)).
  destruct Wb as [F C]; [split; lra|]. destruct (Htau f F) as [F' T]. split; [exact F'|].
  replace (B2R (ftanh f) - tanh (sval b)) with ((B2R (ftanh f) - tanh (B2R f)) + (tanh (B2R f) - tanh (sval b))) by ring.
  eapply Rle_trans; [apply Rabs_triang|]. pose proof (tanh_close (B2R f) (sval b)). lra.
Qed.

Lemma track_ring : respects_ring (NA := NF) (NB := NS) tracks.
Proof. constructor; intros; [apply track_zero|apply track_one|apply track_add; assumption|apply track_mul; assumption]. Qed.
Lemma track_respects_tanh : respects_tanh (NA := NF) (NB := NS) tracks.
Proof. intros f b H. split; [apply track_tanh; exact H|]. apply track_sub; [apply track_one|]. apply track_mul; apply track_tanh; exact H. Qed.

Lemma sure_agrees f b : tracks f b -> sign_sure prec emax b ->
  n_lt (Num := NF) f (n_zero (Num := NF)) = n_lt (Num := NS) b (n_zero (Num := NS)) /\ n_ge (Num := NF) f (n_zero (Num := NF)) = n_ge (Num := NS) b (n_zero (Num := NS)).
Proof.
  intros [_ Wb] [HB HS]. destruct (Wb HB) as [F C]. cbn [n_lt n_ge n_zero SpreadNum FloatNum RNum sval single].
  rewrite Bltb_correct, Bleb_correct by (auto; reflexivity). change (B2R (B754_zero false)) with 0.
  assert (S : B2R f < 0 <-> sval b < 0).
  { destruct HS as [HS|HS].
    - rewrite HS in C. assert (B2R f = sval b); [|lra]. pose proof (Rabs_pos (B2R f - sval b)). assert (Z : Rabs (B2R f - sval b) = 0) by lra.
      destruct (Req_dec (B2R f - sval b) 0) as [H0|H0]; [lra|]. apply Rabs_no_R0 in H0. lra.
    - apply Rabs_le_inv in C. destruct (Rcase_abs (sval b)) as [V|V]; [rewrite Rabs_left in HS by exact V; lra|rewrite Rabs_right in HS by exact V; lra]. }
  destruct (Rlt_dec (sval b) 0) as [V|V], (Rge_dec (sval b) 0) as [V'|V']; try lra.
  - rewrite Rlt_bool_true, Rle_bool_false by lra. auto.
  - rewrite Rlt_bool_false, Rle_bool_true by lra. auto.
Qed.

Lemma track_respects_abs f b : tracks f b -> sign_sure prec emax b -> tracks (n_abs (Num := NF) f) (n_abs (Num := NS) b) /\
  tracks (if n_ge (Num := NF) f (n_zero (Num := NF)) then n_one (Num := NF) else n_sub (Num := NF) (n_zero (Num := NF)) (n_one (Num := NF)))
    (if n_ge (Num := NS) b (n_zero (Num := NS)) then n_one (Num := NS) else n_sub (Num := NS) (n_zero (Num := NS)) (n_one (Num := NS))).
Proof.
  intros H HS. split; [apply track_abs; exact H|]. destruct (sure_agrees f b H HS) as [_ ->]. destruct (n_ge _ _); [apply track_one|apply track_sub; [apply track_zero|apply track_one]].
Qed.
Lemma track_respects_relu f b : tracks f b -> sign_sure prec emax b -> tracks (relu_fn (NT := NF) f) (relu_fn (NT := NS) b) /\
  tracks (if n_lt (Num := NF) f (n_zero (Num := NF)) then n_zero (Num := NF) else n_one (Num := NF))
    (if n_lt (Num := NS) b (n_zero (Num := NS)) then n_zero (Num := NS) else n_one (Num := NS)).
Proof.
  intros H HS. destruct (sure_agrees f b H HS) as [E _]. unfold relu_fn. rewrite E. destruct (n_lt (Num := NS) b _); split; [apply track_zero|apply track_zero|exact H|apply track_one].
Qed.

Lemma begins_tracks f b : begins prec emax f b -> tracks f b.
Proof.
  intros (F & D & M). pose proof (Rabs_pos (B2R f - sval b)). assert (HS : sound b) by (split; lra). split; [exact HS|]. intros _. split; [exact F|].
  pose proof (sound_pos b HS). pose proof (growth_one (adds b)). unfold slack, reach.
  assert (total b + inherited b <= (1 + u) ^ adds b * (total b + inherited b)); [|lra]. rewrite <- (Rmult_1_l (total b + inherited b)) at 1. apply Rmult_le_compat_r; lra.
Qed.

End Spread.

(** The value part is the exact value. *)
Definition sum_value (x : R) (b : spread) : Prop := x = sval b.
Lemma sum_ring prec emax tau : respects_ring (NA := RNum) (NB := SpreadNum prec emax tau) sum_value.
Proof. constructor; unfold sum_value; cbn; intros; subst; reflexivity. Qed.
Lemma sum_op prec emax tau k : respects (NA := RNum) (NB := SpreadNum prec emax tau) sum_value k.
Proof.
  destruct k; cbn [respects]; try exact I; unfold respects_neg, respects_abs, respects_relu, respects_tanh, sum_value; intros x b ->; unfold relu_fn;
  cbn [n_neg n_abs n_ge n_lt n_sub n_one n_zero n_tanh n_mul SpreadNum RNum sval single]; try reflexivity;
  (split; [try reflexivity|try reflexivity]).
  - destruct (Rge_dec (sval b) 0); [reflexivity|]. cbn. ring.
  - destruct (Rlt_dec (sval b) 0); reflexivity.
  - destruct (Rlt_dec (sval b) 0); reflexivity.
Qed.
