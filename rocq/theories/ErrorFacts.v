(** * ErrorFacts: one operation with its error bound *)
From Coq Require Import Reals ZArith Lra Lia.
From Flocq Require Import Core BinarySingleNaN.
From Verif Require Import Base ModelOps Spec RealInst SpecRound SpecParam SpecError RoundFacts.
Local Open Scope R_scope.

(** [tanh] does not enlarge distances. *)
Lemma tanh_close a b : Rabs (tanh a - tanh b) <= Rabs (a - b).
Proof.
  assert (D : forall c, 0 <= 1 - tanh c * tanh c <= 1).
  { intros c. pose proof (cosh_pos c) as P. assert (E : tanh c * tanh c <= 1).
    { unfold tanh. replace (sinh c / cosh c * (sinh c / cosh c)) with ((sinh c * sinh c) / (cosh c * cosh c)) by (field; lra).
      apply Rmult_le_reg_r with (cosh c * cosh c); [nra|]. unfold Rdiv. rewrite Rmult_assoc, Rinv_l by nra.
      assert (sinh c * sinh c = cosh c * cosh c - 1); [|lra]. unfold sinh, cosh.
      replace ((exp c + exp (- c)) / 2 * ((exp c + exp (- c)) / 2) - 1) with ((exp c - exp (- c)) / 2 * ((exp c - exp (- c)) / 2) + (exp c * exp (- c) - 1)) by field.
      rewrite <- exp_plus, Rplus_opp_r, exp_0. lra. }
    nra. }
  assert (G : forall x y, x < y -> Rabs (tanh x - tanh y) <= Rabs (x - y)).
  { intros x y H. destruct (MVT_cor2 tanh (fun c => 1 - tanh c * tanh c) x y H) as (c & E & _); [intros; apply tanh_derive|].
    rewrite Rabs_minus_sym, (Rabs_minus_sym x y), E, Rabs_mult. specialize (D c). rewrite (Rabs_pos_eq (1 - _)) by lra.
    pose proof (Rabs_pos (y - x)). nra. }
  destruct (Rtotal_order a b) as [H|[-> |H]]; [auto|rewrite !Rminus_diag_eq by reflexivity; lra|]. rewrite Rabs_minus_sym, (Rabs_minus_sym a b). auto.
Qed.

Section Error.
Context (prec emax : Z) {prec_gt_0 : Prec_gt_0 prec} {prec_lt_emax : Prec_lt_emax prec emax}.
Context (tau : R) (ftanh : float prec emax -> float prec emax).
Hypothesis Htau : forall f, is_finite f = true -> is_finite (ftanh f) = true /\ Rabs (B2R (ftanh f) - tanh (B2R f)) <= tau.
Local Notation float := (float prec emax).
Local Notation u := (unit_roundoff prec).
Local Notation eta := (tiny_error prec emax).
Local Notation fexp := (SpecFloat.fexp prec emax).
Local Notation rnd := (round radix2 fexp ZnearestE).
Local Notation NF := (FloatNum prec emax ftanh).
Local Notation NE := (ErrNum prec emax tau).

Definition run_err (f : float) (b : bounded) : Prop := 0 <= err b /\ Rabs (val b) + err b <= mag b /\ within prec emax f b.

Lemma tau_pos : 0 <= tau.
Proof. destruct (Htau (B754_zero false) eq_refl) as [_ H]. eapply Rle_trans; [apply Rabs_pos|exact H]. Qed.

Lemma mult_small (x y : float) : is_finite x = true -> is_finite y = true -> Rabs (B2R x * B2R y) + (u * Rabs (B2R x * B2R y) + eta) < bpow radix2 emax ->
  is_finite (Bmult mode_NE x y) = true /\ B2R (Bmult mode_NE x y) = rnd (B2R x * B2R y).
Proof.
  intros HX HY H. pose proof (Bmult_correct prec emax _ _ mode_NE x y) as C. change (round_mode mode_NE) with ZnearestE in C.
  pose proof (mult_error prec emax (B2R x) (B2R y)) as ME. rewrite Rlt_bool_true in C; [rewrite HX, HY in C; cbn in C; tauto|].
  eapply Rle_lt_trans; [|exact H]. replace (rnd (B2R x * B2R y)) with (B2R x * B2R y + (rnd (B2R x * B2R y) - B2R x * B2R y)) by ring.
  eapply Rle_trans; [apply Rabs_triang|]. lra.
Qed.

(** A rounded sum *)
Lemma err_plus f g x y e e' M : is_finite f = true -> is_finite g = true -> Rabs (B2R f - x) <= e -> Rabs (B2R g - y) <= e' ->
  Rabs (x + y) + ((e + e') + u * (Rabs (x + y) + (e + e'))) <= M -> M < bpow radix2 emax ->
  is_finite (Bplus mode_NE f g) = true /\ Rabs (B2R (Bplus mode_NE f g) - (x + y)) <= (e + e') + u * (Rabs (x + y) + (e + e')).
Proof.
  intros Ff Fg Hf Hg HM HB. pose proof (u_pos prec) as Up.
  assert (D : Rabs (B2R f + B2R g - (x + y)) <= e + e').
  { replace (B2R f + B2R g - (x + y)) with ((B2R f - x) + (B2R g - y)) by ring. eapply Rle_trans; [apply Rabs_triang|]. lra. }
  assert (S : Rabs (B2R f + B2R g) <= Rabs (x + y) + (e + e')).
  { replace (B2R f + B2R g) with ((x + y) + (B2R f + B2R g - (x + y))) by ring. eapply Rle_trans; [apply Rabs_triang|]. lra. }
  pose proof (Rabs_pos (B2R f + B2R g)) as PS.
  assert (US : u * Rabs (B2R f + B2R g) <= u * (Rabs (x + y) + (e + e'))) by (apply Rmult_le_compat_l; lra).
  destruct (plus_small prec emax f g Ff Fg) as [F E]; [lra|]. split; [exact F|]. rewrite E. destruct (plus_error prec emax f g) as (d & Hd & ED). rewrite ED.
  replace ((B2R f + B2R g) * (1 + d) - (x + y)) with ((B2R f + B2R g - (x + y)) + d * (B2R f + B2R g)) by ring.
  eapply Rle_trans; [apply Rabs_triang|]. rewrite Rabs_mult. assert (Rabs d * Rabs (B2R f + B2R g) <= u * Rabs (B2R f + B2R g)) by (apply Rmult_le_compat_r; lra). lra.
Qed.

(** A rounded product *)
Lemma err_mult f g x y e e' M : is_finite f = true -> is_finite g = true -> Rabs (B2R f - x) <= e -> Rabs (B2R g - y) <= e' ->
  let c := Rabs x * e' + Rabs y * e + e * e' in
  Rabs (x * y) + (c + (u * (Rabs (x * y) + c) + eta)) <= M -> M < bpow radix2 emax ->
  is_finite (Bmult mode_NE f g) = true /\ Rabs (B2R (Bmult mode_NE f g) - x * y) <= c + (u * (Rabs (x * y) + c) + eta).
Proof.
  intros Ff Fg Hf Hg c HM HB. pose proof (u_pos prec) as Up. pose proof (eta_pos prec emax) as Ep.
  assert (D : Rabs (B2R f * B2R g - x * y) <= c).
  { replace (B2R f * B2R g - x * y) with (x * (B2R g - y) + (y * (B2R f - x) + (B2R f - x) * (B2R g - y))) by ring.
    eapply Rle_trans; [apply Rabs_triang|]. eapply Rle_trans; [apply Rplus_le_compat_l, Rabs_triang|]. rewrite !Rabs_mult. unfold c.
    pose proof (Rabs_pos x). pose proof (Rabs_pos y). pose proof (Rabs_pos (B2R f - x)). pose proof (Rabs_pos (B2R g - y)).
    assert (Rabs x * Rabs (B2R g - y) <= Rabs x * e') by (apply Rmult_le_compat_l; lra).
    assert (Rabs y * Rabs (B2R f - x) <= Rabs y * e) by (apply Rmult_le_compat_l; lra).
    assert (Rabs (B2R f - x) * Rabs (B2R g - y) <= e * e') by (apply Rmult_le_compat; lra). lra. }
  assert (S : Rabs (B2R f * B2R g) <= Rabs (x * y) + c).
  { replace (B2R f * B2R g) with (x * y + (B2R f * B2R g - x * y)) by ring. eapply Rle_trans; [apply Rabs_triang|]. lra. }
  pose proof (Rabs_pos (B2R f * B2R g)) as PS.
  assert (US : u * Rabs (B2R f * B2R g) <= u * (Rabs (x * y) + c)) by (apply Rmult_le_compat_l; lra).
  destruct (mult_small f g Ff Fg) as [F E]; [lra|]. split; [exact F|]. rewrite E. pose proof (mult_error prec emax (B2R f) (B2R g)) as ME.
  replace (rnd (B2R f * B2R g) - x * y) with ((rnd (B2R f * B2R g) - B2R f * B2R g) + (B2R f * B2R g - x * y)) by ring.
  eapply Rle_trans; [apply Rabs_triang|]. lra.
Qed.

Lemma err_zero : run_err (n_zero (Num := NF)) (n_zero (Num := NE)).
Proof. unfold run_err, within. cbn. rewrite Rminus_0_r, Rabs_R0. repeat split; lra. Qed.
Lemma err_one : run_err (n_one (Num := NF)) (n_one (Num := NE)).
Proof.
  unfold run_err, within. cbn [n_one ErrNum FloatNum val err mag]. rewrite Bone_correct, is_finite_Bone, Rminus_eq_0, Rabs_R0, Rabs_R1. repeat split; lra.
Qed.

Lemma err_add f g b c : run_err f b -> run_err g c -> run_err (n_add (Num := NF) f g) (n_add (Num := NE) b c).
Proof.
  intros (Pb & Mb & Wb) (Pc & Mc & Wc). pose proof (u_pos prec) as Up. pose proof (Rabs_pos (val b + val c)) as PA.
  assert (PU : 0 <= u * (Rabs (val b + val c) + (err b + err c))) by (apply Rmult_le_pos; lra).
  unfold run_err, within. cbn [n_add ErrNum FloatNum rounded val err mag]. split; [lra|]. split; [apply Rmax_r|]. intros HB.
  pose proof (Rmax_l (Rmax (mag b) (mag c)) (Rabs (val b + val c) + (err b + err c + u * (Rabs (val b + val c) + (err b + err c))))) as M1.
  pose proof (Rmax_l (mag b) (mag c)) as M2. pose proof (Rmax_r (mag b) (mag c)) as M3.
  destruct Wb as [Fb Cb]; [lra|]. destruct Wc as [Fc Cc]; [lra|]. eapply err_plus; eauto. apply Rmax_r.
Qed.

Lemma err_mul f g b c : run_err f b -> run_err g c -> run_err (n_mul (Num := NF) f g) (n_mul (Num := NE) b c).
Proof.
  intros (Pb & Mb & Wb) (Pc & Mc & Wc). pose proof (u_pos prec) as Up. pose proof (eta_pos prec emax) as Ep. pose proof (Rabs_pos (val b * val c)) as PA.
  assert (PC : 0 <= carried_mul b c).
  { unfold carried_mul. pose proof (Rabs_pos (val b)). pose proof (Rabs_pos (val c)).
    assert (0 <= Rabs (val b) * err c) by (apply Rmult_le_pos; lra). assert (0 <= Rabs (val c) * err b) by (apply Rmult_le_pos; lra).
    assert (0 <= err b * err c) by (apply Rmult_le_pos; lra). lra. }
  assert (PU : 0 <= u * (Rabs (val b * val c) + carried_mul b c)) by (apply Rmult_le_pos; lra).
  unfold run_err, within. cbn [n_mul ErrNum FloatNum rounded val err mag]. split; [lra|]. split; [apply Rmax_r|]. intros HB.
  pose proof (Rmax_l (Rmax (mag b) (mag c)) (Rabs (val b * val c) + (carried_mul b c + (u * (Rabs (val b * val c) + carried_mul b c) + eta)))) as M1.
  pose proof (Rmax_l (mag b) (mag c)) as M2. pose proof (Rmax_r (mag b) (mag c)) as M3.
  destruct Wb as [Fb Cb]; [lra|]. destruct Wc as [Fc Cc]; [lra|]. eapply err_mult; eauto. apply Rmax_r.
Qed.

Lemma err_neg f b : run_err f b -> run_err (n_neg (Num := NF) f) (n_neg (Num := NE) b).
Proof.
  intros (Pb & Mb & Wb). unfold run_err, within. cbn [n_neg ErrNum FloatNum val err mag]. rewrite Rabs_Ropp. split; [exact Pb|]. split; [exact Mb|].
  intros HB. destruct (Wb HB) as [F C]. rewrite is_finite_Bopp, B2R_Bopp. split; [exact F|]. replace (- B2R f - - val b) with (- (B2R f - val b)) by ring. rewrite Rabs_Ropp. exact C.
Qed.

Lemma err_sub f g b c : run_err f b -> run_err g c -> run_err (n_sub (Num := NF) f g) (n_sub (Num := NE) b c).
Proof.
  intros Hf Hg. assert (E : n_sub (Num := NF) f g = n_add (Num := NF) f (n_neg (Num := NF) g) \/ is_finite g = false).
  { cbn [n_sub n_add n_neg FloatNum]. destruct g; auto; left; destruct f; reflexivity. }
  assert (A : run_err (n_add (Num := NF) f (n_neg (Num := NF) g)) (n_add (Num := NE) b (n_neg (Num := NE) c))) by (apply err_add; [exact Hf|apply err_neg; exact Hg]).
  replace (n_sub (Num := NE) b c) with (n_add (Num := NE) b (n_neg (Num := NE) c)) by reflexivity.
  destruct E as [-> |E]; [exact A|]. destruct A as (A1 & A2 & A3). split; [exact A1|]. split; [exact A2|]. intros HB. destruct Hg as (_ & _ & Wg).
  exfalso. cbn [n_add n_neg ErrNum rounded mag] in HB. destruct Wg as [F _]; [|congruence].
  eapply Rle_lt_trans; [|exact HB]. eapply Rle_trans; [|apply Rmax_l]. apply Rmax_r.
Qed.

Lemma err_abs f b : run_err f b -> run_err (n_abs (Num := NF) f) (n_abs (Num := NE) b).
Proof.
  intros (Pb & Mb & Wb). unfold run_err, within. cbn [n_abs ErrNum FloatNum val err mag]. rewrite Rabs_Rabsolu. split; [exact Pb|]. split; [exact Mb|].
  intros HB. destruct (Wb HB) as [F C]. rewrite is_finite_Babs, B2R_Babs. split; [exact F|]. eapply Rle_trans; [apply Rabs_triang_inv2|exact C].
Qed.

Lemma err_tanh f b : run_err f b -> run_err (n_tanh (Num := NF) f) (n_tanh (Num := NE) b).
Proof.
  intros (Pb & Mb & Wb). pose proof tau_pos. unfold run_err, within. cbn [n_tanh ErrNum FloatNum rounded val err mag]. split; [lra|]. split; [apply Rmax_r|].
  intros HB. pose proof (Rmax_l (mag b) (Rabs (tanh (val b)) + (err b + tau))) as M1. destruct Wb as [F C]; [lra|]. destruct (Htau f F) as [F' T]. split; [exact F'|].
  replace (B2R (ftanh f) - tanh (val b)) with ((B2R (ftanh f) - tanh (B2R f)) + (tanh (B2R f) - tanh (val b))) by ring.
  eapply Rle_trans; [apply Rabs_triang|]. pose proof (tanh_close (B2R f) (val b)). lra.
Qed.

Lemma err_ring : respects_ring (NA := NF) (NB := NE) run_err.
Proof. constructor; intros; [apply err_zero|apply err_one|apply err_add; assumption|apply err_mul; assumption]. Qed.
Lemma err_respects_tanh : respects_tanh (NA := NF) (NB := NE) run_err.
Proof. intros f b H. split; [apply err_tanh; exact H|]. apply err_sub; [apply err_one|]. apply err_mul; apply err_tanh; exact H. Qed.

(** With a known sign both sides of a comparison with 0 agree. *)
Lemma sign_agrees f b : run_err f b -> sign_known emax b ->
  n_lt (Num := NF) f (n_zero (Num := NF)) = n_lt (Num := NE) b (n_zero (Num := NE)) /\ n_ge (Num := NF) f (n_zero (Num := NF)) = n_ge (Num := NE) b (n_zero (Num := NE)).
Proof.
  intros (Pb & Mb & Wb) [HB HS]. destruct (Wb HB) as [F C]. cbn [n_lt n_ge n_zero ErrNum FloatNum RNum val].
  rewrite Bltb_correct, Bleb_correct by (auto; reflexivity). change (B2R (B754_zero false)) with 0.
  assert (S : B2R f < 0 <-> val b < 0).
  { destruct HS as [HS|HS].
    - rewrite HS in C. assert (B2R f = val b); [|lra]. pose proof (Rabs_pos (B2R f - val b)). assert (Z : Rabs (B2R f - val b) = 0) by lra.
      destruct (Req_dec (B2R f - val b) 0); [lra|]. apply Rabs_no_R0 in H0. lra.
    - apply Rabs_le_inv in C. destruct (Rcase_abs (val b)) as [V|V]; [rewrite Rabs_left in HS by exact V; lra|rewrite Rabs_right in HS by exact V; lra]. }
  destruct (Rlt_dec (val b) 0) as [V|V], (Rge_dec (val b) 0) as [V'|V']; try lra.
  - rewrite Rlt_bool_true, Rle_bool_false by lra. auto.
  - rewrite Rlt_bool_false, Rle_bool_true by lra. auto.
Qed.

Lemma err_respects_abs f b : run_err f b -> sign_known emax b -> run_err (n_abs (Num := NF) f) (n_abs (Num := NE) b) /\
  run_err (if n_ge (Num := NF) f (n_zero (Num := NF)) then n_one (Num := NF) else n_sub (Num := NF) (n_zero (Num := NF)) (n_one (Num := NF)))
    (if n_ge (Num := NE) b (n_zero (Num := NE)) then n_one (Num := NE) else n_sub (Num := NE) (n_zero (Num := NE)) (n_one (Num := NE))).
Proof.
  intros H HS. split; [apply err_abs; exact H|]. destruct (sign_agrees f b H HS) as [_ ->]. destruct (n_ge _ _); [apply err_one|apply err_sub; [apply err_zero|apply err_one]].
Qed.
Lemma err_respects_relu f b : run_err f b -> sign_known emax b -> run_err (relu_fn (NT := NF) f) (relu_fn (NT := NE) b) /\
  run_err (if n_lt (Num := NF) f (n_zero (Num := NF)) then n_zero (Num := NF) else n_one (Num := NF))
    (if n_lt (Num := NE) b (n_zero (Num := NE)) then n_zero (Num := NE) else n_one (Num := NE)).
Proof.
  intros H HS. destruct (sign_agrees f b H HS) as [E _]. unfold relu_fn. rewrite E. destruct (n_lt (Num := NE) b _); split; [apply err_zero|apply err_zero|exact H|apply err_one].
Qed.

End Error.
