(** * RoundFacts: error bounds of floating-point sums *)
From Coq Require Import Reals ZArith Lra Lia Permutation.
From Flocq Require Import Core BinarySingleNaN Relative Plus_error.
From Verif Require Import Base Spec SpecRound.
Local Open Scope R_scope.

Section Round.
Context (prec emax : Z) {prec_gt_0 : Prec_gt_0 prec} {prec_lt_emax : Prec_lt_emax prec emax}.
Local Notation float := (float prec emax).
Local Notation u := (unit_roundoff prec).
Local Notation eta := (tiny_error prec emax).
Local Notation fexp := (SpecFloat.fexp prec emax).
Local Notation rnd := (round radix2 fexp ZnearestE).

Lemma u_pos : 0 < u.
Proof. apply bpow_gt_0. Qed.
Lemma eta_pos : 0 < eta.
Proof. unfold tiny_error. pose proof (bpow_gt_0 radix2 (3 - emax - prec)). lra. Qed.
Lemma u_half : u = / 2 * bpow radix2 (- prec + 1).
Proof. unfold unit_roundoff. rewrite bpow_plus. change (bpow radix2 1) with 2. field. Qed.

Lemma format (x : float) : generic_format radix2 fexp (B2R x).
Proof. apply generic_format_B2R. Qed.

(** ** One operation *)
Lemma plus_finite (x y : float) : is_finite (Bplus mode_NE x y) = true ->
  is_finite x = true /\ is_finite y = true /\ B2R (Bplus mode_NE x y) = rnd (B2R x + B2R y).
Proof.
  intros H. assert (HX : is_finite x = true) by (destruct x as [|[]| |], y as [|[]| |]; auto).
  assert (HY : is_finite y = true) by (destruct x as [|[]| |], y as [|[]| |]; auto).
  pose proof (Bplus_correct prec emax _ _ mode_NE x y HX HY) as C. change (round_mode mode_NE) with ZnearestE in C.
  destruct (Rlt_bool _ _) eqn:E; [tauto|]. destruct C as [C _]. exfalso.
  destruct (Bplus mode_NE x y) as [| | |] eqn:EB; cbn in H, C; try discriminate.
Qed.

Lemma mult_finite (x y : float) : is_finite (Bmult mode_NE x y) = true ->
  is_finite x = true /\ is_finite y = true /\ B2R (Bmult mode_NE x y) = rnd (B2R x * B2R y).
Proof.
  intros H. pose proof (Bmult_correct prec emax _ _ mode_NE x y) as C. change (round_mode mode_NE) with ZnearestE in C.
  destruct (Rlt_bool _ _) eqn:E.
  - destruct C as (C1 & C2 & _). rewrite H in C2. symmetry in C2. apply andb_prop in C2 as [H1 H2]. auto.
  - exfalso. destruct (Bmult mode_NE x y) as [| | |] eqn:EB; cbn in H, C; try discriminate.
Qed.

Lemma plus_error (x y : float) : exists e, Rabs e <= u /\ rnd (B2R x + B2R y) = (B2R x + B2R y) * (1 + e).
Proof.
  destruct (FLT_plus_error_N_ex radix2 (3 - emax - prec) prec (fun x => negb (Z.even x)) (B2R x) (B2R y)) as (e & He & E); [apply format|apply format|].
  exists e. split; [|exact E]. eapply Rle_trans; [exact He|]. unfold u_ro. rewrite <- u_half. pose proof u_pos.
  apply (Rmult_le_reg_r (1 + u)); [lra|]. replace (u / (1 + u) * (1 + u)) with u by (field; lra). nra.
Qed.

Lemma mult_error (x y : R) : Rabs (rnd (x * y) - x * y) <= u * Rabs (x * y) + eta.
Proof.
  destruct (error_N_FLT radix2 (3 - emax - prec) prec prec_gt_0 (fun x => negb (Z.even x)) (x * y)) as (e & t & He & Ht & _ & E).
  rewrite <- u_half in He. fold (tiny_error prec emax) in Ht. change (FLT_exp (3 - emax - prec) prec) with fexp in E. rewrite E.
  replace (x * y * (1 + e) + t - x * y) with (x * y * e + t) by ring. eapply Rle_trans; [apply Rabs_triang|]. rewrite Rabs_mult.
  pose proof (Rabs_pos (x * y)). nra.
Qed.
Lemma zero_plus (x : float) : is_finite x = true -> rnd (0 + B2R x) = B2R x.
Proof. intros H. rewrite Rplus_0_l. apply round_generic; [apply valid_rnd_N|apply format]. Qed.

(** ** Sums *)
Lemma rsum_app a b : rsum (a ++ b) = rsum a + rsum b.
Proof. unfold rsum. induction a as [|x a IH]; cbn [app fold_right]; [|rewrite IH]; ring. Qed.
Lemma magnitude_app a b : magnitude (a ++ b) = magnitude a + magnitude b.
Proof. unfold magnitude. rewrite map_app. apply rsum_app. Qed.
Lemma magnitude_pos l : 0 <= magnitude l.
Proof. unfold magnitude, rsum. induction l as [|x l IH]; cbn [map fold_right]; [lra|]. pose proof (Rabs_pos x). lra. Qed.
Lemma rsum_perm a b : Permutation a b -> rsum a = rsum b.
Proof. unfold rsum. induction 1; cbn [fold_right] in *; lra. Qed.
Lemma magnitude_perm a b : Permutation a b -> magnitude a = magnitude b.
Proof. intros H. unfold magnitude. apply rsum_perm, Permutation_map, H. Qed.
Lemma rsum_le l : Rabs (rsum l) <= magnitude l.
Proof.
  unfold magnitude, rsum. induction l as [|x l IH]; cbn [map fold_right]; [rewrite Rabs_R0; lra|]. eapply Rle_trans; [apply Rabs_triang|]. lra.
Qed.

Lemma growth_S k : growth prec (S k) = growth prec k + u * (1 + u) ^ k.
Proof. unfold growth. cbn [pow]. ring. Qed.
Lemma growth_pos k : 0 <= growth prec k.
Proof. unfold growth. pose proof u_pos. pose proof (pow_R1_Rle (1 + u) k). lra. Qed.
Lemma growth_mono k : growth prec k <= growth prec (S k).
Proof. rewrite growth_S. pose proof u_pos. pose proof (pow_R1_Rle (1 + u) k). nra. Qed.
Lemma growth_le j k : (j <= k)%nat -> growth prec j <= growth prec k.
Proof. intros H. induction H; [lra|]. eapply Rle_trans; [exact IHle|apply growth_mono]. Qed.

Local Notation add := (Bplus mode_NE).
Local Notation fsum := (fold_left (Bplus mode_NE (prec:=prec) (emax:=emax))).

(** A sum that is finite had finite terms only. *)
Lemma fsum_finite (l : list float) : forall s, is_finite (fsum l s) = true -> is_finite s = true /\ Forall (fun x => is_finite x = true) l.
Proof.
  induction l as [|x l IH]; intros s H; cbn [fold_left] in H; [auto|]. apply IH in H as [H1 H2]. apply plus_finite in H1 as (H3 & H4 & _). auto.
Qed.

(** Error after [k] roundings, continuing from [s] whose exact value is [e] and magnitude at most [m] *)
Lemma fsum_error (l : list float) : forall s e m k, is_finite (fsum l s) = true ->
  Rabs (B2R s - e) <= growth prec k * m -> Rabs e <= m ->
  Rabs (B2R (fsum l s) - (e + rsum (map B2R l))) <= growth prec (k + length l) * (m + magnitude (map B2R l)).
Proof.
  induction l as [|x l IH]; intros s e m k H He Hm; cbn [fold_left map rsum fold_right length] in *.
  - rewrite Nat.add_0_r. cbn. rewrite !Rplus_0_r. exact He.
  - pose proof (fsum_finite l _ H) as [H1 _]. apply plus_finite in H1 as (_ & _ & E). destruct (plus_error s x) as (d & Hd & ED).
    replace (k + S (length l))%nat with (S k + length l)%nat by lia.
    replace (e + (B2R x + fold_right Rplus 0 (map B2R l))) with (e + B2R x + rsum (map B2R l)) by (unfold rsum; ring).
    replace (m + magnitude (B2R x :: map B2R l)) with (m + Rabs (B2R x) + magnitude (map B2R l)) by (unfold magnitude; cbn; unfold rsum; ring).
    apply IH; [exact H| |eapply Rle_trans; [apply Rabs_triang|]; lra].
    rewrite E, ED. pose proof (growth_pos k) as G. pose proof u_pos. pose proof (Rabs_pos (B2R x)). pose proof (Rabs_pos e).
    replace ((B2R s + B2R x) * (1 + d) - (e + B2R x)) with ((B2R s - e) * (1 + d) + (e + B2R x) * d) by ring.
    eapply Rle_trans; [apply Rabs_triang|]. rewrite !Rabs_mult.
    assert (D1 : Rabs (1 + d) <= 1 + u) by (eapply Rle_trans; [apply Rabs_triang|]; rewrite Rabs_R1; lra).
    assert (D2 : Rabs (e + B2R x) <= m + Rabs (B2R x)) by (eapply Rle_trans; [apply Rabs_triang|]; lra).
    pose proof (Rabs_pos (1 + d)). pose proof (Rabs_pos d). pose proof (Rabs_pos (B2R s - e)).
    apply Rle_trans with (growth prec k * m * (1 + u) + (m + Rabs (B2R x)) * u).
    + apply Rplus_le_compat; apply Rmult_le_compat; auto; apply Rabs_pos.
    + rewrite growth_S. unfold growth in *. set (g := (1 + u) ^ k) in *.
      assert (0 <= (g - 1) * Rabs (B2R x) * (1 + u)) by (apply Rmult_le_pos; [apply Rmult_le_pos|]; lra). lra.
Qed.

(** The sum from zero: the first addition is exact. *)
Lemma sum_from_zero (l : list float) : is_finite (fsum l (B754_zero false)) = true ->
  Forall (fun x => is_finite x = true) l /\
  Rabs (B2R (fsum l (B754_zero false)) - rsum (map B2R l)) <= growth prec (length l - 1) * magnitude (map B2R l).
Proof.
  intros H. split; [apply (fsum_finite l _ H)|]. destruct l as [|x l].
  - cbn. unfold growth, magnitude. cbn. rewrite Rminus_0_r, Rabs_R0. lra.
  - cbn [fold_left] in *. pose proof (fsum_finite l _ H) as [H1 _]. pose proof (plus_finite _ _ H1) as (_ & Hx & E). cbn [B2R] in E.
    rewrite zero_plus in E by auto. replace (length (x :: l) - 1)%nat with (0 + length l)%nat by (cbn; lia).
    pose proof (fsum_error l _ (B2R x) (Rabs (B2R x)) 0 H) as P. rewrite E in P.
    replace (rsum (map B2R (x :: l))) with (B2R x + rsum (map B2R l)) by reflexivity.
    replace (magnitude (map B2R (x :: l))) with (Rabs (B2R x) + magnitude (map B2R l)) by reflexivity.
    apply P; [|lra]. unfold growth. cbn. rewrite Rminus_diag_eq, Rabs_R0 by reflexivity. lra.
Qed.

(** ** Sums of products *)
Lemma dot_from_zero (p : list (float * float)) :
  let l := map (fun '(x, y) => Bmult mode_NE x y) p in
  is_finite (fsum l (B754_zero false)) = true ->
  Forall (fun '(x, y) => is_finite x = true /\ is_finite y = true) p /\
  Rabs (B2R (fsum l (B754_zero false)) - rsum (products prec emax p)) <=
    growth prec (length p) * magnitude (products prec emax p) + INR (length p) * (1 + u) ^ (length p - 1) * eta.
Proof.
  intros l H. destruct (sum_from_zero l H) as [HF HE]. unfold l in HE. rewrite map_length in HE. fold l in HE.
  assert (HP : Forall (fun '(x, y) => is_finite x = true /\ is_finite y = true /\ B2R (Bmult mode_NE x y) = rnd (B2R x * B2R y)) p).
  { subst l. clear H HE. rewrite Forall_map in HF. eapply Forall_impl; [|exact HF]. intros [x y] Q. exact (mult_finite x y Q). }
  split; [eapply Forall_impl; [|exact HP]; intros [x y] Q; tauto|].
  assert (A : Rabs (rsum (map B2R l) - rsum (products prec emax p)) <= u * magnitude (products prec emax p) + INR (length p) * eta /\
              magnitude (map B2R l) <= (1 + u) * magnitude (products prec emax p) + INR (length p) * eta).
  { subst l. clear H HE HF. induction p as [|[x y] p IH].
    - cbn. unfold magnitude. cbn. rewrite Rminus_0_r, Rabs_R0. lra.
    - inversion HP as [|? ? HQ HP']; subst. cbv beta iota in HQ. destruct HQ as (Hx & Hy & E). destruct (IH HP') as [I1 I2]. clear IH.
      pose proof (mult_error (B2R x) (B2R y)) as M. rewrite <- E in M.
      assert (HI : INR (length ((x, y) :: p)) = INR (length p) + 1) by (cbn [length]; apply S_INR). rewrite HI. clear HI.
      unfold magnitude, products in *. cbn [map rsum fold_right] in *. fold (rsum (map B2R (map (fun '(x, y) => Bmult mode_NE x y) p))).
      set (a := B2R (Bmult mode_NE x y)) in *. set (b := B2R x * B2R y) in *. unfold rsum in *.
      pose proof u_pos. pose proof eta_pos. split.
      + match goal with |- Rabs (a + ?A - (b + ?B)) <= _ => replace (a + A - (b + B)) with ((a - b) + (A - B)) by ring end.
        eapply Rle_trans; [apply Rabs_triang|]. lra.
      + assert (Rabs a <= Rabs b + (u * Rabs b + eta)).
        { replace a with (b + (a - b)) by ring. eapply Rle_trans; [apply Rabs_triang|]. lra. }
        lra. }
  destruct A as [A1 A2]. set (s := B2R (fsum l (B754_zero false))) in *. set (mp := magnitude (products prec emax p)) in *.
  replace (s - rsum (products prec emax p)) with ((s - rsum (map B2R l)) + (rsum (map B2R l) - rsum (products prec emax p))) by ring.
  eapply Rle_trans; [apply Rabs_triang|].
  destruct p as [|q p'] eqn:EP.
  - cbn [length Nat.sub] in *. unfold growth in *. cbn in *. lra.
  - rewrite <- EP in *. assert (EL : length p = S (length p - 1)) by (subst p; cbn; lia).
    set (k := (length p - 1)%nat) in *. rewrite EL at 1. pose proof (growth_pos k) as G. pose proof (magnitude_pos (products prec emax p)) as MP. fold mp in MP.
    apply Rle_trans with (growth prec k * ((1 + u) * mp + INR (length p) * eta) + (u * mp + INR (length p) * eta)).
    + apply Rplus_le_compat; [|exact A1]. eapply Rle_trans; [exact HE|]. apply Rmult_le_compat_l; auto.
    + apply Req_le. unfold growth. cbn [pow]. ring.
Qed.

(** ** Sums that do not overflow *)
Lemma plus_small (x y : float) : is_finite x = true -> is_finite y = true -> (1 + u) * Rabs (B2R x + B2R y) < bpow radix2 emax ->
  is_finite (Bplus mode_NE x y) = true /\ B2R (Bplus mode_NE x y) = rnd (B2R x + B2R y).
Proof.
  intros HX HY H. pose proof (Bplus_correct prec emax _ _ mode_NE x y HX HY) as C. change (round_mode mode_NE) with ZnearestE in C.
  destruct (plus_error x y) as (d & Hd & ED). rewrite Rlt_bool_true in C; [tauto|]. rewrite ED, Rabs_mult.
  eapply Rle_lt_trans; [|exact H]. rewrite Rmult_comm. apply Rmult_le_compat_r; [apply Rabs_pos|].
  eapply Rle_trans; [apply Rabs_triang|]. rewrite Rabs_R1. lra.
Qed.

Lemma fsum_small (l : list float) : forall s, is_finite s = true -> Forall (fun x => is_finite x = true) l ->
  (1 + u) ^ length l * (Rabs (B2R s) + magnitude (map B2R l)) < bpow radix2 emax -> is_finite (fsum l s) = true.
Proof.
  induction l as [|x l IH]; intros s Hs Hl H; [exact Hs|]. inversion Hl as [|? ? Hx Hl']; subst. cbn [fold_left length] in *.
  replace (magnitude (map B2R (x :: l))) with (Rabs (B2R x) + magnitude (map B2R l)) in H by reflexivity.
  pose proof u_pos. pose proof (pow_R1_Rle (1 + u) (length l)) as P1. assert (P2 : 1 <= (1 + u) ^ length l) by (apply P1; lra). clear P1.
  pose proof (magnitude_pos (map B2R l)) as MP. pose proof (Rabs_triang (B2R s) (B2R x)) as TR. pose proof (Rabs_pos (B2R s + B2R x)) as PS.
  set (g := (1 + u) ^ length l) in *. set (mg := magnitude (map B2R l)) in *. cbn [pow] in H. fold g in H.
  assert (B : (1 + u) * Rabs (B2R s + B2R x) + g * mg <= (1 + u) * g * (Rabs (B2R s) + (Rabs (B2R x) + mg))).
  { assert (X1 : (1 + u) * Rabs (B2R s + B2R x) <= (1 + u) * g * (Rabs (B2R s) + Rabs (B2R x))).
    { rewrite Rmult_assoc. apply Rmult_le_compat_l; [lra|]. eapply Rle_trans; [exact TR|]. rewrite <- (Rmult_1_l (Rabs _ + Rabs _)) at 1.
      apply Rmult_le_compat_r; [|exact P2]. pose proof (Rabs_pos (B2R s)). pose proof (Rabs_pos (B2R x)). lra. }
    assert (X2 : g * mg <= (1 + u) * g * mg).
    { apply Rmult_le_compat_r; [exact MP|]. assert (0 <= u * g) by (apply Rmult_le_pos; lra). lra. }
    lra. }
  destruct (plus_small s x Hs Hx) as [F E].
  { eapply Rle_lt_trans; [|exact H]. assert (0 <= g * mg) by (apply Rmult_le_pos; lra). lra. }
  apply IH; auto. destruct (plus_error s x) as (d & Hd & ED). rewrite E, ED. eapply Rle_lt_trans; [|exact H].
  assert (Y : Rabs ((B2R s + B2R x) * (1 + d)) <= (1 + u) * Rabs (B2R s + B2R x)).
  { rewrite Rabs_mult, Rmult_comm. apply Rmult_le_compat_r; [exact PS|]. eapply Rle_trans; [apply Rabs_triang|]. rewrite Rabs_R1. lra. }
  fold g mg. apply Rle_trans with (g * ((1 + u) * (Rabs (B2R s) + Rabs (B2R x)) + (1 + u) * mg)); [|apply Req_le; ring].
  apply Rmult_le_compat_l; [lra|]. apply Rplus_le_compat.
  - eapply Rle_trans; [exact Y|]. apply Rmult_le_compat_l; lra.
  - assert (0 <= u * mg) by (apply Rmult_le_pos; lra). lra.
Qed.

Lemma sum_small (l : list float) : Forall (fun x => is_finite x = true) l ->
  (1 + u) ^ (length l - 1) * magnitude (map B2R l) < bpow radix2 emax -> is_finite (fsum l (B754_zero false)) = true.
Proof.
  destruct l as [|x l]; [reflexivity|]. intros HF H. inversion HF as [|? ? Hx Hl]; subst. cbn [fold_left].
  assert (E : is_finite (Bplus mode_NE (B754_zero false) x) = true /\ B2R (Bplus mode_NE (B754_zero false) x) = B2R x).
  { destruct x as [[]|[]| |]; cbn in *; try discriminate; split; reflexivity. }
  destruct E as [E1 E2]. apply fsum_small; auto. rewrite E2. replace (length (x :: l) - 1)%nat with (length l) in H by (cbn; lia). exact H.
Qed.

(** ** Two orders of summation *)
Lemma orders_close (l l' t : list float) : Permutation l t -> Permutation l' t ->
  is_finite (fsum l (B754_zero false)) = true -> is_finite (fsum l' (B754_zero false)) = true ->
  Rabs (B2R (fsum l (B754_zero false)) - B2R (fsum l' (B754_zero false))) <= 2 * growth prec (length t - 1) * magnitude (map B2R t).
Proof.
  intros P P' F F'.
  assert (A : forall k, Permutation k t -> is_finite (fsum k (B754_zero false)) = true ->
            Rabs (B2R (fsum k (B754_zero false)) - rsum (map B2R t)) <= growth prec (length t - 1) * magnitude (map B2R t)).
  { intros k Q G. destruct (sum_from_zero k G) as [_ E].
    rewrite (Permutation_length Q), (magnitude_perm _ _ (Permutation_map _ Q)), (rsum_perm _ _ (Permutation_map _ Q)) in E. exact E. }
  pose proof (A l P F) as E. pose proof (A l' P' F') as E'. set (s := rsum (map B2R t)) in *.
  match goal with |- Rabs (?x - ?y) <= _ => replace (x - y) with ((x - s) + - (y - s)) by ring end.
  eapply Rle_trans; [apply Rabs_triang|]. rewrite Rabs_Ropp. lra.
Qed.

End Round.
