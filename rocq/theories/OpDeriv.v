(** * OpDeriv: the operations on real tensors are differentiable, with derivative [tan] *)
From Coq Require Import Reals Lra Ring.
From Verif Require Import Base ModelIndex ModelTensor ModelOps ModelJvp ModelGraph Spec SpecDual
  Lists IndexFacts TensorFacts OpsFacts Sums JvpFacts Dual Adjoint ClaimsOps ClaimsMat RealInst.
Local Open Scope R_scope.

Definition D (f : R -> R) (d : R) : Prop := derivable_pt_lim f 0 d.

Lemma D_ext f g d : (forall t, f t = g t) -> D f d -> D g d.
Proof. apply derivable_pt_lim_ext. Qed.
Lemma D_const c : D (fun _ => c) 0.
Proof. apply (derivable_pt_lim_const c). Qed.
Lemma D_plus f g a b : D f a -> D g b -> D (fun t => f t + g t) (a + b).
Proof. apply derivable_pt_lim_plus. Qed.
Lemma D_mult f g a b : D f a -> D g b -> D (fun t => f t * g t) (f 0 * b + a * g 0).
Proof.
  intros H1 H2. replace (f 0 * b + a * g 0) with (a * g 0 + f 0 * b) by ring. apply (derivable_pt_lim_mult f g); auto.
Qed.
Lemma D_opp f a : D f a -> D (fun t => - f t) (- a).
Proof. apply derivable_pt_lim_opp. Qed.
Lemma D_comp h f a b : D f a -> derivable_pt_lim h (f 0) b -> D (fun t => h (f t)) (b * a).
Proof. intros H1 H2. apply (derivable_pt_lim_comp f h); auto. Qed.

Lemma D_bsum A (l : list A) (f : A -> R -> R) (d : A -> R) :
  (forall a, In a l -> D (f a) (d a)) -> D (fun t => bsum l (fun a => f a t)) (bsum l d).
Proof.
  induction l as [|a l IH]; intros H.
  - apply (D_ext (fun _ => 0)); [reflexivity|]. apply D_const.
  - rewrite (bsum_cons R_is_ring). apply (D_ext (fun t => f a t + bsum l (fun a => f a t))).
    + intros t. rewrite (bsum_cons R_is_ring). reflexivity.
    + apply D_plus; [apply H; left; auto|apply IH; intros; apply H; right; auto].
Qed.

(** A tensor depending differentiably on a parameter, with derivative [d] at 0 *)
Definition diff_family (X : R -> raw R) (d : raw R) : Prop :=
  (forall t, wf (X t) /\ shape (X t) = shape (X 0)) /\ tangent (X 0) d /\
  forall p, (p < size (shape (X 0%R)))%nat -> D (fun t => nth p (array (X t)) 0) (nth p (array d) 0).

Lemma family_tval X d i : diff_family X d -> in_range (shape (X 0)) i -> D (fun t => tval (X t) i) (tval d i).
Proof.
  intros (H1 & (H2 & H3) & H4) Hi. unfold tval. rewrite H3.
  apply (D_ext (fun t => nth (rm (shape (X 0)) i) (array (X t)) 0)).
  - intros t. destruct (H1 t) as [_ ->]. reflexivity.
  - apply H4. apply rm_lt; auto.
Qed.

Lemma opspec_det {T} {NT : Num T} k xs (y y' : raw T) : opspec k xs y -> opspec k xs y' -> y = y'.
Proof. intros H H'. apply opspec_fwd in H, H'. congruence. Qed.

(** The inputs of [abs] and [relu] are not at the kink. *)
Definition no_kink (k : opk) (xs : list (raw R)) : Prop :=
  match k with KAbs | KRelu => Forall (fun x => Forall (fun e => e <> 0) (array x)) xs | _ => True end.

(** An output given elementwise *)
Lemma family_tab s (Y : R -> raw R) (f : list nat -> R -> R) (g : list nat -> R) :
  (forall t, Y t = tabulate s (fun i => f i t)) ->
  (forall i, in_range s i -> D (f i) (g i)) ->
  forall o, (o < size (shape (Y 0%R)))%nat -> D (fun t => nth o (array (Y t)) 0) (nth o (array (tabulate s g)) 0).
Proof.
  intros HY HD o Ho. rewrite HY in Ho. cbn [shape tabulate] in Ho. rewrite nth_tabulate by auto.
  apply (D_ext (f (unravel s o))).
  - intros t. rewrite HY, nth_tabulate by auto. reflexivity.
  - apply HD. apply unravel_in_range; auto.
Qed.

Lemma no_kink_tval (a : raw R) i : wf a -> Forall (fun e => e <> 0) (array a) -> in_range (shape a) i -> tval a i <> 0.
Proof.
  intros Hw H Hi. rewrite Forall_forall in H. apply H. unfold tval. apply nth_In. unfold wf in Hw. rewrite Hw. apply rm_lt; auto.
Qed.

Lemma op_deriv k (Xs : list (R -> raw R)) (Y : R -> raw R) ds :
  (forall t, opspec k (map (fun X => X t) Xs) (Y t)) ->
  Forall2 diff_family Xs ds -> no_kink k (map (fun X => X 0) Xs) ->
  diff_family Y (tan k (map (fun X => X 0) Xs) ds).
Proof.
  intros HO HF HK.
  assert (HT : Forall2 tangent (map (fun X => X 0) Xs) ds).
  { clear -HF. induction HF as [|X d Xs ds H HF IH]; cbn; constructor; auto. apply H. }
  enough (HE : (forall t, shape (Y t) = shape (Y 0)) /\
    forall o, (o < size (shape (Y 0%R)))%nat -> D (fun t => nth o (array (Y t)) 0) (nth o (array (tan k (map (fun X => X 0) Xs) ds)) 0)).
  { destruct HE as [HE1 HE2]. split; [|split; auto].
    - intros t. split; auto. eapply opspec_wf; eauto.
    - eapply tan_tangent; eauto. }
  pose proof (HO 0) as HO0. remember (map (fun X => X 0) Xs) as xs0 eqn:Exs. remember (Y 0) as y0 eqn:Ey0.
  destruct HO0 as [a b s Ha Hb Pa Pb Hbc|a Ha Pa|a Ha Pa|a Ha Pa|a Ha Pa|a Ha Pa|a b n k m Ha Hb Pa Pb Sa Sb|a b Ha Hb Pa Pb Hs].
  - (* add *)
    destruct Xs as [|A [|B [|? ?]]]; try discriminate Exs. injection Exs as -> ->.
    inversion HF as [|? da ? ds' FA HF1]; subst. inversion HF1 as [|? db ? ds'' FB HF2]; subst. inversion HF2; subst.
    assert (HY : forall t, Y t = tabulate s (fun i => n_add (tval (A t) (clamp (shape (A 0)) i)) (tval (B t) (clamp (shape (B 0)) i)))).
    { intros t. destruct FA as (FA & _), FB as (FB & _). destruct (FA t) as [FA1 FA2], (FB t) as [FB1 FB2].
      eapply opspec_det; [apply HO|]. cbn [map]. rewrite <- FA2, <- FB2. apply os_add; congruence. }
    rewrite Ey0. split; [intros t; rewrite !HY; reflexivity|].
    cbn [tan]. rewrite <- (bcast_max_shape _ _ _ Pa Pb Hbc).
    apply (family_tab s Y (fun i t => tval (A t) (clamp (shape (A 0)) i) + tval (B t) (clamp (shape (B 0)) i))); [exact HY|].
    intros i Hi. apply D_plus; (apply family_tval; [auto|]).
    + apply (clamp_in_range _ _ _ _ Hbc Hi).
    + apply (clamp_in_range _ _ _ _ (bcast_sym _ _ _ Hbc) Hi).
  - (* neg *)
    destruct Xs as [|A [|? ?]]; try discriminate Exs. injection Exs as ->.
    inversion HF as [|? da ? ds' FA HF1]; subst. inversion HF1; subst.
    assert (HY : forall t, Y t = tabulate (shape (A 0)) (fun i => n_neg (tval (A t) i))).
    { intros t. destruct FA as (FA & _). destruct (FA t) as [FA1 FA2].
      eapply opspec_det; [apply HO|]. cbn [map]. rewrite <- FA2. apply os_neg; congruence. }
    rewrite Ey0. split; [intros t; rewrite !HY; reflexivity|]. cbn [tan].
    apply (family_tab (shape (A 0)) Y (fun i t => - tval (A t) i)); [exact HY|].
    intros i Hi. apply D_opp. apply family_tval; auto.
  - (* abs *)
    destruct Xs as [|A [|? ?]]; try discriminate Exs. injection Exs as ->.
    inversion HF as [|? da ? ds' FA HF1]; subst. inversion HF1; subst.
    assert (HY : forall t, Y t = tabulate (shape (A 0)) (fun i => n_abs (tval (A t) i))).
    { intros t. destruct FA as (FA & _). destruct (FA t) as [FA1 FA2].
      eapply opspec_det; [apply HO|]. cbn [map]. rewrite <- FA2. apply os_abs; congruence. }
    rewrite Ey0. split; [intros t; rewrite !HY; reflexivity|]. cbn [tan].
    apply (family_tab (shape (A 0)) Y (fun i t => Rabs (tval (A t) i))); [exact HY|].
    intros i Hi. cbn [no_kink] in HK. inversion HK as [|? ? HK1 _]; subst. pose proof (no_kink_tval _ _ Ha HK1 Hi) as Hne.
    pose proof (family_tval _ _ _ FA Hi) as DA. cbn [n_ge n_zero n_neg RNum].
    destruct (Rge_dec (tval (A 0) i) 0) as [Hge|Hlt].
    + replace (tval da i) with (1 * tval da i) by ring. apply (D_comp Rabs (fun t => tval (A t) i)); auto. apply Rabs_derive_1. lra.
    + replace (- tval da i) with (-1 * tval da i) by ring. apply (D_comp Rabs (fun t => tval (A t) i)); auto. apply Rabs_derive_2. lra.
  - (* relu *)
    destruct Xs as [|A [|? ?]]; try discriminate Exs. injection Exs as ->.
    inversion HF as [|? da ? ds' FA HF1]; subst. inversion HF1; subst.
    assert (HY : forall t, Y t = tabulate (shape (A 0)) (fun i => relu_fn (tval (A t) i))).
    { intros t. destruct FA as (FA & _). destruct (FA t) as [FA1 FA2].
      eapply opspec_det; [apply HO|]. cbn [map]. rewrite <- FA2. apply os_relu; congruence. }
    rewrite Ey0. split; [intros t; rewrite !HY; reflexivity|]. cbn [tan].
    apply (family_tab (shape (A 0)) Y (fun i t => relu_fn (tval (A t) i))); [exact HY|].
    intros i Hi. cbn [no_kink] in HK. inversion HK as [|? ? HK1 _]; subst. pose proof (no_kink_tval _ _ Ha HK1 Hi) as Hne.
    pose proof (family_tval _ _ _ FA Hi) as DA. cbn [n_lt n_zero n_neg RNum].
    destruct (Rlt_dec (tval (A 0) i) 0) as [Hlt|Hge].
    + replace 0 with (0 * tval da i) by ring. apply (D_comp relu_fn (fun t => tval (A t) i)); auto. apply relu_neg. lra.
    + replace (tval da i) with (1 * tval da i) by ring. apply (D_comp relu_fn (fun t => tval (A t) i)); auto. apply relu_pos. lra.
  - (* tanh *)
    destruct Xs as [|A [|? ?]]; try discriminate Exs. injection Exs as ->.
    inversion HF as [|? da ? ds' FA HF1]; subst. inversion HF1; subst.
    assert (HY : forall t, Y t = tabulate (shape (A 0)) (fun i => n_tanh (tval (A t) i))).
    { intros t. destruct FA as (FA & _). destruct (FA t) as [FA1 FA2].
      eapply opspec_det; [apply HO|]. cbn [map]. rewrite <- FA2. apply os_tanh; congruence. }
    rewrite Ey0. split; [intros t; rewrite !HY; reflexivity|]. cbn [tan].
    apply (family_tab (shape (A 0)) Y (fun i t => tanh (tval (A t) i))); [exact HY|].
    intros i Hi. apply (D_comp tanh (fun t => tval (A t) i)); [apply family_tval; auto|]. apply tanh_derive.
  - (* sum *)
    destruct Xs as [|A [|? ?]]; try discriminate Exs. injection Exs as ->.
    inversion HF as [|? da ? ds' FA HF1]; subst. inversion HF1; subst.
    assert (HY : forall t, Y t = raw_scalar (lsum (array (A t)))).
    { intros t. destruct FA as (FA & _). destruct (FA t) as [FA1 FA2].
      eapply opspec_det; [apply HO|]. cbn [map]. apply os_sum; congruence. }
    rewrite Ey0. split; [intros t; rewrite !HY; reflexivity|]. intros o Ho. rewrite HY in Ho. cbn in Ho.
    assert (o = 0%nat) by lia. subst o. cbn [tan raw_scalar array nth].
    destruct FA as (F1 & (F2 & F3) & F4). unfold wf in *.
    assert (EL : forall l n, length l = n -> lsum l = bsum (seq 0 n) (fun p => nth p l 0)).
    { intros l n <-. unfold bsum. rewrite map_nth_seq. reflexivity. }
    rewrite (EL (array da) (size (shape (A 0)))) by congruence.
    apply (D_ext (fun t => bsum (seq 0 (size (shape (A 0)))) (fun p => nth p (array (A t)) 0))).
    + intros t. rewrite HY. cbn [raw_scalar array nth]. symmetry. apply EL. destruct (F1 t); congruence.
    + apply (D_bsum _ _ (fun p t => nth p (array (A t)) 0)). intros p Hp. apply in_seq in Hp. apply F4. lia.
  - (* bmm *)
    destruct Xs as [|A [|B [|? ?]]]; try discriminate Exs. injection Exs as -> ->.
    inversion HF as [|? da ? ds' FA HF1]; subst. inversion HF1 as [|? db ? ds'' FB HF2]; subst. inversion HF2; subst.
    assert (HY : forall t, Y t = tabulate [n; m] (fun i => sumn k (fun u => n_mul (tval (A t) [ix 0 i; u]) (tval (B t) [u; ix 1 i])))).
    { intros t. destruct FA as (FA & _), FB as (FB & _). destruct (FA t) as [FA1 FA2], (FB t) as [FB1 FB2].
      eapply opspec_det; [apply HO|]. cbn [map]. apply os_bmm; congruence. }
    rewrite Ey0. split; [intros t; rewrite !HY; reflexivity|].
    cbn [tan]. rewrite Sa, Sb. cbn [nth].
    apply (family_tab [n; m] Y (fun i t => sumn k (fun u => tval (A t) [ix 0 i; u] * tval (B t) [u; ix 1 i]))); [exact HY|].
    intros i Hi. apply in_range2 in Hi as (r & c & -> & Hr & Hc). unfold ix. cbn [nth]. rewrite sumn_bsum.
    apply (D_ext (fun t => bsum (seq 0 k) (fun u => tval (A t) [r; u] * tval (B t) [u; c]))); [reflexivity|].
    apply (D_bsum _ _ (fun u t => tval (A t) [r; u] * tval (B t) [u; c])). intros u Hu. apply in_seq in Hu.
    apply (D_mult (fun t => tval (A t) [r; u]) (fun t => tval (B t) [u; c])); apply family_tval; auto.
    + rewrite Sa. apply in_range_pair; lia.
    + rewrite Sb. apply in_range_pair; lia.
  - (* dot *)
    destruct Xs as [|A [|B [|? ?]]]; try discriminate Exs. injection Exs as -> ->.
    inversion HF as [|? da ? ds' FA HF1]; subst. inversion HF1 as [|? db ? ds'' FB HF2]; subst. inversion HF2; subst.
    assert (HY : forall t, Y t = mkRaw [lsum (map (fun i => n_mul (tval (A t) i) (tval (B t) i)) (all_indices (shape (A 0))))] [1%nat]).
    { intros t. destruct FA as (FA & _), FB as (FB & _). destruct (FA t) as [FA1 FA2], (FB t) as [FB1 FB2].
      eapply opspec_det; [apply HO|]. cbn [map]. rewrite <- FA2. apply os_dot; congruence. }
    rewrite Ey0. split; [intros t; rewrite !HY; reflexivity|]. intros o Ho. rewrite HY in Ho. cbn in Ho.
    assert (o = 0%nat) by lia. subst o. cbn [tan array nth].
    apply (D_ext (fun t => bsum (all_indices (shape (A 0))) (fun i => tval (A t) i * tval (B t) i))).
    + intros t. rewrite HY. reflexivity.
    + apply (D_bsum _ _ (fun i t => tval (A t) i * tval (B t) i)). intros i Hi. apply in_all_indices in Hi.
      apply (D_mult (fun t => tval (A t) i) (fun t => tval (B t) i)); apply family_tval; auto. congruence.
Qed.
