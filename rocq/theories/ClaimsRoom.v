(** * ClaimsRoom: whole numbers in floats, with [abs] and [relu] (C69) *)
From Coq Require Import Reals ZArith Lia Lra.
From Flocq Require Import Core BinarySingleNaN.
From Verif Require Import Base ModelIndex ModelTensor ModelOps ModelJvp ModelGraph Spec SpecGraph SpecParam SpecRound SpecError
  Lists ParamFacts RoundFacts BranchFacts RoomFacts ClaimsParam Instances.
Local Open Scope nat_scope.

Definition flip {A B : Type} (R : A -> B -> Prop) (b : B) (a : A) : Prop := R a b.
Lemma F2_flip {A B} (R : A -> B -> Prop) l l' : Forall2 R l l' -> Forall2 (flip R) l' l.
Proof. induction 1; constructor; auto. Qed.
Lemma rel_state_flip {A B} (R : A -> B -> Prop) s t : rel_state R s t -> rel_state (flip R) t s.
Proof.
  intros (E & F & G). split; [symmetry; exact E|].
  assert (RR : forall x y, rel_raw R x y -> rel_raw (flip R) y x) by (intros x y [Es Fa]; split; [symmetry; exact Es|apply F2_flip; exact Fa]).
  split.
  - clear - F RR. induction F as [|n m l l' [Hv Hf] _ IH]; constructor; [split; [apply RR; exact Hv|symmetry; exact Hf]|exact IH].
  - intros i. specialize (G i). destruct (grads (hp s) i), (grads (hp t) i); cbn in *; try tauto. apply RR. exact G.
Qed.
Lemma rel_state_any {A B C} (P : A -> B -> Prop) (Q : A -> C -> Prop) (S : B -> C -> Prop) s t u :
  rel_state P s t -> rel_state Q s u -> (forall a b c, P a b -> Q a c -> S b c) -> rel_state S t u.
Proof.
  intros H K HS. apply (rel_state_compose A B C P Q (fun _ => True) S s t u H K); [|intros a b c _; apply HS].
  split; intros; apply Forall_forall; auto.
Qed.
Lemma everywhere_eq {A} (V : A -> Prop) s s' : rel_state eq s s' -> everywhere V s -> everywhere V s'.
Proof.
  intros (_ & F & G) [HV HG].
  assert (L : forall l l' : list A, Forall2 eq l l' -> l = l') by (induction 1; congruence). split.
  - intros nd Hin. apply In_nth_error in Hin as [n En].
    assert (X : exists nd', nth_error (nodes (hp s)) n = Some nd' /\ rel_node eq nd' nd).
    { clear - F En. revert n En. induction F as [|a b l l' Hab F IH]; intros [|n] En; cbn in *; try discriminate; [injection En as <-; eauto|eauto]. }
    destruct X as (nd' & En' & [_ Fa] & _). apply L in Fa. rewrite <- Fa. apply HV. eapply nth_error_In. exact En'.
  - intros i g Eg. specialize (G i). rewrite Eg in G. destruct (grads (hp s) i) as [g'|] eqn:Eg'; cbn in G; [|tauto]. destruct G as [_ Fa]. apply L in Fa. rewrite <- Fa. eauto.
Qed.
Lemma needs_rel {A B} (R : A -> B -> Prop) c d : rel_cmd R c d -> needs c = needs d.
Proof. destruct 1; reflexivity. Qed.

Section Signs.
Context (prec emax : Z) {P : Prec_gt_0 prec} {E : Prec_lt_emax prec emax} (tanh : float prec emax -> float prec emax).
Local Notation ok := (good_until (whole prec emax) (2 ^ prec)%Z).
Local Notation NF := (with_tanh (FloatNum prec emax tanh) (fun _ => B754_zero false)).
Local Notation NB := (with_tanh BoundNum (fun _ => (0, 0)%Z)).

Lemma room_pos : (1 <= 2 ^ prec)%Z.
Proof. unfold Prec_gt_0 in P. pose proof (Z.pow_pos_nonneg 2 prec). lia. Qed.
Lemma ok_zero : ok (0, 0)%Z (B754_zero false).
Proof. split; cbn [fst snd]; [lia|]. intros _. split; reflexivity. Qed.
Lemma ok_one : ok (1, 1)%Z Bone.
Proof. split; cbn [fst snd]; [lia|]. intros _. split; [apply is_finite_Bone|apply Bone_correct]. Qed.
Lemma ok_ring : respects_ring (NA := NB) (NB := NF) ok.
Proof.
  assert (H : respects_ring (NA := BoundNum) (NB := FloatNum prec emax tanh) ok).
  { apply good_ring; [exact room_pos|split; reflexivity|split; [apply is_finite_Bone|apply Bone_correct]| |].
    - intros x y f g _ _ Hz Hf Hg. apply (whole_plus prec emax); assumption.
    - intros x y f g _ _ Hz Hf Hg. apply (whole_mult prec emax); assumption. }
  constructor; [apply H|apply H|exact (rr_add _ H)|exact (rr_mul _ H)].
Qed.
Lemma ok_neg : respects_neg (NA := NB) (NB := NF) ok.
Proof.
  intros [x b] f [Hx Rx]. cbn [fst snd] in *. split; cbn [n_neg with_tanh BoundNum fst snd]; [lia|]. intros HB. destruct (Rx HB) as [F1 F2]. split; cbn [n_neg with_tanh FloatNum].
  - rewrite is_finite_Bopp. exact F1.
  - rewrite B2R_Bopp, opp_IZR, F2. reflexivity.
Qed.
Lemma ok_minus xb yb f g : ok xb f -> ok yb g -> ok (n_sub (Num := NB) xb yb) (n_sub (Num := NF) f g).
Proof.
  destruct xb as [x b], yb as [y c]. intros [Hx Rx] [Hy Ry]. cbn [fst snd] in *. split; cbn [n_sub with_tanh BoundNum FloatNum fst snd]; [lia|]. intros HB.
  destruct (Rx ltac:(lia)) as [F1 F2]. destruct (Ry ltac:(lia)) as [G1 G2].
  pose proof (Bminus_correct prec emax _ _ mode_NE f g F1 G1) as C. change (round_mode mode_NE) with ZnearestE in C.
  rewrite F2, G2, <- minus_IZR in C. assert (Hz : (Z.abs (x - y) <= 2 ^ prec)%Z) by lia.
  rewrite (round_generic radix2 _ ZnearestE _ (whole_format prec emax _ Hz)), (whole_small prec emax _ Hz) in C. destruct C as (C1 & C2 & _). split; assumption.
Qed.
Lemma ok_tanh : respects_tanh (NA := NB) (NB := NF) ok.
Proof.
  intros xb f H. split; [apply ok_zero|]. apply ok_minus; [apply ok_one|]. exact (rr_mul _ ok_ring _ _ _ _ ok_zero ok_zero).
Qed.
Lemma ok_compare xb f : ok xb f -> (snd xb <= 2 ^ prec)%Z ->
  n_lt (Num := NF) f (n_zero (Num := NF)) = n_lt (Num := NB) xb (n_zero (Num := NB)) /\ n_ge (Num := NF) f (n_zero (Num := NF)) = n_ge (Num := NB) xb (n_zero (Num := NB)).
Proof.
  destruct xb as [x b]. intros [Hx Rx] HB. cbn [fst snd] in *. destruct (Rx HB) as [F1 F2]. cbn [n_lt n_ge n_zero with_tanh FloatNum BoundNum fst].
  split.
  - rewrite Bltb_correct by auto. cbn [B2R]. rewrite F2. destruct (Z.ltb_spec x 0) as [L|L]; [apply Rlt_bool_true, IZR_lt; exact L|apply Rlt_bool_false, IZR_le; exact L].
  - rewrite Bleb_correct by auto. cbn [B2R]. rewrite F2. rewrite Z.geb_leb. destruct (Z.leb_spec 0 x) as [L|L]; [apply Rle_bool_true, IZR_le; exact L|apply Rle_bool_false, IZR_lt; exact L].
Qed.
Lemma ok_abs f xb : flip ok f xb -> (snd xb <= 2 ^ prec)%Z -> flip ok (n_abs (Num := NF) f) (n_abs (Num := NB) xb) /\
  flip ok (if n_ge (Num := NF) f (n_zero (Num := NF)) then n_one (Num := NF) else n_sub (Num := NF) (n_zero (Num := NF)) (n_one (Num := NF)))
    (if n_ge (Num := NB) xb (n_zero (Num := NB)) then n_one (Num := NB) else n_sub (Num := NB) (n_zero (Num := NB)) (n_one (Num := NB))).
Proof.
  unfold flip. intros H HB. destruct (ok_compare _ _ H HB) as [_ C]. split.
  - destruct xb as [x b]. destruct H as [Hx Rx]. cbn [fst snd] in *. split; cbn [n_abs with_tanh BoundNum FloatNum fst snd]; [lia|]. intros _. destruct (Rx HB) as [F1 F2].
    split; [rewrite is_finite_Babs; exact F1|]. rewrite B2R_Babs, F2, abs_IZR. reflexivity.
  - rewrite C. destruct (n_ge (Num := NB) xb (n_zero (Num := NB))); [apply ok_one|apply ok_minus; [apply ok_zero|apply ok_one]].
Qed.
Lemma ok_relu f xb : flip ok f xb -> (snd xb <= 2 ^ prec)%Z -> flip ok (relu_fn (NT := NF) f) (relu_fn (NT := NB) xb) /\
  flip ok (if n_lt (Num := NF) f (n_zero (Num := NF)) then n_zero (Num := NF) else n_one (Num := NF))
    (if n_lt (Num := NB) xb (n_zero (Num := NB)) then n_zero (Num := NB) else n_one (Num := NB)).
Proof.
  unfold flip, relu_fn. intros H HB. destruct (ok_compare _ _ H HB) as [C _]. rewrite C. destruct (n_lt (Num := NB) xb (n_zero (Num := NB))); split; try apply ok_zero; try apply ok_one; exact H.
Qed.
End Signs.

Lemma exact_any k : k <> KTanh -> respects (NA := BoundNum) (NB := ZNum) exact_part k.
Proof.
  intros HK. destruct k; try exact I; try congruence; intros [a b] x <-; try split; try reflexivity; cbn.
  - destruct (a >=? 0)%Z; reflexivity.
  - unfold relu_fn. cbn. destruct (a <? 0)%Z; reflexivity.
  - destruct (a <? 0)%Z; reflexivity.
Qed.

(** C69, with [abs] and [relu]: only [tanh] is left out. *)
Lemma c69_with_signs :
  forall (prec emax : Z) (P : Prec_gt_0 prec) (E : Prec_lt_emax prec emax) (tanh : float prec emax -> float prec emax)
         (bounds : list (cmd (Z * Z))) (q : list (cmd Z)) (p : list (cmd (float prec emax))) (s : state (Z * Z)),
    let exactly := fun z f => is_finite f = true /\ B2R f = IZR z in
    Forall2 (rel_cmd (fun xb z => fst xb = z)) bounds q ->
    Forall2 (rel_cmd (fun xb f => snd xb = Z.abs (fst xb) /\ exactly (fst xb) f)) bounds p ->
    (forall c, In c bounds -> ~ In KTanh (needs c)) ->
    run (NT := BoundNum) bounds init_state = Ret s -> everywhere (fun xb => snd xb <= 2 ^ prec)%Z s ->
    exists t u, run q init_state = Ret t /\ run (NT := FloatNum prec emax tanh) p init_state = Ret u /\ rel_state exactly t u.
Proof.
  intros prec emax P E tanh bounds q p s exactly FQ FP HN ER HS.
  pose proof (parametric (NA := BoundNum) (NB := ZNum) exact_part exact_ring bounds q FQ) as H1. rewrite ER in H1.
  assert (H1' := H1 ltac:(intros c k Hc Hk; apply exact_any; intros ->; exact (HN c Hc Hk))). clear H1.
  destruct (run q init_state) as [t| |]; cbn in H1'; try tauto.
  pose proof (without_tanh BoundNum (fun _ => (0, 0)%Z) bounds HN) as H2. rewrite ER in H2. destruct (run (NT := with_tanh BoundNum (fun _ => (0, 0)%Z)) bounds init_state) as [s'| |] eqn:ER'; cbn in H2; try tauto.
  pose proof (everywhere_eq _ _ _ H2 HS) as HS'.
  assert (HNp : forall c, In c p -> ~ In KTanh (needs c)).
  { clear - FP HN. induction FP as [|c d l l' Hc F IH]; intros x Hx K; [destruct Hx|]. destruct Hx as [Hd|Hx].
    - apply (HN c (or_introl eq_refl)). rewrite (needs_rel _ _ _ Hc), Hd. exact K.
    - apply (IH (fun y Hy => HN y (or_intror Hy)) x Hx K). }
  destruct (branching (flip (good_until (whole prec emax) (2 ^ prec)%Z)) (fun xb => snd xb <= 2 ^ prec)%Z (NA := with_tanh (FloatNum prec emax tanh) (fun _ => B754_zero false)) (NB := with_tanh BoundNum (fun _ => (0, 0)%Z))) with (p := p) (q := bounds) (t := s') as (u' & Eu' & Hu').
  - pose proof (ok_ring prec emax tanh) as H. constructor; unfold flip; [apply H|apply H|intros; apply (rr_add _ H); assumption|intros; apply (rr_mul _ H); assumption].
  - intros f xb H. exact (ok_neg prec emax tanh xb f H).
  - intros f xb H. exact (ok_tanh prec emax tanh xb f H).
  - exact (ok_abs prec emax tanh).
  - exact (ok_relu prec emax tanh).
  - clear - FP. induction FP as [|c d l l' Hc F IH]; constructor; [|exact IH]. destruct Hc; constructor; auto.
    + match goal with H : Forall2 (fun _ _ => _) _ _ |- _ => apply F2_flip in H; revert H end. apply F2_mono. intros f xb [HB HX]. split; [lia|auto].
    + match goal with H : _ /\ _ |- _ => destruct H as [HB HX] end. split; [lia|auto].
    + match goal with H : _ /\ _ |- _ => destruct H as [HB HX] end. split; [lia|auto].
    + match goal with N : rel_nest _ _ _ |- _ => rename N into HN0 end. clear - HN0.
      refine (rel_nest_mut _ _ _ (fun n m _ => rel_nest _ m n) (fun l l' _ => rel_nests _ l' l) _ _ _ _ _ _ HN0).
      * intros x y [HB HX]. apply rn_leaf. split; [lia|intros _; exact HX].
      * intros l l' _ IH. apply rn_vec. exact IH.
      * apply rns_nil.
      * intros n0 m0 l l' _ IH1 _ IH2. apply rns_cons; assumption.
  - exact ER'.
  - apply (everywhere_signs (NT := with_tanh BoundNum (fun _ => (0, 0)%Z)) _ bounds); assumption.
  - pose proof (without_tanh (FloatNum prec emax tanh) (fun _ => B754_zero false) p HNp) as H3. rewrite Eu' in H3. destruct (run (NT := FloatNum prec emax tanh) p init_state) as [u| |]; cbn in H3; try tauto.
    exists t, u. split; [reflexivity|]. split; [reflexivity|].
    assert (A : rel_state exact_part s' t) by (apply (rel_state_any eq exact_part exact_part s s' t H2 H1'); intros a b c -> H; exact H).
    assert (B : rel_state exactly t u').
    { apply (rel_state_compose _ _ _ exact_part (good_until (whole prec emax) (2 ^ prec)%Z) (fun xb => snd xb <= 2 ^ prec)%Z exactly s' t u' A (rel_state_flip _ _ _ Hu') HS').
      intros xb z f HB <- [_ HX]. exact (HX HB). }
    apply (rel_state_any (flip exactly) (flip eq) exactly u' t u (rel_state_flip _ _ _ B) (rel_state_flip _ _ _ H3)). intros a b c H ->. exact H.
Qed.

Definition x_absrelu {A : Type} (f : Z -> A) : list (cmd A) :=
  [CNew (map f [1; -2; 3; 4]%Z) [2; 2]; CNew (map f [5; 6]%Z) [2; 1]; CBmm 0 1; CRelu 2; CNew (map f [40]%Z) [1; 1]; CSub 3 4; CAbs 5; CSum 6; CBackward 7].
Example c69_with_signs_ex :
  Forall2 (rel_cmd (fun xb z => fst xb = z)) (x_absrelu (fun z => (z, Z.abs z))) (x_absrelu (fun z => z)) /\
  x_show (run (NT := BoundNum) (x_absrelu (fun z => (z, Z.abs z))) init_state) =
    Ret ([[(1, 1); (-2, 2); (3, 3); (4, 4)]; [(5, 5); (6, 6)]; [(-7, 17); (39, 39)]; [(0, 0); (39, 39)]; [(40, 40)]; [(-40, 40)]; [(-40, 40); (-1, 79)]; [(40, 40); (1, 79)]; [(41, 119)]]%Z,
         [Some [(0, 5); (0, 6); (-5, 5); (-6, 6)]; Some [(-3, 4); (-4, 6)]; Some [(0, 1); (-1, 1)]; Some [(-1, 1); (-1, 1)]; Some [(2, 2)]; Some [(-2, 2)]; Some [(-1, 1); (-1, 1)]; Some [(1, 1); (1, 1)]; Some [(1, 1); (1, 1)]]%Z) /\
  x_bits (x_show (run (NT := FloatNum 24 128 (fun x => x)) (x_absrelu x_f) init_state)) =
    x_bits (Ret (map (map x_f) [[1; -2; 3; 4]; [5; 6]; [-7; 39]; [0; 39]; [40]; [-40]; [-40; -1]; [40; 1]; [41]]%Z,
         map (option_map (map x_f)) [Some [0; 0; -5; -6]; Some [-3; -4]; Some [0; -1]; Some [-1; -1]; Some [2]; Some [-2]; Some [-1; -1]; Some [1; 1]; Some [1; 1]]%Z)).
Proof. split; [repeat constructor|]. vm_compute. auto. Qed.
