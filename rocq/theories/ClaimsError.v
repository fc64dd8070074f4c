(** * ClaimsError: error bounds for whole float programs (C79) *)
From Coq Require Import Reals ZArith QArith Qreals Qabs Qminmax Lia Lra.
From Flocq Require Import Core BinarySingleNaN.
From Verif Require Import Base ModelIndex ModelTensor ModelOps ModelJvp ModelGraph ModelNN ModelMain Spec SpecGraph SpecReal SpecParam SpecRound SpecError
  Lists ParamFacts RoundFacts BranchFacts ErrorFacts IntervalFacts RealInst ProgFacts ClaimsGrad ClaimsParam Instances.
Local Open Scope nat_scope.

Lemma starts_run_err prec emax f b : starts prec emax f b -> run_err prec emax f b.
Proof. intros (F & D & M). pose proof (Rabs_pos (B2R f - val b)). split; [lra|]. split; [exact M|]. intros _. auto. Qed.
Lemma F2_mono {A B} (P Q : A -> B -> Prop) l l' : (forall a b, P a b -> Q a b) -> Forall2 P l l' -> Forall2 Q l l'.
Proof. intros H. induction 1; constructor; auto. Qed.
Lemma rel_nest_mono {A B} (P Q : A -> B -> Prop) (H : forall a b, P a b -> Q a b) : forall n m, rel_nest P n m -> rel_nest Q n m.
Proof.
  fix IH 3. intros n m [x y Hxy|l l' Hl].
  - constructor. auto.
  - constructor. revert l l' Hl. fix IH' 3. intros l l' [|a b r r' Hab Hr]; constructor; auto.
Qed.
Lemma rel_cmd_mono {A B} (P Q : A -> B -> Prop) c d : (forall a b, P a b -> Q a b) -> rel_cmd P c d -> rel_cmd Q c d.
Proof. intros H. destruct 1; constructor; auto; [eapply F2_mono; eauto|eapply rel_nest_mono; eauto]. Qed.
Lemma rel_raw_mono {A B} (P Q : A -> B -> Prop) x y : (forall a b, P a b -> Q a b) -> rel_raw P x y -> rel_raw Q x y.
Proof. intros H [E F]. split; [exact E|]. eapply F2_mono; eauto. Qed.
Lemma rel_heap_mono {A B} (P Q : A -> B -> Prop) h k : (forall a b, P a b -> Q a b) -> rel_heap P h k -> rel_heap Q h k.
Proof.
  intros H [F G]. split.
  - eapply F2_mono; [|exact F]. intros n m [Hv Hf]. split; [eapply rel_raw_mono; eauto|exact Hf].
  - intros i. specialize (G i). destruct (grads h i), (grads k i); cbn in *; try tauto. eapply rel_raw_mono; eauto.
Qed.

(** The exact values of a run with error bounds *)
Definition exact_value (x : R) (b : bounded) : Prop := x = val b.
Lemma exact_ring prec emax tau : respects_ring (NA := RNum) (NB := ErrNum prec emax tau) exact_value.
Proof. constructor; unfold exact_value; cbn; intros; subst; reflexivity. Qed.
Lemma exact_op prec emax tau k : respects (NA := RNum) (NB := ErrNum prec emax tau) exact_value k.
Proof.
  destruct k; cbn [respects]; try exact I; unfold respects_neg, respects_abs, respects_relu, respects_tanh, exact_value; intros x b ->; unfold relu_fn;
  cbn [n_neg n_abs n_ge n_lt n_sub n_one n_zero n_tanh n_mul ErrNum RNum val rounded]; try reflexivity;
  (split; [try reflexivity|try reflexivity]).
  - destruct (Rge_dec (val b) 0); reflexivity.
  - destruct (Rlt_dec (val b) 0); reflexivity.
  - destruct (Rlt_dec (val b) 0); reflexivity.
Qed.

Lemma F2_nth_some {A B} (P : A -> B -> Prop) l l' : Forall2 P l l' -> forall i b, nth_error l' i = Some b -> exists a, nth_error l i = Some a /\ P a b.
Proof. induction 1 as [|a b l l' H F IH]; intros [|i] c E; cbn in *; try discriminate; [injection E as <-; eauto|auto]. Qed.
Lemma F2_nth_some' {A B} (P : A -> B -> Prop) l l' : Forall2 P l l' -> forall i a, nth_error l i = Some a -> exists b, nth_error l' i = Some b /\ P a b.
Proof. induction 1 as [|a b l l' H F IH]; intros [|i] c E; cbn in *; try discriminate; [injection E as <-; eauto|auto]. Qed.
Lemma signs_enclosed prec emax {P : Prec_gt_0 prec} {E : Prec_lt_emax prec emax} ns ms : Forall2 (rel_node enclosed) ns ms ->
  signs_known (fun a => idecided emax a = true) ms -> signs_known (sign_known emax) ns.
Proof.
  intros F HS n nd k ins En Ef Hk. destruct (F2_nth_some' _ _ _ F _ _ En) as (md & Em & _ & Efm). rewrite Ef in Efm. symmetry in Efm.
  specialize (HS n md k ins Em Efm Hk). rewrite Forall_forall in *. intros i Hi. destruct (HS i Hi) as (Lt & mi & Ei & D). split; [exact Lt|].
  destruct (F2_nth_some _ _ _ F _ _ Ei) as (ni & Ein & (_ & Fv) & _). exists ni. split; [exact Ein|].
  clear - Fv D P E. induction Fv as [|b a l l' Hb _ IH]; constructor; inversion D; subst; [|auto]. apply (decided prec emax b a); assumption.
Qed.

(** ** Numbers and programs for the examples *)

(** A number known up to [e]: as a float, with the error bound, as an interval *)
Definition x_b (e : Q) (z : Z) : bounded := mkBounded (IZR z) (Q2R e) (Rabs (IZR z) + Q2R e).
Definition x_i (e : Q) (z : Z) : ival := mkIval (inject_Z z) (inject_Z z) e (inject_Z (Z.abs z) + e).
Lemma x_f_whole z : (Z.abs z <= 2 ^ 24)%Z -> is_finite (x_f z) = true /\ B2R (x_f z) = IZR z.
Proof.
  intros H. pose proof (binary_normalize_correct 24 128 _ _ mode_NE z 0 false) as C. cbv zeta in C. change (round_mode mode_NE) with ZnearestE in C.
  replace (F2R (Float radix2 z 0)) with (IZR z) in C by (unfold F2R; cbn; ring).
  rewrite (round_generic radix2 _ ZnearestE _ (whole_format 24 128 z H)), (whole_small 24 128 z H) in C. destruct C as (C1 & C2 & _). split; assumption.
Qed.
Lemma x_starts e z : (Z.abs z <= 2 ^ 24)%Z -> (0 <= Q2R e)%R -> starts 24 128 (x_f z) (x_b e z).
Proof.
  intros H He. destruct (x_f_whole z H) as [F B]. split; [exact F|]. unfold x_b. cbn [val err mag]. rewrite B, Rminus_diag_eq, Rabs_R0 by reflexivity. lra.
Qed.
Lemma Q2R_inject z : Q2R (inject_Z z) = IZR z.
Proof. unfold Q2R, inject_Z. cbn [Qnum Qden]. field. Qed.
Lemma x_enclosed e z : (0 <= Q2R e)%R -> enclosed (x_b e z) (x_i e z).
Proof. intros He. unfold enclosed, x_b, x_i. cbn [val err mag lo hi er mg]. rewrite Q2R_plus, !Q2R_inject, abs_IZR. lra. Qed.
Lemma Q2R_pos_frac n d : (0 <= n)%Z -> (0 <= Q2R (n # d))%R.
Proof. intros H. rewrite <- RMicromega.Q2R_0. apply Qle_Rle. unfold Qle. cbn. lia. Qed.
(** A [tanh] that is off by 1 at most *)
Definition x_flat (f : float 24 128) : float 24 128 := B754_zero false.
Lemma x_flat_ok f : is_finite f = true -> is_finite (x_flat f) = true /\ (Rabs (B2R (x_flat f) - tanh (B2R f)) <= Q2R 1)%R.
Proof.
  intros _. split; [reflexivity|]. cbn [x_flat B2R]. rewrite RMicromega.Q2R_1. pose proof (tanh_range (B2R f)). unfold Rabs. destruct (Rcase_abs _); lra.
Qed.

(** [|relu(a b - 7)|], summed up and differentiated *)
Definition x_rel {A : Type} (f : Z -> A) : list (cmd A) :=
  [CNew (map f [1; 2; 3; 4]%Z) [2; 2]; CNew (map f [5; 6]%Z) [2; 1]; CBmm 0 1; CNew (map f [7]%Z) [1; 1]; CSub 2 3; CRelu 4; CAbs 5; CSum 6; CBackward 7].
(** [relu((-2^24 - 1) + 2^24)] *)
Definition x_lost {A : Type} (f : Z -> A) : list (cmd A) :=
  [CNew (map f [-16777216]%Z) [1; 1]; CNew (map f [-1]%Z) [1; 1]; CNew (map f [16777216]%Z) [1; 1]; CAdd 0 1; CAdd 3 2; CRelu 4; CSum 5; CBackward 6].
(** [relu([1 2] + 5)], summed up *)
Definition x_leaf {A : Type} (f : Z -> A) : list (cmd A) := [CNew (map f [1; 2]%Z) [1; 2]; CScalar (f 5%Z); CAdd 0 1; CRelu 2; CSum 3].

Lemma x_related {A B : Type} (R : A -> B -> Prop) f g : (forall z, (Z.abs z <= 2 ^ 24)%Z -> R (f z) (g z)) ->
  Forall2 (rel_cmd R) (x_rel f) (x_rel g) /\ Forall2 (rel_cmd R) (x_lost f) (x_lost g) /\ Forall2 (rel_cmd R) (x_leaf f) (x_leaf g).
Proof. intros H. unfold x_rel, x_lost, x_leaf. cbn [map]. repeat constructor; apply H; lia. Qed.

(** Signs are known, and the gradient of the first variable satisfies [ok]. *)
Definition x_passes (sign ok : ival -> bool) (o : outcome (state ival)) : bool :=
  match o with
  | Ret t => signs_check sign (nodes (hp t)) && match var_grad t 0 with Some g => forallb ok (array g) && (0 <? length (array g)) | None => false end
  | _ => false
  end.
Definition x_small (e m : Q) (a : ival) : bool := Qle_bool (er a) e && Qle_bool (mg a) m.
Lemma x_small_ok e m b a : x_small e m a = true -> enclosed b a -> (err b <= Q2R e /\ mag b <= Q2R m)%R.
Proof. intros H (_ & E & M). unfold x_small in H. apply andb_prop in H as [H1 H2]. apply Qle_bool_R in H1, H2. lra. Qed.

Lemma intervals_enclose (prec emax : Z) (P : Prec_gt_0 prec) (E : Prec_lt_emax prec emax) (tau : Q) (q : list (cmd bounded)) (c : list (cmd ival)) (t : state ival) :
  (0 <= Q2R tau)%R -> Forall2 (rel_cmd enclosed) q c -> run (NT := IntNum prec emax tau) c init_state = Ret t -> signs_known (fun a => signed a = true) (nodes (hp t)) ->
  exists t', run (NT := ErrNum prec emax (Q2R tau)) q init_state = Ret t' /\ rel_state enclosed t' t.
Proof.
  intros Htau F Et HS.
  destruct (branching enclosed (fun a => signed a = true) (NA := ErrNum prec emax (Q2R tau)) (NB := IntNum prec emax tau)
              (enc_ring prec emax tau) (enc_neg prec emax tau) (enc_respects_tanh prec emax tau Htau)
              (enc_respects_abs prec emax tau) (enc_respects_relu prec emax tau) q c t) as (t' & Et' & Ht'); eauto.
Qed.
Lemma x_run (sign ok : ival -> bool) (tau : Q) q c : (0 <= Q2R tau)%R -> Forall2 (rel_cmd enclosed) q c -> (forall a, sign a = true -> signed a = true) ->
  x_passes sign ok (run (NT := IntNum 24 128 tau) c init_state) = true ->
  exists t' t, run (NT := ErrNum 24 128 (Q2R tau)) q init_state = Ret t' /\ rel_state enclosed t' t /\ signs_known (fun a => sign a = true) (nodes (hp t)) /\
    exists g g', var_grad t' 0 = Some g' /\ rel_raw enclosed g' g /\ 0 < length (array g') /\ Forall (fun a => ok a = true) (array g).
Proof.
  intros Htau F Hs H. destruct (run c init_state) as [t| |] eqn:Et; cbn [x_passes] in H; try discriminate. apply andb_prop in H as [H1 H2]. apply signs_check_ok in H1.
  destruct (intervals_enclose 24 128 _ _ tau q c t Htau F Et) as (t' & Et' & Ht'); [eapply signs_known_mono; [|exact H1]; exact Hs|].
  exists t', t. split; [exact Et'|]. split; [exact Ht'|]. split; [exact H1|]. destruct (var_grad t 0) as [g|] eqn:Eg; [|discriminate]. apply andb_prop in H2 as [H2 H3]. apply Nat.ltb_lt in H3.
  destruct Ht' as (Ee & _ & HG). unfold var_grad in *. rewrite Ee. destruct (nth_error (env t) 0) as [l|]; [|discriminate]. specialize (HG l). rewrite Eg in HG.
  destruct (grads (hp t') l) as [g'|]; cbn in HG; [|tauto]. exists g, g'. split; [reflexivity|]. split; [exact HG|]. split; [destruct HG as [_ HF]; rewrite (F2_length _ _ _ _ _ HF); exact H3|].
  apply Forall_forall. rewrite forallb_forall in H2. exact H2.
Qed.

(** ** C79 *)

(** C79: a bound, computed along with the values, on the error of everything a float program computes.  [q] is the float
    program [p] with, for every input number, the real number it stands for and a bound on the difference; [z] is the
    same program over the real numbers.  If the run of [q] finds the sign of every input of [abs] and [relu] to be
    known, the float program succeeds, and every value and every gradient entry it computes is finite and within the
    bound found by [q] of what [z] computes, unless the run of [q] found that something may have overflowed. *)
Lemma c79_running_error :
  forall (prec emax : Z) (P : Prec_gt_0 prec) (E : Prec_lt_emax prec emax) (tau : R) (ftanh : float prec emax -> float prec emax)
         (p : list (cmd (float prec emax))) (q : list (cmd bounded)) (z : list (cmd R)) (t : state bounded),
    (forall f, is_finite f = true -> is_finite (ftanh f) = true /\ (Rabs (B2R (ftanh f) - tanh (B2R f)) <= tau)%R) ->
    Forall2 (rel_cmd (starts prec emax)) p q -> Forall2 (rel_cmd (fun x b => x = val b)) z q ->
    run (NT := ErrNum prec emax tau) q init_state = Ret t -> signs_known (sign_known emax) (nodes (hp t)) ->
    exists s r, run (NT := FloatNum prec emax ftanh) p init_state = Ret s /\ run (NT := RNum) z init_state = Ret r /\
      rel_state (within prec emax) s t /\ rel_state (fun x b => x = val b) r t.
Proof.
  intros prec emax P E tau ftanh p q z t Htau Fp Fz Et HS.
  destruct (branching (run_err prec emax) (sign_known emax) (NA := FloatNum prec emax ftanh) (NB := ErrNum prec emax tau)
              (err_ring prec emax tau ftanh) (err_neg prec emax tau ftanh) (err_respects_tanh prec emax tau ftanh Htau)
              (err_respects_abs prec emax tau ftanh) (err_respects_relu prec emax tau ftanh) p q t) as (s & Es & Hs); auto.
  { eapply F2_mono; [|exact Fp]. intros c d. apply rel_cmd_mono. apply starts_run_err. }
  pose proof (parametric (NA := RNum) (NB := ErrNum prec emax tau) exact_value (exact_ring prec emax tau) z q Fz (fun c k _ _ => exact_op prec emax tau k)) as HZ.
  rewrite Et in HZ. destruct (run z init_state) as [r|e|]; cbn in HZ; try tauto.
  exists s, r. split; [exact Es|]. split; [reflexivity|]. split; [|exact HZ].
  destruct Hs as [He Hh]. split; [exact He|]. eapply rel_heap_mono; [|exact Hh]. intros a b (_ & _ & W). exact W.
Qed.

(** data known up to a thousandth: the gradients are known up to 1/20 *)
Example c79_running_error_ex : exists t : state bounded,
  (forall f, is_finite f = true -> is_finite (x_flat f) = true /\ (Rabs (B2R (x_flat f) - tanh (B2R f)) <= Q2R 1)%R) /\
  Forall2 (rel_cmd (starts 24 128)) (x_rel x_f) (x_rel (x_b (1 # 1000))) /\ Forall2 (rel_cmd (fun x b => x = val b)) (x_rel IZR) (x_rel (x_b (1 # 1000))) /\
  run (NT := ErrNum 24 128 (Q2R 1)) (x_rel (x_b (1 # 1000))) init_state = Ret t /\ signs_known (sign_known 128) (nodes (hp t)) /\
  exists g, var_grad t 0 = Some g /\ 0 < length (array g) /\ Forall (fun b => err b <= Q2R (1 # 20) /\ mag b <= Q2R (100 # 1))%R (array g).
Proof.
  assert (He : (0 <= Q2R (1 # 1000))%R) by (apply Q2R_pos_frac; lia).
  destruct (x_run (idecided 128) (x_small (1 # 20) (100 # 1)) 1 (x_rel (x_b (1 # 1000))) (x_rel (x_i (1 # 1000)))) as (t' & t & Et & Ht & HS & g & g' & Eg & [_ HF] & HL & HO).
  - rewrite RMicromega.Q2R_1. lra.
  - apply x_related. intros z _. apply x_enclosed. exact He.
  - apply decided_signed.
  - vm_compute. reflexivity.
  - exists t'. split; [exact x_flat_ok|]. split; [apply x_related; intros z Hz; apply x_starts; [exact Hz|exact He]|]. split; [apply x_related; reflexivity|]. split; [exact Et|].
    split; [exact (signs_enclosed 24 128 _ _ (proj1 (proj2 Ht)) HS)|]. exists g'. split; [exact Eg|]. split; [exact HL|].
    clear - HF HO. induction HF as [|b a l l' Hb _ IH]; constructor; inversion HO; subst; [eapply x_small_ok; eassumption|auto].
Qed.

(** C79, refuted without known signs: rounding can turn a negative sum into zero, and then [relu] has derivative 1 instead of 0. *)
Lemma c79_unknown_signs_refuted :
  ~ forall (prec emax : Z) (P : Prec_gt_0 prec) (E : Prec_lt_emax prec emax) (tau : R) (ftanh : float prec emax -> float prec emax)
           (p : list (cmd (float prec emax))) (q : list (cmd bounded)) (t : state bounded),
      (forall f, is_finite f = true -> is_finite (ftanh f) = true /\ (Rabs (B2R (ftanh f) - tanh (B2R f)) <= tau)%R) ->
      Forall2 (rel_cmd (starts prec emax)) p q -> run (NT := ErrNum prec emax tau) q init_state = Ret t ->
      exists s, run (NT := FloatNum prec emax ftanh) p init_state = Ret s /\ rel_state (within prec emax) s t.
Proof.
  intros H. assert (He : (0 <= Q2R 0)%R) by (rewrite RMicromega.Q2R_0; lra).
  destruct (x_run signed (fun a => x_small (1 # 2) (1 # 1) a && Qeq_bool (lo a) 0 && Qeq_bool (hi a) 0) 1 (x_lost (x_b 0)) (x_lost (x_i 0))) as (t' & t & Et & Ht & HS & g & g' & Eg & [_ HF] & HL & HO).
  - rewrite RMicromega.Q2R_1. lra.
  - apply x_related. intros z _. apply x_enclosed. exact He.
  - auto.
  - vm_compute. reflexivity.
  - destruct (H 24%Z 128%Z _ _ (Q2R 1) x_flat (x_lost x_f) (x_lost (x_b 0)) t') as (s & Es & Ee & _ & HG).
    + exact x_flat_ok.
    + apply x_related. intros z Hz. apply x_starts; [exact Hz|exact He].
    + exact Et.
    + assert (C : match run (NT := FloatNum 24 128 x_flat) (x_lost x_f) init_state with
                  | Ret s => match var_grad s 0 with Some g => map B2SF (array g) | None => [] end | _ => [] end = map B2SF [x_f 1]) by (vm_compute; reflexivity).
      rewrite Es in C. unfold var_grad in *. rewrite Ee in C. destruct (nth_error (env t') 0) as [l|]; [|discriminate]. specialize (HG l). rewrite Eg in HG.
      destruct (grads (hp s) l) as [gs|]; cbn in HG; [|tauto]. destruct HG as [_ HW].
      destruct (array g) as [|a rest]; [rewrite (F2_length _ _ _ _ _ HF) in HL; cbn in HL; lia|]. inversion HF as [|b ? ? ? Hb HF' E1]; subst. rewrite <- E1 in HW. inversion HW as [|f ? ? ? Hf HW' E2]; subst. rewrite <- E2 in C.
      cbn [map] in C. assert (C1 : B2SF f = B2SF (x_f 1)) by exact (f_equal (hd (B2SF f)) C). clear C. rename C1 into C. apply B2SF_inj in C. subst f. inversion HO as [|? ? HO1 _]; subst. apply andb_prop in HO1 as [HO1 H3]. apply andb_prop in HO1 as [H1 H2].
      destruct (x_small_ok _ _ _ _ H1 Hb) as [Hr Hm]. destruct Hb as (V & _). apply Qeq_bool_eq, Qeq_eqR in H2, H3. rewrite RMicromega.Q2R_0 in *. change (1 # 1)%Q with 1%Q in Hm. rewrite RMicromega.Q2R_1 in Hm. replace (Q2R (1 # 2)) with (/ 2)%R in Hr by (unfold Q2R; cbn; lra).
      destruct Hf as [_ Hf]; [apply Rle_lt_trans with 1%R; [exact Hm|]; change 1%R with (bpow radix2 0); apply bpow_lt; lia|].
      rewrite (proj2 (x_f_whole 1 ltac:(cbn; lia))) in Hf. replace (val b) with 0%R in Hf by lra. rewrite Rminus_0_r, Rabs_R1 in Hf. lra.
Qed.

Example c79_unknown_signs_refuted_ex :
  x_bits (x_show (run (NT := FloatNum 24 128 x_flat) (x_lost x_f) init_state)) =
    x_bits (Ret (map (map x_f) [[-16777216]; [-1]; [16777216]; [-16777216]; [0]; [0]; [0]]%Z, map (option_map (map x_f)) [Some [1]; Some [1]; Some [1]; Some [1]; Some [1]; Some [1]; Some [1]]%Z)) /\
  x_show (run (NT := ZNum) (x_lost (fun z => z)) init_state) =
    Ret ([[-16777216]; [-1]; [16777216]; [-16777217]; [-1]; [0]; [0]]%Z, [Some [0]; Some [0]; Some [0]; Some [0]; Some [0]; Some [1]; Some [1]]%Z).
Proof. vm_compute. auto. Qed.

(** C79: the gradients of a float program are derivatives up to the computed bound.  [y] is a variable whose tensor
    [backward] differentiates exactly over the real numbers (the conditions of C31).  The float program followed by
    [backward] succeeds, and every entry of the gradient of the leaf [CNew a sh] that it computes is within the bound of the
    derivative, with respect to this entry, of the value that the program would compute without rounding. *)
Lemma c79_gradient :
  forall (prec emax : Z) (P : Prec_gt_0 prec) (E : Prec_lt_emax prec emax) (tau : R) (ftanh : float prec emax -> float prec emax)
         (p : list (cmd (float prec emax))) (q : list (cmd bounded)) (p1 p2 : list (cmd R)) (a : list R) (sh : list nat)
         (r : state R) (t : state bounded) (y root : nat),
    (forall f, is_finite f = true -> is_finite (ftanh f) = true /\ (Rabs (B2R (ftanh f) - tanh (B2R f)) <= tau)%R) ->
    Forall2 (rel_cmd (starts prec emax)) p q -> Forall2 (rel_cmd (fun x b => x = val b)) (p1 ++ CNew a sh :: p2) q ->
    forallb differentiable (p1 ++ CNew a sh :: p2) = true -> run (p1 ++ CNew a sh :: p2) init_state = Ret r ->
    nonempty (nodes (hp r)) -> matrices_only (nodes (hp r)) ->
    nth_error (env r) y = Some root -> root_ok (nodes (hp r)) root -> no_kinks (nodes (hp r)) root ->
    run (NT := ErrNum prec emax tau) (q ++ [CBackward y]) init_state = Ret t -> signs_known (sign_known emax) (nodes (hp t)) ->
    exists s, run (NT := FloatNum prec emax ftanh) (p ++ [CBackward y]) init_state = Ret s /\
      forall g i b, var_grad t (length p1) = Some g -> nth_error (array g) i = Some b ->
        exists g' f d, var_grad s (length p1) = Some g' /\ nth_error (array g') i = Some f /\
          (i < length a -> program_derivative (fun x => p1 ++ CNew (list_set a i (nth i a 0%R + x)%R) sh :: p2) y d) /\
          ((mag b < bpow radix2 emax)%R -> is_finite f = true /\ (Rabs (B2R f - d) <= err b)%R).
Proof.
  intros prec emax P E tau ftanh p q p1 p2 a sh r t y root Htau Fp Fz HD HR HN HM Hy Hroot HK Et HS.
  destruct (c31_program_gradient p1 p2 a sh r y root HD HR HN HM Hy Hroot HK) as (r' & Er' & _ & HG).
  destruct (c79_running_error prec emax P E tau ftanh (p ++ [CBackward y]) (q ++ [CBackward y]) ((p1 ++ CNew a sh :: p2) ++ [CBackward y]) t) as (s & r2 & Es & Er2 & Ws & Wr); auto.
  { apply Forall2_app; [exact Fp|]. repeat constructor. }
  { apply Forall2_app; [exact Fz|]. repeat constructor. }
  rewrite run_app, HR in Er2. cbn [bind] in Er2. change (run [CBackward y] r) with (let* s := exec r (CBackward y) in Ret s) in Er2. rewrite Er' in Er2. cbn [bind] in Er2. injection Er2 as <-.
  exists s. split; [exact Es|]. intros g i b Hg Hb.
  destruct Ws as (We & _ & WG). destruct Wr as (Re & _ & RG). unfold grad_entry, var_grad in *. rewrite We, Re in *. destruct (nth_error (env t) (length p1)) as [l|] eqn:El; [|discriminate].
  specialize (WG l). specialize (RG l). rewrite Hg in WG, RG. destruct (grads (hp s) l) as [gs|] eqn:Egs; cbn in WG; [|tauto].
  destruct (grads (hp r') l) as [gr|] eqn:Egr; cbn in RG; [|tauto]. destruct WG as [_ WF], RG as [_ RF].
  destruct (F2_nth_some _ _ _ WF _ _ Hb) as (f & Hf & Wf). destruct (F2_nth_some _ _ _ RF _ _ Hb) as (d & Hd & Wd).
  exists gs, f, d. split; [reflexivity|]. split; [exact Hf|]. split.
  - intros Hi. specialize (HG i Hi). rewrite (nth_error_nth (array gr) i _ Hd) in HG. exact HG.
  - intros Hm. rewrite Wd. exact (Wf Hm).
Qed.

Example c79_gradient_ex : exists (r : state R) (t : state bounded),
  Forall2 (rel_cmd (starts 24 128)) (x_leaf x_f) (x_leaf (x_b (1 # 1000))) /\
  Forall2 (rel_cmd (fun x b => x = val b)) ([] ++ CNew [1; 2]%R [1; 2] :: [CScalar 5%R; CAdd 0 1; CRelu 2; CSum 3]) (x_leaf (x_b (1 # 1000))) /\
  forallb differentiable ([] ++ CNew [1; 2]%R [1; 2] :: [CScalar 5%R; CAdd 0 1; CRelu 2; CSum 3]) = true /\
  run ([] ++ CNew [1; 2]%R [1; 2] :: [CScalar 5%R; CAdd 0 1; CRelu 2; CSum 3]) init_state = Ret r /\
  nonempty (nodes (hp r)) /\ matrices_only (nodes (hp r)) /\ nth_error (env r) 4 = Some 4 /\ root_ok (nodes (hp r)) 4 /\ no_kinks (nodes (hp r)) 4 /\
  run (NT := ErrNum 24 128 (Q2R 1)) (x_leaf (x_b (1 # 1000)) ++ [CBackward 4]) init_state = Ret t /\ signs_known (sign_known 128) (nodes (hp t)) /\
  exists g, var_grad t 0 = Some g /\ 0 < length (array g) /\ Forall (fun b => err b <= Q2R (1 # 100000) /\ mag b <= Q2R (2 # 1))%R (array g).
Proof.
  assert (He : (0 <= Q2R (1 # 1000))%R) by (apply Q2R_pos_frac; lia).
  destruct (x_run (idecided 128) (x_small (1 # 100000) (2 # 1)) 1 (x_leaf (x_b (1 # 1000)) ++ [CBackward 4]) (x_leaf (x_i (1 # 1000)) ++ [CBackward 4])) as (t' & t & Et & Ht & HS & g & g' & Eg & [_ HF] & HL & HO).
  - rewrite RMicromega.Q2R_1. lra.
  - apply Forall2_app; [|repeat constructor]. apply x_related. intros z _. apply x_enclosed. exact He.
  - apply decided_signed.
  - vm_compute. reflexivity.
  - eexists. exists t'. split; [apply x_related; intros z Hz; apply x_starts; [exact Hz|exact He]|]. split; [apply (x_related (fun x b => x = val b) IZR); reflexivity|]. split; [reflexivity|]. split; [reflexivity|].
    set (ns := nodes _). split; [|split; [|split; [|split; [|split]]]].
    + intros n Hn. do 5 (destruct n as [|n]; [cbn; repeat constructor; lia|]). cbn in Hn. lia.
    + intros n ins F. do 5 (destruct n as [|n]; [cbn in F; try discriminate F|]). destruct n; discriminate F.
    + reflexivity.
    + split; [reflexivity|]. exists KSum, [3]. split; [reflexivity|]. apply (top_sum _ _ 3); [cbn; lia|reflexivity|].
      apply (plain_op _ _ KRelu [2]); [cbn; lia|reflexivity|discriminate..|]. intros i [<-|[]]. apply (plain_op _ _ KAdd [0; 1]); [cbn; lia|reflexivity|discriminate..|].
      intros i [<-|[<-|[]]]; apply plain_leaf; cbn; auto; lia.
    + intros n k ins i _ F Hk Hin.
      do 5 (destruct n as [|n]; [cbn in F; try discriminate F; injection F as <- <-; first [destruct Hk; discriminate|destruct Hin as [<-|[]]; cbn; repeat constructor; lra]|]).
      destruct n; discriminate F.
    + split; [exact Et|]. split; [exact (signs_enclosed 24 128 _ _ (proj1 (proj2 Ht)) HS)|]. exists g'. split; [exact Eg|]. split; [exact HL|].
      clear - HF HO. induction HF as [|b a l l' Hb _ IH]; constructor; inversion HO; subst; [eapply x_small_ok; eassumption|auto].
Qed.

(** C79: the conditions can be checked by computing with rational numbers.  If the run with rational intervals decides all signs, so
    does the run with real numbers, and its values, errors and magnitudes are within the intervals. *)
Lemma c79_checker :
  forall (prec emax : Z) (P : Prec_gt_0 prec) (E : Prec_lt_emax prec emax) (tau : Q) (q : list (cmd bounded)) (c : list (cmd ival)) (t : state ival),
    (0 <= Q2R tau)%R -> Forall2 (rel_cmd enclosed) q c ->
    run (NT := IntNum prec emax tau) c init_state = Ret t -> signs_known (fun a => idecided emax a = true) (nodes (hp t)) ->
    exists t', run (NT := ErrNum prec emax (Q2R tau)) q init_state = Ret t' /\ signs_known (sign_known emax) (nodes (hp t')) /\ rel_state enclosed t' t.
Proof.
  intros prec emax P E tau q c t Htau F Et HS.
  destruct (branching enclosed (fun a => signed a = true) (NA := ErrNum prec emax (Q2R tau)) (NB := IntNum prec emax tau)
              (enc_ring prec emax tau) (enc_neg prec emax tau) (enc_respects_tanh prec emax tau Htau)
              (enc_respects_abs prec emax tau) (enc_respects_relu prec emax tau) q c t) as (t' & Et' & Ht'); auto.
  { eapply signs_known_mono; [|exact HS]. apply decided_signed. }
  exists t'. split; [exact Et'|]. split; [|exact Ht']. destruct Ht' as (_ & Fn & _). exact (signs_enclosed prec emax _ _ Fn HS).
Qed.

Example c79_checker_ex :
  Forall2 (rel_cmd enclosed) (x_rel (x_b (1 # 1000))) (x_rel (x_i (1 # 1000))) /\
  x_passes (idecided 128) (x_small (1 # 20) (100 # 1)) (run (NT := IntNum 24 128 1) (x_rel (x_i (1 # 1000))) init_state) = true /\
  x_passes (idecided 128) (fun _ => true) (run (NT := IntNum 24 128 1) (x_lost (x_i 0)) init_state) = false.
Proof. split; [apply x_related; intros z _; apply x_enclosed, Q2R_pos_frac; lia|]. vm_compute. auto. Qed.

(** C79, the same for the training program *)
Lemma c79_checker_main :
  forall (prec emax : Z) (P : Prec_gt_0 prec) (E : Prec_lt_emax prec emax) (tau : Q) (inp hid out rounds : nat)
         (one step : bounded) (w1 b1 w2 b2 w3 b3 input : list bounded) (one' step' : ival) (w1' b1' w2' b2' w3' b3' input' : list ival) (k : heap ival) (n : mlp ival),
    (0 <= Q2R tau)%R ->
    Forall2 enclosed (one :: step :: w1) (one' :: step' :: w1') -> Forall2 enclosed b1 b1' -> Forall2 enclosed w2 w2' -> Forall2 enclosed b2 b2' ->
    Forall2 enclosed w3 w3' -> Forall2 enclosed b3 b3' -> Forall2 enclosed input input' ->
    main_program (NT := IntNum prec emax tau) inp hid out rounds one' step' w1' b1' w2' b2' w3' b3' input' = Ret (k, n) ->
    signs_known (fun a => idecided emax a = true) (nodes k) ->
    exists h m, main_program (NT := ErrNum prec emax (Q2R tau)) inp hid out rounds one step w1 b1 w2 b2 w3 b3 input = Ret (h, m) /\
      signs_known (sign_known emax) (nodes h) /\ rel_heap enclosed h k /\ map weights m = map weights n /\ map bias m = map bias n.
Proof.
  intros prec emax P E tau inp hid out rounds one step w1 b1 w2 b2 w3 b3 input one' step' w1' b1' w2' b2' w3' b3' input' k n Htau F1 G1 F2 G2 F3 G3 Fi Ek HS.
  inversion F1 as [|? ? ? ? S1 F1' X1 X2]; subst. inversion F1' as [|? ? ? ? S2 Fw1 X1 X2]; subst.
  destruct (b_main enclosed (fun a => signed a = true) (NA := ErrNum prec emax (Q2R tau)) (NB := IntNum prec emax tau)
              (enc_ring prec emax tau) (enc_neg prec emax tau) (enc_respects_tanh prec emax tau Htau)
              (enc_respects_abs prec emax tau) (enc_respects_relu prec emax tau)
              inp hid out rounds one one' step step' w1 w1' b1 b1' w2 w2' b2 b2' w3 w3' b3 b3' input input' (k, n)) as ([h m] & Em & [Hh Hm]); auto.
  { eapply signs_known_mono; [|exact HS]. apply decided_signed. }
  cbn [fst snd] in *. exists h, m. split; [exact Em|]. split; [exact (signs_enclosed prec emax _ _ (proj1 Hh) HS)|]. split; [exact Hh|].
  clear - Hm. induction Hm as [|x y l l' (Ew & Eb & _) _ [IH1 IH2]]; [split; reflexivity|]. cbn [map]. split; congruence.
Qed.

(** one number per layer; whatever [tanh] is, up to an error of 1 *)
Example c79_checker_main_ex :
  Forall2 enclosed (x_b 0 10 :: x_b 0 1 :: [x_b (1 # 1000) 1]) (x_i 0 10 :: x_i 0 1 :: [x_i (1 # 1000) 1]) /\
  match main_program (NT := IntNum 24 128 1) 1 1 1 1 (x_i 0 10) (x_i 0 1) [x_i (1 # 1000) 1] [x_i 0 1] [x_i 0 1] [x_i 0 1] [x_i 0 1] [x_i 0 0] [x_i 0 3] with
  | Ret (k, n) => signs_check (idecided 128) (nodes k) && (2 <? length n) | _ => false end = true.
Proof.
  split; [|vm_compute; reflexivity]. repeat apply Forall2_cons; try apply Forall2_nil; apply x_enclosed; apply Q2R_pos_frac; lia.
Qed.

(** C79, for the training program of main.rs: whatever the initial weights are, if the signs of all inputs of [relu] and
    [abs] are known, the weights after training are within the bounds of those that exact training would give. *)
Lemma c79_main :
  forall (prec emax : Z) (P : Prec_gt_0 prec) (E : Prec_lt_emax prec emax) (tau : R) (ftanh : float prec emax -> float prec emax)
         (inp hid out rounds : nat) (one step : float prec emax) (w1 b1 w2 b2 w3 b3 input : list (float prec emax))
         (one' step' : bounded) (w1' b1' w2' b2' w3' b3' input' : list bounded) (k : heap bounded) (n : mlp bounded),
    (forall f, is_finite f = true -> is_finite (ftanh f) = true /\ (Rabs (B2R (ftanh f) - tanh (B2R f)) <= tau)%R) ->
    Forall2 (starts prec emax) (one :: step :: w1) (one' :: step' :: w1') -> Forall2 (starts prec emax) b1 b1' ->
    Forall2 (starts prec emax) w2 w2' -> Forall2 (starts prec emax) b2 b2' ->
    Forall2 (starts prec emax) w3 w3' -> Forall2 (starts prec emax) b3 b3' -> Forall2 (starts prec emax) input input' ->
    main_program (NT := ErrNum prec emax tau) inp hid out rounds one' step' w1' b1' w2' b2' w3' b3' input' = Ret (k, n) ->
    signs_known (sign_known emax) (nodes k) ->
    exists h m h' m',
      main_program (NT := FloatNum prec emax ftanh) inp hid out rounds one step w1 b1 w2 b2 w3 b3 input = Ret (h, m) /\
      main_program (NT := RNum) inp hid out rounds (val one') (val step') (map val w1') (map val b1') (map val w2') (map val b2') (map val w3') (map val b3') (map val input') = Ret (h', m') /\
      map weights m = map weights n /\ map bias m = map bias n /\ map weights m' = map weights n /\ map bias m' = map bias n /\
      rel_heap (within prec emax) h k /\ rel_heap (fun x b => x = val b) h' k.
Proof.
  intros prec emax P E tau ftanh inp hid out rounds one step w1 b1 w2 b2 w3 b3 input one' step' w1' b1' w2' b2' w3' b3' input' k n Htau F1 G1 F2 G2 F3 G3 Fi Ek HS.
  assert (HF : forall l l', Forall2 (starts prec emax) l l' -> Forall2 (run_err prec emax) l l') by (intros l l'; apply F2_mono, starts_run_err).
  inversion F1 as [|? ? ? ? S1 F1' X1 X2]; subst. inversion F1' as [|? ? ? ? S2 Fw1 X1 X2]; subst.
  destruct (b_main (run_err prec emax) (sign_known emax) (NA := FloatNum prec emax ftanh) (NB := ErrNum prec emax tau)
              (err_ring prec emax tau ftanh) (err_neg prec emax tau ftanh) (err_respects_tanh prec emax tau ftanh Htau)
              (err_respects_abs prec emax tau ftanh) (err_respects_relu prec emax tau ftanh)
              inp hid out rounds one one' step step' w1 w1' b1 b1' w2 w2' b2 b2' w3 w3' b3 b3' input input' (k, n)) as ([h m] & Em & [Hh Hm]); auto using starts_run_err.
  assert (FV : forall l : list bounded, Forall2 exact_value (map val l) l) by (induction l; constructor; [reflexivity|assumption]).
  pose proof (p_main (NA := RNum) (NB := ErrNum prec emax tau) exact_value (exact_ring prec emax tau) inp hid out rounds (val one') one' (val step') step'
                (map val w1') w1' (map val b1') b1' (map val w2') w2' (map val b2') b2' (map val w3') w3' (map val b3') b3' (map val input') input'
                (exact_op prec emax tau KNeg) (exact_op prec emax tau KAbs) (exact_op prec emax tau KRelu) (exact_op prec emax tau KTanh) eq_refl eq_refl
                (FV _) (FV _) (FV _) (FV _) (FV _) (FV _) (FV _)) as HZ.
  rewrite Ek in HZ. destruct (main_program (NT := RNum) inp hid out rounds (val one') _ _ _ _ _ _ _ _) as [[h' m']|e|]; cbn in HZ; try tauto.
  destruct HZ as [[Hz _] Hzm]. cbn [fst snd] in *.
  exists h, m, h', m'. split; [exact Em|]. split; [reflexivity|].
  assert (Wm : map weights m = map weights n /\ map bias m = map bias n).
  { clear - Hm. induction Hm as [|x y l l' (Ew & Eb & _) _ [IH1 IH2]]; [split; reflexivity|]. cbn [map]. split; congruence. }
  assert (Wz : map weights m' = map weights n /\ map bias m' = map bias n).
  { clear - Hzm. induction Hzm as [|x y l l' (Ew & Eb & _) _ [IH1 IH2]]; [split; reflexivity|]. cbn [map]. split; congruence. }
  destruct Wm, Wz. repeat (split; [assumption|]). split; [|exact Hz].
  eapply rel_heap_mono; [|apply Hh]. intros a b (_ & _ & W). exact W.
Qed.

Example c79_main_ex : exists (k : heap bounded) (n : mlp bounded),
  Forall2 (starts 24 128) (x_f 10 :: x_f 1 :: [x_f 1]) (x_b 0 10 :: x_b 0 1 :: [x_b (1 # 1000) 1]) /\
  main_program (NT := ErrNum 24 128 (Q2R 1)) 1 1 1 1 (x_b 0 10) (x_b 0 1) [x_b (1 # 1000) 1] [x_b 0 1] [x_b 0 1] [x_b 0 1] [x_b 0 1] [x_b 0 0] [x_b 0 3] = Ret (k, n) /\
  signs_known (sign_known 128) (nodes k).
Proof.
  destruct (main_program (NT := IntNum 24 128 1) 1 1 1 1 (x_i 0 10) (x_i 0 1) [x_i (1 # 1000) 1] [x_i 0 1] [x_i 0 1] [x_i 0 1] [x_i 0 1] [x_i 0 0] [x_i 0 3]) as [[k n]| |] eqn:Ek.
  2, 3: pose proof (proj2 c79_checker_main_ex) as C; rewrite Ek in C; discriminate C.
  pose proof (proj2 c79_checker_main_ex) as C. rewrite Ek in C. apply andb_prop in C as [C _]. apply signs_check_ok in C.
  assert (HE : forall z, enclosed (x_b 0 z) (x_i 0 z)) by (intros z; apply x_enclosed, Q2R_pos_frac; lia).
  assert (H1 : forall z, Forall2 enclosed [x_b 0 z] [x_i 0 z]) by (intros z; apply Forall2_cons; [apply HE|apply Forall2_nil]).
  destruct (c79_checker_main 24 128 _ _ 1 1 1 1 1 (x_b 0 10) (x_b 0 1) [x_b (1 # 1000) 1] [x_b 0 1] [x_b 0 1] [x_b 0 1] [x_b 0 1] [x_b 0 0] [x_b 0 3]
              (x_i 0 10) (x_i 0 1) [x_i (1 # 1000) 1] [x_i 0 1] [x_i 0 1] [x_i 0 1] [x_i 0 1] [x_i 0 0] [x_i 0 3] k n) as (h & m & Em & HS & _); auto.
  - apply Q2R_pos_frac. lia.
  - exact (proj1 c79_checker_main_ex).
  - exists h, m. split; [|split; [exact Em|exact HS]]. repeat apply Forall2_cons; try apply Forall2_nil; apply x_starts; try (apply Q2R_pos_frac; lia); lia.
Qed.
