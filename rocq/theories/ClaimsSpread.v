(** * ClaimsSpread: rounding under any thread schedule (C81) *)
From Coq Require Import Reals ZArith QArith Qreals Qabs Lia Lra.
From Flocq Require Import Core BinarySingleNaN.
From Verif Require Import Base ModelIndex ModelTensor ModelOps ModelJvp ModelGraph ModelNN ModelMain ModelPar ModelSched Spec SpecGraph SpecReal SpecParam SpecRound SpecSched SpecError SpecSpread
  Lists GraphFacts ParamFacts RoundFacts BranchFacts RoomFacts ErrorFacts IntervalFacts SpreadFacts SpreadInterval SchedFacts SchedBranch RealInst ProgFacts ClaimsGrad ClaimsParam ClaimsError ClaimsRoom ClaimsSched Instances.
Local Open Scope nat_scope.

Lemma signs_covered prec emax {P : Prec_gt_0 prec} {E : Prec_lt_emax prec emax} ns ms : Forall2 (rel_node covers) ns ms ->
  signs_known (fun a => sdecided prec emax a = true) ms -> signs_known (sign_sure prec emax) ns.
Proof.
  intros F HS n nd k ins En Ef Hk. destruct (F2_nth_some' _ _ _ F _ _ En) as (md & Em & _ & Efm). rewrite Ef in Efm. symmetry in Efm.
  specialize (HS n md k ins Em Efm Hk). rewrite Forall_forall in *. intros i Hi. destruct (HS i Hi) as (Lt & mi & Ei & D). split; [exact Lt|].
  destruct (F2_nth_some _ _ _ F _ _ Ei) as (ni & Ein & (_ & Fv) & _). exists ni. split; [exact Ein|].
  clear - Fv D P E. induction Fv as [|b a l l' Hb _ IH]; constructor; inversion D; subst; [|auto]. apply (sure prec emax b a); assumption.
Qed.

(** ** Numbers for the examples *)

(** A number known up to [e]: with order-independent bounds, as an interval *)
Definition x_sp (e : Q) (z : Z) : spread := mkSpread (IZR z) (Rabs (IZR z)) (Q2R e) 0 0.
Definition x_si (e : Q) (z : Z) : sival := mkSival (inject_Z z) (inject_Z z) (inject_Z (Z.abs z)) e 0 0.
Lemma x_begins e z : (Z.abs z <= 2 ^ 24)%Z -> (0 <= Q2R e)%R -> begins 24 128 (x_f z) (x_sp e z).
Proof.
  intros H He. destruct (x_f_whole z H) as [F B]. split; [exact F|]. unfold x_sp. cbn [sval total inherited]. rewrite B, Rminus_diag_eq, Rabs_R0 by reflexivity. lra.
Qed.
Lemma x_covers e z : (0 <= Q2R e)%R -> covers (x_sp e z) (x_si e z).
Proof.
  intros He. unfold covers, x_sp, x_si. cbn [sval total inherited adds peak slo shi stotal sinherited sadds speak]. rewrite !Q2R_inject, abs_IZR, RMicromega.Q2R_0.
  pose proof (Rabs_pos (IZR z)). repeat split; lra.
Qed.

(** Signs are known, and the gradient of the given variable satisfies [ok]. *)
Definition s_passes (sign ok : sival -> bool) (v : nat) (o : outcome (state sival)) : bool :=
  match o with
  | Ret t => signs_check sign (nodes (hp t)) && match var_grad t v with Some g => forallb ok (array g) && (0 <? length (array g)) | None => false end
  | _ => false
  end.
Definition s_small (e m : Q) (a : sival) : bool := Qle_bool (islack 24 a) e && Qle_bool (ireach 24 a) m && Qle_bool (speak a) m.
Lemma s_small_ok e m b a : s_small e m a = true -> covers b a -> (slack 24 b <= Q2R e /\ reach 24 b <= Q2R m /\ peak b <= Q2R m)%R.
Proof.
  intros H HC. pose proof (slack_le 24 b a HC) as HK. pose proof (reach_le 24 b a HC) as HR. destruct HC as (_ & _ & _ & _ & M). unfold s_small in H.
  apply andb_prop in H as [H H3]. apply andb_prop in H as [H1 H2]. apply Qle_bool_R in H1, H2, H3. lra.
Qed.

Lemma intervals_cover (prec emax : Z) (P : Prec_gt_0 prec) (E : Prec_lt_emax prec emax) (tau : Q) (q : list (cmd spread)) (c : list (cmd sival)) (t : state sival) :
  (0 <= Q2R tau)%R -> Forall2 (rel_cmd covers) q c -> run (NT := SivalNum prec emax tau) c init_state = Ret t -> signs_known (fun a => ssigned a = true) (nodes (hp t)) ->
  exists t', run (NT := SpreadNum prec emax (Q2R tau)) q init_state = Ret t' /\ rel_state covers t' t.
Proof.
  intros Htau F Et HS.
  destruct (branching covers (fun a => ssigned a = true) (NA := SpreadNum prec emax (Q2R tau)) (NB := SivalNum prec emax tau)
              (cov_ring prec emax tau) (cov_neg prec emax tau) (cov_respects_tanh prec emax tau Htau)
              (cov_respects_abs prec emax tau) (cov_respects_relu prec emax tau) q c t) as (t' & Et' & Ht'); eauto.
Qed.
Lemma s_run_ok (sign ok : sival -> bool) (v : nat) (tau : Q) q c : (0 <= Q2R tau)%R -> Forall2 (rel_cmd covers) q c -> (forall a, sign a = true -> ssigned a = true) ->
  s_passes sign ok v (run (NT := SivalNum 24 128 tau) c init_state) = true ->
  exists t' t, run (NT := SpreadNum 24 128 (Q2R tau)) q init_state = Ret t' /\ rel_state covers t' t /\ signs_known (fun a => sign a = true) (nodes (hp t)) /\
    exists g g', var_grad t' v = Some g' /\ rel_raw covers g' g /\ 0 < length (array g') /\ Forall (fun a => ok a = true) (array g).
Proof.
  intros Htau F Hs H. destruct (run c init_state) as [t| |] eqn:Et; cbn [s_passes] in H; try discriminate. apply andb_prop in H as [H1 H2]. apply signs_check_ok in H1.
  destruct (intervals_cover 24 128 _ _ tau q c t Htau F Et) as (t' & Et' & Ht'); [eapply signs_known_mono; [|exact H1]; exact Hs|].
  exists t', t. split; [exact Et'|]. split; [exact Ht'|]. split; [exact H1|]. destruct (var_grad t v) as [g|] eqn:Eg; [|discriminate]. apply andb_prop in H2 as [H2 H3]. apply Nat.ltb_lt in H3.
  destruct Ht' as (Ee & _ & HG). unfold var_grad in *. rewrite Ee. destruct (nth_error (env t) v) as [l|]; [|discriminate]. specialize (HG l). rewrite Eg in HG.
  destruct (grads (hp t') l) as [g'|]; cbn in HG; [|tauto]. exists g, g'. split; [reflexivity|]. split; [exact HG|]. split; [destruct HG as [_ HF]; rewrite (F2_length _ _ _ _ _ HF); exact H3|].
  apply Forall_forall. rewrite forallb_forall in H2. exact H2.
Qed.

(** ** C81 *)

(** C81: a bound on the rounding error of everything a float program computes that holds whatever the thread schedule and
    whatever the number of workers.  [q] is the float program [p] with, for every input number, the real number it
    stands for and a bound on the difference; [z] is the same program over the real numbers.  If the run of [q] finds the
    sign of every input of [abs] and [relu] to be known, the float program succeeds under every schedule, and every value and
    every gradient entry it computes is finite and within the bound found by [q] of what [z] computes, unless the
    run of [q] found that something may have overflowed. *)
Lemma c81_any_order :
  forall (prec emax : Z) (P : Prec_gt_0 prec) (E : Prec_lt_emax prec emax) (tau : R) (ftanh : float prec emax -> float prec emax) (workers : nat) (fifo : bool)
         (p : list (cmd (float prec emax))) (q : list (cmd spread)) (z : list (cmd R)) (t : state spread) (o : outcome (state (float prec emax))),
    (forall f, is_finite f = true -> is_finite (ftanh f) = true /\ (Rabs (B2R (ftanh f) - tanh (B2R f)) <= tau)%R) ->
    Forall2 (rel_cmd (begins prec emax)) p q -> Forall2 (rel_cmd (fun x b => x = sval b)) z q ->
    run (NT := SpreadNum prec emax tau) q init_state = Ret t -> signs_known (sign_sure prec emax) (nodes (hp t)) ->
    run_any (NT := FloatNum prec emax ftanh) workers fifo p init_state o ->
    exists s r, o = Ret s /\ run (NT := RNum) z init_state = Ret r /\
      rel_state (near prec emax) s t /\ rel_state (fun x b => x = sval b) r t.
Proof.
  intros prec emax P E tau ftanh w fi p q z t o Htau Fp Fz Et HS Ho.
  destruct (any_branching (tracks prec emax) (sign_sure prec emax) (NA := FloatNum prec emax ftanh) (NB := SpreadNum prec emax tau)
              (track_ring prec emax tau ftanh) (track_neg prec emax tau ftanh) (track_respects_tanh prec emax tau ftanh Htau)
              (track_respects_abs prec emax tau ftanh) (track_respects_relu prec emax tau ftanh) (spread_comm prec emax tau) (spread_assoc prec emax tau) w fi p q t o) as (s & Es & Hs); auto.
  { eapply F2_mono; [|exact Fp]. intros c d. apply rel_cmd_mono. apply begins_tracks. }
  pose proof (parametric (NA := RNum) (NB := SpreadNum prec emax tau) sum_value (sum_ring prec emax tau) z q Fz (fun c k _ _ => sum_op prec emax tau k)) as HZ.
  rewrite Et in HZ. destruct (run z init_state) as [r|e|]; cbn in HZ; try tauto.
  exists s, r. split; [exact Es|]. split; [reflexivity|]. split; [|exact HZ].
  destruct Hs as [He Hh]. split; [exact He|]. eapply rel_heap_mono; [|exact Hh]. intros a b (_ & W). exact W.
Qed.

Lemma x_f_big z f : f = SpecFloat.S754_finite (z <? 0)%Z 8388608 7 -> B2SF (x_f z) = f -> z = (2 ^ 30)%Z \/ z = (- 2 ^ 30)%Z -> is_finite (x_f z) = true /\ B2R (x_f z) = IZR z.
Proof.
  intros -> E H. split; [rewrite <- is_finite_SF_B2SF, E; reflexivity|]. rewrite <- (SF2R_B2SF 24 128), E. cbn [SF2R].
  destruct H as [-> | ->]; unfold F2R; cbn; lra.
Qed.
Lemma x_back_related {A B : Type} (R : A -> B -> Prop) f g : Forall2 R (map f [2 ^ 30; 1; - 2 ^ 30]%Z) (map g [2 ^ 30; 1; - 2 ^ 30]%Z) -> Forall2 (rel_cmd R) (x_back f) (x_back g).
Proof.
  intros H. assert (H1 : R (f 1%Z) (g 1%Z)) by (inversion H as [|? ? ? ? _ H']; subst; inversion H'; assumption).
  unfold x_back. apply Forall2_cons; [constructor; exact H|]. apply Forall2_cons; [constructor; apply Forall2_cons; [exact H1|apply Forall2_nil]|]. repeat constructor.
Qed.
Lemma x_begins_back : Forall2 (rel_cmd (begins 24 128)) (x_back x_f) (x_back (x_sp 0)).
Proof.
  assert (He : (0 <= Q2R 0)%R) by (rewrite RMicromega.Q2R_0; lra).
  assert (B : forall z, is_finite (x_f z) = true /\ B2R (x_f z) = IZR z -> begins 24 128 (x_f z) (x_sp 0 z)).
  { intros z [F V]. split; [exact F|]. unfold x_sp. cbn [sval total inherited]. rewrite V, Rminus_diag_eq, Rabs_R0 by reflexivity. lra. }
  apply x_back_related. cbn [map]. apply Forall2_cons; [|apply Forall2_cons; [|apply Forall2_cons; [|apply Forall2_nil]]].
  - apply B. apply (x_f_big _ _ eq_refl); [vm_compute; reflexivity|auto].
  - apply x_begins; [lia|exact He].
  - apply B. apply (x_f_big _ _ eq_refl); [vm_compute; reflexivity|auto].
Qed.
Lemma x_covers_back : Forall2 (rel_cmd covers) (x_back (x_sp 0)) (x_back (x_si 0)).
Proof.
  assert (He : (0 <= Q2R 0)%R) by (rewrite RMicromega.Q2R_0; lra).
  apply x_back_related. cbn [map]. apply Forall2_cons; [|apply Forall2_cons; [|apply Forall2_cons; [|apply Forall2_nil]]]; apply x_covers; exact He.
Qed.

(** 2^30 + 1 - 2^30, added up in any order: the gradient is 1 up to 513.  (On a pool with two workers it is 0 or 1, see C80.) *)
Example c81_any_order_ex : exists t : state spread,
  Forall2 (rel_cmd (begins 24 128)) (x_back x_f) (x_back (x_sp 0)) /\ Forall2 (rel_cmd (fun x b => x = sval b)) (x_back IZR) (x_back (x_sp 0)) /\
  run (NT := SpreadNum 24 128 (Q2R 1)) (x_back (x_sp 0)) init_state = Ret t /\ signs_known (sign_sure 24 128) (nodes (hp t)) /\
  (exists o, run_any (NT := FloatNum 24 128 x_flat) 2 true (x_back x_f) init_state o) /\
  exists g, var_grad t 1 = Some g /\ 0 < length (array g) /\ Forall (fun b => slack 24 b <= Q2R (513 # 1) /\ fits 24 128 b)%R (array g).
Proof.
  assert (He : (0 <= Q2R 0)%R) by (rewrite RMicromega.Q2R_0; lra).
  destruct (s_run_ok (sdecided 24 128) (s_small (513 # 1) (2147484162 # 1)) 1 1 (x_back (x_sp 0)) (x_back (x_si 0))) as (t' & t & Et & Ht & HS & g & g' & Eg & [_ HF] & HL & HO).
  - rewrite RMicromega.Q2R_1. lra.
  - exact x_covers_back.
  - apply sdecided_signed.
  - vm_compute. reflexivity.
  - exists t'. split; [exact x_begins_back|]. split; [apply x_back_related; repeat (apply Forall2_cons; [reflexivity|]); apply Forall2_nil|]. split; [exact Et|].
    split; [exact (signs_covered 24 128 _ _ (proj1 (proj2 Ht)) HS)|]. split; [apply run_possible; lia|]. exists g'. split; [exact Eg|]. split; [exact HL|].
    assert (Big : (Q2R (2147484162 # 1) < bpow radix2 128)%R).
    { apply Rlt_le_trans with (bpow radix2 32); [unfold Q2R; cbn; lra|apply bpow_le; lia]. }
    clear - HF HO Big. induction HF as [|b a l l' Hb _ IH]; constructor; inversion HO; subst; [|auto]. destruct (s_small_ok _ _ _ _ H1 Hb) as (S1 & S2 & S3). split; [exact S1|]. split; lra.
Qed.

(** C81: two runs of the same program, with whatever schedules and numbers of workers, differ by at most twice the bound. *)
Lemma c81_schedules_agree :
  forall (prec emax : Z) (P : Prec_gt_0 prec) (E : Prec_lt_emax prec emax) (tau eps : R) (ftanh : float prec emax -> float prec emax) (workers workers' : nat) (fifo fifo' : bool)
         (p : list (cmd (float prec emax))) (q : list (cmd spread)) (t : state spread) (o o' : outcome (state (float prec emax))),
    (forall f, is_finite f = true -> is_finite (ftanh f) = true /\ (Rabs (B2R (ftanh f) - tanh (B2R f)) <= tau)%R) ->
    Forall2 (rel_cmd (begins prec emax)) p q -> run (NT := SpreadNum prec emax tau) q init_state = Ret t -> signs_known (sign_sure prec emax) (nodes (hp t)) ->
    everywhere (fun b => fits prec emax b /\ slack prec b <= eps)%R t ->
    run_any (NT := FloatNum prec emax ftanh) workers fifo p init_state o -> run_any (NT := FloatNum prec emax ftanh) workers' fifo' p init_state o' ->
    exists s s', o = Ret s /\ o' = Ret s' /\
      rel_state (fun f g => is_finite f = true /\ is_finite g = true /\ Rabs (B2R f - B2R g) <= 2 * eps)%R s s'.
Proof.
  intros prec emax P E tau eps ftanh w w' fi fi' p q t o o' Htau Fp Et HS HE Ho Ho'.
  assert (G : forall w f o, run_any (NT := FloatNum prec emax ftanh) w f p init_state o -> exists s, o = Ret s /\ rel_state (tracks prec emax) s t).
  { intros v f r Hr. apply (any_branching (tracks prec emax) (sign_sure prec emax) (NA := FloatNum prec emax ftanh) (NB := SpreadNum prec emax tau)
              (track_ring prec emax tau ftanh) (track_neg prec emax tau ftanh) (track_respects_tanh prec emax tau ftanh Htau)
              (track_respects_abs prec emax tau ftanh) (track_respects_relu prec emax tau ftanh) (spread_comm prec emax tau) (spread_assoc prec emax tau) v f p q t r); auto.
    eapply F2_mono; [|exact Fp]. intros c d. apply rel_cmd_mono. apply begins_tracks. }
  destruct (G _ _ _ Ho) as (s & -> & Hs). destruct (G _ _ _ Ho') as (s' & -> & Hs'). exists s, s'. split; [reflexivity|]. split; [reflexivity|].
  apply (rel_state_compose _ _ _ (flip (tracks prec emax)) (flip (tracks prec emax)) (fun b => fits prec emax b /\ slack prec b <= eps)%R _ t s s'
           (rel_state_flip _ _ _ Hs) (rel_state_flip _ _ _ Hs') HE).
  intros b f g [HF HB] [_ Wf] [_ Wg]. destruct (Wf HF) as [Ff Df], (Wg HF) as [Fg Dg]. split; [exact Ff|]. split; [exact Fg|].
  replace (B2R f - B2R g)%R with ((B2R f - sval b) - (B2R g - sval b))%R by ring. unfold Rminus at 1. eapply Rle_trans; [apply Rabs_triang|]. rewrite Rabs_Ropp. lra.
Qed.

(** Everything is at most [e] off. *)
Definition s_all (ok : sival -> bool) (o : outcome (state sival)) : bool :=
  match o with
  | Ret t => signs_check (sdecided 24 128) (nodes (hp t)) && forallb (fun nd => forallb ok (array (n_val nd))) (nodes (hp t)) &&
      forallb (fun i => match grads (hp t) i with Some g => forallb ok (array g) | None => true end) (seq 0 (length (nodes (hp t))))
  | _ => false
  end.
Lemma run_no_view (T : Type) (NT : Num T) p : forall s s' : state T, (forall x y o, ~ In (CMulView x y o) p) -> inv s -> run p s = Ret s' -> inv s'.
Proof.
  unfold run. induction p as [|c p IH]; intros s s' HN Hi E; cbn [foldM] in E; [apply Ret_inj in E; subst; exact Hi|].
  apply bind_Ret_inv in E as (s1 & E1 & E). apply (IH s1 s'); [intros x y o H; apply (HN x y o); right; exact H| |exact E].
  apply (exec_inv s s1 c Hi); [|exact E1]. intros x y o ->. destruct (HN x y o). left. reflexivity.
Qed.
Lemma s_all_ok ok (V : spread -> Prop) (tau : Q) q c : (0 <= Q2R tau)%R -> Forall2 (rel_cmd covers) q c -> (forall x y o, ~ In (CMulView x y o) c) -> (forall b a, ok a = true -> covers b a -> V b) ->
  s_all ok (run (NT := SivalNum 24 128 tau) c init_state) = true ->
  exists t, run (NT := SpreadNum 24 128 (Q2R tau)) q init_state = Ret t /\ signs_known (sign_sure 24 128) (nodes (hp t)) /\ everywhere V t.
Proof.
  intros Htau F HN HV H. destruct (run c init_state) as [t| |] eqn:Et; cbn [s_all] in H; try discriminate. apply andb_prop in H as [H H3]. apply andb_prop in H as [H1 H2]. apply signs_check_ok in H1.
  destruct (intervals_cover 24 128 _ _ tau q c t Htau F Et) as (t' & Et' & Ht'); [eapply signs_known_mono; [|exact H1]; apply sdecided_signed|].
  exists t'. split; [exact Et'|]. split; [exact (signs_covered 24 128 _ _ (proj1 (proj2 Ht')) H1)|].
  destruct (run_no_view _ _ _ _ _ HN (inv_init (T := sival)) Et) as [[_ HG] _]. destruct Ht' as (_ & Fn & Fg). rewrite forallb_forall in H2, H3.
  assert (L : forall l l', Forall2 covers l l' -> forallb ok l' = true -> Forall V l).
  { induction 1 as [|b a l l' Hb _ IH]; intros HO; constructor; cbn [forallb] in HO; apply andb_prop in HO as [O1 O2]; eauto. }
  split.
  - intros nd Hin. apply In_nth_error in Hin as [n En]. destruct (F2_nth_some' _ _ _ Fn _ _ En) as (md & Em & [_ Hv] & _). eapply L; [exact Hv|]. apply H2. eapply nth_error_In. exact Em.
  - intros i g Eg. specialize (Fg i). rewrite Eg in Fg. destruct (grads (hp t) i) as [g'|] eqn:Eg'; cbn in Fg; [|tauto]. destruct Fg as [_ Hv]. eapply L; [exact Hv|].
    assert (Hi : In i (seq 0 (length (nodes (hp t))))) by (apply in_seq; destruct (HG i g' Eg'); lia). specialize (H3 i Hi). rewrite Eg' in H3. exact H3.
Qed.
Lemma s_small_fits e m b a : (Q2R m < bpow radix2 128)%R -> s_small e m a = true -> covers b a -> fits 24 128 b /\ (slack 24 b <= Q2R e)%R.
Proof. intros Hm H HC. destruct (s_small_ok e m b a H HC) as (S1 & S2 & S3). split; [split; lra|exact S1]. Qed.
Lemma x_below_big n : (n <= 2 ^ 32)%Z -> (Q2R (n # 1) < bpow radix2 128)%R.
Proof.
  intros H. apply Rle_lt_trans with (bpow radix2 32); [|apply bpow_lt; lia]. unfold Q2R. cbn [Qnum Qden]. rewrite Rinv_1, Rmult_1_r. rewrite <- IZR_Zpower by lia. apply IZR_le. exact H.
Qed.
Example c81_schedules_agree_ex : exists t : state spread,
  Forall2 (rel_cmd (begins 24 128)) (x_rel x_f) (x_rel (x_sp 0)) /\
  run (NT := SpreadNum 24 128 (Q2R 1)) (x_rel (x_sp 0)) init_state = Ret t /\ signs_known (sign_sure 24 128) (nodes (hp t)) /\
  everywhere (fun b => fits 24 128 b /\ slack 24 b <= Q2R (1 # 10000))%R t /\
  (exists o, run_any (NT := FloatNum 24 128 x_flat) 2 true (x_rel x_f) init_state o) /\ (exists o, run_any (NT := FloatNum 24 128 x_flat) 5 true (x_rel x_f) init_state o).
Proof.
  assert (He : (0 <= Q2R 0)%R) by (rewrite RMicromega.Q2R_0; lra).
  destruct (s_all_ok (s_small (1 # 10000) (100 # 1)) (fun b => fits 24 128 b /\ slack 24 b <= Q2R (1 # 10000))%R 1 (x_rel (x_sp 0)) (x_rel (x_si 0))) as (t & Et & HS & HV).
  - rewrite RMicromega.Q2R_1. lra.
  - apply x_related. intros z _. apply x_covers. exact He.
  - intros x y o H. unfold x_rel in H. cbn [In] in H. repeat (destruct H as [H|H]; [discriminate H|]). exact H.
  - intros b a. apply s_small_fits. apply x_below_big. lia.
  - vm_compute. reflexivity.
  - exists t. split; [apply x_related; intros z Hz; apply x_begins; [exact Hz|exact He]|]. split; [exact Et|]. split; [exact HS|]. split; [exact HV|]. split; apply run_possible; lia.
Qed.

(** C81: under any schedule the gradients of a float program are derivatives up to the bound.  [y] is a variable whose tensor
    [backward] differentiates exactly over the real numbers (the conditions of C31).  However the threads are
    scheduled, the float program followed by [backward] succeeds, and every entry of the gradient of the leaf [CNew a sh] is within
    the bound of the derivative, with respect to this entry, of the value that the program would compute without rounding. *)
Lemma c81_gradient :
  forall (prec emax : Z) (P : Prec_gt_0 prec) (E : Prec_lt_emax prec emax) (tau : R) (ftanh : float prec emax -> float prec emax) (workers : nat) (fifo : bool)
         (p : list (cmd (float prec emax))) (q : list (cmd spread)) (p1 p2 : list (cmd R)) (a : list R) (sh : list nat)
         (r : state R) (t : state spread) (y root : nat) (o : outcome (state (float prec emax))),
    (forall f, is_finite f = true -> is_finite (ftanh f) = true /\ (Rabs (B2R (ftanh f) - tanh (B2R f)) <= tau)%R) ->
    Forall2 (rel_cmd (begins prec emax)) p q -> Forall2 (rel_cmd (fun x b => x = sval b)) (p1 ++ CNew a sh :: p2) q ->
    forallb differentiable (p1 ++ CNew a sh :: p2) = true -> run (p1 ++ CNew a sh :: p2) init_state = Ret r ->
    nonempty (nodes (hp r)) -> matrices_only (nodes (hp r)) ->
    nth_error (env r) y = Some root -> root_ok (nodes (hp r)) root -> no_kinks (nodes (hp r)) root ->
    run (NT := SpreadNum prec emax tau) (q ++ [CBackward y]) init_state = Ret t -> signs_known (sign_sure prec emax) (nodes (hp t)) ->
    run_any (NT := FloatNum prec emax ftanh) workers fifo (p ++ [CBackward y]) init_state o ->
    exists s, o = Ret s /\
      forall g i b, var_grad t (length p1) = Some g -> nth_error (array g) i = Some b ->
        exists g' f d, var_grad s (length p1) = Some g' /\ nth_error (array g') i = Some f /\
          (i < length a -> program_derivative (fun x => p1 ++ CNew (list_set a i (nth i a 0%R + x)%R) sh :: p2) y d) /\
          (fits prec emax b -> is_finite f = true /\ (Rabs (B2R f - d) <= slack prec b)%R).
Proof.
  intros prec emax P E tau ftanh w fi p q p1 p2 a sh r t y root o Htau Fp Fz HD HR HN HM Hy Hroot HK Et HS Ho.
  destruct (c31_program_gradient p1 p2 a sh r y root HD HR HN HM Hy Hroot HK) as (r' & Er' & _ & HG).
  destruct (c81_any_order prec emax P E tau ftanh w fi (p ++ [CBackward y]) (q ++ [CBackward y]) ((p1 ++ CNew a sh :: p2) ++ [CBackward y]) t o) as (s & r2 & Es & Er2 & Ws & Wr); auto.
  { apply Forall2_app; [exact Fp|]. repeat constructor. }
  { apply Forall2_app; [exact Fz|]. repeat constructor. }
  rewrite run_app, HR in Er2. cbn [bind] in Er2. change (run [CBackward y] r) with (let* s := exec r (CBackward y) in Ret s) in Er2. rewrite Er' in Er2. cbn [bind] in Er2. injection Er2 as <-.
  exists s. split; [exact Es|]. intros g i b Hg Hb.
  destruct Ws as (We & _ & WG). destruct Wr as (Re & _ & RG). unfold grad_entry, var_grad in *. rewrite We, Re in *. destruct (nth_error (env t) (length p1)) as [l|] eqn:El; [|discriminate].
  specialize (WG l). specialize (RG l). rewrite Hg in WG, RG. destruct (grads (hp s) l) as [gs|] eqn:Egs; cbn in WG; [|tauto].
  destruct (grads (hp r') l) as [gr|] eqn:Egr; cbn in RG; [|tauto]. destruct WG as [_ WF], RG as [_ RF].
  destruct (F2_nth_some _ _ _ WF _ _ Hb) as (f & Hf & Wf). destruct (F2_nth_some _ _ _ RF _ _ Hb) as (d & Hd & Wd).
  exists gs, f, d. split; [reflexivity|]. split; [exact Hf|]. split.
  - intros Hi. specialize (HG i Hi). rewrite (nth_error_nth (array gr) i _ Hd) in HG. exact HG.
  - intros Hm. rewrite Wd. exact (Wf Hm).
Qed.

Example c81_gradient_ex : exists (r : state R) (t : state spread),
  Forall2 (rel_cmd (begins 24 128)) (x_leaf x_f) (x_leaf (x_sp (1 # 1000))) /\
  Forall2 (rel_cmd (fun x b => x = sval b)) ([] ++ CNew [1; 2]%R [1; 2] :: [CScalar 5%R; CAdd 0 1; CRelu 2; CSum 3]) (x_leaf (x_sp (1 # 1000))) /\
  forallb differentiable ([] ++ CNew [1; 2]%R [1; 2] :: [CScalar 5%R; CAdd 0 1; CRelu 2; CSum 3]) = true /\
  run ([] ++ CNew [1; 2]%R [1; 2] :: [CScalar 5%R; CAdd 0 1; CRelu 2; CSum 3]) init_state = Ret r /\
  nonempty (nodes (hp r)) /\ matrices_only (nodes (hp r)) /\ nth_error (env r) 4 = Some 4 /\ root_ok (nodes (hp r)) 4 /\ no_kinks (nodes (hp r)) 4 /\
  run (NT := SpreadNum 24 128 (Q2R 1)) (x_leaf (x_sp (1 # 1000)) ++ [CBackward 4]) init_state = Ret t /\ signs_known (sign_sure 24 128) (nodes (hp t)) /\
  (exists o, run_any (NT := FloatNum 24 128 x_flat) 3 true (x_leaf x_f ++ [CBackward 4]) init_state o) /\
  exists g, var_grad t 0 = Some g /\ 0 < length (array g) /\ Forall (fun b => slack 24 b <= Q2R (1 # 100000) /\ reach 24 b <= Q2R (2 # 1) /\ peak b <= Q2R (2 # 1))%R (array g).
Proof.
  assert (He : (0 <= Q2R (1 # 1000))%R) by (apply Q2R_pos_frac; lia).
  destruct (s_run_ok (sdecided 24 128) (s_small (1 # 100000) (2 # 1)) 0 1 (x_leaf (x_sp (1 # 1000)) ++ [CBackward 4]) (x_leaf (x_si (1 # 1000)) ++ [CBackward 4])) as (t' & t & Et & Ht & HS & g & g' & Eg & [_ HF] & HL & HO).
  - rewrite RMicromega.Q2R_1. lra.
  - apply Forall2_app; [|repeat constructor]. apply x_related. intros z _. apply x_covers. exact He.
  - apply sdecided_signed.
  - vm_compute. reflexivity.
  - destruct c79_gradient_ex as (r & t2 & _ & _ & D & Er & H1 & H2 & H3 & H4 & H5 & _). exists r, t'. split; [apply x_related; intros z Hz; apply x_begins; [exact Hz|exact He]|].
    split; [apply (x_related (fun x b => x = sval b) IZR); reflexivity|]. split; [exact D|]. split; [exact Er|]. split; [exact H1|]. split; [exact H2|]. split; [exact H3|]. split; [exact H4|]. split; [exact H5|].
    split; [exact Et|]. split; [exact (signs_covered 24 128 _ _ (proj1 (proj2 Ht)) HS)|]. split; [apply run_possible; lia|]. exists g'. split; [exact Eg|]. split; [exact HL|].
    clear - HF HO. induction HF as [|b a l l' Hb _ IH]; constructor; inversion HO; subst; [eapply s_small_ok; eassumption|auto].
Qed.

(** C81: the conditions can be checked by computing with rational numbers. *)
Lemma c81_checker :
  forall (prec emax : Z) (P : Prec_gt_0 prec) (E : Prec_lt_emax prec emax) (tau : Q) (q : list (cmd spread)) (c : list (cmd sival)) (t : state sival),
    (0 <= Q2R tau)%R -> Forall2 (rel_cmd covers) q c ->
    run (NT := SivalNum prec emax tau) c init_state = Ret t -> signs_known (fun a => sdecided prec emax a = true) (nodes (hp t)) ->
    exists t', run (NT := SpreadNum prec emax (Q2R tau)) q init_state = Ret t' /\ signs_known (sign_sure prec emax) (nodes (hp t')) /\ rel_state covers t' t.
Proof.
  intros prec emax P E tau q c t Htau F Et HS. destruct (intervals_cover prec emax P E tau q c t Htau F Et) as (t' & Et' & Ht').
  { eapply signs_known_mono; [|exact HS]. apply sdecided_signed. }
  exists t'. split; [exact Et'|]. split; [|exact Ht']. destruct Ht' as (_ & Fn & _). exact (signs_covered prec emax _ _ Fn HS).
Qed.
Example c81_checker_ex :
  Forall2 (rel_cmd covers) (x_rel (x_sp (1 # 1000))) (x_rel (x_si (1 # 1000))) /\
  s_passes (sdecided 24 128) (s_small (1 # 20) (100 # 1)) 0 (run (NT := SivalNum 24 128 1) (x_rel (x_si (1 # 1000))) init_state) = true /\
  s_passes (sdecided 24 128) (fun _ => true) 0 (run (NT := SivalNum 24 128 1) (x_lost (x_si 0)) init_state) = false.
Proof. split; [apply x_related; intros z _; apply x_covers, Q2R_pos_frac; lia|]. vm_compute. auto. Qed.

(** C81, the same for the training program *)
Lemma c81_checker_main :
  forall (prec emax : Z) (P : Prec_gt_0 prec) (E : Prec_lt_emax prec emax) (tau : Q) (inp hid out rounds : nat)
         (one step : spread) (w1 b1 w2 b2 w3 b3 input : list spread) (one' step' : sival) (w1' b1' w2' b2' w3' b3' input' : list sival) (k : heap sival) (n : mlp sival),
    (0 <= Q2R tau)%R ->
    Forall2 covers (one :: step :: w1) (one' :: step' :: w1') -> Forall2 covers b1 b1' -> Forall2 covers w2 w2' -> Forall2 covers b2 b2' ->
    Forall2 covers w3 w3' -> Forall2 covers b3 b3' -> Forall2 covers input input' ->
    main_program (NT := SivalNum prec emax tau) inp hid out rounds one' step' w1' b1' w2' b2' w3' b3' input' = Ret (k, n) ->
    signs_known (fun a => sdecided prec emax a = true) (nodes k) ->
    exists h m, main_program (NT := SpreadNum prec emax (Q2R tau)) inp hid out rounds one step w1 b1 w2 b2 w3 b3 input = Ret (h, m) /\
      signs_known (sign_sure prec emax) (nodes h) /\ rel_heap covers h k /\ map weights m = map weights n /\ map bias m = map bias n.
Proof.
  intros prec emax P E tau inp hid out rounds one step w1 b1 w2 b2 w3 b3 input one' step' w1' b1' w2' b2' w3' b3' input' k n Htau F1 G1 F2 G2 F3 G3 Fi Ek HS.
  inversion F1 as [|? ? ? ? S1 F1' X1 X2]; subst. inversion F1' as [|? ? ? ? S2 Fw1 X1 X2]; subst.
  destruct (b_main covers (fun a => ssigned a = true) (NA := SpreadNum prec emax (Q2R tau)) (NB := SivalNum prec emax tau)
              (cov_ring prec emax tau) (cov_neg prec emax tau) (cov_respects_tanh prec emax tau Htau)
              (cov_respects_abs prec emax tau) (cov_respects_relu prec emax tau)
              inp hid out rounds one one' step step' w1 w1' b1 b1' w2 w2' b2 b2' w3 w3' b3 b3' input input' (k, n)) as ([h m] & Em & [Hh Hm]); auto.
  { eapply signs_known_mono; [|exact HS]. apply sdecided_signed. }
  cbn [fst snd] in *. exists h, m. split; [exact Em|]. split; [exact (signs_covered prec emax _ _ (proj1 Hh) HS)|]. split; [exact Hh|].
  clear - Hm. induction Hm as [|x y l l' (Ew & Eb & _) _ [IH1 IH2]]; [split; reflexivity|]. cbn [map]. split; congruence.
Qed.
Example c81_checker_main_ex :
  Forall2 covers (x_sp 0 10 :: x_sp 0 1 :: [x_sp (1 # 1000) 1]) (x_si 0 10 :: x_si 0 1 :: [x_si (1 # 1000) 1]) /\
  match main_program (NT := SivalNum 24 128 1) 1 1 1 1 (x_si 0 10) (x_si 0 1) [x_si (1 # 1000) 1] [x_si 0 1] [x_si 0 1] [x_si 0 1] [x_si 0 1] [x_si 0 0] [x_si 0 3] with
  | Ret (k, n) => signs_check (sdecided 24 128) (nodes k) && (2 <? length n) | _ => false end = true.
Proof.
  split; [|vm_compute; reflexivity]. repeat apply Forall2_cons; try apply Forall2_nil; apply x_covers; apply Q2R_pos_frac; lia.
Qed.

(** C81, for the training program of main.rs: whatever the initial weights, the thread schedules and the number of workers, if the
    signs of all inputs of [relu] and [abs] are known, training succeeds and the weights after it are within the
    bounds of those that exact training would give. *)
Lemma c81_main :
  forall (prec emax : Z) (P : Prec_gt_0 prec) (E : Prec_lt_emax prec emax) (tau : R) (ftanh : float prec emax -> float prec emax) (workers : nat) (fifo : bool)
         (inp hid out rounds : nat) (one step : float prec emax) (w1 b1 w2 b2 w3 b3 input : list (float prec emax))
         (one' step' : spread) (w1' b1' w2' b2' w3' b3' input' : list spread) (k : heap spread) (n : mlp spread) (o : outcome (heap (float prec emax) * mlp (float prec emax))),
    (forall f, is_finite f = true -> is_finite (ftanh f) = true /\ (Rabs (B2R (ftanh f) - tanh (B2R f)) <= tau)%R) ->
    Forall2 (begins prec emax) (one :: step :: w1) (one' :: step' :: w1') -> Forall2 (begins prec emax) b1 b1' ->
    Forall2 (begins prec emax) w2 w2' -> Forall2 (begins prec emax) b2 b2' ->
    Forall2 (begins prec emax) w3 w3' -> Forall2 (begins prec emax) b3 b3' -> Forall2 (begins prec emax) input input' ->
    main_program (NT := SpreadNum prec emax tau) inp hid out rounds one' step' w1' b1' w2' b2' w3' b3' input' = Ret (k, n) ->
    signs_known (sign_sure prec emax) (nodes k) ->
    main_program_any (NT := FloatNum prec emax ftanh) workers fifo inp hid out rounds one step w1 b1 w2 b2 w3 b3 input o ->
    exists h m h' m', o = Ret (h, m) /\
      main_program (NT := RNum) inp hid out rounds (sval one') (sval step') (map sval w1') (map sval b1') (map sval w2') (map sval b2') (map sval w3') (map sval b3') (map sval input') = Ret (h', m') /\
      map weights m = map weights n /\ map bias m = map bias n /\ map weights m' = map weights n /\ map bias m' = map bias n /\
      rel_heap (near prec emax) h k /\ rel_heap (fun x b => x = sval b) h' k.
Proof.
  intros prec emax P E tau ftanh w fi inp hid out rounds one step w1 b1 w2 b2 w3 b3 input one' step' w1' b1' w2' b2' w3' b3' input' k n o Htau F1 G1 F2 G2 F3 G3 Fi Ek HS Ho.
  assert (HF : forall l l', Forall2 (begins prec emax) l l' -> Forall2 (tracks prec emax) l l') by (intros l l'; apply F2_mono, begins_tracks).
  inversion F1 as [|? ? ? ? S1 F1' X1 X2]; subst. inversion F1' as [|? ? ? ? S2 Fw1 X1 X2]; subst.
  destruct (any_main (tracks prec emax) (sign_sure prec emax) (NA := FloatNum prec emax ftanh) (NB := SpreadNum prec emax tau)
              (track_ring prec emax tau ftanh) (track_neg prec emax tau ftanh) (track_respects_tanh prec emax tau ftanh Htau)
              (track_respects_abs prec emax tau ftanh) (track_respects_relu prec emax tau ftanh) (spread_comm prec emax tau) (spread_assoc prec emax tau) w fi
              inp hid out rounds one one' step step' w1 w1' b1 b1' w2 w2' b2 b2' w3 w3' b3 b3' input input' (k, n) o) as (h & m & -> & Hh & Wm1 & Wm2); auto using begins_tracks.
  assert (FV : forall l : list spread, Forall2 sum_value (map sval l) l) by (induction l; constructor; [reflexivity|assumption]).
  pose proof (p_main (NA := RNum) (NB := SpreadNum prec emax tau) sum_value (sum_ring prec emax tau) inp hid out rounds (sval one') one' (sval step') step'
                (map sval w1') w1' (map sval b1') b1' (map sval w2') w2' (map sval b2') b2' (map sval w3') w3' (map sval b3') b3' (map sval input') input'
                (sum_op prec emax tau KNeg) (sum_op prec emax tau KAbs) (sum_op prec emax tau KRelu) (sum_op prec emax tau KTanh) eq_refl eq_refl
                (FV _) (FV _) (FV _) (FV _) (FV _) (FV _) (FV _)) as HZ.
  rewrite Ek in HZ. destruct (main_program (NT := RNum) inp hid out rounds (sval one') _ _ _ _ _ _ _ _) as [[h' m']|e|]; cbn in HZ; try tauto.
  destruct HZ as [[Hz _] Hzm]. cbn [fst snd] in *.
  exists h, m, h', m'. split; [reflexivity|]. split; [reflexivity|].
  assert (Wz : map weights m' = map weights n /\ map bias m' = map bias n).
  { clear - Hzm. induction Hzm as [|x y l l' (Ew & Eb & _) _ [IH1 IH2]]; [split; reflexivity|]. cbn [map]. split; congruence. }
  destruct Wz. repeat (split; [assumption|]). split; [|exact Hz].
  eapply rel_heap_mono; [|apply Hh]. intros a b (_ & W). exact W.
Qed.
Example c81_main_ex : exists (k : heap spread) (n : mlp spread),
  Forall2 (begins 24 128) (x_f 10 :: x_f 1 :: [x_f 1]) (x_sp 0 10 :: x_sp 0 1 :: [x_sp (1 # 1000) 1]) /\
  main_program (NT := SpreadNum 24 128 (Q2R 1)) 1 1 1 1 (x_sp 0 10) (x_sp 0 1) [x_sp (1 # 1000) 1] [x_sp 0 1] [x_sp 0 1] [x_sp 0 1] [x_sp 0 1] [x_sp 0 0] [x_sp 0 3] = Ret (k, n) /\
  signs_known (sign_sure 24 128) (nodes k) /\
  exists o, main_program_any (NT := FloatNum 24 128 x_flat) 4 true 1 1 1 1 (x_f 10) (x_f 1) [x_f 1] [x_f 1] [x_f 1] [x_f 1] [x_f 1] [x_f 0] [x_f 3] o.
Proof.
  destruct (main_program (NT := SivalNum 24 128 1) 1 1 1 1 (x_si 0 10) (x_si 0 1) [x_si (1 # 1000) 1] [x_si 0 1] [x_si 0 1] [x_si 0 1] [x_si 0 1] [x_si 0 0] [x_si 0 3]) as [[k n]| |] eqn:Ek.
  2, 3: pose proof (proj2 c81_checker_main_ex) as C; rewrite Ek in C; discriminate C.
  pose proof (proj2 c81_checker_main_ex) as C. rewrite Ek in C. apply andb_prop in C as [C _]. apply signs_check_ok in C.
  assert (HE : forall z, covers (x_sp 0 z) (x_si 0 z)) by (intros z; apply x_covers, Q2R_pos_frac; lia).
  assert (H1 : forall z, Forall2 covers [x_sp 0 z] [x_si 0 z]) by (intros z; apply Forall2_cons; [apply HE|apply Forall2_nil]).
  destruct (c81_checker_main 24 128 _ _ 1 1 1 1 1 (x_sp 0 10) (x_sp 0 1) [x_sp (1 # 1000) 1] [x_sp 0 1] [x_sp 0 1] [x_sp 0 1] [x_sp 0 1] [x_sp 0 0] [x_sp 0 3]
              (x_si 0 10) (x_si 0 1) [x_si (1 # 1000) 1] [x_si 0 1] [x_si 0 1] [x_si 0 1] [x_si 0 1] [x_si 0 0] [x_si 0 3] k n) as (h & m & Em & HS & _); auto.
  - apply Q2R_pos_frac. lia.
  - exact (proj1 c81_checker_main_ex).
  - exists h, m. split; [repeat apply Forall2_cons; try apply Forall2_nil; apply x_begins; try (apply Q2R_pos_frac; lia); lia|].
    split; [exact Em|]. split; [exact HS|]. apply main_possible. lia.
Qed.

(** ** Whole numbers *)
Lemma eq_list {A} (l l' : list A) : Forall2 eq l l' -> l = l'.
Proof. induction 1; congruence. Qed.
Lemma eq_raw {A} (t u : raw A) : rel_raw eq t u -> t = u.
Proof. destruct t, u. intros [E F]. cbn in *. apply eq_list in F. congruence. Qed.
Lemma eq_raws {A} (l l' : list (raw A)) : Forall2 (rel_raw eq) l l' -> l = l'.
Proof. intros H. apply eq_list. eapply F2_mono; [|exact H]. intros a b. apply eq_raw. Qed.
Lemma eq_like {A} (l m : tlike A) : rel_like eq l m -> l = m.
Proof. destruct l as [t|[t s o]], m as [u|[u s' o']]; cbn; try tauto; [intros H; apply eq_raw in H; congruence|]. intros (H & Hs & Ho). apply eq_raw in H. cbn in *. congruence. Qed.
Lemma raw_eq {A} (t : raw A) : rel_raw eq t t.
Proof. split; [reflexivity|]. induction (array t); constructor; auto. Qed.
Lemma alike_refl X (P : X -> X -> Prop) o : (forall x, P x x) -> alike P o o.
Proof. intros H. destruct o; cbn; auto. Qed.
(** [tanh] can be replaced in programs that do not use it, under any schedule. *)
Lemma any_without_tanh {T : Type} (N : Num T) f bm bb (p : list (cmd T)) r : (forall c, In c p -> ~ In KTanh (needs c)) -> run_nd (NT := N) bm bb p init_state r ->
  exists r', run_nd (NT := with_tanh N f) bm bb p init_state r' /\ alike (rel_state eq) r r'.
Proof.
  intros HT Hr. apply (n_init (NA := N) (NB := with_tanh N f) eq) with (bm := bm) (bb := bb) (p := p); auto.
  - constructor; try reflexivity; intros; subst; reflexivity.
  - intros l m l' m' H H' o Ho. apply eq_like in H, H'. subst. exists o. split; [exact Ho|]. apply alike_refl. apply raw_eq.
  - intros ts us gs hs H H' o Ho. apply eq_raws in H, H'. subst. exists o. split; [exact Ho|]. apply alike_refl. intros l. induction l; constructor; auto using raw_eq.
  - clear. induction p; constructor; auto using rel_cmd_refl.
  - intros c k Hc Hk. destruct k; try exact I; try (intros x y <-; try split; reflexivity). destruct (HT c Hc Hk).
Qed.

(** C81: whole numbers.  If the bounds of C69 stay within 2^prec, the float program computes exactly what the program over the
    integers computes under every schedule: then there is only one outcome. *)
Lemma c81_whole_numbers :
  forall (prec emax : Z) (P : Prec_gt_0 prec) (E : Prec_lt_emax prec emax) (tanh : float prec emax -> float prec emax) (workers : nat) (fifo : bool)
         (bounds : list (cmd (Z * Z))) (q : list (cmd Z)) (p : list (cmd (float prec emax))) (s : state (Z * Z)) (o : outcome (state (float prec emax))),
    let exactly := fun z f => is_finite f = true /\ B2R f = IZR z in
    Forall2 (rel_cmd (fun xb z => fst xb = z)) bounds q ->
    Forall2 (rel_cmd (fun xb f => snd xb = Z.abs (fst xb) /\ exactly (fst xb) f)) bounds p ->
    (forall c, In c bounds -> ~ In KTanh (needs c)) ->
    run (NT := BoundNum) bounds init_state = Ret s -> everywhere (fun xb => snd xb <= 2 ^ prec)%Z s ->
    run_any (NT := FloatNum prec emax tanh) workers fifo p init_state o ->
    exists t u, run q init_state = Ret t /\ o = Ret u /\ rel_state exactly t u.
Proof.
  intros prec emax P E tanh w fi bounds q p s o exactly FQ FP HN ER HS Ho.
  pose proof (parametric (NA := BoundNum) (NB := ZNum) exact_part ClaimsParam.exact_ring bounds q FQ) as H1. rewrite ER in H1.
  assert (H1' := H1 ltac:(intros c k Hc Hk; apply exact_any; intros ->; exact (HN c Hc Hk))). clear H1.
  destruct (run q init_state) as [t| |]; cbn in H1'; try tauto.
  pose proof (without_tanh BoundNum (fun _ => (0, 0)%Z) bounds HN) as H2. rewrite ER in H2. destruct (run (NT := with_tanh BoundNum (fun _ => (0, 0)%Z)) bounds init_state) as [s'| |] eqn:ER'; cbn in H2; try tauto.
  pose proof (everywhere_eq _ _ _ H2 HS) as HS'.
  assert (HNp : forall c, In c p -> ~ In KTanh (needs c)).
  { clear - FP HN. induction FP as [|c d l l' Hc F IH]; intros x Hx K; [destruct Hx|]. destruct Hx as [Hd|Hx].
    - apply (HN c (or_introl eq_refl)). rewrite (needs_rel _ _ _ Hc), Hd. exact K.
    - apply (IH (fun y Hy => HN y (or_intror Hy)) x Hx K). }
  destruct (any_without_tanh (FloatNum prec emax tanh) (fun _ => B754_zero false) _ _ p o HNp Ho) as (o' & Ho' & HA).
  pose proof (ok_ring prec emax tanh) as HO.
  assert (HF : respects_ring (NA := with_tanh (FloatNum prec emax tanh) (fun _ => B754_zero false)) (NB := with_tanh BoundNum (fun _ => (0, 0)%Z)) (flip (good_until (whole prec emax) (2 ^ prec)%Z))).
  { constructor; unfold flip; [apply HO|apply HO|intros; apply (rr_add _ HO); assumption|intros; apply (rr_mul _ HO); assumption]. }
  assert (HF' : respects_ring (NA := FloatNum prec emax tanh) (NB := with_tanh BoundNum (fun _ => (0, 0)%Z)) (flip (good_until (whole prec emax) (2 ^ prec)%Z))).
  { constructor; [apply HF|apply HF|exact (rr_add _ HF)|exact (rr_mul _ HF)]. }
  destruct (s_branching (flip (good_until (whole prec emax) (2 ^ prec)%Z)) (fun xb => snd xb <= 2 ^ prec)%Z (NA := with_tanh (FloatNum prec emax tanh) (fun _ => B754_zero false)) (NB := with_tanh BoundNum (fun _ => (0, 0)%Z)))
    with (bm := bmm_raw_any (NT := FloatNum prec emax tanh)) (bb := bmm_jvp_any (NT := FloatNum prec emax tanh) w fi) (p := p) (q := bounds) (t := s') (r := o') as (u' & Eu' & Hu').
  - exact HF.
  - intros f xb H. exact (ok_neg prec emax tanh xb f H).
  - intros f xb H. exact (ok_tanh prec emax tanh xb f H).
  - exact (ok_abs prec emax tanh).
  - exact (ok_relu prec emax tanh).
  - exact (any_raw (NA := FloatNum prec emax tanh) _ HF').
  - intros ts us gs hs Ft Fg. apply (any_jvp (NA := FloatNum prec emax tanh) _ HF'); auto.
    + intros [x b] [y c]. cbn. f_equal; lia.
    + intros [x b] [y c] [z d]. cbn. f_equal; lia.
  - clear - FP. induction FP as [|c d l l' Hc F IH]; constructor; [|exact IH]. destruct Hc; constructor; auto.
    + match goal with H : Forall2 (fun _ _ => _) _ _ |- _ => apply F2_flip in H; revert H end. apply F2_mono. intros f xb [HB HX]. split; [lia|auto].
    + match goal with H : _ /\ _ |- _ => destruct H as [HB HX] end. split; [lia|auto].
    + match goal with H : _ /\ _ |- _ => destruct H as [HB HX] end. split; [lia|auto].
    + match goal with N : rel_nest _ _ _ |- _ => rename N into HN0 end. clear - HN0.
      refine (rel_nest_mut _ _ _ (fun n m _ => rel_nest _ m n) (fun l l' _ => rel_nests _ l' l) _ _ _ _ _ _ HN0).
      * intros x y [HB HX]. apply rn_leaf. split; [lia|intros _; exact HX].
      * intros l l' _ IH. apply rn_vec. exact IH.
      * apply rns_nil.
      * intros n0 m0 l l' _ IH1 _ IH2. apply rns_cons; assumption.
  - exact ER'.
  - apply (everywhere_signs (NT := with_tanh BoundNum (fun _ => (0, 0)%Z)) _ bounds); assumption.
  - exact Ho'.
  - subst o'. destruct o as [u|e|]; cbn in HA; try tauto.
    exists t, u. split; [reflexivity|]. split; [reflexivity|].
    assert (A : rel_state exact_part s' t) by (apply (rel_state_any eq exact_part exact_part s s' t H2 H1'); intros a b c -> H; exact H).
    assert (B : rel_state exactly t u').
    { apply (rel_state_compose _ _ _ exact_part (good_until (whole prec emax) (2 ^ prec)%Z) (fun xb => snd xb <= 2 ^ prec)%Z exactly s' t u' A (rel_state_flip _ _ _ Hu') HS').
      intros xb z f HB <- [_ HX]. exact (HX HB). }
    apply (rel_state_any (flip exactly) (flip eq) exactly u' t u (rel_state_flip _ _ _ B) (rel_state_flip _ _ _ HA)). intros a b c H ->. exact H.
Qed.
Example c81_whole_numbers_ex :
  Forall2 (rel_cmd (fun xb z => fst xb = z)) (x_absrelu (fun z => (z, Z.abs z))) (x_absrelu (fun z => z)) /\
  (exists s, run (NT := BoundNum) (x_absrelu (fun z => (z, Z.abs z))) init_state = Ret s) /\
  (exists o, run_any (NT := FloatNum 24 128 (fun x => x)) 3 true (x_absrelu x_f) init_state o) /\
  x_show (run (NT := BoundNum) (x_absrelu (fun z => (z, Z.abs z))) init_state) =
    Ret ([[(1, 1); (-2, 2); (3, 3); (4, 4)]; [(5, 5); (6, 6)]; [(-7, 17); (39, 39)]; [(0, 0); (39, 39)]; [(40, 40)]; [(-40, 40)]; [(-40, 40); (-1, 79)]; [(40, 40); (1, 79)]; [(41, 119)]]%Z,
         [Some [(0, 5); (0, 6); (-5, 5); (-6, 6)]; Some [(-3, 4); (-4, 6)]; Some [(0, 1); (-1, 1)]; Some [(-1, 1); (-1, 1)]; Some [(2, 2)]; Some [(-2, 2)]; Some [(-1, 1); (-1, 1)]; Some [(1, 1); (1, 1)]; Some [(1, 1); (1, 1)]]%Z).
Proof.
  split; [exact (proj1 c69_with_signs_ex)|]. split; [eexists; vm_compute; reflexivity|]. split; [apply run_possible; lia|]. exact (proj1 (proj2 c69_with_signs_ex)).
Qed.
