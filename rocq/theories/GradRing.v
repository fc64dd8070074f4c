(** * GradRing: backward computes directional derivatives (any commutative ring) *)
From Coq Require Import Ring Ring_theory.
From Verif Require Import Base ModelIndex ModelTensor ModelOps ModelJvp ModelGraph Spec SpecDual SpecGraph
  Lists IndexFacts TensorFacts OpsFacts Sums JvpFacts Dual Adjoint ClaimsOps ClaimsMat.

Lemma opk_eq_sum (k : opk) : {k = KSum} + {k <> KSum}.
Proof. destruct k; try (right; congruence). left; reflexivity. Qed.

Section GradRing.
Context {T : Type} {NT : Num T} (RT : is_ring T).
Let RT' : ring_theory n_zero n_one n_add n_mul n_sub n_neg (@eq T) := RT.
Add Ring TRing2 : RT'.

Variable ns : list (node T).

Local Notation vof := (vof ns).
Local Notation fn_of := (fn_of ns).
Local Notation plain := (plain ns).
Local Notation top := (top ns).
Local Notation row_or_leaf := (row_or_leaf ns).
Local Notation root_ok := (root_ok ns).

(** Every node is a non-empty tensor and the value of its operation on earlier nodes *)
Definition graph_ok : Prop := forall n nd, nth_error ns n = Some nd ->
  wf (n_val nd) /\ positive (shape (n_val nd)) /\
  forall k ins, n_fn nd = Some (k, ins) -> Forall (fun i => i < n) ins /\ opspec k (map vof ins) (n_val nd).

(** Tangents that are consistent with the graph.  Nodes in [cut] are independent variables with
    tangents of their own; if such a node has a history, nothing below it may move. *)
Definition is_zero (d : raw T) : Prop := forall p, nth p (array d) n_zero = n_zero.
Definition tangents_ok (cut : nat -> bool) (dt : nat -> raw T) : Prop := forall n, n < length ns ->
  tangent (vof n) (dt n) /\
  forall k ins, fn_of n = Some (k, ins) ->
    let d := tan k (map vof ins) (map dt ins) in if cut n then is_zero d else dt n = d.

(** Every leaf is an independent variable, no result of [sum] is. *)
Definition cut_ok (cut : nat -> bool) : Prop := forall n, n < length ns ->
  (fn_of n = None -> cut n = true) /\ (forall ins, fn_of n = Some (KSum, ins) -> cut n = false).

(** Gradient cells: the shape of the tensor, or for [sum] results anything well formed *)
Definition gr_ok (gr : nat -> option (raw T)) : Prop := forall n g, gr n = Some g -> n < length ns ->
  wf g /\ positive (shape g) /\
  ((forall ins, fn_of n <> Some (KSum, ins)) -> shape g = shape (vof n)).

Section WithTangents.
Variables (cut : nat -> bool) (dt : nat -> raw T).
Hypotheses (HG : graph_ok) (HC : cut_ok cut) (HT : tangents_ok cut dt).

Definition gdot (gr : nat -> option (raw T)) (n : nat) : T :=
  match gr n with
  | None => n_zero
  | Some g => sumn (length (array (dt n))) (fun p => n_mul (nth p (array g) n_zero) (nth p (array (dt n)) n_zero))
  end.

(** The stored gradients of the independent variables applied to their tangents *)
Definition Lf (gr : nat -> option (raw T)) : T :=
  bsum (filter cut (seq 0 (length ns))) (gdot gr).

Lemma vof_some n nd : nth_error ns n = Some nd -> vof n = n_val nd.
Proof. unfold vof. intros ->. reflexivity. Qed.
Lemma fn_some n nd : nth_error ns n = Some nd -> fn_of n = n_fn nd.
Proof. unfold fn_of. intros ->. reflexivity. Qed.
Lemma node_lt n : n < length ns -> exists nd, nth_error ns n = Some nd.
Proof. intros H. destruct (nth_error ns n) eqn:E; eauto. apply nth_error_None in E. lia. Qed.

Lemma vof_ok n : n < length ns -> wf (vof n) /\ positive (shape (vof n)).
Proof. intros H. destruct (node_lt n H) as [nd E]. rewrite (vof_some _ _ E). destruct (HG _ _ E) as (A & B & _). auto. Qed.

Lemma dt_ok n : n < length ns -> tangent (vof n) (dt n).
Proof. intros H. apply (HT n H). Qed.

Lemma op_ok n k ins : fn_of n = Some (k, ins) ->
  n < length ns /\ Forall (fun i => i < n) ins /\ opspec k (map vof ins) (vof n).
Proof.
  intros E. unfold fn_of in E. destruct (nth_error ns n) as [nd|] eqn:En; [|discriminate].
  assert (n < length ns) by (apply nth_error_Some; congruence).
  destruct (HG _ _ En) as (_ & _ & Q). destruct (Q _ _ E).
  rewrite (vof_some _ _ En). auto.
Qed.

Lemma update_ok gr i g :
  i < length ns -> gr_ok gr -> wf g -> shape g = shape (vof i) ->
  exists gr', update_grad gr i g = Ret gr' /\ gr_ok gr' /\ (forall j, j <> i -> gr' j = gr j) /\
    (cut i = true ->
     gdot gr' i = n_add (gdot gr i) (sumn (length (array (dt i))) (fun p => n_mul (nth p (array g) n_zero) (nth p (array (dt i)) n_zero)))).
Proof.
  intros Hi Hgr Hg Hs. unfold update_grad. destruct (vof_ok i Hi) as [Hv Hp].
  assert (Hupd : forall s, wf s /\ positive (shape s) /\ ((forall ins, fn_of i <> Some (KSum, ins)) -> shape s = shape (vof i)) -> gr_ok (upd gr i (Some s))).
  { intros s Hs' n g' E Hn. unfold upd in E. destruct (Nat.eqb_spec n i) as [->|]; [|apply Hgr; auto]. injection E as <-. exact Hs'. }
  destruct (gr i) as [o|] eqn:Eo.
  - destruct (Hgr i o Eo Hi) as (Ho & Po & So).
    destruct (cut i) eqn:Hl.
    + assert (Ho' : shape o = shape (vof i)).
      { apply So. intros ins E. destruct (HC i Hi) as [_ C]. rewrite (C ins E) in Hl. discriminate. }
      rewrite add_same_shape by (auto; congruence). cbn [bind]. eexists. split; [reflexivity|]. split; [|split].
      * apply Hupd. split; [apply tabulate_wf|]. cbn [shape tabulate]. rewrite Ho'. auto.
      * intros j Hj. unfold upd. apply Nat.eqb_neq in Hj. rewrite Hj. reflexivity.
      * intros _. unfold gdot, upd. rewrite Nat.eqb_refl, Eo. rewrite <- (sumn_add RT). apply sumn_ext. intros p Hpp.
        destruct (dt_ok i Hi) as [D1 D2]. unfold wf in D1. rewrite D1, D2 in Hpp.
        rewrite nth_tabulate by (rewrite Ho'; auto). rewrite !tval_unravel by (auto; rewrite ?Ho'; auto). ring.
    + assert (exists k ins, fn_of i = Some (k, ins)) as (k & ins & Ef).
      { destruct (HC i Hi) as [C _]. destruct (fn_of i) as [[k ins]|]; [eauto|]. rewrite C in Hl; [discriminate|auto]. }
      assert (Hb : exists s, bcast (shape o) (shape g) s /\ positive s /\ ((forall ins, fn_of i <> Some (KSum, ins)) -> s = shape (vof i))).
      { destruct (op_ok i k ins Ef) as (_ & _ & HO).
        destruct (opk_eq_sum k) as [->|Hk].
        - assert (E0 : shape (vof i) = []) by (inversion HO; reflexivity).
          rewrite E0 in Hs. exists (shape o). rewrite Hs. split; [constructor|]. split; [exact Po|].
          intros X. exfalso. exact (X ins Ef).
        - exists (shape (vof i)). rewrite Hs, So by (intros ins' E; rewrite Ef in E; congruence). split; [apply bcast_self|]. auto. }
      destruct Hb as (s & B1 & B2 & B3).
      unfold add_raw. rewrite (binop_raw_ok o g s) by (auto; congruence). cbn [bind]. eexists. split; [reflexivity|]. split; [|split].
      * apply Hupd. split; [apply tabulate_wf|]. cbn [shape tabulate]. auto.
      * intros j Hj. unfold upd. apply Nat.eqb_neq in Hj. rewrite Hj. reflexivity.
      * discriminate.
  - eexists. split; [reflexivity|]. split; [|split].
    + apply Hupd. rewrite Hs. auto.
    + intros j Hj. unfold upd. apply Nat.eqb_neq in Hj. rewrite Hj. reflexivity.
    + intros _. unfold gdot, upd. rewrite Nat.eqb_refl, Eo. ring.
Qed.

Lemma Lf_update_leaf gr gr' i x :
  i < length ns -> cut i = true -> (forall j, j <> i -> gr' j = gr j) -> gdot gr' i = n_add (gdot gr i) x ->
  Lf gr' = n_add (Lf gr) x.
Proof.
  intros Hi Hl Ho Hx. unfold Lf.
  assert (E : forall l, NoDup l ->
    bsum (filter cut l) (gdot gr') = n_add (bsum (filter cut l) (gdot gr)) (if in_dec Nat.eq_dec i l then x else n_zero)).
  { induction l as [|j l IH]; intros Hnd.
    - cbn. unfold bsum, lsum. cbn. ring.
    - inversion Hnd as [|? ? N1 N2]; subst. specialize (IH N2). cbn [filter].
      destruct (Nat.eq_dec j i) as [->|Hne].
      + rewrite Hl, !(bsum_cons RT), IH, Hx.
        destruct (in_dec Nat.eq_dec i l); [contradiction|]. destruct (in_dec Nat.eq_dec i (i :: l)) as [_|C]; [ring|exfalso; apply C; left; auto].
      + assert (G : gdot gr' j = gdot gr j) by (unfold gdot; rewrite Ho; auto).
        replace (if in_dec Nat.eq_dec i (j :: l) then x else n_zero) with (if in_dec Nat.eq_dec i l then x else n_zero).
        * destruct (cut j); [rewrite !(bsum_cons RT), G|]; rewrite IH; ring.
        * destruct (in_dec Nat.eq_dec i l) as [C|C], (in_dec Nat.eq_dec i (j :: l)) as [D|D]; auto; exfalso.
          -- apply D; right; auto.
          -- destruct D; [congruence|auto]. }
  rewrite E by apply seq_NoDup. destruct (in_dec Nat.eq_dec i (seq 0 (length ns))) as [|C]; auto.
  exfalso; apply C, in_seq; lia.
Qed.

Lemma Lf_update_op gr gr' i : cut i = false -> (forall j, j <> i -> gr' j = gr j) -> Lf gr' = Lf gr.
Proof.
  intros Hl Ho. unfold Lf. apply bsum_ext. intros j Hj. apply filter_In in Hj as [_ Hj]. unfold gdot. rewrite Ho; auto. congruence.
Qed.

(** What the recursion is given at node [n] *)
Definition reached (G : raw T) (n : nat) : Prop := plain n \/ (top n /\ size (shape (vof n)) = 1 /\ gval G 0 0 = n_one).

Lemma row_nth (g d : raw T) N : shape g = [1; N] -> length (array d) = N ->
  row_dot g 0 d = sumn (length (array d)) (fun p => n_mul (nth p (array g) n_zero) (nth p (array d) n_zero)).
Proof. intros Hs Hd. unfold row_dot, tval. rewrite Hs. apply sumn_ext. intros p Hp. rewrite rm_pair. reflexivity. Qed.

Lemma rhs_row (g d : raw T) N : shape g = [1; N] -> rhs g 0 d = row_dot g 0 d.
Proof. intros Hs. unfold rhs, row_dot, gval. rewrite Hs. reflexivity. Qed.

Lemma rhs_zero (g d : raw T) : is_zero d -> rhs g 0 d = n_zero.
Proof. intros H. unfold rhs. rewrite sumn_bsum. apply (bsum_zero' RT). intros p _. rewrite H. ring. Qed.

Lemma dt_length i : i < length ns -> length (array (dt i)) = size (shape (vof i)).
Proof. intros Hi. destruct (dt_ok i Hi) as [D1 D2]. unfold wf in D1. congruence. Qed.

Definition fdot (g d : raw T) : T :=
  sumn (length (array d)) (fun p => n_mul (nth p (array g) n_zero) (nth p (array d) n_zero)).
Definition ftotal (gs ds : list (raw T)) : T := lsum (map (fun '(g, d) => fdot g d) (combine gs ds)).

(** What the loop over the inputs needs of the rule's results *)
Definition grads_for (gs : list (raw T)) (ins : list nat) : Prop :=
  Forall2 (fun g i => length (array g) = size (shape (vof i)) /\
                      (fn_of i <> None -> wf g /\ shape g = [1; size (shape (vof i))])) gs ins.

Lemma matrices_for gs : forall ins, matrices gs (map vof ins) 1 -> Forall (fun i => i < length ns) ins ->
  grads_for gs ins /\ total gs 0 (map dt ins) = ftotal gs (map dt ins).
Proof.
  induction gs as [|g gs IH]; intros ins HM Hlt.
  - destruct ins; inversion HM; subst. split; [constructor|reflexivity].
  - destruct ins as [|i ins]; [inversion HM|]. inversion HM as [|? ? ? ? [Hg Hs] HM']; subst. inversion Hlt as [|? ? Hi Hlt']; subst.
    destruct (IH ins HM' Hlt') as [IH1 IH2]. split.
    + constructor; auto. split; auto. unfold wf in Hg. rewrite Hg, Hs, size_row. lia.
    + unfold total, ftotal in *. cbn [map combine]. rewrite !(lsum_cons RT), IH2. f_equal.
      apply (row_nth _ _ _ Hs). apply dt_length; auto.
Qed.

(** The loop over the inputs, given that the recursive calls are right *)
Lemma inputs_ok f : forall ins gs gr,
  (forall i k ins' g gr, In i ins -> fn_of i = Some (k, ins') -> gr_ok gr -> In (g, i) (combine gs ins) ->
     wf g -> shape g = [1; size (shape (vof i))] ->
     exists gr', compute_jvp f ns k ins' [g] gr = Ret gr' /\ gr_ok gr' /\
       Lf gr' = n_add (Lf gr) (rhs g 0 (tan k (map vof ins') (map dt ins')))) ->
  Forall (fun i => i < length ns) ins ->
  grads_for gs ins -> gr_ok gr ->
  exists nds gr', mapM (vindex ns) ins = Ret nds /\ map n_val nds = map vof ins /\
    foldM (fun gr '(g, (i, nd)) =>
             assert (length (array g) =? length (array (n_val nd))) ;;
             let* shaped_grad := raw_new (array g) (shape (n_val nd)) in
             let* gr' := update_grad gr i shaped_grad in
             match n_fn nd with
             | Some (k', inputs') => compute_jvp f ns k' inputs' [g] gr'
             | None => Ret gr'
             end)
          (combine gs (combine ins nds)) gr = Ret gr' /\
    gr_ok gr' /\ Lf gr' = n_add (Lf gr) (ftotal gs (map dt ins)).
Proof.
  induction ins as [|i ins IH]; intros gs gr Hrec Hlt HM Hgr.
  - inversion HM; subst. exists [], gr. split; [reflexivity|]. split; [reflexivity|]. split; [reflexivity|]. split; [auto|].
    unfold ftotal. cbn. unfold lsum. cbn. ring.
  - inversion HM as [|g ? gs' ? [Hsz Hs] HM']; subst. inversion Hlt as [|? ? Hi Hlt']; subst.
    destruct (node_lt i Hi) as [nd End].
    assert (Ev : vof i = n_val nd) by (apply vof_some; auto).
    destruct (vof_ok i Hi) as [Hv Hp].
    set (sg := mkRaw (array g) (shape (vof i))).
    destruct (update_ok gr i sg Hi Hgr) as (gr1 & U1 & U2 & U3 & U4); [unfold wf; auto|reflexivity|].
    assert (Hstep : exists gr2,
      (match n_fn nd with Some (k', inputs') => compute_jvp f ns k' inputs' [g] gr1 | None => Ret gr1 end) = Ret gr2 /\
      gr_ok gr2 /\ Lf gr2 = n_add (Lf gr) (fdot g (dt i))).
    { destruct (n_fn nd) as [[k' ins']|] eqn:Ef.
      - assert (Efo : fn_of i = Some (k', ins')) by (rewrite (fn_some _ _ End); auto).
        destruct Hs as [Hg Hs]; [congruence|].
        destruct (Hrec i k' ins' g gr1) as (gr2 & R1 & R2 & R3); auto; [left; auto|left; auto|].
        exists gr2. split; [exact R1|]. split; [exact R2|]. rewrite R3.
        destruct (HT i Hi) as [_ HTi]. specialize (HTi k' ins' Efo). cbn zeta in HTi.
        destruct (cut i) eqn:Ec.
        + rewrite rhs_zero by auto. rewrite (Lf_update_leaf gr gr1 i (fdot g (dt i)) Hi Ec U3 (U4 eq_refl)). ring.
        + rewrite <- HTi. rewrite (rhs_row _ _ _ Hs). rewrite (row_nth _ _ _ Hs) by (apply dt_length; auto).
          rewrite (Lf_update_op gr gr1 i); auto.
      - exists gr1. split; [reflexivity|]. split; [exact U2|].
        assert (Hl : cut i = true) by (apply (HC i Hi); rewrite (fn_some _ _ End); auto).
        apply (Lf_update_leaf gr gr1 i); auto. }
    destruct Hstep as (gr2 & S1 & S2 & S3).
    destruct (IH gs' gr2) as (nds & gr' & F1 & F2 & F3 & F4 & F5); auto.
    { intros j k' ins' g' gr0 Hj. intros. eapply Hrec; eauto; [right; auto|right; auto]. }
    exists (nd :: nds), gr'. cbn [mapM]. rewrite (vindex_some _ _ _ _ End). cbn [bind]. rewrite F1. cbn [bind].
    split; [reflexivity|]. split; [cbn; congruence|]. split; [|split; auto].
    + cbn [combine foldM]. rewrite <- Ev.
      assert (length (array (vof i)) = size (shape (vof i))) as -> by exact Hv.
      rewrite Hsz, Nat.eqb_refl. cbn [assert bind]. rewrite raw_new_ok by auto. cbn [bind]. fold sg. rewrite U1. cbn [bind].
      rewrite S1. cbn [bind]. exact F3.
    + rewrite F5, S3. unfold ftotal. cbn [map combine]. rewrite (lsum_cons RT). ring.
Qed.

Lemma bcast_size_one l r o : bcast l r o -> positive l -> positive r -> size o = 1 -> size l = 1 /\ size r = 1.
Proof.
  unfold bcast. intros H Hl Hr Ho. rewrite <- size_rev in Ho. rewrite <- (size_rev l), <- (size_rev r).
  apply positive_rev in Hl, Hr. revert Hl Hr Ho. induction H; cbn [size]; intros Hl Hr Ho; auto.
  - inversion Hl as [|? ? L1 L2]; subst. inversion Hr as [|? ? R1 R2]; subst.
    apply Nat.eq_mul_1 in Ho as [-> Ho]. destruct (IHbcast_rev L2 R2 Ho). lia.
  - inversion Hl as [|? ? L1 L2]; subst. inversion Hr as [|? ? R1 R2]; subst.
    apply Nat.eq_mul_1 in Ho as [-> Ho]. destruct (IHbcast_rev L2 R2 Ho). lia.
  - inversion Hl as [|? ? L1 L2]; subst. inversion Hr as [|? ? R1 R2]; subst.
    apply Nat.eq_mul_1 in Ho as [-> Ho]. destruct (IHbcast_rev L2 R2 Ho). lia.
Qed.

(** The gradients of an addition of one-element tensors pass the incoming gradient on. *)
Lemma add_one_grads a b y G gs :
  opspec KAdd [a; b] y -> size (shape y) = 1 -> gval G 0 0 = n_one -> matrices gs [a; b] 1 ->
  (forall ds r, Forall2 tangent [a; b] ds -> r < 1 -> total gs r ds = rhs G r (tan KAdd [a; b] ds)) ->
  size (shape a) = 1 /\ size (shape b) = 1 /\ forall g, In g gs -> gval g 0 0 = n_one.
Proof.
  intros HO Hsz Hg HM HA. inversion HO as [a' b' s Ha Hb Pa Pb Hbc| | | | | | |]; subst. cbn [shape tabulate] in Hsz.
  destruct (bcast_size_one _ _ _ Hbc Pa Pb Hsz) as [Sa Sb]. split; [exact Sa|]. split; [exact Sb|].
  inversion HM as [|ga ? gs1 ? [Wa Ga] HM1]; subst. inversion HM1 as [|gb ? gs2 ? [Wb Gb] HM2]; subst. inversion HM2; subst.
  rewrite Sa in Ga. rewrite Sb in Gb.
  assert (E : forall u v : T, n_add (n_mul (tval ga [0; 0]) u) (n_mul (tval gb [0; 0]) v) = n_add u v).
  { intros u v. specialize (HA [mkRaw [u] (shape a); mkRaw [v] (shape b)] 0).
    rewrite (total_two RT) in HA.
    assert (R : forall g x s, row_dot g 0 (mkRaw [x] s) = n_mul (tval g [0; 0]) x).
    { intros. unfold row_dot, sumn, lsum. cbn. ring. }
    rewrite !R in HA. rewrite HA; [|repeat apply Forall2_cons; try apply Forall2_nil; (split; [unfold wf; cbn [array shape length]; congruence|reflexivity])|lia].
    unfold rhs. cbn [tan]. rewrite <- (bcast_max_shape _ _ _ Pa Pb Hbc). rewrite tab_length, Hsz.
    unfold sumn, lsum. cbn [seq map fold_left]. rewrite Hg, nth_tabulate by lia.
    assert (Hin : in_range s (unravel s 0)) by (apply unravel_in_range; lia).
    pose proof (clamp_in_range _ _ _ _ Hbc Hin) as C1.
    pose proof (clamp_in_range _ _ _ _ (bcast_sym _ _ _ Hbc) Hin) as C2.
    pose proof (rm_lt _ _ C1) as L1. pose proof (rm_lt _ _ C2) as L2.
    unfold tval. cbn [array shape]. replace (rm (shape a) (clamp (shape a) (unravel s 0))) with 0 by lia.
    replace (rm (shape b) (clamp (shape b) (unravel s 0))) with 0 by lia. cbn [nth]. ring. }
  intros g [<-|[<-|[]]]; unfold gval.
  - rewrite Ga. specialize (E n_one n_zero). transitivity (n_add (n_mul (tval ga [0; 0]) n_one) (n_mul (tval gb [0; 0]) n_zero)); [ring|].
    rewrite E. ring.
  - rewrite Gb. specialize (E n_zero n_one). transitivity (n_add (n_mul (tval ga [0; 0]) n_zero) (n_mul (tval gb [0; 0]) n_one)); [ring|].
    rewrite E. ring.
Qed.

(** A rule call at a reached node *)
Lemma rule_ok n k ins G :
  fn_of n = Some (k, ins) -> reached G n -> grad_rows G 1 (size (shape (vof n))) ->
  (shape G = [] -> k <> KAbs /\ k <> KBmm) ->
  exists gs, jvp k (map vof ins) [G] = Ret gs /\ matrices gs (map vof ins) 1 /\
    (total gs 0 (map dt ins) = rhs G 0 (tan k (map vof ins) (map dt ins))) /\
    forall g i, In (g, i) (combine gs ins) -> reached g i.
Proof.
  intros Ef Hreach HGr HnG. destruct (op_ok n k ins Ef) as (Hn & Hlt & HO).
  assert (Hlt' : forall i, In i ins -> i < length ns).
  { intros i Hi. rewrite Forall_forall in Hlt. specialize (Hlt i Hi). lia. }
  assert (HF : Forall2 tangent (map vof ins) (map dt ins)).
  { clear -Hlt' HT. induction ins as [|i ins IH]; cbn; constructor.
    - apply dt_ok. apply Hlt'. left; auto.
    - apply IH. intros; apply Hlt'; right; auto. }
  assert (HV : vjp_ok k (map vof ins) G 1).
  { destruct k; cbn [vjp_ok]; auto.
    - intros E. destruct (HnG E) as [C _]. congruence.
    - split; auto. destruct Hreach as [HP|(_ & _ & HP)]; auto. exfalso. inversion HP; congruence.
    - split; [intros E; destruct (HnG E) as [_ C]; congruence|].
      assert (HP : plain n) by (destruct Hreach as [HP|(HP & _)]; auto; inversion HP; auto; congruence).
      inversion HP as [|? k' ins' ? E1 ? ? Q]; [congruence|]. subst. rewrite Ef in E1. injection E1 as <- <-.
      specialize (Q eq_refl). rewrite Forall_map. eapply Forall_impl; [|exact Q]. cbn. intros; lia.
    - assert (HP : plain n) by (destruct Hreach as [HP|(HP & _)]; auto; inversion HP; auto; congruence).
      inversion HP; congruence. }
  destruct (adjoint RT k (map vof ins) (vof n) G 1 HO HGr HV) as (gs & J1 & J2 & J3).
  exists gs. split; [exact J1|]. split; [exact J2|]. split; [apply J3; auto|].
  intros g i Hin.
  assert (Hi : In i ins) by (eapply in_combine_r; eauto).
  destruct Hreach as [HP|(HP & Hsz & H1)].
  - left. inversion HP as [|? k' ins' ? E1 ? ? ? Q]; [congruence|]. subst. rewrite Ef in E1. injection E1 as <- <-. auto.
  - inversion HP as [? HP'|? i' ? E1 HP'|? i' j' ? E1 E2 Pi Pj]; subst.
    + left. inversion HP' as [|? k' ins' ? E1 ? ? ? Q]; [congruence|]. subst. rewrite Ef in E1. injection E1 as <- <-. auto.
    + left. rewrite Ef in E1. injection E1 as -> ->. destruct Hi as [<-|[]]. exact HP'.
    + rewrite Ef in E1. injection E1 as -> ->. cbn [map] in *.
      destruct (add_one_grads (vof i') (vof j') (vof n) G gs HO E2 H1 J2 J3) as (Sa & Sb & Hone).
      right. assert (Hgin : In g gs) by (eapply in_combine_l; eauto).
      split; [|split; [|apply Hone; auto]].
      * destruct Hi as [<-|[<-|[]]]; auto.
      * destruct Hi as [<-|[<-|[]]]; auto.
Qed.

Theorem compute_jvp_ok : forall fuel n k ins G gr,
  n < fuel -> fn_of n = Some (k, ins) -> reached G n -> grad_rows G 1 (size (shape (vof n))) ->
  (shape G = [] -> k <> KAbs /\ k <> KBmm) -> gr_ok gr ->
  exists gr', compute_jvp fuel ns k ins [G] gr = Ret gr' /\ gr_ok gr' /\
    Lf gr' = n_add (Lf gr) (rhs G 0 (tan k (map vof ins) (map dt ins))).
Proof.
  induction fuel as [|f IH]; intros n k ins G gr Hf Ef Hreach HGr HnG Hgr; [lia|].
  destruct (op_ok n k ins Ef) as (Hn & Hlt & HO).
  destruct (rule_ok n k ins G Ef Hreach HGr HnG) as (gs & J1 & J2 & J3 & J4).
  assert (Hlt' : Forall (fun i => i < length ns) ins) by (eapply Forall_impl; [|exact Hlt]; cbn; intros; lia).
  destruct (matrices_for gs ins J2 Hlt') as [M1 M2].
  destruct (inputs_ok f ins gs gr) as (nds & gr' & F1 & F2 & F3 & F4 & F5); auto.
  - intros i k' ins' g gr0 Hi Efi Hgr0 Hgin Hwg Hsg.
    rewrite Forall_forall in Hlt. specialize (Hlt i Hi).
    apply (IH i k' ins' g gr0); auto; [lia| |].
    + destruct (vof_ok i ltac:(lia)) as [_ P]. apply size_pos in P. split; [exact Hwg|]. repeat split; auto.
    + rewrite Hsg. discriminate.
  - exists gr'. cbn [compute_jvp]. rewrite F1. cbn [bind]. rewrite F2, J1. cbn [bind]. split; [exact F3|]. split; [exact F4|].
    rewrite F5, <- M2, J3. reflexivity.
Qed.

Theorem root_jvp_ok n k ins gr :
  root_ok n -> fn_of n = Some (k, ins) -> gr_ok gr ->
  exists gr', compute_jvp (S (length ns)) ns k ins [raw_scalar n_one] gr = Ret gr' /\ gr_ok gr' /\
    Lf gr' = n_add (Lf gr) (nth 0 (array (tan k (map vof ins) (map dt ins))) n_zero).
Proof.
  intros (Hsz & k' & ins' & Ef' & Hk) Ef Hgr. rewrite Ef in Ef'. injection Ef' as <- <-.
  destruct (op_ok n k ins Ef) as (Hn & Hlt & HO).
  assert (Hg : grad_rows (raw_scalar n_one) 1 (size (shape (vof n)))).
  { split; [reflexivity|]. split; [lia|]. split; [lia|]. right. auto. }
  assert (Hrhs : rhs (raw_scalar n_one) 0 (tan k (map vof ins) (map dt ins)) = nth 0 (array (tan k (map vof ins) (map dt ins))) n_zero).
  { assert (HF : Forall2 tangent (map vof ins) (map dt ins)).
    { clear -Hlt Hn HT. induction ins as [|i ins IH]; cbn; constructor; inversion Hlt; subst; auto. apply dt_ok. lia. }
    destruct (tan_tangent _ _ _ _ HO HF) as [D1 D2]. unfold wf in D1.
    unfold rhs. rewrite D1, D2, Hsz. unfold sumn, lsum. cbn [seq map fold_left]. unfold gval, tval. cbn. ring. }
  assert (Htop : top n -> k <> KAbs -> k <> KBmm ->
    exists gr', compute_jvp (S (length ns)) ns k ins [raw_scalar n_one] gr = Ret gr' /\ gr_ok gr' /\
      Lf gr' = n_add (Lf gr) (nth 0 (array (tan k (map vof ins) (map dt ins))) n_zero)).
  { intros Ht H1 H2. rewrite <- Hrhs. apply (compute_jvp_ok _ n); auto. right. auto. }
  destruct k; try contradiction; try (apply Htop; auto; congruence).
  (* dot *)
  cbn [compute_jvp].
  inversion HO as [| | | | | | |a b Ha Hb Pa Pb Hs E1 E2 E3].
  destruct ins as [|i [|j [|? ?]]]; try discriminate E2. cbn [map] in E2. injection E2 as -> ->.
  destruct (adjoint_dot RT (vof i) (vof j) n_one (vof n)) as [J1 J2].
  { cbn [map] in HO. exact HO. }
  assert (Hlt' : Forall (fun i => i < length ns) [i; j]) by (eapply Forall_impl; [|exact Hlt]; cbn; intros; lia).
  inversion Hlt' as [|? ? Hi Q]; subst. inversion Q as [|? ? Hj _]; subst.
  inversion Hlt as [|? ? Hin Q']; subst. inversion Q' as [|? ? Hjn _]; subst.
  inversion Hk as [|? ? Ri Q2]; subst. inversion Q2 as [|? ? Rj _]; subst.
  set (gi := tabulate (shape (vof j)) (fun i => n_mul n_one (tval (vof j) i))) in *.
  set (gj := tabulate (shape (vof i)) (fun x => n_mul n_one (tval (vof i) x))) in *.
  destruct (inputs_ok (length ns) [i; j] [gi; gj] gr) as (nds & gr' & F1 & F2 & F3 & F4 & F5); auto.
  - intros x k' ins' g gr0 Hx Efx Hgr0 Hgin Hwg Hsg.
    assert (plain x /\ x < n) as [Px Lx].
    { destruct Hx as [<-|[<-|[]]]; split; auto.
      - destruct Ri as [Ri|[Ri _]]; auto. congruence.
      - destruct Rj as [Rj|[Rj _]]; auto. congruence. }
    apply (compute_jvp_ok (length ns) x k' ins' g gr0); auto; [lia|left; auto| |].
    + destruct (vof_ok x ltac:(lia)) as [_ P]. apply size_pos in P. split; [exact Hwg|]. repeat split; auto.
    + rewrite Hsg. discriminate.
  - constructor; [|constructor; [|constructor]].
    + split; [unfold gi; rewrite tab_length, Hs; reflexivity|]. intros Hf. split; [apply tabulate_wf|].
      destruct Ri as [Ri|(_ & N & Ri)]; [congruence|]. unfold gi. cbn [shape tabulate]. rewrite <- Hs, Ri, size_row, Nat.mul_1_l. reflexivity.
    + split; [unfold gj; rewrite tab_length, Hs; reflexivity|]. intros Hf. split; [apply tabulate_wf|].
      destruct Rj as [Rj|(_ & N & Rj)]; [congruence|]. unfold gj. cbn [shape tabulate]. rewrite Hs, Rj, size_row, Nat.mul_1_l. reflexivity.
  - exists gr'. rewrite F1. cbn [bind]. rewrite F2. cbn [map]. rewrite J1. cbn [bind]. split; [exact F3|]. split; [exact F4|].
    rewrite F5. f_equal. cbn [map].
    transitivity (n_add (fdot gi (dt i)) (fdot gj (dt j))); [unfold ftotal, lsum; cbn; ring|].
    unfold fdot. rewrite (J2 (dt i) (dt j)) by (apply dt_ok; auto). ring.
Qed.

End WithTangents.

(** ** Tangents exist for every choice at the leaves *)

Lemma tan_ext_dt k xs (dt dt' : nat -> raw T) ins :
  (forall i, In i ins -> dt i = dt' i) -> tan k xs (map dt ins) = tan k xs (map dt' ins).
Proof. intros H. f_equal. apply map_ext_in. exact H. Qed.

Lemma tangents_exist (cut : nat -> bool) (lt : nat -> raw T) : graph_ok -> cut_ok cut ->
  (forall n, n < length ns -> cut n = true -> tangent (vof n) (lt n)) ->
  exists dt, (forall n, n < length ns -> tangent (vof n) (dt n)) /\
    (forall n, n < length ns -> cut n = true -> dt n = lt n) /\
    (forall n k ins, cut n = false -> fn_of n = Some (k, ins) -> dt n = tan k (map vof ins) (map dt ins)).
Proof.
  intros HG HC HL.
  assert (HI : forall n k ins, fn_of n = Some (k, ins) -> n < length ns /\ (forall i, In i ins -> i < n) /\ opspec k (map vof ins) (vof n)).
  { intros n k ins E. destruct (op_ok HG n k ins E) as (A & B & C). rewrite Forall_forall in B. auto. }
  assert (H : forall m, m <= length ns -> exists dt,
    (forall n, n < m -> tangent (vof n) (dt n)) /\
    (forall n, n < m -> cut n = true -> dt n = lt n) /\
    (forall n k ins, n < m -> cut n = false -> fn_of n = Some (k, ins) -> dt n = tan k (map vof ins) (map dt ins))).
  { induction m as [|m IH]; intros Hm.
    - exists lt. split; [|split]; intros; lia.
    - destruct IH as (dt & H1 & H2 & H3); [lia|].
      set (new := if cut m then lt m else match fn_of m with None => lt m | Some (k, ins) => tan k (map vof ins) (map dt ins) end).
      exists (upd dt m new).
      assert (Hold : forall i, i < m -> upd dt m new i = dt i).
      { intros i Hi. unfold upd. destruct (Nat.eqb_spec i m); [lia|reflexivity]. }
      assert (Hnew : upd dt m new m = new) by (unfold upd; rewrite Nat.eqb_refl; reflexivity).
      split; [|split].
      + intros n Hn. destruct (Nat.eq_dec n m) as [->|Hne]; [|rewrite Hold by lia; apply H1; lia].
        rewrite Hnew. unfold new. destruct (cut m) eqn:Ec; [apply HL; auto|].
        destruct (fn_of m) as [[k ins]|] eqn:Ef.
        * destruct (HI _ _ _ Ef) as (_ & Hlt & HO). apply tan_tangent; auto.
          clear -H1 Hlt. induction ins as [|i ins IH]; cbn; constructor.
          -- apply H1, Hlt. left; auto.
          -- apply IH. intros; apply Hlt; right; auto.
        * exfalso. destruct (HC m ltac:(lia)) as [C _]. rewrite C in Ec; congruence.
      + intros n Hn Ec. destruct (Nat.eq_dec n m) as [->|Hne]; [|rewrite Hold by lia; apply H2; auto; lia].
        rewrite Hnew. unfold new. rewrite Ec. reflexivity.
      + intros n k ins Hn Ec Ef.
        destruct (HI _ _ _ Ef) as (_ & Hlt & _).
        rewrite (tan_ext_dt k (map vof ins) (upd dt m new) dt ins) by (intros i Hi; apply Hold; specialize (Hlt i Hi); lia).
        destruct (Nat.eq_dec n m) as [->|Hne]; [|rewrite Hold by lia; apply H3; auto; lia].
        rewrite Hnew. unfold new. rewrite Ec, Ef. reflexivity. }
  destruct (H (length ns) (Nat.le_refl _)) as (dt & H1 & H2 & H3). exists dt. split; [auto|]. split; [auto|].
  intros n k ins Ec Ef. apply H3; auto. apply (HI _ _ _ Ef).
Qed.

Lemma zero_tval (d : raw T) i : is_zero d -> tval d i = n_zero.
Proof. intros H. apply H. Qed.

Lemma is_zero_tab s (f : list nat -> T) : (forall i, in_range s i -> f i = n_zero) -> is_zero (tabulate s f).
Proof.
  intros H p. destruct (Nat.lt_ge_cases p (size s)) as [Hp|Hp].
  - rewrite nth_tabulate by auto. apply H, unravel_in_range; auto.
  - apply nth_overflow. rewrite tab_length. auto.
Qed.

Lemma is_zero_one (x : T) s : x = n_zero -> is_zero (mkRaw [x] s).
Proof. intros -> [|[|p]]; reflexivity. Qed.

Lemma tan_zero k xs ds y : opspec k xs y -> Forall2 tangent xs ds -> Forall is_zero ds -> is_zero (tan k xs ds).
Proof.
  intros HO HF HZ.
  destruct HO; inversion HF as [|? da ? ds' Ta HF1]; subst; try (inversion HF1 as [|? db ? ds'' Tb HF2]; subst; inversion HF2; subst);
    try (inversion HF1; subst); inversion HZ as [|? ? Za HZ1]; subst; try (inversion HZ1 as [|? ? Zb _]; subst); cbn [tan].
  - apply is_zero_tab. intros i _. rewrite !(zero_tval da), !(zero_tval db) by auto. ring.
  - apply is_zero_tab. intros i _. rewrite !(zero_tval da) by auto. ring.
  - apply is_zero_tab. intros i _. rewrite !(zero_tval da) by auto. destruct (n_ge _ _); ring.
  - apply is_zero_tab. intros i _. rewrite !(zero_tval da) by auto. destruct (n_lt _ _); ring.
  - apply is_zero_tab. intros i _. rewrite !(zero_tval da) by auto. ring.
  - apply is_zero_one. rewrite <- (map_nth_seq _ (array da) n_zero). apply (bsum_zero' RT). intros; apply Za.
  - apply is_zero_tab. intros i _. rewrite sumn_bsum. apply (bsum_zero' RT). intros t _. rewrite !(zero_tval da), !(zero_tval db) by auto. ring.
  - apply is_zero_one. apply (bsum_zero' RT). intros i _. rewrite (zero_tval da), (zero_tval db) by auto. ring.
Qed.

(** The unit tangent *)
Definition unit_at (s : list nat) (p : nat) : raw T :=
  tabulate s (fun i => if rm s i =? p then n_one else n_zero).
Definition zero_of (s : list nat) : raw T := tabulate s (fun _ => n_zero).

Definition cut_at (l n : nat) : bool := (n =? l) || match fn_of n with None => true | Some _ => false end.

Lemma cut_at_ok l : (forall ins, fn_of l <> Some (KSum, ins)) -> cut_ok (cut_at l).
Proof.
  intros Hl n Hn. unfold cut_at. split.
  - intros ->. apply orb_true_r.
  - intros ins E. rewrite E, orb_false_r. apply Nat.eqb_neq. intros ->. apply (Hl ins E).
Qed.

(** The unit vector at entry [p] of node [l] *)
Lemma tangents_unit l p : graph_ok -> l < length ns -> (forall ins, fn_of l <> Some (KSum, ins)) ->
  exists dt, tangents_ok (cut_at l) dt /\ dt l = unit_at (shape (vof l)) p /\
    (forall n, n < length ns -> n <> l -> fn_of n = None -> dt n = zero_of (shape (vof n))).
Proof.
  intros HG Hl Hsum. pose proof (cut_at_ok l Hsum) as HC.
  destruct (tangents_exist (cut_at l) (fun n => if n =? l then unit_at (shape (vof n)) p else zero_of (shape (vof n))) HG HC)
    as (dt & H1 & H2 & H3).
  { intros n Hn _. destruct (n =? l); (split; [apply tabulate_wf|reflexivity]). }
  assert (Hleaf : forall n, n < length ns -> n <> l -> fn_of n = None -> dt n = zero_of (shape (vof n))).
  { intros n Hn Hne Hf. rewrite H2; auto.
    - apply Nat.eqb_neq in Hne. rewrite Hne. reflexivity.
    - unfold cut_at. rewrite Hf. apply orb_true_r. }
  assert (Htan : forall n k ins, fn_of n = Some (k, ins) -> Forall2 tangent (map vof ins) (map dt ins)).
  { intros n k ins Ef. destruct (op_ok HG n k ins Ef) as (Hn & Hlt & _). clear -Hn Hlt H1.
    induction ins as [|i ins IH]; cbn; constructor; inversion Hlt; subst; auto. apply H1. lia. }
  assert (Hlow : forall n, n < l -> is_zero (dt n)).
  { intros n. induction n as [n IH] using lt_wf_ind. intros Hn. destruct (fn_of n) as [[k ins]|] eqn:Ef.
    - destruct (op_ok HG n k ins Ef) as (Hn' & Hlt & HO).
      rewrite (H3 n k ins); auto.
      + eapply tan_zero; eauto. rewrite Forall_map. eapply Forall_impl; [|exact Hlt]. cbn. intros i Hi. apply IH; lia.
      + unfold cut_at. rewrite Ef, orb_false_r. apply Nat.eqb_neq. lia.
    - rewrite Hleaf by (auto; lia). apply is_zero_tab. reflexivity. }
  exists dt. split; [|split; [|exact Hleaf]].
  - intros n Hn. split; [apply H1; auto|]. intros k ins Ef d. destruct (cut_at l n) eqn:Ec; [|apply H3; auto].
    unfold cut_at in Ec. rewrite Ef, orb_false_r in Ec. apply Nat.eqb_eq in Ec. subst n.
    destruct (op_ok HG l k ins Ef) as (_ & Hlt & HO). eapply tan_zero; eauto.
    rewrite Forall_map. eapply Forall_impl; [|exact Hlt]. cbn. intros i Hi. apply Hlow; auto.
  - rewrite H2; auto; [rewrite Nat.eqb_refl; reflexivity|]. unfold cut_at. rewrite Nat.eqb_refl. reflexivity.
Qed.

Lemma Lf_unit dt gr l p :
  l < length ns -> p < size (shape (vof l)) -> dt l = unit_at (shape (vof l)) p ->
  (forall n, n < length ns -> n <> l -> fn_of n = None -> dt n = zero_of (shape (vof n))) ->
  Lf (cut_at l) dt gr = gentry gr l p.
Proof.
  intros Hl Hp Hdl Hdt. unfold Lf.
  transitivity (bsum (filter (cut_at l) (seq 0 (length ns))) (fun n => if n =? l then gentry gr l p else n_zero)).
  - apply bsum_ext. intros n Hn. apply filter_In in Hn as [Hn Hlf]. apply in_seq in Hn.
    unfold gdot. destruct (Nat.eqb_spec n l) as [->|Hne].
    + rewrite Hdl. unfold gentry. destruct (gr l) as [g|]; [|reflexivity].
      unfold unit_at at 1. rewrite tab_length.
      rewrite <- (sumn_delta RT (size (shape (vof l))) p (fun q => nth q (array g) n_zero)) by auto.
      apply sumn_ext. intros q Hq. unfold unit_at. rewrite nth_tabulate by auto. rewrite rm_unravel by auto.
      destruct (q =? p); ring.
    + assert (Hfn : fn_of n = None).
      { unfold cut_at in Hlf. destruct (fn_of n); auto. apply Nat.eqb_neq in Hne. rewrite Hne in Hlf. discriminate. }
      rewrite Hdt by (auto; lia). destruct (gr n) as [g|]; [|reflexivity]. unfold zero_of. rewrite tab_length.
      rewrite sumn_bsum. apply (bsum_zero' RT). intros q Hq. apply in_seq in Hq. rewrite nth_tabulate by lia. ring.
  - apply (bsum_delta RT _ Nat.eqb _ l (fun _ => gentry gr l p)).
    + intros; apply Nat.eqb_eq.
    + apply NoDup_filter, seq_NoDup.
    + apply filter_In. split; [apply in_seq; lia|]. unfold cut_at. rewrite Nat.eqb_refl. reflexivity.
Qed.

(** [backward] adds to the gradient of [l] the derivative of the root in the direction of the unit
    vector at entry [p]. *)
Theorem backward_ring gr n k ins l :
  graph_ok -> gr_ok gr -> root_ok n -> fn_of n = Some (k, ins) -> l < length ns -> l <> n ->
  (forall ins, fn_of l <> Some (KSum, ins)) ->
  exists gr', compute_jvp (S (length ns)) ns k ins [raw_scalar n_one] gr = Ret gr' /\ gr_ok gr' /\
    forall p, p < size (shape (vof l)) -> exists dt,
      tangents_ok (cut_at l) dt /\ dt l = unit_at (shape (vof l)) p /\
      (forall m, m < length ns -> m <> l -> fn_of m = None -> dt m = zero_of (shape (vof m))) /\
      gentry gr' l p = n_add (gentry gr l p) (nth 0 (array (dt n)) n_zero).
Proof.
  intros HG Hgr Hroot Ef Hl Hne Hsum.
  pose proof (cut_at_ok l Hsum) as HC.
  destruct (tangents_unit l 0 HG Hl Hsum) as (dt0 & T0 & _).
  destruct (root_jvp_ok (cut_at l) dt0 HG HC T0 n k ins gr Hroot Ef Hgr) as (gr' & E & G & _).
  exists gr'. split; [exact E|]. split; [exact G|]. intros p Hp.
  destruct (tangents_unit l p HG Hl Hsum) as (dt & T1 & T2 & T3). exists dt. split; [exact T1|]. split; [exact T2|]. split; [exact T3|].
  destruct (root_jvp_ok (cut_at l) dt HG HC T1 n k ins gr Hroot Ef Hgr) as (gr'' & E' & _ & L).
  rewrite E in E'. injection E' as <-.
  rewrite !(Lf_unit dt _ l p) in L by auto.
  destruct (op_ok HG n k ins Ef) as (Hn & _). destruct (T1 n Hn) as [_ Q]. specialize (Q k ins Ef). cbn zeta in Q.
  unfold cut_at in Q at 1. rewrite Ef, orb_false_r in Q. destruct (Nat.eqb_spec n l); [congruence|].
  rewrite Q. exact L.
Qed.

End GradRing.
