(** * DescentFacts: the loss along a gradient step *)
From Coq Require Import Reals Lra.
From Verif Require Import Base ModelIndex ModelTensor ModelOps ModelJvp ModelGraph ModelNN Spec SpecDual SpecGraph SpecNN
  Lists IndexFacts TensorFacts OpsFacts Sums JvpFacts Dual ClaimsMat Adjoint GradRing RealInst SpecReal SpecTrain SpecDescent OpDeriv GradReal
  FuelFacts GraphFacts ProgFacts BackFacts ClaimsProg SimFacts NNFacts ClaimsNN ClaimsGrad TrainFacts ClaimsTrain.
Local Open Scope R_scope.

(** ** Finite choice *)
Lemma choose_below n (P : nat -> R -> Prop) : (forall k, (k < n)%nat -> exists d, P k d) -> exists f, forall k, (k < n)%nat -> P k (f k).
Proof.
  induction n as [|n IH]; intros H; [exists (fun _ => 0); intros; lia|].
  destruct IH as [f Hf]; [intros; apply H; lia|]. destruct (H n ltac:(lia)) as [d Hd].
  exists (fun k => if (k =? n)%nat then d else f k). intros k Hk. destruct (Nat.eqb_spec k n) as [->|Hn]; [auto|apply Hf; lia].
Qed.
Lemma choose_below2 n o (P : nat -> nat -> R -> Prop) : (forall r c, (r < n)%nat -> (c < o)%nat -> exists d, P r c d) ->
  exists f, forall r c, (r < n)%nat -> (c < o)%nat -> P r c (f r c).
Proof.
  induction n as [|n IH]; intros H; [exists (fun _ _ => 0); intros; lia|].
  destruct IH as [f Hf]; [intros; apply H; lia|]. destruct (choose_below o (P n)) as [g Hg]; [intros; apply H; lia|].
  exists (fun r c => if (r =? n)%nat then g c else f r c). intros r c Hr Hc. destruct (Nat.eqb_spec r n) as [->|Hn]; [auto|apply Hf; lia].
Qed.

(** ** Sums *)
Lemma sum_ext n f g : (forall k, (k < n)%nat -> f k = g k) -> sumn n f = sumn n g :> R.
Proof. intros H. rewrite !sumn_bsum. apply bsum_ext. intros k Hk. apply in_seq in Hk. apply H. lia. Qed.
Lemma sum_lin n a f g : sumn n (fun k => a * f k + g k) = a * sumn n f + sumn n g :> R.
Proof. rewrite !sumn_bsum. pose proof (bsum_add R_is_ring _ (seq 0 n) (fun k => a * f k) g) as H1. pose proof (bsum_mul_l R_is_ring _ (seq 0 n) a f) as H2. cbn in *. rewrite H1, H2. reflexivity. Qed.
Lemma sum_S n f : sumn (S n) f = sumn n f + f n :> R.
Proof. rewrite !sumn_bsum, seq_S, (bsum_app R_is_ring), (bsum_cons R_is_ring), bsum_nil. cbn. ring. Qed.
Lemma sum_0 f : sumn 0 f = 0 :> R. Proof. reflexivity. Qed.
Lemma sum_D n (f : nat -> R -> R) d : (forall k, (k < n)%nat -> D (f k) (d k)) -> D (fun t => sumn n (fun k => f k t)) (sumn n d).
Proof. intros H. apply (D_bsum _ (seq 0 n) f d). intros k Hk. apply in_seq in Hk. apply H. lia. Qed.
Lemma sum_nonneg n f : (forall k, (k < n)%nat -> 0 <= f k) -> 0 <= sumn n f.
Proof. induction n as [|n IH]; intros H; [rewrite sum_0; lra|]. rewrite sum_S. pose proof (H n ltac:(lia)). specialize (IH ltac:(intros; apply H; lia)). lra. Qed.
Lemma sum_ge n f k : (forall k, (k < n)%nat -> 0 <= f k) -> (k < n)%nat -> f k <= sumn n f.
Proof.
  induction n as [|n IH]; intros H Hk; [lia|]. rewrite sum_S. destruct (Nat.eq_dec k n) as [->|Hn].
  - pose proof (sum_nonneg n f ltac:(intros; apply H; lia)). lra.
  - pose proof (H n ltac:(lia)). specialize (IH ltac:(intros; apply H; lia) ltac:(lia)). lra.
Qed.
Lemma sum_delta n k f : (k < n)%nat -> sumn n (fun x => if (x =? k)%nat then f x else 0) = f k.
Proof. intros H. rewrite sumn_bsum. exact (bsum_seq_delta R_is_ring n k f H). Qed.
Lemma sum_zero n f : (forall k, (k < n)%nat -> f k = 0) -> sumn n f = 0.
Proof. intros H. induction n as [|n IH]; [reflexivity|]. rewrite sum_S, IH, H by (intros; try apply H; lia). lra. Qed.

(** ** Moving all parameters at once *)
Definition move_list (l : list R) (v : nat -> R) (t : R) : list R := map (fun q => nth q l 0 + t * v q) (seq 0 (length l)).
Fixpoint move (ls : net) (V : nat -> nat -> R) (t : R) : net :=
  match ls with
  | [] => []
  | (o, W, b, F) :: ls' => (o, move_list W (V 0%nat) t, move_list b (V 1%nat) t, F) :: move ls' (fun j => V (S (S j))) t
  end.
(** the part of [v] which is inside [l] *)
Definition inside (l : list R) (v : nat -> R) (q : nat) : R := if (q <? length l)%nat then v q else 0.

Lemma move_nth l v t q : nth q (move_list l v t) 0 = nth q l 0 + t * inside l v q.
Proof.
  unfold move_list, inside. destruct (Nat.ltb_spec q (length l)) as [H|H].
  - rewrite (nth_indep _ 0 (nth 0 l 0 + t * v 0%nat)) by (rewrite map_length, seq_length; auto).
    rewrite (map_nth (fun q => nth q l 0 + t * v q) (seq 0 (length l)) 0%nat q), seq_nth by auto. reflexivity.
  - rewrite !nth_overflow by (rewrite ?map_length, ?seq_length; auto). ring.
Qed.
Lemma move_length l v t : length (move_list l v t) = length l.
Proof. unfold move_list. rewrite map_length, seq_length. reflexivity. Qed.
Lemma move_D l v q : D (fun t => nth q (move_list l v t) 0) (inside l v q).
Proof.
  apply (D_ext (fun t => nth q l 0 + t * inside l v q)); [intros; symmetry; apply move_nth|].
  apply (eq_ind (0 + (0 * 0 + 1 * inside l v q)) (fun d => D _ d)); [|ring]. apply D_plus; [apply D_const|].
  apply (D_mult (fun t => t) (fun _ => inside l v q)); [apply derivable_pt_lim_id|apply D_const].
Qed.
Lemma move_zero l v q : nth q (move_list l v 0) 0 = nth q l 0.
Proof. rewrite move_nth. ring. Qed.
Lemma inside_lin l a v w q : inside l (fun q => a * v q + w q) q = a * inside l v q + inside l w q.
Proof. unfold inside. destruct (_ <? _)%nat; ring. Qed.
Lemma inside_ext l v w q : (forall q, v q = w q) -> inside l v q = inside l w q.
Proof. intros H. unfold inside. rewrite H. reflexivity. Qed.

Definition direction : Type := nat -> nat -> R.

(** Linear in the direction of the parameters and that of the input *)
Definition linear2 (A : direction -> direction -> R) : Prop :=
  (forall V V' E E', (forall j q, V j q = V' j q) -> (forall r k, E r k = E' r k) -> A V E = A V' E') /\
  forall a V V' E E', A (fun j q => a * V j q + V' j q) (fun r k => a * E r k + E' r k) = a * A V E + A V' E'.

(** ** The derivative of a network, in the direction of its parameters and input *)
Lemma net_derivative (ls : net) : forall n i X, smooth_net n i ls X ->
  exists A : nat -> nat -> direction -> direction -> R, (forall r c, linear2 (A r c)) /\
    forall V (Xt : R -> nat -> nat -> R) E,
      (forall r k, (r < n)%nat -> (k < i)%nat -> Xt 0 r k = X r k /\ D (fun t => Xt t r k) (E r k)) ->
      forall r c, (r < n)%nat -> (c < net_out i (outputs ls))%nat -> D (fun t => net_val i (move ls V t) (Xt t) r c) (A r c V E).
Proof.
  induction ls as [|[[[o W] b] F] ls IH]; intros n i X HS; cbn [smooth_net] in HS.
  - exists (fun r c V E => E r c). split.
    + intros r c. split; auto.
    + intros V Xt E H r c Hr Hc. cbn [outputs map net_out] in Hc. apply (H r c Hr Hc).
  - destruct HS as [HF HS]. destruct (choose_below2 n o (fun r c d => derivable_pt_lim F (layer_val i o W b (fun x => x) X r c) d) HF) as [f Hf].
    destruct (IH n o _ HS) as (A & LA & HA).
    pose (B := fun (V E : direction) (r c : nat) =>
      f r c * (sumn i (fun k => E r k * nth (k * o + c) W 0 + X r k * inside W (V 0%nat) (k * o + c)) + inside b (V 1%nat) c)).
    exists (fun r c V E => A r c (fun j => V (S (S j))) (B V E)). split.
    + intros r c. destruct (LA r c) as [EX LI]. split.
      * intros V V' E E' HV HE. apply EX; [intros; apply HV|]. intros r' c'. unfold B. f_equal. f_equal.
        { apply sum_ext. intros k Hk. rewrite HE. f_equal. f_equal. apply inside_ext. auto. }
        { apply inside_ext. auto. }
      * intros a V V' E E'. rewrite <- LI. apply EX; [reflexivity|]. intros r' c'. unfold B.
        rewrite inside_lin.
        rewrite (sum_ext i (fun k => (a * E r' k + E' r' k) * nth (k * o + c') W 0 + X r' k * inside W (fun q => a * V 0%nat q + V' 0%nat q) (k * o + c'))
          (fun k => a * (E r' k * nth (k * o + c') W 0 + X r' k * inside W (V 0%nat) (k * o + c')) + (E' r' k * nth (k * o + c') W 0 + X r' k * inside W (V' 0%nat) (k * o + c')))).
        { rewrite sum_lin. ring. }
        { intros k Hk. rewrite inside_lin. ring. }
    + intros V Xt E H r c Hr Hc.
      assert (PRE : forall r c, (r < n)%nat -> (c < o)%nat ->
        layer_val i o (move_list W (V 0%nat) 0) (move_list b (V 1%nat) 0) (fun x => x) (Xt 0) r c = layer_val i o W b (fun x => x) X r c).
      { intros r' c' Hr' Hc'. unfold layer_val. cbn. rewrite move_zero. f_equal. apply sum_ext. intros k Hk. rewrite move_zero. destruct (H r' k Hr' Hk) as [-> _]. reflexivity. }
      apply (HA (fun j => V (S (S j))) (fun t => layer_val i o (move_list W (V 0%nat) t) (move_list b (V 1%nat) t) F (Xt t)) (B V E)); [|exact Hr|exact Hc].
      intros r' c' Hr' Hc'. split.
      * pose proof (PRE r' c' Hr' Hc') as P. unfold layer_val in *. rewrite P. reflexivity.
      * unfold B. apply (D_comp F (fun t => layer_val i o (move_list W (V 0%nat) t) (move_list b (V 1%nat) t) (fun x => x) (Xt t) r' c')).
        { unfold layer_val. cbn [n_add n_mul n_zero RNum]. apply D_plus; [|apply move_D].
          apply (sum_D i (fun k t => Xt t r' k * nth (k * o + c') (move_list W (V 0%nat) t) 0)).
          intros k Hk. destruct (H r' k Hr' Hk) as [H0 H1].
          pose proof (D_mult _ _ _ _ H1 (move_D W (V 0%nat) (k * o + c'))) as P. cbn beta in P. rewrite H0, move_zero in P. rewrite Rplus_comm. exact P. }
        { rewrite PRE by auto. apply Hf; auto. }
Qed.

(** ** The derivative of the loss *)
Definition linear1 (A : direction -> R) : Prop :=
  (forall V V', (forall j q, V j q = V' j q) -> A V = A V') /\
  forall a V V', A (fun j q => a * V j q + V' j q) = a * A V + A V'.

Lemma move_outputs ls : forall V t, outputs (move ls V t) = outputs ls.
Proof. induction ls as [|[[[o W] b] F] ls IH]; intros V t; cbn; [reflexivity|]. f_equal. apply IH. Qed.

Lemma net_val_zero ls : forall i V X X', (forall r c, X r c = X' r c) -> forall r c, net_val i (move ls V 0) X r c = net_val i ls X' r c.
Proof.
  induction ls as [|[[[o W] b] F] ls IH]; intros i V X X' H r c; cbn [move net_val]; [auto|]. apply IH.
  intros r' c'. unfold layer_val. cbn. rewrite move_zero. f_equal. f_equal. apply sum_ext. intros k Hk. rewrite move_zero, H. reflexivity.
Qed.

Lemma Rabs_D x : x <> 0 -> exists s, derivable_pt_lim Rabs x s.
Proof. intros H. destruct (Rlt_le_dec x 0); [exists (-1); apply Rabs_derive_2; auto|exists 1; apply Rabs_derive_1; lra]. Qed.

Lemma loss_derivative ls n i X Y : smooth n i ls X Y ->
  exists A : direction -> R, linear1 A /\ forall V, D (fun t => net_loss n i (move ls V t) X Y) (A V).
Proof.
  intros [HS HN]. destruct (net_derivative ls n i X HS) as (A & LA & HA). set (o := net_out i (outputs ls)) in *.
  destruct (choose_below2 n o (fun r c s => derivable_pt_lim Rabs (net_val i ls X r c - Y r c) s)) as [s Hs].
  { intros r c Hr Hc. apply Rabs_D. pose proof (HN r c Hr Hc). lra. }
  exists (fun V => sumn n (fun r => sumn o (fun c => s r c * A r c V (fun _ _ => 0)))). split; [split|].
  - intros V V' H. apply sum_ext. intros r _. apply sum_ext. intros c _. f_equal. apply (proj1 (LA r c)); auto.
  - intros a V V'. rewrite <- sum_lin. apply sum_ext. intros r _. rewrite <- sum_lin. apply sum_ext. intros c _.
    rewrite (proj1 (LA r c) _ (fun j q => a * V j q + V' j q) (fun _ _ => 0) (fun r k => a * 0 + 0)) by (intros; ring || reflexivity).
    rewrite (proj2 (LA r c) a V V' (fun _ _ => 0) (fun _ _ => 0)). ring.
  - intros V. unfold net_loss, abs_loss. apply (D_ext (fun t => sumn n (fun r => sumn o (fun j => Rabs (net_val i (move ls V t) X r j - Y r j))))).
    { intros t. rewrite move_outputs. reflexivity. }
    apply (sum_D n (fun r t => sumn o (fun j => Rabs (net_val i (move ls V t) X r j - Y r j)))). intros r Hr.
    apply (sum_D o (fun j t => Rabs (net_val i (move ls V t) X r j - Y r j))). intros c Hc.
    apply (D_comp Rabs (fun t => net_val i (move ls V t) X r c - Y r c)).
    + apply (eq_ind (A r c V (fun _ _ => 0) + 0) (fun d => D _ d)); [|ring]. apply (D_plus _ (fun _ => - Y r c)); [|apply D_const].
      apply (HA V (fun _ => X)); auto. intros r' k _ _. split; [reflexivity|apply D_const].
    + rewrite (net_val_zero ls i V X X) by reflexivity. apply Hs; auto.
Qed.

(** ** One parameter at a time *)
Definition unit_dir (j q : nat) : direction := fun j' q' => if (j' =? j)%nat then if (q' =? q)%nat then 1 else 0 else 0.

Lemma net_param_len ls : length (net_parameters ls) = (2 * length ls)%nat.
Proof. induction ls as [|[[[o W] b] F] ls IH]; cbn [net_parameters length]; lia. Qed.

Lemma move_list_at l q t : (q < length l)%nat -> move_list l (fun q' => if (q' =? q)%nat then 1 else 0) t = add_at l q t.
Proof.
  intros H. unfold add_at. apply (nth_ext _ _ 0 0); [rewrite move_length, list_set_length; reflexivity|]. rewrite move_length. intros k Hk.
  rewrite move_nth. unfold inside. rewrite (proj2 (Nat.ltb_lt k (length l))) by auto.
  rewrite list_set_nth by auto. destruct (Nat.eqb_spec k q) as [->|Hn]; ring.
Qed.
Lemma move_list_zero l t : move_list l (fun _ => 0) t = l.
Proof. apply (nth_ext _ _ 0 0); [apply move_length|]. intros k _. rewrite move_nth. unfold inside. destruct (_ <? _)%nat; ring. Qed.
Lemma move_no_dir ls : forall t, move ls (fun _ _ => 0) t = ls.
Proof. induction ls as [|[[[o W] b] F] ls IH]; intros t; cbn [move]; [reflexivity|]. rewrite !move_list_zero, IH. reflexivity. Qed.

Lemma bump_is_move ls : forall j q t P, nth_error (net_parameters ls) j = Some P -> (q < length P)%nat -> bump_param ls j q t = move ls (unit_dir j q) t.
Proof.
  induction ls as [|[[[o W] b] F] ls IH]; intros j q t P E Hq; [destruct j; discriminate|].
  destruct j as [|[|j]]; cbn [net_parameters nth_error] in E.
  - injection E as <-. cbn [bump_param move]. unfold unit_dir. cbn. rewrite move_list_at, move_list_zero, move_no_dir by auto. reflexivity.
  - injection E as <-. cbn [bump_param move]. unfold unit_dir. cbn. rewrite move_list_at, move_list_zero, move_no_dir by auto. reflexivity.
  - cbn [bump_param move]. rewrite (IH j q t P E Hq). unfold unit_dir. cbn. rewrite !move_list_zero. reflexivity.
Qed.

Lemma move_params ls : forall V t j, nth_error (net_parameters (move ls V t)) j = option_map (fun P => move_list P (V j) t) (nth_error (net_parameters ls) j).
Proof.
  induction ls as [|[[[o W] b] F] ls IH]; intros V t j; [destruct j; reflexivity|].
  destruct j as [|[|j]]; cbn [move net_parameters nth_error option_map]; [reflexivity|reflexivity|]. exact (IH (fun j => V (S (S j))) t j).
Qed.
Lemma move_layers ls : forall V t, map (fun '(o, _, _, F) => (o, F)) (move ls V t) = map (fun '(o, _, _, F) => (o, F)) ls.
Proof. induction ls as [|[[[o W] b] F] ls IH]; intros V t; cbn [move map]; [reflexivity|]. f_equal. apply IH. Qed.

Lemma move_lengths ls : forall V t, map (@length R) (net_parameters (move ls V t)) = map (@length R) (net_parameters ls).
Proof. induction ls as [|[[[o W] b] F] ls IH]; intros V t; cbn [move net_parameters map]; [reflexivity|]. rewrite !move_length, IH. reflexivity. Qed.

(** ** A gradient step moves against the gradient *)
Lemma gd_step_moves step n i X Y ls ls' g V : is_gradient n i X Y ls g ->
  (forall j P q, nth_error (net_parameters ls) j = Some P -> (q < length P)%nat -> V j q = - g j q) ->
  gd_step step n i X Y ls ls' -> ls' = move ls V step.
Proof.
  intros HG HV GD. apply (gd_step_det step n i X Y ls); [exact GD|]. split; [apply move_layers|]. split; [apply move_lengths|].
  intros j P P' E E' q Hq. exists (g j q). split; [apply (HG j P); auto|].
  rewrite move_params, E in E'. cbn in E'. injection E' as <-. rewrite move_nth. unfold inside. rewrite (proj2 (Nat.ltb_lt q (length P))) by auto.
  rewrite (HV j P) by auto. ring.
Qed.

Lemma linear1_zero A : linear1 A -> A (fun _ _ => 0) = 0.
Proof.
  intros [EX LI]. pose proof (LI (-1) (fun _ _ => 0) (fun _ _ => 0)) as H.
  rewrite (EX _ (fun _ _ => 0)) in H by (intros; ring). lra.
Qed.
Lemma linear1_sum A n c (W : nat -> direction) : linear1 A ->
  A (fun j q => sumn n (fun a => c a * W a j q)) = sumn n (fun a => c a * A (W a)).
Proof.
  intros HL. destruct HL as [EX LI]. induction n as [|n IH].
  - rewrite sum_0. rewrite (EX _ (fun _ _ => 0)) by reflexivity. apply linear1_zero. split; auto.
  - rewrite sum_S, <- IH. rewrite (EX _ (fun j q => c n * W n j q + sumn n (fun a => c a * W a j q))) by (intros; rewrite sum_S; ring).
    rewrite LI. ring.
Qed.

Lemma unit_sum J (L : nat -> nat) g j q : (j < J)%nat -> (q < L j)%nat ->
  sumn J (fun a => 1 * sumn (L a) (fun b => g a b * unit_dir a b j q)) = g j q.
Proof.
  intros HJ HL. rewrite (sum_ext J _ (fun a => if (a =? j)%nat then g j q else 0)); [apply (sum_delta J j (fun _ => g j q)); auto|].
  intros a Ha. destruct (Nat.eqb_spec a j) as [->|Hn].
  - rewrite Rmult_1_l. rewrite (sum_ext (L j) _ (fun b => if (b =? q)%nat then g j b else 0)); [apply (sum_delta (L j) q (g j)); auto|].
    intros b Hb. unfold unit_dir. rewrite Nat.eqb_refl, (Nat.eqb_sym q b). destruct (b =? q)%nat; ring.
  - rewrite Rmult_1_l. apply sum_zero. intros b Hb. unfold unit_dir. destruct (Nat.eqb_spec j a); [congruence|ring].
Qed.

Lemma step_derivative ls n i X Y g : smooth n i ls X Y -> is_gradient n i X Y ls g ->
  exists V, (forall j P q, nth_error (net_parameters ls) j = Some P -> (q < length P)%nat -> V j q = - g j q) /\
    D (fun t => net_loss n i (move ls V t) X Y) (- norm2 ls g).
Proof.
  intros HS HG. destruct (loss_derivative ls n i X Y HS) as (A & LA & HA).
  pose (J := length (net_parameters ls)). pose (L := fun j => length (nth j (net_parameters ls) [])).
  assert (HU : forall a b, (a < J)%nat -> (b < L a)%nat -> A (unit_dir a b) = g a b).
  { intros a b Ha Hb. assert (E : nth_error (net_parameters ls) a = Some (nth a (net_parameters ls) [])) by (apply nth_error_nth'; auto).
    eapply uniqueness_limite; [apply HA|]. apply (D_ext (fun t => net_loss n i (bump_param ls a b t) X Y)).
    - intros t. rewrite (bump_is_move ls a b t _ E) by auto. reflexivity.
    - apply (HG a _ b E Hb). }
  exists (fun j q => sumn J (fun a => 1 * sumn (L a) (fun b => - g a b * unit_dir a b j q))). split.
  - intros j P q E Hq. apply (unit_sum J L (fun a b => - g a b)).
    + apply nth_error_Some. rewrite E. discriminate.
    + unfold L. rewrite (nth_error_nth _ _ [] E). auto.
  - match goal with |- D (fun t => net_loss n i (move ls ?V t) X Y) _ => pose proof (HA V) as P end.
    rewrite (linear1_sum A J (fun _ => 1) (fun a j q => sumn (L a) (fun b => - g a b * unit_dir a b j q)) LA) in P.
    apply (eq_ind _ (fun d => D _ d) P). unfold norm2. fold J.
    transitivity (sumn J (fun j => -1 * sumn (L j) (fun q => g j q * g j q) + 0)).
    + apply sum_ext. intros a Ha. rewrite (linear1_sum A (L a) (fun b => - g a b) (unit_dir a) LA).
      rewrite (sum_ext (L a) _ (fun b => -1 * (g a b * g a b) + 0)); [rewrite sum_lin, (sum_zero _ (fun _ => 0)) by reflexivity; ring|].
      intros b Hb. rewrite HU by auto. ring.
    + rewrite sum_lin, (sum_zero _ (fun _ => 0)) by reflexivity. fold (L : nat -> nat). unfold L. ring.
Qed.

Lemma move_0 ls V : move ls V 0 = ls.
Proof.
  revert V. induction ls as [|[[[o W] b] F] ls IH]; intros V; cbn [move]; [reflexivity|].
  rewrite IH. f_equal. f_equal. f_equal; [f_equal|]; apply (nth_ext _ _ 0 0); try apply move_length; intros; apply move_zero.
Qed.

(** The first-order effect of a step of size [step] is [- step * norm2]. *)
Lemma gd_first_order ls n i X Y g : smooth n i ls X Y -> is_gradient n i X Y ls g ->
  forall eps, 0 < eps -> exists delta, 0 < delta /\ forall step ls', step <> 0 -> Rabs step < delta -> gd_step step n i X Y ls ls' ->
    Rabs ((net_loss n i ls' X Y - net_loss n i ls X Y) / step + norm2 ls g) < eps.
Proof.
  intros HS HG eps He. destruct (step_derivative ls n i X Y g HS HG) as (V & HV & HD). destruct (HD eps He) as [delta Hd].
  exists delta. split; [apply cond_pos|]. intros step ls' Hs Hl GD. rewrite (gd_step_moves step n i X Y ls ls' g V HG HV GD).
  specialize (Hd step Hs Hl). rewrite Rplus_0_l, move_0 in Hd. replace (_ + norm2 ls g) with ((net_loss n i (move ls V step) X Y - net_loss n i ls X Y) / step - - norm2 ls g) by ring. exact Hd.
Qed.

Lemma norm2_pos ls g j P q : nth_error (net_parameters ls) j = Some P -> (q < length P)%nat -> g j q <> 0 -> 0 < norm2 ls g.
Proof.
  intros E Hq Hg. unfold norm2. assert (SQ : forall x, 0 <= x * x) by (intros; apply Rle_0_sqr).
  assert (HJ : (j < length (net_parameters ls))%nat) by (apply nth_error_Some; rewrite E; discriminate).
  apply Rlt_le_trans with (g j q * g j q); [pose proof (Rsqr_pos_lt _ Hg); auto|].
  apply Rle_trans with (sumn (length (nth j (net_parameters ls) [])) (fun q => g j q * g j q)).
  - apply (sum_ge _ (fun q => g j q * g j q)); [intros; apply SQ|]. rewrite (nth_error_nth _ _ [] E). auto.
  - apply (sum_ge _ (fun j => sumn (length (nth j (net_parameters ls) [])) (fun q => g j q * g j q))); auto.
    intros k _. apply sum_nonneg. intros; apply SQ.
Qed.

(** Every smooth loss has a gradient. *)
Lemma gradient_exists ls n i X Y : smooth n i ls X Y -> exists g, is_gradient n i X Y ls g.
Proof.
  intros HS. destruct (loss_derivative ls n i X Y HS) as (A & LA & HA). exists (fun j q => A (unit_dir j q)).
  intros j P q E Hq. apply (D_ext (fun t => net_loss n i (move ls (unit_dir j q) t) X Y)); [intros t; rewrite (bump_is_move ls j q t P E Hq); reflexivity|apply HA].
Qed.

Lemma gd_decreases ls n i X Y g : smooth n i ls X Y -> is_gradient n i X Y ls g -> 0 < norm2 ls g ->
  exists delta, 0 < delta /\ forall step ls', 0 < step < delta -> gd_step step n i X Y ls ls' ->
    net_loss n i ls' X Y < net_loss n i ls X Y - step * (norm2 ls g / 2).
Proof.
  intros HS HG HN. destruct (gd_first_order ls n i X Y g HS HG (norm2 ls g / 2) ltac:(lra)) as (delta & Hd & H).
  exists delta. split; [auto|]. intros step ls' [H1 H2] GD. specialize (H step ls' ltac:(lra) ltac:(rewrite Rabs_right; lra) GD).
  apply Rabs_def2 in H as [H _]. set (a := net_loss n i ls' X Y) in *. set (b := net_loss n i ls X Y) in *.
  assert (E : (a - b) / step < - (norm2 ls g / 2)) by lra. apply (Rmult_lt_compat_l step) in E; [|auto].
  replace (step * ((a - b) / step)) with (a - b) in E by (field; lra). lra.
Qed.

(** ** The loss the code computes is [net_loss] *)
Lemma loss_computed h data m i ls x y n : ready h data m i ls -> In x data -> In y data -> shape (vof (nodes h) x) = [n; i] ->
  shape (vof (nodes h) y) = [n; net_out i (outputs ls)] -> (0 < n)%nat ->
  computes_loss m h x y (net_loss n i ls (entries i (array (vof (nodes h) x))) (entries (net_out i (outputs ls)) (array (vof (nodes h) y)))).
Proof.
  intros RD Hx Hy Sx Sy Hn. destruct RD as [HI HN HM HG NP ND HP HK HU HD HNG].
  set (co := net_out i (outputs ls)) in *.
  assert (HF : fine h) by (split; [split; [exact HI|split; assumption]|exact HG]).
  assert (Lt : forall q, In q (data ++ mlp_params m) -> (q < length (nodes h))%nat) by (intros q Hq; apply plain_lt; auto).
  assert (Lx : (x < length (nodes h))%nat) by (apply Lt, in_or_app; auto). assert (Ly : (y < length (nodes h))%nat) by (apply Lt, in_or_app; auto).
  assert (LP := params_lt (nodes h) m (fun p Hp => Lt p (in_or_app _ _ _ (or_intror Hp)))).
  assert (Wf : forall q, (q < length (nodes h))%nat -> wf (vof (nodes h) q)) by (intros q Hq; destruct (hget_vof h q Hq) as (nd & En & <-); exact (hget_wf h q nd HI En)).
  destruct (mlp_succeeds m ls h i x n NP HI Lx LP Sx Hn) as (h1 & res & E1).
  pose proof (mlp_fine m ls h i x n h1 res NP HF Lx LP Sx E1) as F1.
  destruct (mlp_run m (map snd ls) h x h1 res (net_params_acts _ _ _ _ NP) HI Lx E1) as (G1 & L1 & NN1). rewrite (layers_eq _ _ _ _ NP) in NN1.
  pose proof (extends_length _ _ (proj1 (proj2 G1))) as X1.
  assert (OK : forall h0, fine h0 -> forall n0 k ins, (length (nodes h) <= n0)%nat -> fn_of (nodes h0) n0 = Some (k, ins) -> opspec k (map (vof (nodes h0)) ins) (vof (nodes h0) n0)).
  { intros h0 ((I0 & N0 & M0) & _) n0 k ins _ Ef. assert (HG0 : graph_ok (nodes h0)) by (apply graph_ok_of; auto; apply I0). apply (op_ok _ HG0 n0 k ins Ef). }
  assert (VX : forall q, (q < length (nodes h))%nat -> vof (nodes h1) q = vof (nodes h) q) by (intros q Hq; apply (vof_ext h h1); [apply G1|auto]).
  assert (NP1 : net_params (vof (nodes h1)) i m ls) by (eapply net_params_ext; [apply G1|exact LP|exact NP]).
  destruct (net_value (nodes h1) _ (vof (nodes h1)) (OK h1 F1) m ls i n x res NP1 NN1) as (Sr & Wr & Vr); [rewrite VX; auto..|].
  fold (outputs ls) in Sr, Vr. fold co in Sr, Vr.
  assert (PP : positive [n; co]) by (destruct F1 as ((_ & N1 & _) & _); rewrite <- Sr; apply N1; auto).
  destruct (sub_succeeds h1 res y (proj1 G1) L1 ltac:(lia)) as (h2 & diff & E2); [rewrite Sr; exact PP|rewrite Sr, VX by auto; auto|].
  pose proof (fine_sub _ _ _ _ _ F1 E2) as F2. destruct (made_grew _ _ _ _ (made_sub h1 res y (proj1 G1)) E2) as [G2 L2]. pose proof (extends_length _ _ (proj1 (proj2 G2))) as X2.
  destruct (sub_run h1 res y h2 diff E2) as (ny & K1 & K2 & K3 & K4).
  destruct (act_succeeds op_abs _ h2 diff act_abs (proj1 G2) ltac:(lia)) as (h3 & ab & E3); [destruct F2 as ((_ & N2 & _) & _); apply N2; lia|].
  pose proof (fine_abs _ _ _ _ F2 E3) as F3. destruct (made_grew _ _ _ _ (made_abs h2 diff (proj1 G2)) E3) as [G3 L3]. pose proof (extends_length _ _ (proj1 (proj2 G3))) as X3.
  assert (K5 : fn_of (nodes h3) ab = Some (KAbs, [diff])).
  { unfold op_abs in E3. apply bind_Ret_inv in E3 as (a & _ & E3). apply bind_Ret_inv in E3 as (t & _ & E3). apply Ret_inj in E3. unfold alloc in E3. injection E3 as <- <-.
    unfold fn_of. cbn [nodes]. rewrite nth_error_app2, Nat.sub_diag by auto. reflexivity. }
  destruct (op_sum h3 ab) as [[h4 loss]| |] eqn:E4; [|exfalso; unfold op_sum in E4; destruct (hget_vof h3 ab ltac:(lia)) as (nd & En & _); rewrite En in E4; discriminate E4..].
  pose proof (fine_sum _ _ _ _ F3 E4) as F4. destruct (made_grew _ _ _ _ (made_sum h3 ab (proj1 G3)) E4) as [G4 L4]. pose proof (extends_length _ _ (proj1 (proj2 G4))) as X4.
  assert (K6 : fn_of (nodes h4) loss = Some (KSum, [ab])).
  { unfold op_sum in E4. apply bind_Ret_inv in E4 as (a & _ & E4). apply bind_Ret_inv in E4 as (t & _ & E4). apply Ret_inj in E4. unfold alloc in E4. injection E4 as <- <-.
    unfold fn_of. cbn [nodes]. rewrite nth_error_app2, Nat.sub_diag by auto. reflexivity. }
  assert (G : grew h h4) by (eapply grew_trans; [exact G1|eapply grew_trans; [exact G2|eapply grew_trans; [exact G3|exact G4]]]).
  assert (G14 : extends h1 h4) by (eapply extends_trans; [apply G2|eapply extends_trans; [apply G3|apply G4]]).
  assert (G24 : extends h2 h4) by (eapply extends_trans; [apply G3|apply G4]).
  assert (LN : lossnode (nodes h4) (length (nodes h)) res y loss).
  { exists ny, diff, ab. split; [lia|]. split; [eapply fn_ext; [exact G24|exact K2]|]. split; [lia|]. split; [eapply fn_ext; [exact G24|exact K4]|]. split; [lia|].
    split; [eapply fn_ext; [apply G4|exact K5]|]. split; [lia|exact K6]. }
  assert (NN : netnode (nodes h4) (length (nodes h)) (layers m ls) x res) by (eapply netnode_ext; [exact G14|exact NN1]).
  assert (V4 : forall q, (q < length (nodes h))%nat -> vof (nodes h4) q = vof (nodes h) q) by (intros q Hq; apply (vof_ext h h4); [apply G|auto]).
  assert (NP4 : net_params (vof (nodes h4)) i m ls) by (eapply net_params_ext; [apply G|exact LP|exact NP]).
  exists h4, loss. split; [unfold loss_run; rewrite E1; cbn [bind]; rewrite E2; cbn [bind]; rewrite E3; cbn [bind]; exact E4|].
  pose proof (OK h4 F4 loss _ _ ltac:(lia) K6) as O6. cbn [map] in O6. apply sum_inv in O6.
  pose proof (round_loss (nodes h4) (length (nodes h)) (vof (nodes h4)) m ls i x y n res loss (OK h4 F4) NP4 NN LN) as RL.
  rewrite !V4 in RL by auto. specialize (RL (Wf x Lx) Sx Sy). rewrite O6 in RL |- *. cbn [array raw_scalar nth] in RL. rewrite RL. reflexivity.
Qed.

(** ** A small step of the training loop decreases the loss *)
Lemma computes_loss_det m h x y v w : computes_loss m h x y v -> computes_loss m h x y w -> v = w.
Proof.
  intros (h1 & l1 & E1 & V1) (h2 & l2 & E2 & V2). rewrite E1 in E2. apply Ret_inj in E2. injection E2 as <- <-. rewrite V1 in V2. injection V2 as V2. exact V2.
Qed.

Lemma loss_after step h data m i ls x y n : ready h data m i ls -> In x data -> In y data ->
  let X := entries i (array (vof (nodes h) x)) in
  let Y := entries (net_out i (outputs ls)) (array (vof (nodes h) y)) in
  shape (vof (nodes h) x) = [n; i] -> shape (vof (nodes h) y) = [n; net_out i (outputs ls)] -> (0 < n)%nat ->
  small_net n i ls -> smooth n i ls X Y ->
  exists h' m' ls', train_step m (raw_scalar step) h x y = Ret (h', m') /\ gd_step step n i X Y ls ls' /\
    computes_loss m' h' x y (net_loss n i ls' X Y).
Proof.
  intros RD Hx Hy X Y Sx Sy Hn SM SMO.
  destruct (round_ok step h data m i ls x y n RD Hx Hy Sx Sy Hn SM SMO) as (h' & m' & ls' & E & RD' & EX & GD).
  exists h', m', ls'. split; [exact E|]. split; [exact GD|].
  assert (EO : outputs ls' = outputs ls).
  { destruct GD as [GD _]. unfold outputs. apply (f_equal (map fst)) in GD. rewrite !map_map in GD.
    etransitivity; [|etransitivity; [exact GD|]]; apply map_ext; intros [[[? ?] ?] ?]; reflexivity. }
  assert (Lt : forall q, In q data -> (q < length (nodes h))%nat) by (intros q Hq; apply plain_lt, (rd_plain _ _ _ _ _ RD), in_or_app; auto).
  pose proof (vof_ext h h' x EX (Lt x Hx)) as Vx. pose proof (vof_ext h h' y EX (Lt y Hy)) as Vy.
  pose proof (loss_computed h' data m' i ls' x y n RD' Hx Hy) as L. rewrite EO, Vx, Vy in L. exact (L Sx Sy Hn).
Qed.

Lemma round_first_order h data m i ls x y n g : ready h data m i ls -> In x data -> In y data ->
  let X := entries i (array (vof (nodes h) x)) in
  let Y := entries (net_out i (outputs ls)) (array (vof (nodes h) y)) in
  shape (vof (nodes h) x) = [n; i] -> shape (vof (nodes h) y) = [n; net_out i (outputs ls)] -> (0 < n)%nat ->
  small_net n i ls -> smooth n i ls X Y -> is_gradient n i X Y ls g ->
  forall eps, 0 < eps -> exists delta, 0 < delta /\ forall step, step <> 0 -> Rabs step < delta ->
    exists h' m' before after, train_step m (raw_scalar step) h x y = Ret (h', m') /\
      computes_loss m h x y before /\ computes_loss m' h' x y after /\ Rabs ((after - before) / step + norm2 ls g) < eps.
Proof.
  intros RD Hx Hy X Y Sx Sy Hn SM SMO HG eps He. destruct (gd_first_order ls n i X Y g SMO HG eps He) as (delta & Hd & H).
  exists delta. split; [exact Hd|]. intros step Hs Hl.
  destruct (loss_after step h data m i ls x y n RD Hx Hy Sx Sy Hn SM SMO) as (h' & m' & ls' & E & GD & L).
  exists h', m', (net_loss n i ls X Y), (net_loss n i ls' X Y). split; [exact E|].
  split; [exact (loss_computed h data m i ls x y n RD Hx Hy Sx Sy Hn)|]. split; [exact L|]. apply H; auto.
Qed.

Lemma round_decreases h data m i ls x y n g : ready h data m i ls -> In x data -> In y data ->
  let X := entries i (array (vof (nodes h) x)) in
  let Y := entries (net_out i (outputs ls)) (array (vof (nodes h) y)) in
  shape (vof (nodes h) x) = [n; i] -> shape (vof (nodes h) y) = [n; net_out i (outputs ls)] -> (0 < n)%nat ->
  small_net n i ls -> smooth n i ls X Y -> is_gradient n i X Y ls g -> 0 < norm2 ls g ->
  exists delta, 0 < delta /\ forall step, 0 < step < delta ->
    exists h' m' before after, train_step m (raw_scalar step) h x y = Ret (h', m') /\
      computes_loss m h x y before /\ computes_loss m' h' x y after /\ after < before - step * (norm2 ls g / 2).
Proof.
  intros RD Hx Hy X Y Sx Sy Hn SM SMO HG HN. destruct (gd_decreases ls n i X Y g SMO HG HN) as (delta & Hd & H).
  exists delta. split; [exact Hd|]. intros step Hs.
  destruct (loss_after step h data m i ls x y n RD Hx Hy Sx Sy Hn SM SMO) as (h' & m' & ls' & E & GD & L).
  exists h', m', (net_loss n i ls X Y), (net_loss n i ls' X Y). split; [exact E|].
  split; [exact (loss_computed h data m i ls x y n RD Hx Hy Sx Sy Hn)|]. split; [exact L|]. apply H; auto.
Qed.
