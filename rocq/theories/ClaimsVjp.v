(** * ClaimsVjp: proofs of C32, C33 *)
From Coq Require Import ZArith Ring.
From Verif Require Import Base ModelIndex ModelTensor ModelOps ModelJvp ModelGraph Spec SpecDual SpecGraph
  Lists IndexFacts TensorFacts OpsFacts Sums JvpFacts Dual ClaimsMat Adjoint GradRing FuelFacts GraphFacts ProgFacts BackFacts ClaimsGraph Instances.

(** ** C32 *)

(** C32 is false without restrictions: with 33 entries the gradients of [bmm] are in the wrong places. *)
Lemma c32_rules_exact_refuted :
  ~ (forall (T : Type) (NT : Num T), is_ring T -> forall (k : opk) (xs : list (raw T)) (y G : raw T) (d0 : nat),
       k <> KSum -> fwd k xs = Ret y -> Forall (fun x => wf x /\ positive (shape x)) xs ->
       (k = KBmm -> Forall (fun x => length (shape x) = 2) xs) ->
       wf G -> 0 < d0 -> shape G = [d0; size (shape y)] ->
       exists gs, jvp k xs [G] = Ret gs /\
         forall ds, Forall2 tangent xs ds ->
           exists dy, fwd_dual k xs ds = Ret (dual y dy) /\ tangent y dy /\ forall r, r < d0 -> total gs r ds = rhs G r dy).
Proof.
  intros H.
  pose (a := mkRaw (repeat 0%Z 33) [1; 33]). pose (b := mkRaw (repeat 0%Z 32 ++ [1%Z]) [33; 1]).
  destruct (H Z ZNum Z_is_ring KBmm [a; b] (mkRaw [0%Z] [1; 1]) (mkRaw [1%Z] [1; 1]) 1) as (gs & E & Q);
    [discriminate|vm_compute; reflexivity|repeat constructor|repeat constructor|reflexivity|lia|reflexivity|].
  vm_compute in E. injection E as <-.
  destruct (Q [mkRaw (1 :: repeat 0 32)%Z [1; 33]; mkRaw (repeat 0%Z 33) [33; 1]]) as (dy & Ed & Td & Er); [repeat constructor|].
  specialize (Er 0 ltac:(lia)). destruct dy as [arr sd]. destruct Td as [W Es]. cbn [shape] in Es. subst sd. unfold wf in W. cbn in W.
  destruct arr as [|d [|]]; try discriminate W. vm_compute in Ed. injection Ed as <-. vm_compute in Er. discriminate Er.
Qed.
Example c32_rules_exact_refuted_ex :
  jvp KBmm [mkRaw (repeat 0%Z 33) [1; 33]; mkRaw (repeat 0%Z 32 ++ [1%Z]) [33; 1]] [mkRaw [1%Z] [1; 1]] =
  Ret [mkRaw (1 :: repeat 0 32)%Z [1; 33]; mkRaw (repeat 0%Z 33) [1; 33]].
Proof. vm_compute. reflexivity. Qed.

(** C32, where it holds ([vjp_ok] of SpecDual.v): [abs] and [bmm] are given a matrix, [bmm]'s gradients have
    at most 32 entries, [tanh] of one element is given one row, [sum] is given 1.  The Jacobian is the one
    dual numbers compute. *)
Lemma c32_rules_exact :
  forall (T : Type) (NT : Num T), is_ring T -> forall (k : opk) (xs : list (raw T)) (y G : raw T) (d0 : nat),
    fwd k xs = Ret y -> Forall (fun x => wf x /\ positive (shape x)) xs ->
    (k = KBmm -> Forall (fun x => length (shape x) = 2) xs) ->
    grad_rows G d0 (size (shape y)) -> vjp_ok k xs G d0 ->
    exists gs, jvp k xs [G] = Ret gs /\ matrices gs xs d0 /\
      forall ds, Forall2 tangent xs ds ->
        exists dy, fwd_dual k xs ds = Ret (dual y dy) /\ tangent y dy /\
          forall r, r < d0 -> total gs r ds = rhs G r dy.
Proof.
  intros T NT RT k xs y G d0 E HX HB HG HV.
  assert (O : opspec k xs y) by (apply fwd_opspec; auto; destruct k; cbn; auto).
  destruct (adjoint RT k xs y G d0 O HG HV) as (gs & Ej & HM & Ht). exists gs. split; [exact Ej|]. split; [exact HM|].
  intros ds HD. exists (tan k xs ds). split; [apply fwd_dual_ok; auto|]. split; [apply (tan_tangent _ _ _ _ O); auto|].
  intros r Hr. apply Ht; auto.
Qed.
Example c32_rules_exact_ex :
  jvp KAdd [mkRaw [1; 2; 3; 4]%Z [2; 2]; mkRaw [5; 6]%Z [2]] [mkRaw [1; 2; 3; 4; 5; 6; 7; 8]%Z [2; 4]] =
  Ret [mkRaw [1; 2; 3; 4; 5; 6; 7; 8]%Z [2; 4]; mkRaw [4; 6; 12; 14]%Z [2; 2]] /\
  vjp_ok KAdd [mkRaw [1; 2; 3; 4]%Z [2; 2]; mkRaw [5; 6]%Z [2]] (mkRaw [1; 2; 3; 4; 5; 6; 7; 8]%Z [2; 4]) 2.
Proof. split; [vm_compute; reflexivity|exact I]. Qed.

(** The rule of [dot], which is only exact for a rank-0 incoming gradient and returns its results in the
    operands' shapes *)
Lemma c32_dot_rule :
  forall (T : Type) (NT : Num T), is_ring T -> forall (a b y : raw T) (c : T),
    fwd KDot [a; b] = Ret y -> wf a -> wf b -> positive (shape a) -> positive (shape b) ->
    exists ga gb, jvp KDot [a; b] [raw_scalar c] = Ret [ga; gb] /\
      wf ga /\ shape ga = shape a /\ wf gb /\ shape gb = shape b /\
      forall da db, tangent a da -> tangent b db ->
        exists dy, fwd_dual KDot [a; b] [da; db] = Ret (dual y dy) /\ tangent y dy /\
          n_add (sumn (size (shape a)) (fun p => n_mul (nth p (array ga) n_zero) (nth p (array da) n_zero)))
                (sumn (size (shape b)) (fun p => n_mul (nth p (array gb) n_zero) (nth p (array db) n_zero))) =
          n_mul c (nth 0 (array dy) n_zero).
Proof.
  intros T NT RT a b y c E Wa Wb Pa Pb. assert (O : opspec KDot [a; b] y) by (apply fwd_opspec; cbn; auto).
  assert (Sab : shape a = shape b) by (inversion O; auto).
  destruct (adjoint_dot RT a b c y O) as [Ej Ht]. eexists _, _. split; [exact Ej|].
  split; [apply tabulate_wf|]. split; [cbn; auto|]. split; [apply tabulate_wf|]. split; [cbn; auto|].
  intros da db Ta Tb. assert (HD : Forall2 tangent [a; b] [da; db]) by (constructor; [exact Ta|]; constructor; [exact Tb|constructor]).
  exists (tan KDot [a; b] [da; db]). split; [apply fwd_dual_ok; auto|]. split; [apply (tan_tangent _ _ _ _ O); auto|].
  rewrite <- (Ht da db Ta Tb). destruct Ta as [W1 S1], Tb as [W2 S2]. unfold wf in W1, W2. rewrite W1, W2, S1, S2. reflexivity.
Qed.
Example c32_dot_rule_ex :
  jvp KDot [mkRaw [1; 2]%Z [2]; mkRaw [5; 6]%Z [2]] [raw_scalar 3%Z] = Ret [mkRaw [15; 18]%Z [2]; mkRaw [3; 6]%Z [2]].
Proof. reflexivity. Qed.

(** ** C33 *)

Section Bmm.
Context {T : Type} {NT : Num T}.

Lemma compute_jvp_leaves f (ns : list (node T)) k i j ni nj G g g' gr :
  i <> j -> nth_error ns i = Some ni -> nth_error ns j = Some nj -> n_fn ni = None -> n_fn nj = None ->
  jvp k [n_val ni; n_val nj] [G] = Ret [g; g'] ->
  length (array g) = length (array (n_val ni)) -> length (array g') = length (array (n_val nj)) ->
  wf (n_val ni) -> wf (n_val nj) -> gr i = None -> gr j = None ->
  exists gr', compute_jvp (S f) ns k [i; j] [G] gr = Ret gr' /\
    gr' i = Some (mkRaw (array g) (shape (n_val ni))) /\ gr' j = Some (mkRaw (array g') (shape (n_val nj))).
Proof.
  intros Hne Ei Ej Fi Fj E Li Lj Wi Wj Gi Gj. cbn [compute_jvp mapM]. rewrite (vindex_some _ _ _ _ Ei), (vindex_some _ _ _ _ Ej). cbn [bind map].
  rewrite E. cbn [bind combine foldM]. rewrite Li, Nat.eqb_refl. cbn [assert bind]. rewrite raw_new_ok by (rewrite Li; exact Wi). cbn [bind].
  unfold update_grad at 1. rewrite Gi. cbn [bind]. rewrite Fi. cbn [bind]. rewrite Lj, Nat.eqb_refl. cbn [assert bind]. rewrite raw_new_ok by (rewrite Lj; exact Wj). cbn [bind].
  unfold update_grad at 1. rewrite upd_other by auto. rewrite Gj. cbn [bind]. rewrite Fj. cbn [bind]. eexists. split; [reflexivity|]. split.
  - rewrite upd_other by auto. apply upd_same.
  - apply upd_same.
Qed.
End Bmm.

Lemma bmm_sum_backward (T : Type) (NT : Num T) (a b : list T) (n k m : nat) (gs : list (raw T)) (ga gb : raw T) :
  length a = n * k -> length b = k * m -> 0 < n -> 0 < k -> 0 < m ->
  bmm_jvp [mkRaw a [n; k]; mkRaw b [k; m]] [tabulate [1; n * m] (fun _ => n_one)] = Ret [ga; gb] ->
  length (array ga) = n * k -> length (array gb) = k * m ->
  exists s', run [CNew a [n; k]; CNew b [k; m]; CBmm 0 1; CSum 2; CBackward 3] init_state = Ret s' /\
    var_grad s' 0 = Some (mkRaw (array ga) [n; k]) /\ var_grad s' 1 = Some (mkRaw (array gb) [k; m]).
Proof.
  intros La Lb Hn Hk Hm EJ Lga Lgb.
  assert (Wa : wf (mkRaw a [n; k])) by (unfold wf; cbn; lia).
  assert (Wb : wf (mkRaw b [k; m])) by (unfold wf; cbn; lia).
  pose (y := tabulate [n; m] (fun i => sumn k (fun t => n_mul (tval (mkRaw a [n; k]) [ix 0 i; t]) (tval (mkRaw b [k; m]) [t; ix 1 i])))).
  assert (O : opspec KBmm [mkRaw a [n; k]; mkRaw b [k; m]] y) by (apply os_bmm; auto; repeat constructor; auto).
  apply opspec_fwd in O. cbn [fwd] in O.
  set (x0 := mkNode (mkRaw a [n; k]) None). set (x1 := mkNode (mkRaw b [k; m]) None). set (x2 := mkNode y (Some (KBmm, [0; 1]))).
  set (x3 := mkNode (raw_scalar (lsum (array y))) (Some (KSum, [2]))).
  set (gr := upd (upd (upd (upd (fun _ => None) 0 None) 1 None) 2 None) 3 (Some (raw_filler (shape y) (n_one : T)))).
  assert (ER : run [CNew a [n; k]; CNew b [k; m]; CBmm 0 1; CSum 2; CBackward 3] init_state = exec (mkState (mkHeap [x0; x1; x2; x3] gr) [0; 1; 2; 3]) (CBackward 3)).
  { unfold run. cbn [foldM]. unfold exec at 1. unfold op_new. rewrite raw_new_ok by (cbn; lia). cbn [bind push alloc init_state hp env nodes grads empty_heap app length].
    unfold exec at 1. unfold op_new. rewrite raw_new_ok by (cbn; lia). cbn [bind push alloc hp env nodes grads app length].
    unfold exec at 1. cbn [hp env]. change (vindex [0; 1] 0) with (Ret 0). change (vindex [0; 1] 1) with (Ret 1). cbn [bind].
    unfold op_bmm, hget. cbn [nodes]. match goal with |- context [vindex ?l 0] => change (vindex l 0) with (Ret x0) end.
    match goal with |- context [vindex ?l 1] => change (vindex l 1) with (Ret x1) end. cbn [bind n_val x0 x1]. rewrite O. cbn [bind push alloc nodes grads app length env].
    unfold exec at 1. cbn [hp env]. change (vindex [0; 1; 2] 2) with (Ret 2). cbn [bind]. unfold op_sum, hget. cbn [nodes].
    match goal with |- context [vindex ?l 2] => change (vindex l 2) with (Ret x2) end. cbn [bind n_val x2 tl_sum push alloc nodes grads app length env].
    destruct (exec _ _); reflexivity. }
  rewrite ER. unfold exec. cbn [hp env]. change (vindex [0; 1; 2; 3] 3) with (Ret 3). cbn [bind].
  assert (Sy : size (shape (n_val x2)) = n * m) by (cbn; lia).
  assert (Wy : wf (n_val x2)) by apply tabulate_wf.
  assert (E : exists gr', compute_jvp 5 [x0; x1; x2; x3] KSum [2] [raw_scalar n_one] gr = Ret gr' /\
     gr' 0 = Some (mkRaw (array ga) [n; k]) /\ gr' 1 = Some (mkRaw (array gb) [k; m])).
  { rewrite (compute_jvp_one 4 [x0; x1; x2; x3] KSum 2 x2 (raw_scalar n_one) _ _ eq_refl (sum_rule (n_val x2) (raw_scalar n_one) 1 (scalar_rows _) eq_refl)).
    - unfold update_grad. change (gr 2) with (@None (raw T)). cbn [bind n_fn x2]. rewrite Sy.
      apply (compute_jvp_leaves 3 [x0; x1; x2; x3] KBmm 0 1 x0 x1 _ ga gb); try reflexivity; auto.
      + rewrite Lga. symmetry. exact La.
      + rewrite Lgb. symmetry. exact Lb.
    - rewrite ones_array, repeat_length. symmetry. exact Wy.
    - exact Wy. }
  destruct E as (gr' & E & E0 & E1).
  rewrite (backward_compute (mkHeap [x0; x1; x2; x3] gr) 3 KSum [2] gr' eq_refl eq_refl E). cbn [bind].
  eexists. split; [reflexivity|]. auto.
Qed.

(** C33, exact: the entries of both gradients are right, but the entry for position [q] of a gradient of [len]
    entries is stored at position [place len q]. *)
Lemma c33_bmm_gradient_shuffled :
  forall (T : Type) (NT : Num T), is_ring T -> forall (a b : list T) (n k m : nat),
    length a = n * k -> length b = k * m -> 0 < n -> 0 < k -> 0 < m ->
    exists (s' : state T) (ga gb : list T),
      run [CNew a [n; k]; CNew b [k; m]; CBmm 0 1; CSum 2; CBackward 3] init_state = Ret s' /\
      var_grad s' 0 = Some (mkRaw ga [n; k]) /\ var_grad s' 1 = Some (mkRaw gb [k; m]) /\
      length ga = n * k /\ length gb = k * m /\
      (forall i t, i < n -> t < k -> nth (place (n * k) (i * k + t)) ga n_zero = sumn m (fun j => nth (t * m + j) b n_zero)) /\
      (forall t j, t < k -> j < m -> nth (place (k * m) (t * m + j)) gb n_zero = sumn n (fun i => nth (i * k + t) a n_zero)).
Proof.
  intros T NT RT a b n k m La Lb Hn Hk Hm.
  assert (Wa : wf (mkRaw a [n; k])) by (unfold wf; cbn; lia).
  assert (Wb : wf (mkRaw b [k; m])) by (unfold wf; cbn; lia).
  destruct (bmm_jvp_ok (mkRaw a [n; k]) (mkRaw b [k; m]) (tabulate [1; n * m] (fun _ => n_one)) n k m 1) as (L & R & E & LL & LR & HL & HR);
    auto; try reflexivity; try apply tabulate_wf.
  rewrite Nat.mul_1_l in LL, LR.
  destruct (bmm_sum_backward T NT a b n k m [] _ _ La Lb Hn Hk Hm E LL LR) as (s' & ER & E0 & E1).
  exists s', L, R. split; [exact ER|]. split; [exact E0|]. split; [exact E1|]. split; [exact LL|]. split; [exact LR|].
  assert (ONE : forall r q, r < 1 -> q < n * m -> tval (tabulate [1; n * m] (fun _ => n_one)) [r; q] = n_one).
  { intros r q Hr Hq. rewrite tval_tabulate; [reflexivity|]. apply in_range_pair; auto. }
  pose (RT' := RT : ring_theory n_zero n_one n_add n_mul n_sub n_neg (@eq T)).
  split.
  - intros i t Hi Ht. specialize (HL 0 i t ltac:(lia) Hi Ht). rewrite Nat.mul_1_l, Nat.mul_0_l, Nat.add_0_l in HL.
    change (place (n * k) (i * k + t)) with (phi width (n * k) (i * k + t)). rewrite HL. apply sumn_ext. intros j Hj.
    rewrite ONE by nia. rewrite (Rmul_1_l RT'). unfold tval. cbn [shape array]. rewrite rm_pair. reflexivity.
  - intros t j Ht Hj. specialize (HR 0 t j ltac:(lia) Ht Hj). rewrite Nat.mul_1_l, Nat.mul_0_l, Nat.add_0_l in HR.
    change (place (k * m) (t * m + j)) with (phi width (k * m) (t * m + j)). rewrite HR. apply sumn_ext. intros i Hi.
    rewrite ONE by nia. rewrite (Rmul_1_l RT'). unfold tval. cbn [shape array]. rewrite rm_pair. reflexivity.
Qed.
Example c33_bmm_gradient_shuffled_ex :
  exists s' : state Z,
    run [CNew (repeat 0%Z 33) [1; 33]; CNew (map Z.of_nat (seq 0 33)) [33; 1]; CBmm 0 1; CSum 2; CBackward 3] init_state = Ret s' /\
    var_grad s' 0 = Some (mkRaw (32%Z :: map Z.of_nat (seq 0 32)) [1; 33]).
Proof. eexists. split; [vm_compute; reflexivity|vm_compute; reflexivity]. Qed.

(** [place len] is a permutation of the positions, and the identity exactly up to 32 entries. *)
Lemma c33_place :
  forall len : nat,
    (forall q, q < len -> place len q < len) /\
    (forall q q', q < len -> q' < len -> place len q = place len q' -> q = q') /\
    ((forall q, q < len -> place len q = q) <-> len <= 32).
Proof.
  intros len. assert (W : 0 < 32) by lia. split; [intros q; apply (phi_lt 32 len q W)|]. split; [intros q q'; apply (phi_inj 32 len q q' W)|].
  split.
  - intros H. destruct (Nat.le_gt_cases len 32) as [|Hgt]; [auto|]. specialize (H 0 ltac:(lia)). unfold place in H.
    rewrite Nat.div_small, Nat.mod_small in H by lia. lia.
  - intros H q Hq. apply (phi_small 32 len q W H Hq).
Qed.
Example c33_place_ex : map (place 40) [0; 7; 8; 31; 32; 39] = [8; 15; 16; 39; 0; 7].
Proof. vm_compute. reflexivity. Qed.

(** Hence C33 holds for gradients of at most 32 entries: *)
Lemma c33_small_matrices :
  forall (T : Type) (NT : Num T), is_ring T -> forall (a b : list T) (n k m : nat),
    length a = n * k -> length b = k * m -> 0 < n -> 0 < k -> 0 < m -> n * k <= 32 -> k * m <= 32 ->
    exists (s' : state T) (ga gb : list T),
      run [CNew a [n; k]; CNew b [k; m]; CBmm 0 1; CSum 2; CBackward 3] init_state = Ret s' /\
      var_grad s' 0 = Some (mkRaw ga [n; k]) /\ var_grad s' 1 = Some (mkRaw gb [k; m]) /\
      (forall i t, i < n -> t < k -> nth (i * k + t) ga n_zero = sumn m (fun j => nth (t * m + j) b n_zero)) /\
      (forall t j, t < k -> j < m -> nth (t * m + j) gb n_zero = sumn n (fun i => nth (i * k + t) a n_zero)).
Proof.
  intros T NT RT a b n k m La Lb Hn Hk Hm H1 H2.
  destruct (c33_bmm_gradient_shuffled T NT RT a b n k m La Lb Hn Hk Hm) as (s' & ga & gb & E & E0 & E1 & _ & _ & HA & HB).
  exists s', ga, gb. split; [exact E|]. split; [exact E0|]. split; [exact E1|]. split.
  - intros i t Hi Ht. rewrite <- (HA i t Hi Ht). f_equal. symmetry. apply c33_place; [exact H1|nia].
  - intros t j Ht Hj. rewrite <- (HB t j Ht Hj). f_equal. symmetry. apply c33_place; [exact H2|nia].
Qed.
Example c33_small_matrices_ex :
  exists s' : state Z,
    run [CNew [1; 2; 3; 4; 5; 6]%Z [2; 3]; CNew [1; 0; 2; 1; 1; 5]%Z [3; 2]; CBmm 0 1; CSum 2; CBackward 3] init_state = Ret s' /\
    var_grad s' 0 = Some (mkRaw [1; 3; 6; 1; 3; 6]%Z [2; 3]) /\ var_grad s' 1 = Some (mkRaw [5; 5; 7; 7; 9; 9]%Z [3; 2]).
Proof. eexists. split; [vm_compute; reflexivity|]. split; reflexivity. Qed.

(** ... and is false in general. *)
Lemma c33_all_sizes_refuted :
  ~ (forall (T : Type) (NT : Num T), is_ring T -> forall (a b : list T) (n k m : nat),
       length a = n * k -> length b = k * m -> 0 < n -> 0 < k -> 0 < m ->
       exists (s' : state T) (ga gb : list T),
         run [CNew a [n; k]; CNew b [k; m]; CBmm 0 1; CSum 2; CBackward 3] init_state = Ret s' /\
         var_grad s' 0 = Some (mkRaw ga [n; k]) /\ var_grad s' 1 = Some (mkRaw gb [k; m]) /\
         (forall i t, i < n -> t < k -> nth (i * k + t) ga n_zero = sumn m (fun j => nth (t * m + j) b n_zero)) /\
         (forall t j, t < k -> j < m -> nth (t * m + j) gb n_zero = sumn n (fun i => nth (i * k + t) a n_zero))).
Proof.
  intros H. destruct (H Z ZNum Z_is_ring (repeat 0%Z 33) (map Z.of_nat (seq 0 33)) 1 33 1) as (s' & ga & gb & E & E0 & _ & HA & _); try reflexivity; try lia.
  destruct c33_bmm_gradient_shuffled_ex as (s2 & F & F0). rewrite F in E. injection E as <-. rewrite F0 in E0. injection E0 as <-.
  specialize (HA 0 0 ltac:(lia) ltac:(lia)). vm_compute in HA. discriminate HA.
Qed.
Example c33_all_sizes_refuted_ex : nth 0 (32%Z :: map Z.of_nat (seq 0 32)) 0%Z <> nth 0 (map Z.of_nat (seq 0 33)) 0%Z.
Proof. vm_compute. discriminate. Qed.
