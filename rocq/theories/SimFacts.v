(** * SimFacts: runs of the same program on other data *)
From Verif Require Import Base ModelIndex ModelTensor ModelOps ModelJvp ModelGraph Spec SpecDual SpecGraph
  Lists IndexFacts TensorFacts OpsFacts Sums JvpFacts Dual ClaimsMat Adjoint GradRing FuelFacts GraphFacts ProgFacts BackFacts ClaimsGraph ClaimsProg GradReal.

Section Sim.
Context {T : Type} {NT : Num T}.
Variable l : nat.

(** The same tensors with the same history and shapes; leaves other than [l] with the same data *)
Definition hsim (h h' : heap T) : Prop :=
  length (nodes h') = length (nodes h) /\
  forall n nd, nth_error (nodes h) n = Some nd ->
    exists nd', nth_error (nodes h') n = Some nd' /\ n_fn nd' = n_fn nd /\ same_form (n_val nd) (n_val nd') /\
      (n_fn nd = None -> n <> l -> n_val nd' = n_val nd).

Lemma hsim_refl h : heap_inv h -> hsim h h.
Proof.
  intros [HR _]. split; [reflexivity|]. intros n nd En. exists nd. split; [exact En|]. split; [reflexivity|]. split; [|auto].
  destruct (HR n nd En) as [W _]. split; [exact W|reflexivity].
Qed.

Lemma alloc_sim h h' v v' fn g g' h1 i1 h2 i2 :
  hsim h h' -> same_form v v' -> (fn = None -> length (nodes h) <> l -> v' = v) ->
  alloc h v fn g = (h1, i1) -> alloc h' v' fn g' = (h2, i2) -> hsim h1 h2 /\ i1 = i2.
Proof.
  intros [HL HN] HF HV E1 E2. unfold alloc in *. injection E1 as <- <-. injection E2 as <- <-. cbn [nodes]. split; [|auto].
  split; cbn [nodes]; [rewrite !app_length, HL; reflexivity|]. intros n nd En.
  destruct (Nat.lt_ge_cases n (length (nodes h))) as [Hlt|Hge].
  - rewrite nth_error_app1 in En by auto. destruct (HN n nd En) as (nd' & E' & Q). exists nd'. split; [|exact Q].
    rewrite nth_error_app1 by (rewrite HL; auto). exact E'.
  - rewrite nth_error_app2 in En by auto. destruct (n - length (nodes h)) as [|q] eqn:Eq; [|destruct q; discriminate]. cbn in En. injection En as <-.
    exists (mkNode v' fn). assert (n = length (nodes h)) by lia. subst n.
    rewrite nth_error_app2 by lia. rewrite HL, Nat.sub_diag. split; [reflexivity|]. cbn. auto.
Qed.

Lemma hget_sim h h' i nd : hsim h h' -> hget h i = Ret nd ->
  exists nd', hget h' i = Ret nd' /\ same_form (n_val nd) (n_val nd').
Proof.
  intros [HL HN] E. destruct (hget_inv h i nd E) as (En & _). destruct (HN i nd En) as (nd' & E' & _ & F & _). exists nd'. split; [|exact F].
  unfold hget. apply vindex_some. exact E'.
Qed.

(** [good h]: what is needed for operations to succeed on other data *)
Definition good (h : heap T) : Prop := heap_inv h /\ nonempty (nodes h) /\ matrices_only (nodes h).

Lemma good_prefix h h1 : good h1 -> heap_inv h -> extends h h1 -> good h.
Proof.
  intros (H1 & H2 & H3) Hi [e X]. split; [exact Hi|]. split.
  - intros n Hn. rewrite <- (vof_app_old _ e) by auto. rewrite <- X. apply H2. rewrite X, app_length. lia.
  - intros n ins Ef. assert (Hn : n < length (nodes h)).
    { unfold fn_of in Ef. destruct (nth_error (nodes h) n) eqn:En; [|discriminate]. apply nth_error_Some. congruence. }
    assert (Hins : Forall (fun i => i < length (nodes h)) ins).
    { unfold fn_of in Ef. destruct (nth_error (nodes h) n) as [nd|] eqn:En; [|discriminate]. destruct (proj1 Hi n nd En) as [_ F].
      destruct (F _ _ Ef) as [Q _]. eapply Forall_impl; [|exact Q]. cbn. intros; lia. }
    assert (Q := H3 n ins). rewrite X, fn_app_old in Q by auto. specialize (Q Ef). rewrite Forall_forall in *. intros i Hin. rewrite <- (vof_app_old _ e) by auto. auto.
Qed.

Lemma input_ok h i nd : good h -> hget h i = Ret nd -> wf (n_val nd) /\ positive (shape (n_val nd)).
Proof.
  intros (H1 & H2 & H3) E. destruct (hget_inv h i nd E) as (En & Hlt & Ev). split; [eapply hget_wf; eauto|]. rewrite <- Ev. apply H2. exact Hlt.
Qed.

Lemma op1_sim k (F : raw T -> outcome (raw T)) (G : node T -> option (raw T)) h h' i h1 i1 :
  (forall a, fwd k [a] = F a) -> k <> KBmm -> good h -> hsim h h' ->
  (let* a := hget h i in let* t := F (n_val a) in Ret (alloc h t (Some (k, [i])) (G a))) = Ret (h1, i1) ->
  exists h2, (let* a := hget h' i in let* t := F (n_val a) in Ret (alloc h' t (Some (k, [i])) (G a))) = Ret (h2, i1) /\ hsim h1 h2.
Proof.
  intros HF HK HG HS E. apply bind_Ret_inv in E as (a & Ea & E). apply bind_Ret_inv in E as (t & Et & E). apply Ret_inj in E.
  destruct (hget_sim h h' i a HS Ea) as (a' & Ea' & FA). rewrite Ea'. cbn [bind].
  destruct (input_ok h i a HG Ea) as [Wa Pa].
  assert (O : opspec k [n_val a] t) by (apply fwd_opspec; [rewrite HF; auto|auto|destruct k; cbn; auto; congruence]).
  destruct (opspec_form k [n_val a] [n_val a'] t O ltac:(auto)) as (t' & O' & FT). apply opspec_fwd in O'. rewrite HF in O'. rewrite O'. cbn [bind].
  destruct (alloc h' t' (Some (k, [i])) (G a')) as [h2 i2] eqn:E2.
  destruct (alloc_sim h h' t t' (Some (k, [i])) (G a) (G a') h1 i1 h2 i2 HS FT ltac:(discriminate) E E2) as [S1 ->]. eauto.
Qed.

Lemma op2_sim k (F : raw T -> raw T -> outcome (raw T)) h h' i j h1 i1 :
  (forall a b, fwd k [a; b] = F a b) -> good h -> (k = KBmm -> good h1) -> hsim h h' ->
  (let* a := hget h i in let* b := hget h j in let* t := F (n_val a) (n_val b) in Ret (alloc h t (Some (k, [i; j])) None)) = Ret (h1, i1) ->
  exists h2, (let* a := hget h' i in let* b := hget h' j in let* t := F (n_val a) (n_val b) in Ret (alloc h' t (Some (k, [i; j])) None)) = Ret (h2, i1) /\ hsim h1 h2.
Proof.
  intros HF HG HG1 HS E. apply bind_Ret_inv in E as (a & Ea & E). apply bind_Ret_inv in E as (b & Eb & E). apply bind_Ret_inv in E as (t & Et & E). apply Ret_inj in E.
  destruct (hget_sim h h' i a HS Ea) as (a' & Ea' & FA). rewrite Ea'. cbn [bind].
  destruct (hget_sim h h' j b HS Eb) as (b' & Eb' & FB). rewrite Eb'. cbn [bind].
  destruct (input_ok h i a HG Ea) as [Wa Pa]. destruct (input_ok h j b HG Eb) as [Wb Pb].
  assert (RK : rank_ok k [n_val a; n_val b]).
  { destruct k; cbn; auto. destruct (HG1 eq_refl) as (_ & _ & M).
    unfold alloc in E. injection E as <- <-. cbn [nodes] in M. specialize (M (length (nodes h)) [i; j]).
    assert (Ef : fn_of (nodes h ++ [mkNode t (Some (KBmm, [i; j]))]) (length (nodes h)) = Some (KBmm, [i; j])).
    { unfold fn_of. rewrite nth_error_app2, Nat.sub_diag by auto. reflexivity. }
    specialize (M Ef). destruct (hget_inv h i a Ea) as (_ & Hli & Ei). destruct (hget_inv h j b Eb) as (_ & Hlj & Ej).
    inversion M as [|? ? M1 M2]; subst. inversion M2 as [|? ? M3 _]; subst. rewrite vof_app_old in M1, M3 by auto. rewrite Ei in M1. rewrite Ej in M3. auto. }
  assert (O : opspec k [n_val a; n_val b] t) by (apply fwd_opspec; [rewrite HF; auto|auto|exact RK]).
  destruct (opspec_form k [n_val a; n_val b] [n_val a'; n_val b'] t O ltac:(auto)) as (t' & O' & FT). apply opspec_fwd in O'. rewrite HF in O'. rewrite O'. cbn [bind].
  destruct (alloc h' t' (Some (k, [i; j])) None) as [h2 i2] eqn:E2.
  destruct (alloc_sim h h' t t' (Some (k, [i; j])) None None h1 i1 h2 i2 HS FT ltac:(discriminate) E E2) as [S1 ->]. eauto.
Qed.

Lemma leaf_sim (m : outcome (raw T)) h h' h1 i1 : length (nodes h) <> l -> (forall t, m = Ret t -> wf t) -> hsim h h' ->
  (let* t := m in Ret (alloc h t None None)) = Ret (h1, i1) ->
  exists h2, (let* t := m in Ret (alloc h' t None None)) = Ret (h2, i1) /\ hsim h1 h2.
Proof.
  intros Hl HW HS E. apply bind_Ret_inv in E as (t & Et & E). apply Ret_inj in E. rewrite Et. cbn [bind].
  destruct (alloc h' t None None) as [h2 i2] eqn:E2.
  destruct (alloc_sim h h' t t None None None h1 i1 h2 i2 HS ltac:(split; [auto|reflexivity]) ltac:(auto) E E2) as [S1 ->]. eauto.
Qed.

Definition ssim (s s' : state T) : Prop := env s' = env s /\ hsim (hp s) (hp s').

Lemma push_sim s s' r r' s1 : env s' = env s -> push s r = Ret s1 ->
  (forall h1 i1, r = Ret (h1, i1) -> exists h2, r' = Ret (h2, i1) /\ hsim h1 h2) ->
  exists s2, push s' r' = Ret s2 /\ ssim s1 s2.
Proof.
  intros He E H. unfold push in E. apply bind_Ret_inv in E as ([h1 i1] & Er & E). apply Ret_inj in E. subst s1.
  destruct (H h1 i1 Er) as (h2 & Er' & HS). rewrite Er'. unfold push. cbn [bind]. eexists. split; [reflexivity|]. split; cbn [env hp]; [rewrite He; reflexivity|exact HS].
Qed.

Lemma exec_sim s s' c s1 : l < length (nodes (hp s)) -> inv s -> good (hp s1) -> ssim s s' -> differentiable c = true -> exec s c = Ret s1 ->
  exists s2, exec s' c = Ret s2 /\ ssim s1 s2.
Proof.
  intros Hl Hi HG1 [He HS] Hd E.
  assert (Hf : forward c = true) by (destruct c; try discriminate Hd; reflexivity).
  assert (HM : forall x y o, c = CMulView x y o -> exists v, var_value s x = Ret v /\ shape v <> []) by (intros x y o ->; discriminate Hd).
  assert (HG : good (hp s)).
  { destruct (exec_forward s s1 c Hi Hf HM E) as (_ & X & _). eapply good_prefix; eauto. apply Hi. }
  assert (Hne : length (nodes (hp s)) <> l) by lia.
  assert (HGp : forall r h1 i1, push s r = Ret s1 -> r = Ret (h1, i1) -> good h1).
  { intros r h1 i1 Ep Er. unfold push in Ep. rewrite Er in Ep. cbn [bind] in Ep. apply Ret_inj in Ep. subst s1. exact HG1. }
  destruct c as [a sh|sh x|x|n|x y|x y|x|x y|x|x|x|x|x y|x y|x y|x|x|x o|x o|x y o|x y o|x y|x|x]; try discriminate Hd; cbn [exec] in *;
    rewrite ?He; repeat (apply bind_Ret_inv in E as (? & EV & E); rewrite EV; cbn [bind]; clear EV).
  - eapply push_sim; eauto. intros h1 i1 Er. apply (leaf_sim (raw_new a sh) (hp s)); auto. apply raw_new_wf.
  - eapply push_sim; eauto. intros h1 i1 Er. apply (leaf_sim (Ret (raw_filler sh x)) (hp s)); auto. intros t [= <-]. rewrite raw_filler_tab. apply tabulate_wf.
  - eapply push_sim; eauto. intros h1 i1 Er. apply (leaf_sim (Ret (raw_scalar x)) (hp s)); auto. intros t [= <-]. reflexivity.
  - eapply push_sim; eauto. intros h1 i1 Er. apply (leaf_sim (raw_from n) (hp s)); auto.
    intros t Et. assert (E2 := Er). unfold op_from in E2. rewrite Et in E2. cbn [bind] in E2. apply Ret_inj in E2.
    destruct (HGp _ _ _ E Er) as [[HR _] _]. unfold alloc in E2. injection E2 as <- <-. cbn [nodes] in HR.
    destruct (HR (length (nodes (hp s))) (mkNode t None)) as [W _]; [rewrite nth_error_app2, Nat.sub_diag by auto; reflexivity|exact W].
  - eapply push_sim; eauto. intros h1 i1 Er. apply (op2_sim KAdd (fun a b => add_raw (LRaw a) (LRaw b)) (hp s)); auto. discriminate.
  - eapply push_sim; eauto. intros h1 i1 Er. unfold op_sub in Er |- *. apply bind_Ret_inv in Er as ([h0 nj] & En & Er).
    assert (EN := En). unfold op_neg in En.
    destruct (op1_sim KNeg (fun a => neg_raw (LRaw a)) (fun _ => None) (hp s) (hp s') _ h0 nj ltac:(reflexivity) ltac:(discriminate) HG HS En) as (h0' & En' & S0).
    unfold op_neg. rewrite En'. cbn [bind].
    assert (HI0 : heap_inv h0 /\ extends h0 h1).
    { destruct (made_neg (hp s) _ (proj1 Hi) h0 nj EN) as (Q & _). split; [exact Q|]. destruct (made_add h0 _ _ Q h1 i1 Er) as (_ & X & _). exact X. }
    apply (op2_sim KAdd (fun a b => add_raw (LRaw a) (LRaw b)) h0); auto; [|discriminate].
    eapply good_prefix; [|apply HI0|apply HI0]. eapply HGp; [exact E|]. unfold op_sub. rewrite EN. exact Er.
  - eapply push_sim; eauto. intros h1 i1 Er. apply (op1_sim KNeg (fun a => neg_raw (LRaw a)) (fun _ => None) (hp s)); auto. discriminate.
  - eapply push_sim; eauto. intros h1 i1 Er. apply (op1_sim KAbs (fun a => abs_raw (LRaw a)) (fun _ => None) (hp s)); auto. discriminate.
  - eapply push_sim; eauto. intros h1 i1 Er. apply (op1_sim KRelu (fun a => relu_raw (LRaw a)) (fun _ => None) (hp s)); auto. discriminate.
  - eapply push_sim; eauto. intros h1 i1 Er. apply (op1_sim KTanh (fun a => tanh_raw (LRaw a)) (fun _ => None) (hp s)); auto. discriminate.
  - eapply push_sim; eauto. intros h1 i1 Er. apply (op1_sim KSum (fun a => tl_sum (LRaw a)) (fun a => Some (raw_filler (shape (n_val a)) n_one)) (hp s)); auto. discriminate.
  - eapply push_sim; eauto. intros h1 i1 Er. apply (op2_sim KBmm (fun a b => bmm_raw (LRaw a) (LRaw b)) (hp s)); auto. intros _. eapply HGp; eauto.
  - eapply push_sim; eauto. intros h1 i1 Er. apply (op2_sim KDot (fun a b => dot_raw (LRaw a) (LRaw b)) (hp s)); auto. discriminate.
Qed.

Lemma exec_diff_inv s c s1 : inv s -> differentiable c = true -> exec s c = Ret s1 -> inv s1 /\ extends (hp s) (hp s1) /\
  (exists i, env s1 = env s ++ [i]) /\
  ((forall j g, grads (hp s) j = Some g -> exists i, fn_of (nodes (hp s)) j = Some (KSum, [i])) -> forall j g, grads (hp s1) j = Some g -> exists i, fn_of (nodes (hp s1)) j = Some (KSum, [i])).
Proof.
  intros Hi Hd E. assert (Hf : forward c = true) by (destruct c; try discriminate Hd; reflexivity).
  assert (HM : forall x y o, c = CMulView x y o -> exists v, var_value s x = Ret v /\ shape v <> []) by (intros x y o ->; discriminate Hd).
  destruct (exec_forward s s1 c Hi Hf HM E) as (Q1 & Q2 & Q3 & Q4 & i & Q5 & _). split; [exact Q1|]. split; [exact Q2|]. split; [eauto|].
  intros H j g Eg. destruct (Nat.lt_ge_cases j (length (nodes (hp s)))) as [Hlt|Hge].
  - rewrite Q3 in Eg by auto. destruct Q2 as [e ->]. rewrite fn_app_old by auto. eauto.
  - destruct (Q4 j g Hge Eg) as (i0 & Ef & _). eauto.
Qed.

Lemma run_sim p : forall s s' s1, l < length (nodes (hp s)) -> inv s -> good (hp s1) -> ssim s s' ->
  forallb differentiable p = true -> run p s = Ret s1 -> exists s2, run p s' = Ret s2 /\ ssim s1 s2.
Proof.
  unfold run. induction p as [|c p IH]; intros s s' s1 Hl Hi HG HS Hd E; cbn [foldM] in *.
  - injection E as <-. eauto.
  - cbn [forallb] in Hd. apply andb_prop in Hd as [Hc Hp]. apply bind_Ret_inv in E as (s0 & E0 & E).
    destruct (exec_diff_inv s c s0 Hi Hc E0) as (Hi0 & X & _).
    assert (G0 : good (hp s0)).
    { eapply good_prefix; [exact HG|apply Hi0|]. apply (run_extends p s0 s1 E). }
    destruct (exec_sim s s' c s0 Hl Hi G0 HS Hc E0) as (s0' & E0' & S0). rewrite E0'. cbn [bind].
    apply (IH s0); auto. pose proof (extends_length _ _ X). lia.
Qed.

End Sim.

Section Runs.
Context {T : Type} {NT : Num T}.

Lemma run_diff_inv (p : list (cmd T)) : forall s s1, inv s -> forallb differentiable p = true -> run p s = Ret s1 -> inv s1 /\
  length (env s1) = length (env s) + length p /\
  (exists e, env s1 = env s ++ e) /\
  ((forall j g, grads (hp s) j = Some g -> exists i, fn_of (nodes (hp s)) j = Some (KSum, [i])) -> forall j g, grads (hp s1) j = Some g -> exists i, fn_of (nodes (hp s1)) j = Some (KSum, [i])).
Proof.
  unfold run. induction p as [|c p IH]; intros s s1 Hi Hd E; cbn [foldM] in *.
  - injection E as <-. split; [exact Hi|]. split; [cbn; lia|]. split; [exists []; symmetry; apply app_nil_r|intros H; exact H].
  - cbn [forallb] in Hd. apply andb_prop in Hd as [Hc Hp]. apply bind_Ret_inv in E as (s0 & E0 & E).
    destruct (exec_diff_inv s c s0 Hi Hc E0) as (Hi0 & _ & (i & Ei) & HG0). destruct (IH s0 s1 Hi0 Hp E) as (Q1 & Q2 & (e & Q3) & Q4).
    split; [exact Q1|]. split; [rewrite Q2, Ei, app_length; cbn; lia|]. split; [exists (i :: e); rewrite Q3, Ei, <- app_assoc; reflexivity|]. intros H. apply Q4, HG0. exact H.
Qed.


(** Used tensors get a gradient. *)
Lemma update_grad_some gr i (g : raw T) gr' j : update_grad gr i g = Ret gr' -> gr j <> None -> gr' j <> None.
Proof.
  intros E H. destruct (update_grad_inv _ _ _ _ E) as [Q1 Q2]. destruct (Nat.eq_dec j i) as [->|Hne]; [|rewrite Q1; auto].
  destruct Q2 as [[_ ->]|(o & s & _ & _ & ->)]; discriminate.
Qed.
Lemma update_grad_sets gr i (g : raw T) gr' : update_grad gr i g = Ret gr' -> gr' i <> None.
Proof. intros E. destruct (update_grad_inv _ _ _ _ E) as [_ [[_ ->]|(o & s & _ & _ & ->)]]; discriminate. Qed.

Lemma compute_jvp_some (ns : list (node T)) : forall f k ins outer gr gr', compute_jvp f ns k ins outer gr = Ret gr' ->
  (forall j, gr j <> None -> gr' j <> None).
Proof.
  induction f as [|f IH]; intros k ins outer gr gr' E j Hj; cbn [compute_jvp] in E; [discriminate|].
  apply bind_Ret_inv in E as (nds & En & E). apply bind_Ret_inv in E as (gs & Eg & E).
  revert E. apply (foldM_keep _ _ (fun gr => gr j <> None)); [|exact Hj].
  intros g0 [g [i nd]] g1 _ Hg Eb. apply bind_Ret_inv in Eb as (u & _ & Eb). apply bind_Ret_inv in Eb as (sg & _ & Eb). apply bind_Ret_inv in Eb as (g2 & E2 & Eb).
  pose proof (update_grad_some _ _ _ _ j E2 Hg) as H2. destruct (n_fn nd) as [[k' ins']|]; [eapply IH; eauto|congruence].
Qed.

Lemma foldM_sets A B (P : A -> Prop) (f : A -> B -> outcome A) l b : In b l ->
  (forall a a', f a b = Ret a' -> P a') -> (forall a x a', In x l -> f a x = Ret a' -> P a -> P a') ->
  forall a a', foldM f l a = Ret a' -> P a'.
Proof.
  induction l as [|x l IH]; intros Hin H1 H2 a a' E; [destruct Hin|]. cbn [foldM] in E. apply bind_Ret_inv in E as (a1 & E1 & E).
  destruct Hin as [->|Hin].
  - revert E. apply foldM_keep; [|apply (H1 _ _ E1)]. intros a0 x a0' Hx Ha E0. eapply H2; eauto. right; exact Hx.
  - apply (IH Hin H1) with (2 := E). intros a0 x0 a0' Hx. apply H2. right; exact Hx.
Qed.

Lemma unary_jvp_len (t g : raw T) d gs : generic_unary_jvp t g d = Ret gs -> length gs = 1.
Proof. unfold generic_unary_jvp. intros E. repeat (apply bind_Ret_inv in E as (? & _ & E)). injection E as <-. reflexivity. Qed.

Lemma jvp_len k xs (y : raw T) outer gs : fwd k xs = Ret y -> jvp k xs outer = Ret gs -> length gs = length xs.
Proof.
  intros F E. destruct k; cbn [fwd] in F; destruct xs as [|a [|b [|c xs]]]; try discriminate F; cbn [jvp] in E; cbn [length].
  - unfold add_jvp in E. apply bind_Ret_inv in E as ([[u v] w] & _ & E). unfold generic_binop_jvp in E.
    repeat (apply bind_Ret_inv in E as (? & _ & E)). injection E as <-. reflexivity.
  - unfold neg_jvp in E. apply bind_Ret_inv in E as (u & _ & E). apply bind_Ret_inv in E as (v & _ & E). eapply unary_jvp_len; eauto.
  - unfold abs_jvp in E. apply bind_Ret_inv in E as ([u v] & _ & E). apply bind_Ret_inv in E as (w & _ & E). eapply unary_jvp_len; eauto.
  - unfold relu_jvp in E. apply bind_Ret_inv in E as ([u v] & _ & E). eapply unary_jvp_len; eauto.
  - unfold tanh_jvp in E. apply bind_Ret_inv in E as ([u v] & _ & E). repeat (apply bind_Ret_inv in E as (? & _ & E)). injection E as <-. reflexivity.
  - unfold ones in E. apply bind_Ret_inv in E as ([u v] & _ & E). injection E as <-. reflexivity.
  - unfold bmm_jvp in E. apply bind_Ret_inv in E as ([[u v] w] & _ & E). repeat (apply bind_Ret_inv in E as (? & _ & E)). injection E as <-. reflexivity.
  - unfold dot_jvp in E. apply bind_Ret_inv in E as ([[u v] w] & _ & E). repeat (apply bind_Ret_inv in E as (? & _ & E)). injection E as <-. reflexivity.
Qed.

Lemma nodes_of (ns : list (node T)) : forall ins nds, mapM (vindex ns) ins = Ret nds -> map n_val nds = map (vof ns) ins /\ length nds = length ins /\
  forall i, In i ins -> exists nd, In (i, nd) (combine ins nds) /\ nth_error ns i = Some nd.
Proof.
  induction ins as [|i ins IH]; intros nds E; cbn [mapM] in E; [injection E as <-; split; [|split]; auto; intros i []|].
  apply bind_Ret_inv in E as (nd & Ei & E). apply bind_Ret_inv in E as (nds' & En & E). injection E as <-.
  destruct (IH nds' En) as (Q1 & Q2 & Q3). apply vindex_ret in Ei. cbn [map length combine]. split; [|split].
  - f_equal; auto. unfold vof. rewrite Ei. reflexivity.
  - congruence.
  - intros j [<-|Hj]; [exists nd; cbn; auto|]. destruct (Q3 j Hj) as (nd' & H1 & H2). exists nd'. cbn; auto.
Qed.

Lemma in_combine_l' A B (l : list A) : forall (l' : list B) b, length l = length l' -> In b l' -> exists a, In (a, b) (combine l l').
Proof.
  induction l as [|x l IH]; intros [|y l'] b HL Hin; cbn in *; try lia; try tauto.
  destruct Hin as [->|Hin]; [eauto|]. destruct (IH l' b ltac:(lia) Hin) as [a Ha]. eauto.
Qed.

Lemma compute_jvp_sets (ns : list (node T)) : recorded ns -> forall f k ins outer gr gr' r, compute_jvp f ns k ins outer gr = Ret gr' ->
  fn_of ns r = Some (k, ins) -> forall i m, In i ins -> uses ns i m -> gr' m <> None.
Proof.
  intros HG. induction f as [|f IH]; intros k ins outer gr gr' r E Hr i m Hin U; cbn [compute_jvp] in E; [discriminate|].
  apply bind_Ret_inv in E as (nds & En & E). apply bind_Ret_inv in E as (gs & Eg & E).
  destruct (nodes_of ns ins nds En) as (Q1 & Q2 & Q3).
  assert (LEN : length gs = length (combine ins nds)).
  { rewrite combine_length, Q2, Nat.min_id.
    unfold fn_of in Hr. destruct (nth_error ns r) as [nd|] eqn:Er; [|discriminate]. destruct (HG r nd Er) as [_ F]. destruct (F _ _ Hr) as [_ F'].
    rewrite Q1 in Eg. rewrite (jvp_len _ _ _ _ _ F' Eg), map_length. reflexivity. }
  destruct (Q3 i Hin) as (nd & Hnd & Ei). destruct (in_combine_l' _ _ gs (combine ins nds) (i, nd) LEN Hnd) as [g Hg].
  revert E. apply (foldM_sets _ _ (fun gr => gr m <> None) _ _ (g, (i, nd)) Hg).
  - intros g0 g1 Eb. apply bind_Ret_inv in Eb as (u & _ & Eb). apply bind_Ret_inv in Eb as (sg & _ & Eb). apply bind_Ret_inv in Eb as (g2 & E2 & Eb).
    pose proof (update_grad_sets _ _ _ _ E2) as H2. inversion U as [|? k' ins' i' ? Ef Hin' U']; subst.
    + destruct (n_fn nd) as [[k' ins']|]; [eapply compute_jvp_some; eauto|congruence].
    + assert (Ef' := Ef). unfold fn_of in Ef'. rewrite Ei in Ef'. rewrite Ef' in Eb. eapply IH; eauto.
  - intros g0 [g1 [i1 nd1]] g2 _ Eb H. apply bind_Ret_inv in Eb as (u & _ & Eb). apply bind_Ret_inv in Eb as (sg & _ & Eb). apply bind_Ret_inv in Eb as (g3 & E2 & Eb).
    pose proof (update_grad_some _ _ _ _ m E2 H) as H2. destruct (n_fn nd1) as [[k' ins']|]; [eapply compute_jvp_some; eauto|congruence].
Qed.

Lemma backward_presence (h h' : heap T) r m : heap_inv h -> backward h r = Ret h' -> m <> r ->
  (grads h' m = None <-> grads h m = None /\ ~ uses (nodes h) r m).
Proof.
  intros Hi E Hm. pose proof (backward_effect h h' r Hi E) as (_ & En & Eo & _).
  apply backward_unfold in E as (nd & k & ins & Er & _ & Ef & _ & E).
  assert (Efn : fn_of (nodes h) r = Some (k, ins)) by (unfold fn_of; rewrite Er; exact Ef).
  split.
  - intros H. split.
    + destruct (grads h m) eqn:Eg; [|reflexivity]. exfalso. eapply compute_jvp_some; [exact E| |exact H]. congruence.
    + intros U. inversion U as [|? k' ins' i' ? Ef2 Hin U']; subst; [congruence|]. rewrite Efn in Ef2. injection Ef2 as <- <-.
      eapply compute_jvp_sets; eauto. apply Hi.
  - intros [H1 H2]. rewrite Eo; auto.
Qed.
End Runs.
