(** * MachineSmall: API calls carried out by the source's statements on words of a given length *)
From Coq Require String.
From Verif Require Import Base ModelIndex ModelTensor ModelOps ModelJvp ModelGraph ModelUsize ModelRust ModelKernel ModelMachine Spec SpecGraph SpecRust Lists
  GraphFacts FuelFacts UsizeFacts RustFacts RustBmm QueueFacts RustJvp RustMore RustLink RustRel ClaimsUsize ClaimsRust MachineFacts ProgFacts UsizeSmall.
Import String.StringSyntax.
Local Open Scope string_scope.

(** From some number of turns on the statements return what [m'] returns. *)
Definition cv {A} (m : nat -> outcome A) (m' : outcome A) : Prop := forall y, m' = Ret y -> exists N0, forall N, N0 <= N -> m N = Ret y.
Lemma cv_const A (m : outcome A) : cv (fun _ => m) m.
Proof. intros y E. exists 0. auto. Qed.
Lemma cv_eq A (m : nat -> outcome A) m' : (exists N0, forall N, N0 <= N -> m N = m') -> cv m m'.
Proof. intros (N0 & H) y E. exists N0. intros N HN. rewrite (H N HN). exact E. Qed.
Lemma cv_bind A B (m : nat -> outcome A) m' (f : nat -> A -> outcome B) f' :
  cv m m' -> (forall a, m' = Ret a -> cv (fun N => f N a) (f' a)) -> cv (fun N => let* a := m N in f N a) (let* a := m' in f' a).
Proof.
  intros H K y E. apply bind_Ret_inv in E as (a & E1 & E2). destruct (H a E1) as (N1 & H1). destruct (K a E1 y E2) as (N2 & H2).
  exists (N1 + N2). intros N HN. rewrite H1 by lia. apply H2. lia.
Qed.
Lemma cv_foldM A B (P : A -> Prop) (Q : B -> Prop) (f : nat -> A -> B -> outcome A) f' :
  (forall a b, P a -> Q b -> cv (fun N => f N a b) (f' a b)) -> (forall a b a', P a -> Q b -> f' a b = Ret a' -> P a') ->
  forall l, Forall Q l -> forall a, P a -> cv (fun N => foldM (f N) l a) (foldM f' l a).
Proof.
  intros H K. induction l as [|b l IH]; intros HQ a HP; cbn [foldM]; [apply cv_const|]. inversion HQ; subst.
  apply (cv_bind _ _ (fun N => f N a b) _ (fun N => foldM (f N) l)); [apply H; auto|]. intros x E. apply IH; eauto.
Qed.
Lemma foldM_keep A B (P : A -> Prop) (Q : B -> Prop) (f : A -> B -> outcome A) : (forall a b a', P a -> Q b -> f a b = Ret a' -> P a') ->
  forall l, Forall Q l -> forall a a', P a -> foldM f l a = Ret a' -> P a'.
Proof.
  intros K. induction l as [|b l IH]; intros HQ a a' HP E; cbn [foldM] in E; [apply Ret_inj in E; now subst|]. inversion HQ; subst.
  apply bind_Ret_inv in E as (x & E1 & E2). eapply (IH ltac:(assumption) x); [eapply K; eauto|exact E2].
Qed.

Section Small.
Variables M R : nat.
Hypothesis HM : S R < M.
Hypothesis H3 : 3 <= R.
#[local] Instance W0 : usize_ops := checked M.
Context {T : Type} {NT : Num T}.
Implicit Types (t : raw T) (l r : tlike T) (ts gs : list (raw T)).

Lemma ws : words W0 (S R).
Proof. apply words_checked. exact HM. Qed.
Lemma filler_rank s (x : T) : shape (raw_filler s x) = s.
Proof. unfold raw_filler. destruct s; reflexivity. Qed.
Definition dev A (o o' : outcome A) : Prop := o = o' \/ o = Panic PArith.
Lemma dev_refl A (o : outcome A) : dev A o o.
Proof. now left. Qed.
Lemma dev_bnd A B (m m' : outcome A) (f f' : A -> outcome B) : dev A m m' -> (forall a, dev B (f a) (f' a)) -> dev B (bind m f) (bind m' f').
Proof. apply dev_bind. Qed.
Lemma dev_add a b : dev nat (@u_add (checked M) a b) (@u_add unbounded a b).
Proof. cbn [u_add checked unbounded]. destruct (a + b <? M); [now left|now right]. Qed.
Lemma dev_mul a b : dev nat (@u_mul (checked M) a b) (@u_mul unbounded a b).
Proof. cbn [u_mul checked unbounded]. destruct (a * b <? M); [now left|now right]. Qed.
Lemma dev_sub a b : dev nat (@u_sub (checked M) a b) (@u_sub unbounded a b).
Proof. cbn [u_sub checked unbounded]. destruct (b <=? a); [now left|now right]. Qed.
Lemma dev_debug b : dev unit (if @u_debug (checked M) then assert b else Ret tt) (if @u_debug unbounded then assert b else Ret tt).
Proof. now left. Qed.
Ltac dv L := apply (L dev); first [apply dev_refl | apply dev_bnd | apply dev_add | apply dev_mul | apply dev_sub | apply dev_debug].

Lemma dn A (o o' : outcome A) y : dev A o o' -> o = Ret y -> o' = Ret y.
Proof. intros [-> | ->]; [auto|discriminate]. Qed.
Lemma df A (o o' : outcome A) : dev A o o' -> o' <> NoFuel -> o <> NoFuel.
Proof. intros [-> | ->]; [auto|discriminate]. Qed.

Lemma d_product s : dev _ (@u_product (checked M) s) (Ret (product s)).
Proof. rewrite <- n_product. dv r_product. Qed.
Lemma d_raw_new (a : list T) s : dev _ (@u_raw_new (checked M) T a s) (raw_new a s).
Proof. rewrite <- n_raw_new. dv @r_raw_new. Qed.
Lemma d_raw_filler s (x : T) : dev _ (@u_raw_filler (checked M) T s x) (Ret (raw_filler s x)).
Proof. rewrite <- n_raw_filler. dv @r_raw_filler. Qed.
Lemma d_view_new t o : dev _ (@u_view_new (checked M) T t o) (view_new t o).
Proof. rewrite <- n_view_new. dv @r_view_new. Qed.
Lemma d_to_tensor l : dev _ (@u_tl_to_tensor (checked M) T l) (tl_to_tensor l).
Proof. rewrite <- n_to_tensor. dv @r_to_tensor. Qed.
Lemma d_add_raw l r : dev _ (@u_add_raw (checked M) T NT l r) (add_raw l r).
Proof. rewrite <- n_add_raw. dv @r_add_raw. Qed.
Lemma d_mul_raw t r : dev _ (@u_mul_raw (checked M) T NT t r) (mul_raw t r).
Proof. rewrite <- n_mul_raw. dv @r_mul_raw. Qed.
Lemma d_unary_jvp t g d : dev _ (@u_generic_unary_jvp (checked M) T NT t g d) (generic_unary_jvp t g d).
Proof. rewrite <- n_unary_jvp. dv @r_unary_jvp. Qed.
Lemma d_binop_jvp t u g d : dev _ (@u_generic_binop_jvp (checked M) T NT t u g d) (generic_binop_jvp t u g d).
Proof. rewrite <- n_binop_jvp. dv @r_binop_jvp. Qed.
Lemma d_full t u : dev _ (@u_jvp_from_full_jacobians (checked M) T NT t u) (jvp_from_full_jacobians t u).
Proof. rewrite <- n_full. dv @r_full. Qed.
Lemma d_jvp k ts gs : dev _ (@u_jvp (checked M) T NT k ts gs) (jvp k ts gs).
Proof. rewrite <- n_jvp. dv @r_jvp. Qed.
Lemma d_tanh_derivative t d : @u_tanh_derivative (checked M) T NT t = Ret d -> length (shape d) = 2.
Proof.
  unfold u_tanh_derivative. intros E. apply bind_Ret_inv in E as (n & _ & E). apply bind_Ret_inv in E as (_ & _ & E). apply bind_Ret_inv in E as (a & _ & E).
  apply (dn _ _ _ _ (d_raw_new _ _)) in E. unfold raw_new in E. destruct (_ =? _) in E; cbn [assert bind] in E; [|discriminate]. apply Ret_inj in E. subst d. reflexivity.
Qed.

(** ** Ranks *)
Definition rk t : Prop := length (shape t) <= R.
Lemma rk_new (a : list T) s t : raw_new a s = Ret t -> shape t = s.
Proof. unfold raw_new. destruct (_ =? _); cbn [assert bind]; [|discriminate]. intros E. apply Ret_inj in E. now subst. Qed.
Lemma rk_binop (t u v : raw T) op : rk t -> rk u -> generic_binop_raw (LRaw t) (LRaw u) op = Ret v -> rk v.
Proof. intros Ht Hu E. apply binop_form in E as [_ E]. unfold rk. rewrite E. apply max_shape_rank; assumption. Qed.
Lemma rk_mul (t u v : raw T) : rk t -> rk u -> mul_raw t (LRaw u) = Ret v -> rk v.
Proof.
  intros Ht Hu. unfold mul_raw. cbn [tl_shape]. destruct (shape t) eqn:Et.
  - destruct (vindex (array t) 0); cbn [bind]; try discriminate. intros E. apply Ret_inj in E. subst v. exact Hu.
  - destruct (shape u) eqn:Eu.
    + destruct (tl_get_first_elem (LRaw u)); cbn [bind]; try discriminate. intros E. apply Ret_inj in E. subst v. exact Ht.
    + unfold element_wise_multiplication. destruct (same_shape _ _); cbn [assert bind]; [|discriminate]. intros E. apply bind_Ret_inv in E as (a & _ & E). apply rk_new in E. unfold rk. rewrite E. exact Ht.
Qed.
Lemma rk_bmm l r (v : raw T) : bmm_raw l r = Ret v -> rk v.
Proof.
  unfold bmm_raw. destruct (2 <=? _); cbn [assert bind]; [|discriminate]. destruct (length (tl_shape r) =? 2); cbn [assert bind]; [|discriminate].
  intros E. apply bind_Ret_inv in E as (? & _ & E). apply bind_Ret_inv in E as (? & _ & E). apply bind_Ret_inv in E as (? & _ & E).
  apply bind_Ret_inv in E as (? & _ & E). apply bind_Ret_inv in E as (? & _ & E). apply bind_Ret_inv in E as (? & _ & E).
  destruct (length (tl_shape l) =? 2); apply bind_Ret_inv in E as (? & _ & E); apply Ret_inj in E; subst v; unfold rk; cbn; lia.
Qed.
Lemma rk_full (t u v : raw T) : rk t -> rk u -> jvp_from_full_jacobians t u = Ret v -> rk v.
Proof.
  intros Ht Hu. unfold jvp_from_full_jacobians. destruct (_ || _); [|apply rk_bmm]. destruct (_ || _); cbn [assert bind]; [|discriminate]. apply rk_mul; assumption.
Qed.
Lemma rk_jdb (d : raw T) v bs is (g j : raw T) : length v = 2 -> jvp_from_diagonal_broadcast d (Some v) bs is g = Ret j -> rk j.
Proof.
  intros Hv. unfold jvp_from_diagonal_broadcast. intros E. repeat (apply bind_Ret_inv in E as (? & _ & E)). apply Ret_inj in E. subst j. unfold rk. cbn [shape]. lia.
Qed.
Lemma rk_unary_jvp (t g : raw T) d ys : generic_unary_jvp t g d = Ret ys -> Forall rk ys.
Proof.
  unfold generic_unary_jvp. intros E. apply bind_Ret_inv in E as (a & _ & E). apply bind_Ret_inv in E as (dg & _ & E). apply bind_Ret_inv in E as (j & E1 & E). apply Ret_inj in E. subst ys.
  constructor; [|constructor]. eapply rk_jdb; [|exact E1]. reflexivity.
Qed.
Lemma rk_jvp k ts gs ys : Forall rk ts -> Forall rk gs -> jvp k ts gs = Ret ys -> Forall rk ys.
Proof.
  intros Hts Hgs. destruct k; cbn [jvp].
  - unfold add_jvp, generic_binop_jvp. intros E. apply bind_Ret_inv in E as ([[t u] g] & _ & E). apply bind_Ret_inv in E as ([] & _ & E).
    apply bind_Ret_inv in E as (a & _ & E). apply bind_Ret_inv in E as (dg & _ & E). apply bind_Ret_inv in E as (j & E1 & E). apply bind_Ret_inv in E as (j' & E2 & E). apply Ret_inj in E. subst ys.
    constructor; [eapply rk_jdb; [|exact E1]; reflexivity|]. constructor; [eapply rk_jdb; [|exact E2]; reflexivity|constructor].
  - unfold neg_jvp. intros E. apply bind_Ret_inv in E as (t & _ & E). apply bind_Ret_inv in E as (g & _ & E). eapply rk_unary_jvp; eauto.
  - unfold abs_jvp. intros E. apply bind_Ret_inv in E as ([t g] & _ & E). apply bind_Ret_inv in E as (? & _ & E). eapply rk_unary_jvp; eauto.
  - unfold relu_jvp. intros E. apply bind_Ret_inv in E as ([t g] & _ & E). eapply rk_unary_jvp; eauto.
  - unfold tanh_jvp, one_one. destruct ts as [|t [|]]; cbn [bind]; try discriminate. destruct gs as [|g [|]]; cbn [bind]; try discriminate.
    intros E. apply bind_Ret_inv in E as (d & E1 & E). apply bind_Ret_inv in E as (v & E2 & E). apply Ret_inj in E. subst ys. constructor; [|constructor].
    inversion Hgs; subst. eapply rk_full; [eassumption| |exact E2]. unfold tanh_derivative in E1. apply bind_Ret_inv in E1 as (? & _ & E1). apply rk_new in E1. unfold rk. rewrite E1. cbn. lia.
  - unfold ones. intros E. apply bind_Ret_inv in E as ([t g] & _ & E). apply Ret_inj in E. subst ys. constructor; [|constructor]. unfold rk, raw_filler. cbn. lia.
  - unfold bmm_jvp. intros E. apply bind_Ret_inv in E as ([[a b] jac] & _ & E). repeat (apply bind_Ret_inv in E as (? & ? & E)).
    apply Ret_inj in E. subst ys. repeat match goal with H : raw_new _ _ = Ret _ |- _ => apply rk_new in H end.
    repeat constructor; unfold rk; match goal with H : shape ?x = _ |- length (shape ?x) <= _ => rewrite H; cbn; lia end.
  - unfold dot_jvp, two_one. destruct ts as [|t [|u [|]]]; cbn [bind]; try discriminate. destruct gs as [|g [|]]; cbn [bind]; try discriminate.
    intros E. apply bind_Ret_inv in E as (d & E1 & E). apply bind_Ret_inv in E as (v & E2 & E). apply Ret_inj in E. subst ys.
    inversion Hts as [|? ? Ht Hts']; inversion Hts' as [|? ? Hu ?]; inversion Hgs as [|? ? Hg ?]; subst.
    constructor; [eapply rk_full; [| |exact E1]; assumption|]. constructor; [eapply rk_full; [| |exact E2]; assumption|constructor].
Qed.

(** ** The operations *)
Lemma x_raw_new (a : list T) s : cv (fun N => m_raw_new N a s) (u_raw_new a s).
Proof. apply cv_eq. exists 2. intros N HN. unfold m_raw_new, go. rewrite (p_new N _ HN). apply get_ten_bind. Qed.
Lemma x_raw_filler s (x : T) : cv (fun N => m_raw_filler N s x) (u_raw_filler s x).
Proof. apply cv_eq. exists 2. intros N HN. unfold m_raw_filler, go. rewrite (p_filler N _ HN). apply get_ten_bind. Qed.
Lemma x_view_new t o : cv (fun N => m_view_new N t o) (u_view_new t o).
Proof. apply cv_eq. exists 2. intros N HN. unfold m_view_new, go. rewrite (p_view_new N _ HN). apply get_view_bind. Qed.
Lemma x_to_tensor l : rank_ok R l -> cv (fun N => m_to_tensor N l) (u_tl_to_tensor l).
Proof.
  intros K. apply cv_eq. exists (2 + index_fuel (tl_shape l)). intros N HN. unfold m_to_tensor, go. rewrite (p_to_tensor N R _ ws ltac:(lia) l K);
    [apply get_ten_bind|lia|]. apply (df _ _ _ (d_to_tensor l)), nf_tl_to_tensor.
Qed.
Lemma x_mul_raw t r : rk t -> rank_ok R r -> cv (fun N => m_mul_raw N t r) (u_mul_raw t r).
Proof.
  intros Kt Kr. apply cv_eq. exists (2 + index_fuel (shape t)). intros N HN. unfold m_mul_raw, go.
  rewrite (p_mul N R _ ws ltac:(lia) t r Kt Kr); [apply get_ten_bind|lia|]. apply (df _ _ _ (d_mul_raw t r)), nf_mul.
Qed.
Lemma x_add_raw l r : rank_ok R l -> rank_ok R r -> cv (fun N => m_add_raw N l r) (u_add_raw l r).
Proof.
  intros Kl Kr. apply cv_eq. exists (2 + index_fuel (max_shape (tl_shape l) (tl_shape r))). intros N HN. unfold m_add_raw, go.
  rewrite (p_binop N R _ ws ltac:(lia) l r Kl Kr); [apply get_ten_bind|lia|]. apply (df _ _ _ (d_add_raw l r)), nf_binop.
Qed.
Lemma x_view_sum v : rank_ok R (LView v) -> cv (fun N => m_view_sum N v) (u_tl_sum (LView v)).
Proof.
  intros K. apply cv_eq. exists (2 + index_fuel (v_shape v)). intros N HN. unfold m_view_sum, go.
  rewrite (p_view_sum N R _ ws ltac:(lia) v K); [apply get_ten_bind|lia|].
  assert (D : dev _ (@u_tl_sum (checked M) T NT (LView v)) (tl_sum (LView v))) by (rewrite <- n_sum; dv @r_sum). apply (df _ _ _ D), nf_tl_sum.
Qed.
Lemma prod_ok s n : @u_product (checked M) s = Ret n -> n = product s.
Proof. intros E. apply (dn _ _ _ _ (d_product s)) in E. apply Ret_inj in E. now symmetry. Qed.
Lemma x_bmm_raw l r : rank_ok R l -> rank_ok R r -> cv (fun N => m_bmm_raw N l r) (u_bmm_raw l r).
Proof.
  intros Kl Kr. apply cv_eq. exists 2. intros N HN. unfold m_bmm_raw, go. rewrite (p_bmm N R _ ws HN l r Kl Kr); [apply get_ten_bind|]. intros t. apply prod_ok.
Qed.
Lemma x_sum t : cv (fun N => get_two (go N "RawTensor::sum" [VTen (LRaw t)])) (let* s := u_tl_sum (LRaw t) in let* g := u_raw_filler (shape t) Base.n_one in Ret (s, g)).
Proof.
  apply cv_eq. exists 2. intros N HN. unfold go. rewrite (p_raw_sum N _ HN). destruct (u_tl_sum (LRaw t)); cbn [bind]; try reflexivity.
  destruct (u_raw_filler _ _); reflexivity.
Qed.
Lemma x_unary c l : rank_ok R l -> cv (fun N => get_ten (ModelKernel.run N c "generic_unary_op" [VTen l])) (u_generic_unary_op l (c_op1 c)).
Proof.
  intros K. apply cv_eq. exists (2 + index_fuel (tl_shape l)). intros N HN.
  rewrite (p_unary N R c ws ltac:(lia) l K); [apply get_ten_bind|lia|]. apply (df _ _ _ (d_to_tensor l)), nf_tl_to_tensor.
Qed.
Lemma unary_ok_all deriv t g : rk t -> rk g -> exists N0, forall N, N0 <= N -> unary_ok N R deriv t g.
Proof.
  intros Kt Kg. exists (index_fuel (shape t) + index_fuel [1; length (array t)]). intros N HN. unfold unary_ok.
  repeat split; try lia; try assumption. apply (df _ _ _ (d_unary_jvp t g deriv)), nf_unary_jvp.
Qed.
Lemma binary_ok_all deriv t u g : rk t -> rk u -> rk g -> exists N0, forall N, N0 <= N -> binary_ok N R deriv t u g.
Proof.
  intros Kt Ku Kg. exists (index_fuel (max_shape (shape t) (shape u)) + index_fuel [1; product (max_shape (shape t) (shape u))]). intros N HN. unfold binary_ok.
  repeat split; try lia; try assumption; [|apply (df _ _ _ (d_binop_jvp t u g deriv)), nf_binop_jvp]. intros d E. apply prod_ok in E. subst d. lia.
Qed.
Lemma full_ok_all t u : rk t -> rk u -> exists N0, forall N, N0 <= N -> full_ok N R t u.
Proof.
  intros Kt Ku. exists (index_fuel (shape t)). intros N HN. unfold full_ok. repeat split; try lia; try assumption; [apply (df _ _ _ (d_full t u)), nf_full|]. intros d. apply prod_ok.
Qed.

Lemma x_jvp k ts gs : Forall rk ts -> Forall rk gs -> cv (fun N => m_jvp N k ts gs) (u_jvp k ts gs).
Proof.
  intros Hts Hgs. unfold m_jvp. destruct k; cbn [op_rule].
  - (* add *) intros y E. cbn [u_jvp] in E. unfold two_one in E. destruct ts as [|t [|u [|]]]; cbn [bind] in E; try discriminate. destruct gs as [|g [|]]; cbn [bind] in E; try discriminate.
    inversion Hts as [|? ? Ht Hts']; inversion Hts' as [|? ? Hu ?]; inversion Hgs as [|? ? Hg ?]; subst.
    destruct (binary_ok_all (fun _ _ => Base.n_one) t u g Ht Hu Hg) as (N0 & HK). exists (2 + N0). intros N HN.
    rewrite (p_add_jvp N R _ ws ltac:(lia)), get_tens_bind; [exact E|]. intros t' u' g' [= <- <- <-]. apply HK. lia.
  - (* neg *) intros y E. cbn [u_jvp] in E. destruct ts as [|t ts]; cbn [bind vindex nth_error] in E; [discriminate|]. destruct gs as [|g gs]; cbn [bind vindex nth_error] in E; [discriminate|].
    inversion Hts as [|? ? Ht ?]; inversion Hgs as [|? ? Hg ?]; subst.
    destruct (unary_ok_all (fun _ => n_neg Base.n_one) t g Ht Hg) as (N0 & HK). exists (2 + N0). intros N HN.
    rewrite (p_neg_jvp N R _ ws ltac:(lia)), get_tens_bind; [exact E|]. intros t' g' [= <-] [= <-]. apply HK. lia.
  - (* abs *) intros y E. cbn [u_jvp] in E. unfold one_one in E. destruct ts as [|t [|]]; cbn [bind] in E; try discriminate. destruct gs as [|g [|]]; cbn [bind] in E; try discriminate.
    inversion Hts as [|? ? Ht ?]; inversion Hgs as [|? ? Hg ?]; subst.
    destruct (unary_ok_all (c_deriv1 (op_closures KAbs)) t g Ht Hg) as (N0 & HK). exists (2 + N0). intros N HN.
    rewrite (p_abs_jvp N R _ ws ltac:(lia)), get_tens_bind; [exact E|]. intros t' g' [= <- <-] _. apply HK. lia.
  - (* relu *) intros y E. cbn [u_jvp] in E. unfold one_one in E. destruct ts as [|t [|]]; cbn [bind] in E; try discriminate. destruct gs as [|g [|]]; cbn [bind] in E; try discriminate.
    inversion Hts as [|? ? Ht ?]; inversion Hgs as [|? ? Hg ?]; subst.
    destruct (unary_ok_all (c_deriv1 (op_closures KRelu)) t g Ht Hg) as (N0 & HK). exists (2 + N0). intros N HN.
    rewrite (p_relu_jvp N R _ ws ltac:(lia)), get_tens_bind; [exact E|]. intros t' g' [= <- <-]. apply HK. lia.
  - (* tanh *) intros y E. pose proof E as E0. cbn [u_jvp] in E. unfold one_one in E. destruct ts as [|t [|]]; cbn [bind] in E; try discriminate. destruct gs as [|g [|]]; cbn [bind] in E; try discriminate.
    inversion Hts as [|? ? Ht ?]; inversion Hgs as [|? ? Hg ?]; subst. apply bind_Ret_inv in E as (d & E1 & _).
    assert (Hd : rk d) by (unfold rk; rewrite (d_tanh_derivative _ _ E1); lia).
    destruct (full_ok_all g d Hg Hd) as (N0 & HK). exists (2 + N0). intros N HN.
    rewrite (p_tanh_outer N R _ ws ltac:(lia)), get_tens_bind; [exact E0|]. intros t' g' d' [= <- <-] E2. rewrite E1 in E2. injection E2 as <-. apply HK. lia.
  - (* sum *) apply cv_eq. exists 2. intros N HN. rewrite (p_ones N _ HN). apply get_tens_bind.
  - (* bmm *) intros y E. exists 2. intros N HN. rewrite (p_bmm_jvp N R _ ws HN ts gs ltac:(lia) Hts Hgs), get_tens_bind.
    cbn [u_jvp] in E. destruct (bmm_jvp_sim R ltac:(lia) (defined_checked M) ts gs) as (_ & _ & S). apply S. exact E.
  - (* dot *) intros y E. pose proof E as E0. cbn [u_jvp] in E. unfold two_one in E. destruct ts as [|t [|u [|]]]; cbn [bind] in E; try discriminate. destruct gs as [|g [|]]; cbn [bind] in E; try discriminate.
    inversion Hts as [|? ? Ht Hts']; inversion Hts' as [|? ? Hu ?]; inversion Hgs as [|? ? Hg ?]; subst.
    destruct (full_ok_all g u Hg Hu) as (N0 & HK), (full_ok_all g t Hg Ht) as (N0' & HK'). exists (2 + N0 + N0'). intros N HN.
    rewrite (p_dot_jvp N R _ ws ltac:(lia)), get_tens_bind; [exact E0|]. intros t' u' g' [= <- <- <-]. split; [apply HK|apply HK']; lia.
Qed.

(** ** The graph *)
Definition grk (gr : nat -> option (raw T)) : Prop := forall i g, gr i = Some g -> rk g.
Lemma grk_upd gr i o : grk gr -> (forall g, o = Some g -> rk g) -> grk (upd gr i o).
Proof. intros H K j g. unfold upd. destruct (_ =? _); auto. apply H. Qed.
Lemma x_update gr i t : grk gr -> rk t -> cv (fun N => m_update_grad N gr i t) (u_update_grad gr i t) /\ (forall gr', u_update_grad gr i t = Ret gr' -> grk gr').
Proof.
  intros G K. unfold m_update_grad, u_update_grad. destruct (gr i) as [o|] eqn:Q.
  - split.
    + apply (cv_bind _ _ (fun N => m_add_raw N (LRaw o) (LRaw t)) _ (fun _ s => Ret (upd gr i (Some s)))); [apply x_add_raw; [exact (G i o Q)|exact K]|]. intros s _. apply cv_const.
    + intros gr' E. apply bind_Ret_inv in E as (s & E & E'). apply Ret_inj in E'. subst gr'. apply grk_upd; [exact G|]. intros g [= <-].
      apply (dn _ _ _ _ (d_add_raw _ _)) in E. eapply rk_binop; [| |exact E]; [exact (G i o Q)|exact K].
  - split; [apply cv_const|]. intros gr' E. apply Ret_inj in E. subst gr'. apply grk_upd; [exact G|]. intros g [= <-]. exact K.
Qed.
Definition nrk (ns : list (node T)) : Prop := Forall (fun nd => rk (n_val nd)) ns.
Lemma nrk_get ns i nd : nrk ns -> vindex ns i = Ret nd -> rk (n_val nd).
Proof. intros H. unfold vindex. destruct (nth_error ns i) eqn:Q; [|discriminate]. intros E. apply Ret_inj in E. subst. exact (proj1 (Forall_forall _ _) H _ (nth_error_In _ _ Q)). Qed.
Lemma nrk_map ns : nrk ns -> forall ins xs, mapM (vindex ns) ins = Ret xs -> nrk xs.
Proof.
  intros H. induction ins as [|i ins IH]; intros xs E; cbn [mapM] in E; [apply Ret_inj in E; subst; constructor|].
  apply bind_Ret_inv in E as (x & E1 & E). apply bind_Ret_inv in E as (xs' & E2 & E). apply Ret_inj in E. subst. constructor; [exact (nrk_get _ _ _ H E1)|exact (IH _ E2)].
Qed.
Lemma x_compute ns : nrk ns -> forall f k ins o gr, Forall rk o -> grk gr ->
  cv (fun N => m_compute_jvp N f ns k ins o gr) (u_compute_jvp f ns k ins o gr) /\ (forall gr', u_compute_jvp f ns k ins o gr = Ret gr' -> grk gr').
Proof.
  intros Hn. induction f as [|f IH]; intros k ins o gr Ho G; cbn [m_compute_jvp u_compute_jvp]; [split; [apply cv_const|discriminate]|].
  set (P := fun x : raw T * (nat * node T) => rk (fst x) /\ rk (n_val (snd (snd x)))).
  assert (F : forall xs sg, mapM (vindex ns) ins = Ret xs -> u_jvp k (map n_val xs) o = Ret sg -> Forall P (combine sg (combine ins xs))).
  { intros xs sg E1 E2. pose proof (nrk_map _ Hn _ _ E1) as Hx.
    assert (Hs : Forall rk sg). { apply (dn _ _ _ _ (d_jvp _ _ _)) in E2. eapply rk_jvp; [|exact Ho|exact E2]. apply Forall_map. exact Hx. }
    apply Forall_forall. intros [g [i nd]] Hin. split; cbn [fst snd].
    - apply in_combine_l in Hin. exact (proj1 (Forall_forall _ _) Hs _ Hin).
    - apply in_combine_r, in_combine_r in Hin. exact (proj1 (Forall_forall _ _) Hx _ Hin). }
  assert (Sh : forall g (nd : node T) sh, P (g, (0, nd)) -> u_raw_new (array g) (shape (n_val nd)) = Ret sh -> rk sh).
  { intros g nd sh HP E. apply (dn _ _ _ _ (d_raw_new _ _)) in E. apply rk_new in E. unfold rk. rewrite E. apply HP. }
  split.
  - eapply (cv_bind _ _ (fun N => mapM (vindex ns) ins)); [apply cv_const|]. intros xs E1.
    eapply (cv_bind _ _ (fun N => m_jvp N k (map n_val xs) o)); [apply x_jvp; [apply Forall_map; exact (nrk_map _ Hn _ _ E1)|exact Ho]|]. intros sg E2.
    apply (cv_foldM _ _ grk P (fun N gr '(g, (i, nd)) =>
             let* _ := (if u_debug then assert (length (array g) =? length (array (n_val nd))) else Ret tt) in
             let* shaped_grad := m_raw_new N (array g) (shape (n_val nd)) in
             let* gr' := m_update_grad N gr i shaped_grad in
             match n_fn nd with Some (k', inputs') => m_compute_jvp N f ns k' inputs' [g] gr' | None => Ret gr' end)); [| |exact (F xs sg E1 E2)|exact G].
    + intros gr' [g [i nd]] G' HP. cbn [u_debug checked W0].
      eapply (cv_bind _ _ (fun N => assert _)); [apply cv_const|]. intros [] _.
      eapply (cv_bind _ _ (fun N => m_raw_new N _ _)); [apply x_raw_new|]. intros sh E3. pose proof (Sh g nd sh HP E3) as K.
      eapply (cv_bind _ _ (fun N => m_update_grad N _ _ _)); [apply x_update; assumption|]. intros gr2 E4.
      destruct (n_fn nd) as [[k' ins']|]; [|apply cv_const]. apply IH; [repeat constructor; apply HP|]. eapply x_update; [| |exact E4]; assumption.
    + intros gr' [g [i nd]] gr2 G' HP E. apply bind_Ret_inv in E as ([] & _ & E). apply bind_Ret_inv in E as (sh & E3 & E). pose proof (Sh g nd sh HP E3) as K.
      apply bind_Ret_inv in E as (gr3 & E4 & E). assert (G3 : grk gr3) by (eapply x_update; [| |exact E4]; assumption).
      destruct (n_fn nd) as [[k' ins']|]; [|apply Ret_inj in E; now subst]. eapply IH; [| |exact E]; [repeat constructor; apply HP|exact G3].
  - intros gr' E. apply bind_Ret_inv in E as (xs & E1 & E). apply bind_Ret_inv in E as (sg & E2 & E).
    revert E. eapply (foldM_keep _ _ grk P); [|exact (F xs sg E1 E2)|exact G].
    intros gr1 [g [i nd]] gr2 G' HP E. apply bind_Ret_inv in E as ([] & _ & E). apply bind_Ret_inv in E as (sh & E3 & E). pose proof (Sh g nd sh HP E3) as K.
    apply bind_Ret_inv in E as (gr3 & E4 & E). assert (G3 : grk gr3) by (eapply x_update; [| |exact E4]; assumption).
    destruct (n_fn nd) as [[k' ins']|]; [|apply Ret_inj in E; now subst]. eapply IH; [| |exact E]; [repeat constructor; apply HP|exact G3].
Qed.
Definition hrk (h : heap T) : Prop := nrk (nodes h) /\ grk (grads h).
Lemma rk_scalar (x : T) : rk (raw_scalar x).
Proof. unfold rk. cbn. lia. Qed.
Lemma x_backward h i : hrk h -> cv (fun N => m_backward N h i) (u_backward h i) /\ (forall h', u_backward h i = Ret h' -> hrk h').
Proof.
  intros [Hn Hg]. unfold m_backward, u_backward. split.
  - eapply (cv_bind _ _ (fun N => hget h i)); [apply cv_const|]. intros nd _.
    eapply (cv_bind _ _ (fun N => assert _)); [apply cv_const|]. intros [] _.
    eapply (cv_bind _ _ (fun N => unwrap_opt _)); [apply cv_const|]. intros [k ins] _.
    eapply (cv_bind _ _ (fun N => m_compute_jvp N _ _ _ _ _ _)); [apply x_compute; auto; repeat constructor; apply rk_scalar|]. intros gr _. apply cv_const.
  - intros h' E. apply bind_Ret_inv in E as (nd & _ & E). apply bind_Ret_inv in E as ([] & _ & E). apply bind_Ret_inv in E as ([k ins] & _ & E).
    apply bind_Ret_inv in E as (gr & E1 & E). apply Ret_inj in E. subst h'. split; [exact Hn|]. cbn [grads].
    eapply x_compute; [exact Hn| |exact Hg|exact E1]. repeat constructor; apply rk_scalar.
Qed.

Lemma x_fwd k vs : k <> KSum -> Forall rk vs -> cv (fun N => m_fwd N k vs) (u_fwd k vs).
Proof.
  intros Hk Hv. destruct k; cbn [m_fwd u_fwd]; destruct vs as [|a [|b [|]]]; try (intros y E; discriminate E).
  - inversion Hv as [|? ? Ha Hv']; inversion Hv' as [|? ? Hb ?]; subst. exact (x_add_raw (LRaw a) (LRaw b) Ha Hb).
  - inversion Hv as [|? ? Ha ?]; subst. exact (x_unary (op_closures KNeg) (LRaw a) Ha).
  - inversion Hv as [|? ? Ha ?]; subst. exact (x_unary (op_closures KAbs) (LRaw a) Ha).
  - inversion Hv as [|? ? Ha ?]; subst. exact (x_unary (op_closures KRelu) (LRaw a) Ha).
  - inversion Hv as [|? ? Ha ?]; subst. exact (x_unary (op_closures KTanh) (LRaw a) Ha).
  - contradiction (Hk eq_refl).
  - inversion Hv as [|? ? Ha Hv']; inversion Hv' as [|? ? Hb ?]; subst. exact (x_bmm_raw (LRaw a) (LRaw b) Ha Hb).
  - apply cv_eq. exists 2. intros N HN. unfold go. rewrite (p_dot N _ HN). apply get_ten_bind.
Qed.
Lemma x_op1 k h i : k <> KSum -> nrk (nodes h) -> cv (fun N => m_op1 N k h i) (u_op1 k h i).
Proof.
  intros Hk Hn. unfold m_op1, u_op1. eapply (cv_bind _ _ (fun N => hget h i)); [apply cv_const|]. intros a Ea.
  eapply (cv_bind _ _ (fun N => m_fwd N k _)); [apply x_fwd; [exact Hk|]; repeat constructor; exact (nrk_get _ _ _ Hn Ea)|]. intros t _. apply cv_const.
Qed.
Lemma x_op2 k h i j : k <> KSum -> nrk (nodes h) -> cv (fun N => m_op2 N k h i j) (u_op2 k h i j).
Proof.
  intros Hk Hn. unfold m_op2, u_op2. eapply (cv_bind _ _ (fun N => hget h i)); [apply cv_const|]. intros a Ea.
  eapply (cv_bind _ _ (fun N => hget h j)); [apply cv_const|]. intros b Eb.
  eapply (cv_bind _ _ (fun N => m_fwd N k _)); [apply x_fwd; [exact Hk|]; repeat constructor; [exact (nrk_get _ _ _ Hn Ea)|exact (nrk_get _ _ _ Hn Eb)]|]. intros t _. apply cv_const.
Qed.
Lemma x_push (s : state T) m m' : cv m m' -> cv (fun N => push s (m N)) (push s m').
Proof. intros H. unfold push. eapply (cv_bind _ _ m); [exact H|]. intros [h i] _. apply cv_const. Qed.
Lemma x_op_sum (h : heap T) i (a : node T) : cv (fun N =>
    let* (t, g) := get_two (go N "RawTensor::sum" [VTen (LRaw (n_val a))]) in
    Ret (alloc h t (Some (KSum, [i])) (Some g)))
  (let* t := u_tl_sum (LRaw (n_val a)) in let* g := u_raw_filler (shape (n_val a)) Base.n_one in Ret (alloc h t (Some (KSum, [i])) (Some g))).
Proof.
  intros y E. apply bind_Ret_inv in E as (t & E1 & E). apply bind_Ret_inv in E as (g & E2 & E).
  destruct (x_sum (n_val a) (t, g)) as (N0 & H); [rewrite E1; cbn [bind]; rewrite E2; reflexivity|]. exists N0. intros N HN. rewrite (H N HN). exact E.
Qed.
Lemma rk_view t o w : rk t -> u_view_new t o = Ret w -> rank_ok R (LView w).
Proof.
  intros K E. apply (dn _ _ _ _ (d_view_new t o)) in E. unfold view_new in E. apply bind_Ret_inv in E as (? & _ & E). apply bind_Ret_inv in E as (sh & E1 & E). apply Ret_inj in E. subst w.
  cbn [rank_ok v_shape v_tensor]. split; [|exact K]. apply Lists.mapM_length in E1. rewrite E1, combine_length. unfold rk in K. lia.
Qed.
Ltac walk := match goal with
  | |- cv (fun _ => ?m) ?m => apply cv_const
  | |- cv (fun N => push ?s _) (push ?s _) => apply x_push
  | |- cv (fun N => bind (m_raw_new N ?a ?s) _) _ => eapply (cv_bind _ _ (fun N => m_raw_new N a s)); [apply x_raw_new|intros]
  | |- cv (fun N => bind (m_raw_filler N ?a ?s) _) _ => eapply (cv_bind _ _ (fun N => m_raw_filler N a s)); [apply x_raw_filler|intros]
  | |- cv (fun N => bind (m_mul_raw N ?a ?s) _) _ => eapply (cv_bind _ _ (fun N => m_mul_raw N a s)); [apply x_mul_raw|intros]
  | |- cv (fun N => bind (m_bmm_raw N ?a ?s) _) _ => eapply (cv_bind _ _ (fun N => m_bmm_raw N a s)); [apply x_bmm_raw|intros]
  | |- cv (fun N => bind (m_view_new N ?a ?s) _) _ => eapply (cv_bind _ _ (fun N => m_view_new N a s)); [apply x_view_new|intros]
  | |- cv (fun N => bind (m_to_tensor N ?a) _) _ => eapply (cv_bind _ _ (fun N => m_to_tensor N a)); [apply x_to_tensor|intros]
  | |- cv (fun N => bind (m_view_sum N ?a) _) _ => eapply (cv_bind _ _ (fun N => m_view_sum N a)); [apply x_view_sum|intros]
  | |- cv (fun N => bind (m_update_grad N ?a ?b ?c) _) _ => eapply (cv_bind _ _ (fun N => m_update_grad N a b c)); [apply x_update|intros]
  | |- cv (fun N => bind (m_backward N ?a ?b) _) _ => eapply (cv_bind _ _ (fun N => m_backward N a b)); [apply x_backward|intros]
  | |- cv (fun N => bind ?m _) (bind ?m _) => eapply (cv_bind _ _ (fun N => m)); [apply cv_const|intros]
  | |- cv (fun N => m_op1 N _ _ _) _ => apply x_op1; [discriminate|]
  | |- cv (fun N => m_op2 N _ _ _ _) _ => apply x_op2; [discriminate|]
  end.
Lemma x_exec s c : hrk (hp s) -> cv (fun N => m_exec N s c) (u_exec s c).
Proof.
  intros [Hn Hg].
  assert (K : forall i nd, hget (hp s) i = Ret nd -> rk (n_val nd)) by (intros i nd; apply nrk_get; exact Hn).
  unfold m_exec, u_exec. destruct c; repeat walk; try exact Hn; try exact Hg; try (split; assumption); try (eapply K; eassumption); try (eapply rk_view; [eapply K|]; eassumption).
  - eapply (cv_bind _ _ (fun N => m_op1 N KNeg _ _)); [apply x_op1; [discriminate|exact Hn]|]. intros [hn nj] E. apply x_op2; [discriminate|].
    unfold u_op1 in E. apply bind_Ret_inv in E as (nda & Ea & E). apply bind_Ret_inv in E as (tn & Et & E). apply Ret_inj in E. injection E as <- _.
    cbn [nodes]. apply Forall_app. split; [exact Hn|]. constructor; [|constructor]. cbn [n_val]. cbn [u_fwd] in Et.
    assert (D : dev _ (@u_generic_unary_op (checked M) T (LRaw (n_val nda)) n_neg) (generic_unary_op (LRaw (n_val nda)) n_neg)) by (rewrite <- n_unary; dv @r_unary).
    apply (dn _ _ _ _ D), unary_form in Et as [_ Et]. unfold rk. rewrite Et. exact (K _ _ Ea).
  - apply x_op_sum.
Qed.
Lemma x_grads s c s' : hrk (hp s) -> u_exec s c = Ret s' -> grk (grads (hp s')).
Proof.
  intros [Hn Hg].
  assert (K : forall i nd, hget (hp s) i = Ret nd -> rk (n_val nd)) by (intros i nd; apply nrk_get; exact Hn).
  assert (A : forall h v fn g, grk (grads h) -> (forall x, g = Some x -> rk x) -> grk (grads (fst (alloc h v fn g)))) by (intros h v fn g H1 H2; apply grk_upd; assumption).
  assert (P : forall m, push s m = Ret s' -> (forall p, m = Ret p -> grk (grads (fst p))) -> grk (grads (hp s'))).
  { intros m E H. unfold push in E. apply bind_Ret_inv in E as ([h i] & E1 & E). apply Ret_inj in E. subst s'. exact (H _ E1). }
  unfold u_exec, op_scalar, op_from, op_deep_clone, op_grad, op_dot_method, u_op1, u_op2. destruct c; intros E;
    repeat match type of E with bind _ _ = Ret _ => apply bind_Ret_inv in E as (? & ? & E) end;
    try (apply (P _ E); clear E; intros p E; repeat match type of E with bind _ _ = Ret _ => apply bind_Ret_inv in E as (? & ? & E) end).
  all: try discriminate E.
  all: try (apply Ret_inj in E; subst; apply A; [exact Hg|]; intros ? Q; discriminate Q).
  - (* sub *) match goal with H : bind (hget (hp s) _) _ = Ret ?x |- _ => destruct x as [hn nj]; apply bind_Ret_inv in H as (? & _ & H); apply bind_Ret_inv in H as (? & _ & H); apply Ret_inj in H; injection H as <- _ end.
    repeat match type of E with bind _ _ = Ret _ => apply bind_Ret_inv in E as (? & ? & E) end. apply Ret_inj in E. subst p.
    apply A; [|intros ? Q; discriminate Q]. cbn [grads]. apply grk_upd; [exact Hg|]. intros ? Q; discriminate Q.
  - (* sum *) apply Ret_inj in E. subst p. apply A; [exact Hg|]. intros y [= <-].
    match goal with H : u_raw_filler _ _ = Ret ?z |- rk ?z => apply (dn _ _ _ _ (d_raw_filler _ _)) in H; apply Ret_inj in H; subst z end.
    unfold rk. rewrite filler_rank. eapply K. eassumption.
  - (* bmm_view *) cbn [alloc] in E. apply Ret_inj in E. subst p. cbn [fst grads]. apply grk_upd; [apply grk_upd; [exact Hg|]|]; intros ? Q; discriminate Q.
  - (* update_grad *) apply Ret_inj in E. subst s'. cbn [hp grads]. match goal with H : u_update_grad _ _ _ = Ret _ |- _ => eapply x_update; [| |exact H] end; [exact Hg|]. eapply K. eassumption.
  - (* zero_grad *) apply Ret_inj in E. subst s'. cbn [hp zero_grad grads]. apply grk_upd; [exact Hg|]. intros ? Q; discriminate Q.
  - (* backward *) apply Ret_inj in E. subst s'. cbn [hp]. match goal with H : u_backward _ _ = Ret _ |- _ => eapply x_backward in H; [apply H|split; assumption] end.
Qed.
Lemma d_exec s c : dev _ (@u_exec (checked M) T NT s c) (exec s c).
Proof. rewrite <- n_exec. dv @r_exec. Qed.
Lemma d_run p s : dev _ (@u_run (checked M) T NT p s) (ModelGraph.run p s).
Proof. rewrite <- n_run. dv @r_run. Qed.
Lemma x_run p : Forall tidy p -> Forall (fun c => forall x y o, c <> CMulView x y o) p ->
  forall s s' : state T, reach tidy s -> hrk (hp s) -> nrk (nodes (hp s')) -> u_run p s = Ret s' -> exists N0, forall N, N0 <= N -> m_run N p s = Ret s'.
Proof.
  induction p as [|c p IH]; intros F1 F2 s s' Rs Hs Hs' E; unfold m_run, u_run in *; cbn [foldM] in *; [exists 0; intros; exact E|].
  inversion F1 as [|? ? Ht F1']; inversion F2 as [|? ? Hv F2']; subst. apply bind_Ret_inv in E as (s1 & E1 & E).
  assert (Ex : exec s c = Ret s1) by exact (dn _ _ _ _ (d_exec s c) E1).
  assert (Er : ModelGraph.run p s1 = Ret s') by exact (dn _ _ _ _ (d_run p s1) E).
  assert (HV : forall x y o, c = CMulView x y o -> exists v, var_value s x = Ret v /\ shape v <> []) by (intros x y o Hc; destruct (Hv x y o Hc)).
  assert (R1 : reach tidy s1) by (eapply reach_step; eauto).
  assert (K1 : nrk (nodes (hp s1))). { destruct (run_extends p F1' F2' s1 s' R1 Er) as [ext X]. rewrite X in Hs'. apply Forall_app in Hs'. apply Hs'. }
  destruct (x_exec s c Hs s1 E1) as (N1 & A1). destruct (IH F1' F2' s1 s' R1 (conj K1 (x_grads s c s1 Hs E1)) Hs' E) as (N2 & A2).
  exists (N1 + N2). intros N HN. rewrite A1 by lia. apply A2. lia.
Qed.
End Small.
