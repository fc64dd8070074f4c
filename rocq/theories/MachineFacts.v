(** * MachineFacts: API calls carried out by the source's statements against the model's *)
From Coq Require String.
From Verif Require Import Base ModelIndex ModelTensor ModelOps ModelJvp ModelGraph ModelUsize ModelRust ModelKernel ModelMachine Spec SpecGraph Lists
  FuelFacts UsizeFacts RustFacts RustBmm QueueFacts RustJvp RustMore RustLink RustRel ClaimsUsize ClaimsRust.
Import String.StringSyntax.
Local Open Scope string_scope.

(** ** Over different kinds of words *)
Section Rel.
Variable R : forall A, outcome A -> outcome A -> Prop.
Hypothesis R_refl : forall A (o : outcome A), R A o o.
Hypothesis R_bind : forall A B (m m' : outcome A) (f f' : A -> outcome B), R A m m' -> (forall a, R B (f a) (f' a)) -> R B (bind m f) (bind m' f').
Variables U V : usize_ops.
Hypothesis R_debug : forall b, R unit (if @u_debug U then assert b else Ret tt) (if @u_debug V then assert b else Ret tt).
Context {T : Type} {NT : Num T}.
Variables N N' : nat.
Hypothesis R_run : forall c f args, R _ (@ModelKernel.run U T NT N c f args) (@ModelKernel.run V T NT N' c f args).

Lemma ro_foldM A B (f f' : A -> B -> outcome A) l : (forall a b, R A (f a b) (f' a b)) -> forall a, R A (foldM f l a) (foldM f' l a).
Proof. intros H. induction l as [|b l IH]; intros a; cbn [foldM]; [apply R_refl|]. apply R_bind; auto. Qed.
Lemma ro_ten r r' : R _ r r' -> R _ (@get_ten T r) (get_ten r').
Proof. intros H. apply R_bind; [exact H|]. intros [v w]. apply R_refl. Qed.
Lemma ro_view r r' : R _ r r' -> R _ (@get_view T r) (get_view r').
Proof. intros H. apply R_bind; [exact H|]. intros [v w]. apply R_refl. Qed.
Lemma ro_tens r r' : R _ r r' -> R _ (@get_tens T r) (get_tens r').
Proof. intros H. apply R_bind; [exact H|]. intros [v w]. apply R_refl. Qed.
Lemma ro_two r r' : R _ r r' -> R _ (@get_two T r) (get_two r').
Proof. intros H. apply R_bind; [exact (ro_tens _ _ H)|]. intros l. apply R_refl. Qed.

Ltac rel1 := match goal with
  | |- R _ (foldM _ _ _) (foldM _ _ _) => apply ro_foldM; intros
  | |- R _ (bind _ _) (bind _ _) => apply R_bind; [|intros]
  | p : (_ * _)%type |- _ => destruct p; cbv beta iota
  | |- R _ ?x ?y => constr_eq x y; apply R_refl
  | |- R _ (if @u_debug U then _ else _) _ => apply R_debug
  | |- R _ (match ?x with _ => _ end) (match ?y with _ => _ end) => constr_eq x y; destruct x
  end.
Ltac rel := repeat (cbv beta zeta; rel1).

Lemma ro_jvp k ts gs : R _ (@m_jvp U T NT N k ts gs) (@m_jvp V T NT N' k ts gs).
Proof. apply ro_tens, R_run. Qed.
Lemma ro_raw_new a s : R _ (@m_raw_new U T NT N a s) (@m_raw_new V T NT N' a s).
Proof. apply ro_ten, R_run. Qed.
Lemma ro_raw_filler s x : R _ (@m_raw_filler U T NT N s x) (@m_raw_filler V T NT N' s x).
Proof. apply ro_ten, R_run. Qed.
Lemma ro_view_new t o : R _ (@m_view_new U T NT N t o) (@m_view_new V T NT N' t o).
Proof. apply ro_view, R_run. Qed.
Lemma ro_to_tensor l : R _ (@m_to_tensor U T NT N l) (@m_to_tensor V T NT N' l).
Proof. apply ro_ten, R_run. Qed.
Lemma ro_mul_raw t l : R _ (@m_mul_raw U T NT N t l) (@m_mul_raw V T NT N' t l).
Proof. apply ro_ten, R_run. Qed.
Lemma ro_add_raw t l : R _ (@m_add_raw U T NT N t l) (@m_add_raw V T NT N' t l).
Proof. apply ro_ten, R_run. Qed.
Lemma ro_view_sum v : R _ (@m_view_sum U T NT N v) (@m_view_sum V T NT N' v).
Proof. apply ro_ten, R_run. Qed.
Lemma ro_bmm_raw t l : R _ (@m_bmm_raw U T NT N t l) (@m_bmm_raw V T NT N' t l).
Proof. apply ro_ten, R_run. Qed.
Ltac leaf := match goal with
  | |- R _ (m_jvp _ _ _ _) _ => exact (ro_jvp _ _ _)
  | |- R _ (m_raw_new _ _ _) _ => exact (ro_raw_new _ _)
  | |- R _ (m_raw_filler _ _ _) _ => exact (ro_raw_filler _ _)
  | |- R _ (m_view_new _ _ _) _ => exact (ro_view_new _ _)
  | |- R _ (m_to_tensor _ _) _ => exact (ro_to_tensor _)
  | |- R _ (m_mul_raw _ _ _) _ => exact (ro_mul_raw _ _)
  | |- R _ (m_add_raw _ _ _) _ => exact (ro_add_raw _ _)
  | |- R _ (m_view_sum _ _) _ => exact (ro_view_sum _)
  | |- R _ (m_bmm_raw _ _ _) _ => exact (ro_bmm_raw _ _)
  | |- R _ (get_ten _) _ => exact (ro_ten _ _ (R_run _ _ _))
  | |- R _ (get_two _) _ => exact (ro_two _ _ (R_run _ _ _))
  end.
Lemma ro_fwd k vs : R _ (@m_fwd U T NT N k vs) (@m_fwd V T NT N' k vs).
Proof. unfold m_fwd. rel; leaf. Qed.
Lemma ro_update gr i t : R _ (@m_update_grad U T NT N gr i t) (@m_update_grad V T NT N' gr i t).
Proof. unfold m_update_grad. rel. leaf. Qed.
Lemma ro_compute ns : forall f k ins o gr, R _ (@m_compute_jvp U T NT N f ns k ins o gr) (@m_compute_jvp V T NT N' f ns k ins o gr).
Proof. induction f as [|f IH]; intros k ins o gr; cbn [m_compute_jvp]; rel; first [leaf | match goal with |- R _ (m_update_grad _ _ _ _) _ => exact (ro_update _ _ _) | |- R _ (m_compute_jvp _ _ _ _ _ _ _) _ => apply IH end]. Qed.
Lemma ro_backward h i : R _ (@m_backward U T NT N h i) (@m_backward V T NT N' h i).
Proof. unfold m_backward. rel. apply ro_compute. Qed.
Lemma ro_exec s c : R _ (@m_exec U T NT N s c) (@m_exec V T NT N' s c).
Proof.
  unfold m_exec, push, m_op1, m_op2. destruct c; rel;
    first [leaf | match goal with
      | |- R _ (m_fwd _ _ _) _ => exact (ro_fwd _ _)
      | |- R _ (m_update_grad _ _ _ _) _ => exact (ro_update _ _ _)
      | |- R _ (m_backward _ _ _) _ => exact (ro_backward _ _) end].
Qed.
Lemma ro_run p s : R _ (@m_run U T NT N p s) (@m_run V T NT N' p s).
Proof. unfold m_run. rel. apply ro_exec. Qed.
End Rel.

(** ** Alike: the same result, or a panic on both sides, or no end on both *)
Definition alike {A} (m m' : outcome A) : Prop :=
  match m, m' with Ret a, Ret b => a = b | Panic _, Panic _ => True | NoFuel, NoFuel => True | _, _ => False end.
Lemma alike_refl A (m : outcome A) : alike m m.
Proof. destruct m; cbn; auto. Qed.
Lemma alike_bind A B (m m' : outcome A) (f f' : A -> outcome B) :
  alike m m' -> (forall a, m' = Ret a -> alike (f a) (f' a)) -> alike (bind m f) (bind m' f').
Proof. destruct m, m'; cbn [alike bind]; intros H K; try contradiction; try exact I. subst. apply K. reflexivity. Qed.
Lemma alike_sim A (m m' : outcome A) : sim m m' -> alike m m'.
Proof.
  intros (F1 & F2 & H). destruct m as [a|p|]; [|destruct m' as [b|q|]|contradiction (F1 eq_refl)].
  - rewrite (proj1 (H a) eq_refl). reflexivity.
  - specialize (proj2 (H b) eq_refl). discriminate.
  - exact I.
  - contradiction (F2 eq_refl).
Qed.
(** From some number of turns on *)
Definition evt {A} (m : nat -> outcome A) (m' : outcome A) : Prop := exists N0, forall N, N0 <= N -> alike (m N) m'.
Lemma evt_const A (m : outcome A) : evt (fun _ => m) m.
Proof. exists 0. intros N _. apply alike_refl. Qed.
Lemma evt_eq A (m : nat -> outcome A) m' : (exists N0, forall N, N0 <= N -> m N = m') -> evt m m'.
Proof. intros (N0 & H). exists N0. intros N HN. rewrite (H N HN). apply alike_refl. Qed.
Lemma evt_bind A B (m : nat -> outcome A) m' (f : nat -> A -> outcome B) f' :
  evt m m' -> (forall a, m' = Ret a -> evt (fun N => f N a) (f' a)) -> evt (fun N => let* a := m N in f N a) (let* a := m' in f' a).
Proof.
  intros (N1 & H) K. destruct m' as [a|p|].
  - destruct (K a eq_refl) as (N2 & K2). exists (N1 + N2). intros N HN. specialize (H N ltac:(lia)). destruct (m N) as [b| |]; cbn in H; try contradiction. subst b. apply K2. lia.
  - exists N1. intros N HN. specialize (H N HN). destruct (m N); cbn in *; auto; contradiction.
  - exists N1. intros N HN. specialize (H N HN). destruct (m N); cbn in *; auto; contradiction.
Qed.
Lemma evt_foldM A B (f : nat -> A -> B -> outcome A) f' : (forall a b, evt (fun N => f N a b) (f' a b)) ->
  forall l a, evt (fun N => foldM (f N) l a) (foldM f' l a).
Proof.
  intros H. induction l as [|b l IH]; intros a; cbn [foldM]; [apply evt_const|]. apply (evt_bind _ _ (fun N => f N a b) _ (fun N => foldM (f N) l)); [apply H|]. intros x _. apply IH.
Qed.

(** ** With unbounded words *)
Section Model.
Existing Instance unbounded.
Context {T : Type} {NT : Num T}.
Implicit Types (t : raw T) (l r : tlike T) (ts gs : list (raw T)).

Lemma get_ten_bind (m : outcome (raw T)) w : get_ten (let* x := m in Ret (VTen (LRaw x), w)) = m.
Proof. destruct m; reflexivity. Qed.
Lemma get_view_bind (m : outcome (view T)) w : get_view (let* x := m in Ret (VTen (LView x), w)) = m.
Proof. destruct m; reflexivity. Qed.
Lemma get_tens_bind (m : outcome (list (raw T))) w : get_tens (let* x := m in Ret (VTens x, w)) = m.
Proof. destruct m; reflexivity. Qed.

Lemma e_raw_new (a : list T) s : evt (fun N => m_raw_new N a s) (raw_new a s).
Proof. apply evt_eq. exists 2. intros N HN. unfold m_raw_new, go. rewrite (p_new N _ HN), n_raw_new. apply get_ten_bind. Qed.
Lemma e_raw_filler s x : evt (fun N => m_raw_filler N s x) (Ret (raw_filler s x)).
Proof. apply evt_eq. exists 2. intros N HN. unfold m_raw_filler, go. rewrite (p_filler N _ HN), n_raw_filler. reflexivity. Qed.
Lemma e_view_new t o : evt (fun N => m_view_new N t o) (view_new t o).
Proof. apply evt_eq. exists 2. intros N HN. unfold m_view_new, go. rewrite (p_view_new N _ HN), n_view_new. apply get_view_bind. Qed.
Lemma e_to_tensor l : evt (fun N => m_to_tensor N l) (tl_to_tensor l).
Proof.
  apply evt_eq. exists (2 + index_fuel (tl_shape l)). intros N HN. unfold m_to_tensor, go. rewrite (p_to_tensor N _ _ (words_unbounded _) ltac:(lia) l (rank_any l)), n_to_tensor;
    [apply get_ten_bind|lia|rewrite n_to_tensor; apply nf_tl_to_tensor].
Qed.
Lemma e_mul_raw t r : evt (fun N => m_mul_raw N t r) (mul_raw t r).
Proof.
  apply evt_eq. exists (2 + index_fuel (shape t)). intros N HN. destruct (rank_two (LRaw t) r) as (R & Kt & Kr). unfold m_mul_raw, go.
  rewrite (p_mul N R _ (words_unbounded _) ltac:(lia) t r Kt Kr), n_mul_raw; [apply get_ten_bind|lia|rewrite n_mul_raw; apply nf_mul].
Qed.
Lemma e_add_raw l r : evt (fun N => m_add_raw N l r) (add_raw l r).
Proof.
  apply evt_eq. exists (2 + index_fuel (max_shape (tl_shape l) (tl_shape r))). intros N HN. destruct (rank_two l r) as (R & Kt & Kr). unfold m_add_raw, go.
  rewrite (p_binop N R _ (words_unbounded _) ltac:(lia) l r Kt Kr), n_binop; [apply get_ten_bind|lia|rewrite n_binop; apply nf_binop].
Qed.
Lemma e_view_sum v : evt (fun N => m_view_sum N v) (tl_sum (LView v)).
Proof.
  apply evt_eq. exists (2 + index_fuel (v_shape v)). intros N HN. unfold m_view_sum, go.
  rewrite (p_view_sum N _ _ (words_unbounded _) ltac:(lia) v (rank_any (LView v))), n_sum; [apply get_ten_bind|lia|rewrite n_sum; apply nf_tl_sum].
Qed.
Lemma e_bmm_raw l r : evt (fun N => m_bmm_raw N l r) (bmm_raw l r).
Proof.
  apply evt_eq. exists 2. intros N HN. destruct (rank_two l r) as (R & Kt & Kr). unfold m_bmm_raw, go.
  rewrite (p_bmm N R _ (words_unbounded _) HN l r Kt Kr), n_bmm_raw; [apply get_ten_bind|]. intros t. rewrite n_product. intros [= <-]. reflexivity.
Qed.
Lemma e_sum t : evt (fun N => get_two (go N "RawTensor::sum" [VTen (LRaw t)])) (let* s := tl_sum (LRaw t) in Ret (s, raw_filler (shape t) Base.n_one)).
Proof.
  apply evt_eq. exists 2. intros N HN. unfold go. rewrite (p_raw_sum N _ HN), n_sum. destruct (tl_sum (LRaw t)); cbn [bind]; try reflexivity.
  rewrite n_raw_filler. reflexivity.
Qed.
Lemma e_unary c l : evt (fun N => get_ten (ModelKernel.run N c "generic_unary_op" [VTen l])) (generic_unary_op l (c_op1 c)).
Proof.
  apply evt_eq. exists (2 + index_fuel (tl_shape l)). intros N HN.
  rewrite (p_unary N _ c (words_unbounded _) ltac:(lia) l (rank_any l)), n_unary; [apply get_ten_bind|lia|rewrite n_to_tensor; apply nf_tl_to_tensor].
Qed.

Lemma unary_ok_ex deriv t g : exists R N0, forall N, N0 <= N -> unary_ok N R deriv t g.
Proof.
  exists (2 + length (shape t) + length (shape g)), (index_fuel (shape t) + index_fuel [1; length (array t)]). intros N HN. unfold unary_ok.
  rewrite n_unary_jvp. repeat split; try lia. apply nf_unary_jvp.
Qed.
Lemma binary_ok_ex deriv t u g : exists R N0, forall N, N0 <= N -> binary_ok N R deriv t u g.
Proof.
  exists (2 + length (shape t) + length (shape u) + length (shape g)), (index_fuel (max_shape (shape t) (shape u)) + index_fuel [1; product (max_shape (shape t) (shape u))]).
  intros N HN. unfold binary_ok. rewrite n_binop_jvp, n_product. repeat split; try lia; [|apply nf_binop_jvp]. intros d [= <-]. lia.
Qed.
Lemma full_ok_ex t u : exists R N0, forall R' N, R <= R' -> N0 <= N -> full_ok N R' t u.
Proof.
  exists (length (shape t) + length (shape u)), (index_fuel (shape t)). intros R' N HR HN. unfold full_ok. rewrite n_full, n_product. repeat split; try lia; [apply nf_full|].
  intros d [= <-]. reflexivity.
Qed.

Lemma e_jvp k ts gs : evt (fun N => m_jvp N k ts gs) (jvp k ts gs).
Proof.
  rewrite <- n_jvp. unfold m_jvp. destruct k; cbn [op_rule].
  - (* add *) apply evt_eq. destruct (two_one ts gs) as [[[t u] g]| |] eqn:Q.
    1: destruct (binary_ok_ex (fun _ _ => Base.n_one) t u g) as (R & N0 & H).
    2, 3: destruct (unary_ok_ex (fun _ => Base.n_one) (mkRaw [] []) (mkRaw [] [])) as (R & N0 & H).
    all: exists (2 + N0); intros N HN; rewrite (p_add_jvp N R _ (words_unbounded _) ltac:(lia)); [apply get_tens_bind|].
    all: rewrite Q; try discriminate. intros t' u' g' [= <- <- <-]. apply H. lia.
  - (* neg *) apply evt_eq. destruct (vindex ts 0) as [t| |] eqn:Q; [destruct (vindex gs 0) as [g| |] eqn:Q2|..].
    1: destruct (unary_ok_ex (fun _ => n_neg Base.n_one) t g) as (R & N0 & H).
    2, 3, 4, 5: destruct (unary_ok_ex (fun _ => Base.n_one) (mkRaw [] []) (mkRaw [] [])) as (R & N0 & H).
    all: exists (2 + N0); intros N HN; rewrite (p_neg_jvp N R _ (words_unbounded _) ltac:(lia)); [apply get_tens_bind|].
    all: rewrite ?Q, ?Q2; try discriminate. intros t' g' [= <-] [= <-]. apply H. lia.
  - (* abs *) apply evt_eq. destruct (one_one ts gs) as [[t g]| |] eqn:Q.
    1: destruct (unary_ok_ex (c_deriv1 (op_closures KAbs)) t g) as (R & N0 & H).
    2, 3: destruct (unary_ok_ex (fun _ => Base.n_one) (mkRaw [] []) (mkRaw [] [])) as (R & N0 & H).
    all: exists (2 + N0); intros N HN; rewrite (p_abs_jvp N R _ (words_unbounded _) ltac:(lia)); [apply get_tens_bind|].
    all: rewrite Q; try discriminate. intros t' g' [= <- <-] _. apply H. lia.
  - (* relu *) apply evt_eq. destruct (one_one ts gs) as [[t g]| |] eqn:Q.
    1: destruct (unary_ok_ex (c_deriv1 (op_closures KRelu)) t g) as (R & N0 & H).
    2, 3: destruct (unary_ok_ex (fun _ => Base.n_one) (mkRaw [] []) (mkRaw [] [])) as (R & N0 & H).
    all: exists (2 + N0); intros N HN; rewrite (p_relu_jvp N R _ (words_unbounded _) ltac:(lia)); [apply get_tens_bind|].
    all: rewrite Q; try discriminate. intros t' g' [= <- <-]. apply H. lia.
  - (* tanh *) apply evt_eq. destruct (one_one ts gs) as [[t g]| |] eqn:Q.
    1: destruct (u_tanh_derivative t) as [d| |] eqn:Q2.
    1: destruct (full_ok_ex g d) as (R & N0 & H).
    2, 3, 4, 5: destruct (full_ok_ex (mkRaw [] []) (mkRaw [] [])) as (R & N0 & H).
    all: exists (2 + N0); intros N HN; rewrite (p_tanh_outer N R _ (words_unbounded _) ltac:(lia)); [apply get_tens_bind|].
    all: rewrite Q; try discriminate; intros t' g' d' [= <- <-]; rewrite Q2; try discriminate. intros [= <-]. apply H; lia.
  - (* sum *) apply evt_eq. exists 2. intros N HN. rewrite (p_ones N _ HN). apply get_tens_bind.
  - (* bmm *) assert (K : forall l : list (raw T), exists R, Forall (fun t => length (shape t) <= R) l).
    { intros l. exists (list_max (map (fun t => length (shape t)) l)). apply Forall_forall. intros t Ht.
      assert (F := proj1 (list_max_le _ _) (Nat.le_refl (list_max (map (fun t => length (shape t)) l)))). rewrite Forall_forall in F. apply F. apply in_map_iff. exists t. auto. }
    destruct (K ts) as (R1 & K1). destruct (K gs) as (R2 & K2). exists 2. intros N HN.
    rewrite (p_bmm_jvp N (2 + R1 + R2) _ (words_unbounded _) HN ts gs), get_tens_bind; [|lia|..].
    + apply alike_sim. cbn [u_jvp]. apply (bmm_jvp_sim (2 + R1 + R2)); [lia|apply defined_unbounded].
    + eapply Forall_impl; [|exact K1]. cbv beta. intros; lia.
    + eapply Forall_impl; [|exact K2]. cbv beta. intros; lia.
  - (* dot *) apply evt_eq. destruct (two_one ts gs) as [[[t u] g]| |] eqn:Q.
    1: destruct (full_ok_ex g u) as (R & N0 & H), (full_ok_ex g t) as (R' & N0' & H').
    2, 3: destruct (full_ok_ex (mkRaw [] []) (mkRaw [] [])) as (R & N0 & H), (full_ok_ex (mkRaw [] []) (mkRaw [] [])) as (R' & N0' & H').
    all: exists (2 + N0 + N0'); intros N HN; rewrite (p_dot_jvp N (R + R') _ (words_unbounded _) ltac:(lia)); [apply get_tens_bind|].
    all: rewrite Q; try discriminate. intros t' u' g' [= <- <- <-]. split; [apply H|apply H']; lia.
Qed.

(** ** The graph *)
Lemma e_update gr i t : evt (fun N => m_update_grad N gr i t) (update_grad gr i t).
Proof.
  unfold m_update_grad, update_grad. destruct (gr i) as [o|]; [|apply evt_const].
  apply (evt_bind _ _ (fun N => m_add_raw N (LRaw o) (LRaw t)) _ (fun _ s => Ret (upd gr i (Some s)))); [apply e_add_raw|]. intros s _. apply evt_const.
Qed.
Lemma e_compute ns : forall f k ins o gr, evt (fun N => m_compute_jvp N f ns k ins o gr) (compute_jvp f ns k ins o gr).
Proof.
  induction f as [|f IH]; intros k ins o gr; cbn [m_compute_jvp compute_jvp]; [apply evt_const|].
  eapply (evt_bind _ _ (fun N => mapM (vindex ns) ins)); [apply evt_const|]. intros xs _.
  eapply (evt_bind _ _ (fun N => m_jvp N k (map n_val xs) o)); [apply e_jvp|]. intros sg _.
  apply (evt_foldM _ _ (fun N gr '(g, (i, nd)) =>
             let* _ := (if u_debug then assert (length (array g) =? length (array (n_val nd))) else Ret tt) in
             let* shaped_grad := m_raw_new N (array g) (shape (n_val nd)) in
             let* gr' := m_update_grad N gr i shaped_grad in
             match n_fn nd with Some (k', inputs') => m_compute_jvp N f ns k' inputs' [g] gr' | None => Ret gr' end)).
  intros gr' [g [i nd]]. cbn [u_debug unbounded].
  eapply (evt_bind _ _ (fun N => assert _)); [apply evt_const|]. intros [] _.
  eapply (evt_bind _ _ (fun N => m_raw_new N _ _)); [apply e_raw_new|]. intros sh _.
  eapply (evt_bind _ _ (fun N => m_update_grad N _ _ _)); [apply e_update|]. intros gr2 _.
  destruct (n_fn nd) as [[k' ins']|]; [apply IH|apply evt_const].
Qed.
Lemma e_backward h i : evt (fun N => m_backward N h i) (backward h i).
Proof.
  unfold m_backward, backward. eapply (evt_bind _ _ (fun N => hget h i)); [apply evt_const|]. intros nd _.
  eapply (evt_bind _ _ (fun N => assert _)); [apply evt_const|]. intros [] _.
  eapply (evt_bind _ _ (fun N => unwrap_opt _)); [apply evt_const|]. intros [k ins] _.
  eapply (evt_bind _ _ (fun N => m_compute_jvp N _ _ _ _ _ _)); [apply e_compute|]. intros gr _. apply evt_const.
Qed.

Lemma e_op1 k h i op : (forall t, evt (fun N => m_fwd N k [t]) (op (LRaw t))) ->
  evt (fun N => m_op1 N k h i) (let* a := hget h i in let* t := op (LRaw (n_val a)) in Ret (alloc h t (Some (k, [i])) None)).
Proof.
  intros H. unfold m_op1. eapply (evt_bind _ _ (fun N => hget h i)); [apply evt_const|]. intros a _.
  eapply (evt_bind _ _ (fun N => m_fwd N k _)); [apply H|]. intros t _. apply evt_const.
Qed.
Lemma e_op2 k h i j op : (forall t u, evt (fun N => m_fwd N k [t; u]) (op (LRaw t) (LRaw u))) ->
  evt (fun N => m_op2 N k h i j) (let* a := hget h i in let* b := hget h j in let* t := op (LRaw (n_val a)) (LRaw (n_val b)) in Ret (alloc h t (Some (k, [i; j])) None)).
Proof.
  intros H. unfold m_op2. eapply (evt_bind _ _ (fun N => hget h i)); [apply evt_const|]. intros a _.
  eapply (evt_bind _ _ (fun N => hget h j)); [apply evt_const|]. intros b _.
  eapply (evt_bind _ _ (fun N => m_fwd N k _)); [apply H|]. intros t _. apply evt_const.
Qed.
Lemma e_neg h i : evt (fun N => m_op1 N KNeg h i) (op_neg h i).
Proof. apply (e_op1 KNeg h i neg_raw). intros t. apply (e_unary (op_closures KNeg)). Qed.
Lemma e_add h i j : evt (fun N => m_op2 N KAdd h i j) (op_add h i j).
Proof. apply (e_op2 KAdd h i j add_raw). intros t u. apply e_add_raw. Qed.
Lemma e_push (s : state T) m m' : evt m m' -> evt (fun N => push s (m N)) (push s m').
Proof. intros H. unfold push. eapply (evt_bind _ _ m); [exact H|]. intros [h i] _. apply evt_const. Qed.
Lemma e_op_sum h i : evt (fun N =>
    let* a := hget h i in
    let* (t, g) := get_two (go N "RawTensor::sum" [VTen (LRaw (n_val a))]) in
    Ret (alloc h t (Some (KSum, [i])) (Some g))) (op_sum h i).
Proof.
  unfold op_sum. eapply (evt_bind _ _ (fun N => hget h i)); [apply evt_const|]. intros a _.
  destruct (e_sum (n_val a)) as (N0 & H). exists N0. intros N HN. specialize (H N HN). destruct (tl_sum (LRaw (n_val a))) as [t|q|]; cbn [bind] in *;
    destruct (get_two _) as [[t' g]|q'|]; cbn [alike bind] in *; try contradiction; try exact I. injection H as -> ->. reflexivity.
Qed.
Lemma e_dot t u : evt (fun N => m_fwd N KDot [t; u]) (dot_raw (LRaw t) (LRaw u)).
Proof. apply evt_eq. exists 2. intros N HN. unfold m_fwd, go. rewrite (p_dot N _ HN). apply get_ten_bind. Qed.
Ltac walk := match goal with
  | |- evt (fun _ => ?m) ?m => apply evt_const
  | |- evt (fun N => push ?s _) (push ?s _) => apply e_push
  | |- evt (fun N => bind (m_raw_new N ?a ?s) _) _ => eapply (evt_bind _ _ (fun N => m_raw_new N a s)); [apply e_raw_new|intros]
  | |- evt (fun N => bind (m_mul_raw N ?a ?s) _) _ => eapply (evt_bind _ _ (fun N => m_mul_raw N a s)); [apply e_mul_raw|intros]
  | |- evt (fun N => bind (m_bmm_raw N ?a ?s) _) _ => eapply (evt_bind _ _ (fun N => m_bmm_raw N a s)); [apply e_bmm_raw|intros]
  | |- evt (fun N => bind (m_view_new N ?a ?s) _) _ => eapply (evt_bind _ _ (fun N => m_view_new N a s)); [apply e_view_new|intros]
  | |- evt (fun N => bind (m_to_tensor N ?a) _) _ => eapply (evt_bind _ _ (fun N => m_to_tensor N a)); [apply e_to_tensor|intros]
  | |- evt (fun N => bind (m_view_sum N ?a) _) _ => eapply (evt_bind _ _ (fun N => m_view_sum N a)); [apply e_view_sum|intros]
  | |- evt (fun N => bind (m_update_grad N ?a ?b ?c) _) _ => eapply (evt_bind _ _ (fun N => m_update_grad N a b c)); [apply e_update|intros]
  | |- evt (fun N => bind (m_backward N ?a ?b) _) _ => eapply (evt_bind _ _ (fun N => m_backward N a b)); [apply e_backward|intros]
  | |- evt (fun N => bind ?m _) (bind ?m _) => eapply (evt_bind _ _ (fun N => m)); [apply evt_const|intros]
  end.
Lemma e_exec s c : evt (fun N => m_exec N s c) (exec s c).
Proof.
  unfold m_exec, exec, op_new, op_sub, op_mul, op_view_to_tensor, op_view_sum, op_mul_view, op_bmm_view, op_update_grad.
  destruct c; repeat walk.
  - match goal with |- evt (fun N => bind (m_raw_filler N ?a ?b) _) _ =>
      apply (evt_bind _ _ (fun N => m_raw_filler N a b) (Ret (raw_filler a b)) (fun _ t => Ret (alloc (hp s) t None None)) (fun t => Ret (alloc (hp s) t None None))) end;
      [apply e_raw_filler|]. intros t _. apply evt_const.
  - apply e_add.
  - eapply (evt_bind _ _ (fun N => m_op1 N KNeg _ _)); [apply e_neg|]. intros [h' nj] _. apply e_add.
  - apply e_neg.
  - apply (e_op1 KAbs (hp s) _ abs_raw). intros t. apply (e_unary (op_closures KAbs)).
  - apply (e_op1 KRelu (hp s) _ relu_raw). intros t. apply (e_unary (op_closures KRelu)).
  - apply (e_op1 KTanh (hp s) _ tanh_raw). intros t. apply (e_unary (op_closures KTanh)).
  - apply e_op_sum.
  - apply (e_op2 KBmm (hp s) _ _ bmm_raw). intros t u. apply e_bmm_raw.
  - apply (e_op2 KDot (hp s) _ _ dot_raw). intros t u. apply e_dot.
  - destruct (hget (hp s) _) as [g|q|]; cbn [bind]; [|apply evt_const|apply evt_const].
    match goal with |- evt (fun N => bind (m_update_grad N ?a ?b ?c) _) _ => destruct (e_update a b c) as (N0 & HU) end.
    exists N0. intros N HN. specialize (HU N HN). destruct (update_grad _ _ _); destruct (m_update_grad _ _ _ _); cbn [alike bind] in *; try contradiction; try exact I.
    subst. reflexivity.
Qed.
Lemma e_run p : forall s, evt (fun N => m_run N p s) (ModelGraph.run p s).
Proof. apply (evt_foldM _ _ (fun N => m_exec N) exec). exact e_exec. Qed.
End Model.
