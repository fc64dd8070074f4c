(** * ClaimsGraph: proofs of C34-C38 *)
From Coq Require Import ZArith Ring.
From Verif Require Import Base ModelIndex ModelTensor ModelOps ModelJvp ModelGraph Spec SpecDual SpecGraph
  Lists IndexFacts TensorFacts OpsFacts Sums JvpFacts Dual ClaimsMat Adjoint GradRing FuelFacts GraphFacts ProgFacts BackFacts Instances.

(** ** Running one operation *)

Section Steps.
Context {T : Type} {NT : Num T}.

Lemma compute_jvp_one f (ns : list (node T)) k i nd G g gr :
  nth_error ns i = Some nd -> jvp k [n_val nd] [G] = Ret [g] -> length (array g) = length (array (n_val nd)) -> wf (n_val nd) ->
  compute_jvp (S f) ns k [i] [G] gr =
  (let* gr' := update_grad gr i (mkRaw (array g) (shape (n_val nd))) in
   match n_fn nd with Some (k', ins') => compute_jvp f ns k' ins' [g] gr' | None => Ret gr' end).
Proof.
  intros En Ej L W. cbn [compute_jvp mapM]. rewrite (vindex_some _ _ _ _ En). cbn [bind map]. rewrite Ej. cbn [bind combine foldM].
  rewrite L, Nat.eqb_refl. cbn [assert bind]. rewrite raw_new_ok by (rewrite L; exact W). cbn [bind].
  destruct (update_grad _ _ _); cbn [bind]; auto. destruct (n_fn nd) as [[k' ins']|]; [|reflexivity].
  apply bind_ret.
Qed.

Lemma upd_none A (f : nat -> option A) i : f i = None -> forall j, upd f i None j = f j.
Proof. intros H j. unfold upd. destruct (Nat.eqb_spec j i); congruence. Qed.

(** The effect of one [x.sum().backward()]-like tail: [CNew a s; CSum 0; ...] *)
Lemma sum_new_run (a : list T) s : length a = size s ->
  run [CNew a s; CSum 0] init_state =
  Ret (mkState (mkHeap [mkNode (mkRaw a s) None; mkNode (raw_scalar (lsum a)) (Some (KSum, [0]))]
                       (upd (upd (fun _ => None) 0 None) 1 (Some (raw_filler s n_one)))) [0; 1]).
Proof.
  intros L. unfold run. cbn [foldM exec]. unfold op_new. rewrite raw_new_ok by auto. reflexivity.
Qed.

Lemma sum_rule (x : raw T) (G : raw T) N : grad_rows G 1 N -> N = 1 ->
  jvp KSum [x] [G] = Ret [tabulate [1; size (shape x)] (fun _ => n_one)].
Proof. intros HG ->. cbn [jvp]. rewrite (ones_ok x G 1 1) by auto. reflexivity. Qed.

Lemma tab_const s (c : T) : array (tabulate s (fun _ => c)) = repeat c (size s).
Proof.
  cbn [array tabulate]. rewrite <- all_indices_length. generalize (all_indices s) as l. induction l as [|x l IH]; cbn; congruence.
Qed.

Lemma scalar_rows (c : T) : grad_rows (raw_scalar c) 1 1.
Proof. repeat split; auto. Qed.

Lemma ones_array s : array (tabulate [1; size s] (fun _ => n_one)) = repeat (n_one : T) (size s).
Proof. rewrite tab_const. cbn [size]. f_equal. lia. Qed.

End Steps.

(** ** C34 *)

(** C34 is false: the rule of [sum] returns ones whatever gradient comes in. *)
Lemma c34_sum_scales_refuted :
  ~ (forall (T : Type) (NT : Num T), is_ring T -> forall (a : list T) (s : list nat) (s' : state T),
       positive s -> run [CNew a s; CSum 0; CNeg 1; CBackward 2] init_state = Ret s' ->
       var_grad s' 0 = Some (mkRaw (repeat (n_neg n_one) (size s)) s)).
Proof.
  intros H. specialize (H Z ZNum Z_is_ring [5; 7]%Z [2]). 
  specialize (H _ ltac:(repeat constructor) eq_refl). discriminate H.
Qed.
Example c34_sum_scales_refuted_ex :
  exists s' : state Z, run [CNew [5; 7]%Z [2]; CSum 0; CNeg 1; CBackward 2] init_state = Ret s' /\
    var_grad s' 0 = Some (mkRaw [1; 1]%Z [2]).
Proof. eexists. split; [vm_compute; reflexivity|reflexivity]. Qed.

(** What it does instead, for every tensor: after [(-(x.sum())).backward()] the gradient of [x] is +1
    everywhere. *)
Lemma c34_neg_sum_gives_ones :
  forall (T : Type) (NT : Num T) (a : list T) (s : list nat), length a = size s -> positive s ->
    exists s' : state T, run [CNew a s; CSum 0; CNeg 1; CBackward 2] init_state = Ret s' /\
      var_grad s' 0 = Some (mkRaw (repeat n_one (size s)) s).
Proof.
  intros T NT a s L Hp. change [CNew a s; CSum 0; CNeg 1; CBackward 2] with ([CNew a s; CSum 0] ++ [CNeg 1; CBackward 2]).
  unfold run. rewrite foldM_app. fold (run [CNew a s; CSum 0] (@init_state T)). rewrite sum_new_run by auto. cbn [bind foldM].
  unfold exec at 1. cbn [env hp]. change (vindex [0; 1] 1) with (Ret 1). cbn [bind]. unfold op_neg, hget. cbn [nodes].
  match goal with |- context [vindex ?l 1] => change (vindex l 1) with (Ret (mkNode (@raw_scalar T (lsum a)) (Some (KSum, [0])))) end.
  cbn [bind n_val]. unfold neg_raw. rewrite unary_ok by (split; [reflexivity|constructor]). cbn [tl_shape raw_scalar shape bind].
  unfold alloc. cbn [nodes grads push bind length app env].
  unfold exec. cbn [env hp]. change (vindex [0; 1; 2] 2) with (Ret 2). cbn [bind].
  set (x0 := mkNode (mkRaw a s) None). set (x1 := mkNode (raw_scalar (lsum a)) (Some (KSum, [0]))).
  match goal with |- context [mkHeap [x0; x1; ?x] ?g] => set (x2 := x); set (gr := g) end.
  assert (Wa : wf (mkRaw a s)) by exact L.
  assert (E : exists gr', compute_jvp 4 [x0; x1; x2] KNeg [1] [raw_scalar n_one] gr = Ret gr' /\ gr' 0 = Some (mkRaw (repeat n_one (size s)) s)).
  { assert (EN : exists g, jvp KNeg [n_val x1] [raw_scalar n_one] = Ret [g] /\ wf g /\ shape g = [1; 1]).
    { unfold jvp, neg_jvp. change (vindex [n_val x1] 0) with (Ret (n_val x1)). change (vindex [raw_scalar n_one] 0) with (Ret (raw_scalar n_one)). cbn [bind].
      rewrite (unary_jvp_ok _ _ 1) by (try reflexivity; try constructor; apply scalar_rows). eexists. split; [reflexivity|]. split; [apply tabulate_wf|reflexivity]. }
    destruct EN as (g & EN & Wg & Sg). unfold wf in Wg. rewrite Sg in Wg. cbn [size] in Wg.
    rewrite (compute_jvp_one 3 [x0; x1; x2] KNeg 1 x1 (raw_scalar n_one) g gr eq_refl EN) by (try reflexivity; rewrite Wg; reflexivity).
    unfold update_grad at 1. change (gr 1) with (Some (raw_filler s (n_one : T))). cbn beta iota.
    assert (EA : exists z, add_raw (LRaw (raw_filler s (n_one : T))) (LRaw (mkRaw (array g) (shape (n_val x1)))) = Ret z).
    { unfold add_raw. rewrite (binop_raw_ok (raw_filler s n_one) _ s).
      + eauto.
      + rewrite raw_filler_tab. apply tabulate_wf.
      + unfold wf. cbn [array shape n_val x1 raw_scalar size]. exact Wg.
      + rewrite raw_filler_tab. exact Hp.
      + constructor.
      + rewrite raw_filler_tab. cbn [shape tabulate n_val x1 raw_scalar]. constructor. }
    destruct EA as [z EA]. rewrite EA. cbn [bind]. change (n_fn x1) with (Some (KSum, [0])). cbn iota beta.
    assert (HR : grad_rows g 1 1) by (split; [unfold wf; rewrite Sg; exact Wg|]; split; [lia|]; split; [lia|]; left; exact Sg).
    rewrite (compute_jvp_one 2 [x0; x1; x2] KSum 0 x0 g _ _ eq_refl (sum_rule (n_val x0) g 1 HR eq_refl)).
    - unfold update_grad. rewrite upd_other by discriminate. change (gr 0) with (@None (raw T)). cbn [bind n_fn x0].
      eexists. split; [reflexivity|]. rewrite upd_same. rewrite ones_array. reflexivity.
    - rewrite ones_array, repeat_length. symmetry. exact L.
    - exact L. }
  destruct E as (gr' & E & E0).
  rewrite (backward_compute (mkHeap [x0; x1; x2] gr) 2 KNeg [1] gr' eq_refl eq_refl E). cbn [bind].
  eexists. split; [reflexivity|]. exact E0.
Qed.
Example c34_neg_sum_gives_ones_ex :
  exists s' : state Z, run [CNew [5; 7; 1]%Z [3; 1]; CSum 0; CNeg 1; CBackward 2] init_state = Ret s' /\
    var_grad s' 0 = Some (mkRaw [1; 1; 1]%Z [3; 1]).
Proof. eexists. split; [vm_compute; reflexivity|reflexivity]. Qed.

(** The rule only looks at the size of the incoming gradient. *)
Lemma c34_rule_ignores_gradient :
  forall (T : Type) (NT : Num T) (x g g' : raw T),
    size (shape g) = size (shape g') -> jvp KSum [x] [g] = jvp KSum [x] [g'].
Proof. intros T NT x g g' E. cbn [jvp]. unfold ones. cbn [one_one bind]. rewrite !product_size, E. reflexivity. Qed.
Example c34_rule_ignores_gradient_ex :
  jvp KSum [mkRaw [5; 7]%Z [2]] [mkRaw [100]%Z []] = Ret [mkRaw [1; 1]%Z [1; 2]].
Proof. reflexivity. Qed.

(** C34, the part that holds: [x.sum().backward()] gives ones. *)
Lemma c34_plain_sum :
  forall (T : Type) (NT : Num T) (a : list T) (s : list nat), length a = size s ->
    exists s' : state T, run [CNew a s; CSum 0; CBackward 1] init_state = Ret s' /\
      var_grad s' 0 = Some (mkRaw (repeat n_one (size s)) s).
Proof.
  intros T NT a s L. change [CNew a s; CSum 0; CBackward 1] with ([CNew a s; CSum 0] ++ [CBackward 1]).
  unfold run. rewrite foldM_app. fold (run [CNew a s; CSum 0] (@init_state T)). rewrite sum_new_run by auto. cbn [bind foldM].
  unfold exec. cbn [env hp]. change (vindex [0; 1] 1) with (Ret 1). cbn [bind].
  set (x0 := mkNode (mkRaw a s) None). set (x1 := mkNode (raw_scalar (lsum a)) (Some (KSum, [0]))).
  match goal with |- context [mkHeap [x0; x1] ?g] => set (gr := g) end.
  assert (E : exists gr', compute_jvp 3 [x0; x1] KSum [0] [raw_scalar n_one] gr = Ret gr' /\ gr' 0 = Some (mkRaw (repeat n_one (size s)) s)).
  { rewrite (compute_jvp_one 2 [x0; x1] KSum 0 x0 (raw_scalar n_one) _ _ eq_refl (sum_rule (n_val x0) (raw_scalar n_one) 1 (scalar_rows _) eq_refl)).
    - unfold update_grad. change (gr 0) with (@None (raw T)). cbn [bind n_fn x0].
      eexists. split; [reflexivity|]. rewrite upd_same. rewrite ones_array. reflexivity.
    - rewrite ones_array, repeat_length. symmetry. exact L.
    - exact L. }
  destruct E as (gr' & E & E0).
  rewrite (backward_compute (mkHeap [x0; x1] gr) 1 KSum [0] gr' eq_refl eq_refl E). cbn [bind].
  eexists. split; [reflexivity|]. exact E0.
Qed.
Example c34_plain_sum_ex :
  exists s' : state Z, run [CNew [5; 7; 1]%Z [3; 1]; CSum 0; CBackward 1] init_state = Ret s' /\
    var_grad s' 0 = Some (mkRaw [1; 1; 1]%Z [3; 1]).
Proof. eexists. split; [vm_compute; reflexivity|reflexivity]. Qed.

(** ** C35 *)

(** C35 is false: a product has no history. *)
Lemma c35_products_refuted :
  ~ (forall (T : Type) (NT : Num T), is_ring T -> forall (a b : list T) (s : list nat) (s' : state T),
       positive s -> run [CNew a s; CNew b s; CMul 0 1; CSum 2; CBackward 3] init_state = Ret s' ->
       var_grad s' 0 = Some (mkRaw b s) /\ var_grad s' 1 = Some (mkRaw a s)).
Proof.
  intros H. specialize (H Z ZNum Z_is_ring [5]%Z [7]%Z [1] _ ltac:(repeat constructor) eq_refl). destruct H as [H _]. discriminate H.
Qed.
Example c35_products_refuted_ex :
  exists s' : state Z, run [CNew [5]%Z [1]; CNew [7]%Z [1]; CMul 0 1; CSum 2; CBackward 3] init_state = Ret s' /\
    var_grad s' 0 = None /\ var_grad s' 1 = None.
Proof. eexists. split; [vm_compute; reflexivity|]. split; reflexivity. Qed.

(** What happens instead, for all operands of all products: the result has no history, so it was
    "computed" from nothing but itself, and no gradient goes through it. *)
Lemma c35_product_has_no_history :
  forall (T : Type) (NT : Num T) (h h' : heap T) (i j n m : nat),
    op_mul h i j = Ret (h', n) -> fn_of (nodes h') n = None /\ (uses (nodes h') n m -> m = n).
Proof.
  intros T NT h h' i j n m E. unfold op_mul in E. apply bind_Ret_inv in E as (a & _ & E). apply bind_Ret_inv in E as (b & _ & E).
  apply bind_Ret_inv in E as (t & _ & E). apply Ret_inj in E. unfold alloc in E. injection E as <- <-.
  assert (F : fn_of (nodes h ++ [mkNode t None]) (length (nodes h)) = None).
  { unfold fn_of. rewrite nth_error_app2, Nat.sub_diag by auto. reflexivity. }
  split; [exact F|]. intros U. inversion U as [|? k ins i0 ? Ef _ _]; [reflexivity|]. cbn [nodes] in Ef. congruence.
Qed.
Example c35_product_has_no_history_ex :
  exists s' : state Z, run [CNew [5; 6]%Z [2]; CNew [7; 1]%Z [2]; CMul 0 1] init_state = Ret s' /\
    fn_of (nodes (hp s')) 2 = None /\ vof (nodes (hp s')) 2 = mkRaw [35; 6]%Z [2].
Proof. eexists. split; [vm_compute; reflexivity|]. split; reflexivity. Qed.

Lemma c35_product_gets_no_gradient :
  forall (T : Type) (NT : Num T) (a b : list T) (s : list nat),
    length a = size s -> length b = size s -> positive s ->
    exists s' : state T, run [CNew a s; CNew b s; CMul 0 1; CSum 2; CBackward 3] init_state = Ret s' /\
      var_grad s' 0 = None /\ var_grad s' 1 = None.
Proof.
  intros T NT a b s La Lb Hp.
  assert (EM : exists t, mul_raw (mkRaw a s) (LRaw (mkRaw b s)) = Ret t /\ wf t).
  { destruct s as [|d s0].
    - assert (Ea : exists x, a = [x]) by (destruct a as [|x [|]]; cbn in La; try lia; eauto). destruct Ea as [x ->].
      change (mkRaw [x] []) with (raw_scalar x). rewrite mul_scalar_l by exact Lb. eexists. split; [reflexivity|apply tabulate_wf].
    - rewrite (mul_same (mkRaw a (d :: s0)) (LRaw (mkRaw b (d :: s0)))); [|exact La|split; [exact Lb|exact Hp]|reflexivity|discriminate].
      eexists. split; [reflexivity|apply tabulate_wf]. }
  destruct EM as (t & EM & Wt).
  set (x0 := mkNode (mkRaw a s) None). set (x1 := mkNode (mkRaw b s) None). set (x2 := mkNode t None).
  set (x3 := mkNode (raw_scalar (lsum (array t))) (Some (KSum, [2]))).
  set (gr := upd (upd (upd (upd (fun _ => None) 0 None) 1 None) 2 None) 3 (Some (raw_filler (shape t) (n_one : T)))).
  assert (ER : run [CNew a s; CNew b s; CMul 0 1; CSum 2; CBackward 3] init_state = exec (mkState (mkHeap [x0; x1; x2; x3] gr) [0; 1; 2; 3]) (CBackward 3)).
  { unfold run. cbn [foldM]. unfold exec at 1. unfold op_new. rewrite raw_new_ok by auto. cbn [bind push alloc init_state hp env nodes grads empty_heap app length].
    unfold exec at 1. unfold op_new. rewrite raw_new_ok by auto. cbn [bind push alloc hp env nodes grads app length].
    unfold exec at 1. cbn [hp env]. change (vindex [0; 1] 0) with (Ret 0). change (vindex [0; 1] 1) with (Ret 1). cbn [bind].
    unfold op_mul, hget. cbn [nodes]. change (vindex [mkNode (mkRaw a s) None; mkNode (mkRaw b s) None] 0) with (Ret x0).
    change (vindex [mkNode (mkRaw a s) None; mkNode (mkRaw b s) None] 1) with (Ret x1). cbn [bind n_val x0 x1]. rewrite EM. cbn [bind push alloc nodes grads app length env].
    unfold exec at 1. cbn [hp env]. change (vindex [0; 1; 2] 2) with (Ret 2). cbn [bind]. unfold op_sum, hget. cbn [nodes].
    match goal with |- context [vindex ?l 2] => change (vindex l 2) with (Ret x2) end. cbn [bind n_val x2 tl_sum push alloc nodes grads app length env].
    destruct (exec _ _); reflexivity. }
  rewrite ER. unfold exec. cbn [hp env]. change (vindex [0; 1; 2; 3] 3) with (Ret 3). cbn [bind].
  assert (E : exists gr', compute_jvp 5 [x0; x1; x2; x3] KSum [2] [raw_scalar n_one] gr = Ret gr' /\ gr' 0 = None /\ gr' 1 = None).
  { rewrite (compute_jvp_one 4 [x0; x1; x2; x3] KSum 2 x2 (raw_scalar n_one) _ _ eq_refl (sum_rule (n_val x2) (raw_scalar n_one) 1 (scalar_rows _) eq_refl)).
    - unfold update_grad. change (gr 2) with (@None (raw T)). cbn [bind n_fn x2].
      eexists. split; [reflexivity|]. split; reflexivity.
    - rewrite ones_array, repeat_length. symmetry. exact Wt.
    - exact Wt. }
  destruct E as (gr' & E & E0 & E1).
  rewrite (backward_compute (mkHeap [x0; x1; x2; x3] gr) 3 KSum [2] gr' eq_refl eq_refl E). cbn [bind].
  eexists. split; [reflexivity|]. auto.
Qed.
Example c35_product_gets_no_gradient_ex :
  exists s' : state Z, run [CNew [5; 6]%Z [2]; CNew [7; 1]%Z [2]; CMul 0 1; CSum 2; CBackward 3] init_state = Ret s' /\
    var_grad s' 0 = None /\ var_grad s' 2 = Some (mkRaw [1; 1]%Z [2]).
Proof. eexists. split; [vm_compute; reflexivity|]. split; reflexivity. Qed.

(** ** C36 *)

(** C36: for every recorded graph and root there is one contribution per tensor and entry, depending on
    nothing else, that every [backward] call adds to the stored gradients. *)
Lemma c36_backward_adds :
  forall (T : Type) (NT : Num T), is_ring T -> forall (ns : list (node T)) (r : nat), recorded ns ->
    exists c : nat -> nat -> T,
      forall (gr gr' : nat -> option (raw T)) (n : nat),
        backward (mkHeap ns gr) r = Ret (mkHeap ns gr') ->
        (forall g, gr n = Some g -> wf g /\ shape g = shape (vof ns n)) ->
        (forall g, gr' n = Some g -> wf g /\ shape g = shape (vof ns n)) /\
        forall p, p < size (shape (vof ns n)) -> gentry gr' n p = n_add (gentry gr n p) (c n p).
Proof.
  intros T NT RT ns r HR. destruct (backward_trace ns r HR) as (us & st & HU & E). exists (contrib us).
  intros gr gr' n EB Hg. rewrite E in EB. destruct (upd_all us gr) as [gr1| |] eqn:Eu; cbn [bind] in EB; try discriminate.
  destruct st as [[]| |]; cbn [bind] in EB; try discriminate. injection EB as ->.
  apply (upd_all_entry RT (shape (vof ns n)) n us gr gr'); auto.
  eapply Forall_impl; [|exact HU]. intros [m g] (_ & _ & W & S & _) Em. cbn [fst snd] in *. subst m. auto.
Qed.
Example c36_backward_adds_ex :
  exists (s1 s2 : state Z),
    run [CNew [5; 7]%Z [2]; CAdd 0 0; CSum 1; CBackward 2] init_state = Ret s1 /\ run [CBackward 2] s1 = Ret s2 /\
    var_grad s1 0 = Some (mkRaw [2; 2]%Z [2]) /\ var_grad s2 0 = Some (mkRaw [4; 4]%Z [2]).
Proof. eexists. eexists. split; [reflexivity|]. split; [reflexivity|]. split; reflexivity. Qed.

Lemma times_nodes (T : Type) (NT : Num T) : forall k (h h' : heap T) r, times k h r = Ret h' -> nodes h' = nodes h.
Proof.
  induction k as [|k IH]; intros h h' r E; cbn [times] in E; [congruence|]. apply bind_Ret_inv in E as (h1 & E1 & E).
  apply IH in E. apply backward_unfold in E1 as (nd & k' & ins & _ & _ & _ & E1 & _). congruence.
Qed.

(** Calling it [k] times adds [k] times the contribution; after [zero_grad] it is exactly that. *)
Lemma c36_backward_k_times :
  forall (T : Type) (NT : Num T), is_ring T -> forall (ns : list (node T)) (r : nat), recorded ns ->
    exists c : nat -> nat -> T,
      forall (k : nat) (gr gr' : nat -> option (raw T)) (n : nat),
        times k (mkHeap ns gr) r = Ret (mkHeap ns gr') ->
        (forall g, gr n = Some g -> wf g /\ shape g = shape (vof ns n)) ->
        forall p, p < size (shape (vof ns n)) ->
          gentry gr' n p = n_add (gentry gr n p) (lsum (repeat (c n p) k)) /\
          (gr n = None -> gentry gr' n p = lsum (repeat (c n p) k)).
Proof.
  intros T NT RT ns r HR. destruct (c36_backward_adds T NT RT ns r HR) as [c Hc]. exists c.
  pose (RT' := RT : ring_theory n_zero n_one n_add n_mul n_sub n_neg (@eq T)).
  assert (M : forall k gr gr' n, times k (mkHeap ns gr) r = Ret (mkHeap ns gr') ->
    (forall g, gr n = Some g -> wf g /\ shape g = shape (vof ns n)) ->
    forall p, p < size (shape (vof ns n)) -> gentry gr' n p = n_add (gentry gr n p) (lsum (repeat (c n p) k))).
  { induction k as [|k IH]; intros gr gr' n E Hg p Hp; cbn [times] in E.
    - injection E as <-. cbn. symmetry. rewrite (Radd_comm RT'). apply (Radd_0_l RT').
    - apply bind_Ret_inv in E as (h1 & E1 & E). 
      assert (N1 : nodes h1 = ns) by (apply backward_unfold in E1 as (nd & k' & ins & _ & _ & _ & E1 & _); exact E1).
      destruct h1 as [ns1 gr1]. cbn [nodes] in N1. subst ns1. destruct (Hc gr gr1 n E1 Hg) as [H1 H2].
      rewrite (IH gr1 gr' n E H1 p Hp), (H2 p Hp). cbn [repeat]. rewrite (lsum_cons RT).
      rewrite (Radd_assoc RT'). reflexivity. }
  intros k gr gr' n E Hg p Hp. split; [apply M; auto|]. intros Hn. rewrite (M k gr gr' n E Hg p Hp). unfold gentry. rewrite Hn. apply (Radd_0_l RT').
Qed.
Example c36_backward_k_times_ex :
  exists (s1 : state Z) (h : heap Z),
    run [CNew [5; 7]%Z [2]; CAdd 0 0; CSum 1] init_state = Ret s1 /\ times 3 (hp s1) 2 = Ret h /\
    grads h 0 = Some (mkRaw [6; 6]%Z [2]).
Proof. eexists. eexists. split; [reflexivity|]. split; reflexivity. Qed.

(** [zero_grad] forgets the stored gradient of its tensor and changes nothing else. *)
Lemma c36_zero_grad :
  forall (T : Type) (NT : Num T) (h : heap T) (n : nat),
    nodes (zero_grad h n) = nodes h /\ grads (zero_grad h n) n = None /\
    forall m, m <> n -> grads (zero_grad h n) m = grads h m.
Proof.
  intros T NT h n. split; [reflexivity|]. cbn [zero_grad grads]. split; [apply upd_same|]. intros m Hm. apply upd_other. exact Hm.
Qed.
Example c36_zero_grad_ex :
  exists (s1 : state Z),
    run [CNew [5; 7]%Z [2]; CSum 0; CBackward 1; CZeroGrad 0; CBackward 1] init_state = Ret s1 /\
    var_grad s1 0 = Some (mkRaw [1; 1]%Z [2]).
Proof. eexists. split; [vm_compute; reflexivity|reflexivity]. Qed.

Lemma upd_all_succeeds (T : Type) (NT : Num T) (ns : list (node T)) us : graph_ok ns ->
  Forall (fun u => wf (snd u) /\ shape (snd u) = shape (vof ns (fst u)) /\ fst u < length ns) us -> forall gr : nat -> option (raw T), gr_ok ns gr ->
  exists gr', upd_all us gr = Ret gr' /\ gr_ok ns gr'.
Proof.
  intros HG HU. unfold upd_all. induction HU as [|[i g] us (W & S & L) HU IH]; intros gr Hgr; cbn [foldM]; [eauto|].
  cbn [fst snd] in *. destruct (update_succeeds ns HG gr i g L Hgr W S) as (gr1 & E & Hgr1). rewrite E. cbn [bind]. auto.
Qed.

(** Whether [backward] succeeds does not depend on the gradients stored so far: a call that worked works
    again, at any time, on graphs of non-empty tensors. *)
Lemma c36_backward_again :
  forall (T : Type) (NT : Num T) (s : state T) (gr : nat -> option (raw T)) (h : heap T) (r : nat),
    reach tidy s -> nonempty (nodes (hp s)) -> matrices_only (nodes (hp s)) ->
    backward (mkHeap (nodes (hp s)) gr) r = Ret h -> exists h', backward (hp s) r = Ret h'.
Proof.
  intros T NT s gr h r R HN HM E. pose proof (reach_inv _ _ R) as [Hi _].
  destruct (backward_trace (nodes (hp s)) r (proj1 Hi)) as (us & st & HU & EB).
  rewrite EB in E. destruct (upd_all us gr); cbn [bind] in E; try discriminate. destruct st as [[]| |]; cbn [bind] in E; try discriminate.
  destruct (upd_all_succeeds T NT (nodes (hp s)) us (graph_ok_of _ (proj1 Hi) HN HM)) with (gr := grads (hp s)) as (gr' & E' & _).
  - eapply Forall_impl; [|exact HU]. intros u (_ & _ & H). exact H.
  - apply gr_ok_of; auto. apply shapes_reach; auto.
  - specialize (EB (grads (hp s))). rewrite E' in EB. cbn [bind] in EB. destruct (hp s) as [ns0 gr0]. cbn [nodes grads] in *. rewrite EB. eauto.
Qed.
Example c36_backward_again_ex :
  exists (s1 s2 : state Z),
    run [CNew [5; 7]%Z [2]; CTanh 0; CSum 1; CBackward 2] init_state = Ret s1 /\ run [CBackward 2; CBackward 2] s1 = Ret s2.
Proof. eexists. eexists. split; reflexivity. Qed.

(** ** C37 *)

(** C37: in every program in which only [backward] calls [update_grad], a stored gradient of a tensor that is
    not a [sum] result has the tensor's shape and as many elements. *)
Lemma c37_gradient_shape :
  forall (T : Type) (NT : Num T) (s : state T) (n : nat) (g : raw T),
    reach tidy s -> grads (hp s) n = Some g -> (forall ins, fn_of (nodes (hp s)) n <> Some (KSum, ins)) ->
    n < length (nodes (hp s)) /\ shape g = shape (vof (nodes (hp s)) n) /\ length (array g) = length (array (vof (nodes (hp s)) n)).
Proof.
  intros T NT s n g R E Hn. pose proof (reach_inv _ _ R) as [[HR HW] _]. destruct (HW n g E) as [W L]. split; [exact L|].
  destruct (shapes_reach s R n g E) as [Q|(i & Q & _)]; [|destruct (Hn [i] Q)]. split; [exact Q|].
  unfold wf in W. rewrite W, Q. unfold vof. destruct (nth_error (nodes (hp s)) n) as [nd|] eqn:En.
  - destruct (HR n nd En) as [W' _]. symmetry. exact W'.
  - apply nth_error_None in En. lia.
Qed.
Example c37_gradient_shape_ex :
  exists s : state Z,
    run [CNew [1; 2; 3; 4; 5; 6]%Z [2; 3]; CNew [1; 2; 3]%Z [3]; CAdd 0 1; CSum 2; CBackward 3] init_state = Ret s /\
    var_grad s 1 = Some (mkRaw [2; 2; 2]%Z [3]) /\ var_grad s 2 = Some (mkRaw [1; 1; 1; 1; 1; 1]%Z [2; 3]).
Proof. eexists. split; [vm_compute; reflexivity|]. split; reflexivity. Qed.

(** ** C38 *)

(** C38 is false: the result of [sum] is born with a gradient, of ones, in the shape of what was summed. *)
Lemma c38_sum_gradient_refuted :
  ~ (forall (T : Type) (NT : Num T) (a : list T) (s : list nat) (s' : state T),
       positive s -> run [CNew a s; CSum 0] init_state = Ret s' -> var_grad s' 1 = None).
Proof. intros H. specialize (H Z ZNum [5; 7]%Z [2] _ ltac:(repeat constructor) eq_refl). discriminate H. Qed.
Example c38_sum_gradient_refuted_ex :
  exists s' : state Z, run [CNew [5; 7]%Z [2]; CSum 0] init_state = Ret s' /\
    var_grad s' 1 = Some (mkRaw [1; 1]%Z [2]) /\ var_value s' 1 = Ret (mkRaw [12]%Z []).
Proof. eexists. split; [vm_compute; reflexivity|]. split; reflexivity. Qed.

(** For every tensor: *)
Lemma c38_sum_preset :
  forall (T : Type) (NT : Num T) (h h' : heap T) (i n : nat) (x : node T),
    hget h i = Ret x -> op_sum h i = Ret (h', n) ->
    n = length (nodes h) /\ vof (nodes h') n = mkRaw [fold_left n_add (array (n_val x)) n_zero] [] /\
    grads h' n = Some (mkRaw (repeat n_one (size (shape (n_val x)))) (shape (n_val x))).
Proof.
  intros T NT h h' i n x Ex E. unfold op_sum in E. rewrite Ex in E. cbn [bind tl_sum] in E. apply Ret_inj in E. unfold alloc in E.
  injection E as <- <-. split; [reflexivity|]. cbn [nodes grads]. split.
  - unfold vof. rewrite nth_error_app2, Nat.sub_diag by auto. reflexivity.
  - rewrite upd_same. unfold raw_filler. destruct (shape (n_val x)) eqn:Es; [reflexivity|]. rewrite product_size. reflexivity.
Qed.
Example c38_sum_preset_ex :
  exists (h' : heap Z), op_sum (mkHeap [mkNode (mkRaw [5; 7]%Z [1; 2]) None] (fun _ => None)) 0 = Ret (h', 1) /\
    grads h' 1 = Some (mkRaw [1; 1]%Z [1; 2]).
Proof. eexists. split; [vm_compute; reflexivity|reflexivity]. Qed.

(** C38, the part that holds: once it was cleared by [zero_grad], what [backward] puts there is a scalar.
    In any program, it is a scalar or has the shape of the summed tensor. *)
Lemma c38_sum_gradient_shape :
  forall (T : Type) (NT : Num T) (s : state T) (n i : nat) (g : raw T),
    reach tidy s -> fn_of (nodes (hp s)) n = Some (KSum, [i]) -> grads (hp s) n = Some g ->
    (shape g = [] \/ shape g = shape (vof (nodes (hp s)) i)) /\
    forall (r : nat) (h : heap T), backward (zero_grad (hp s) n) r = Ret h ->
      forall g', grads h n = Some g' -> shape g' = [] /\ exists x, array g' = [x].
Proof.
  intros T NT s n i g R Ef E. pose proof (reach_inv _ _ R) as [Hi _].
  assert (Es : shape (vof (nodes (hp s)) n) = []).
  { assert (Q := Ef). unfold fn_of in Q. unfold vof. destruct (nth_error (nodes (hp s)) n) as [nd|] eqn:En; [|discriminate].
    destruct (proj1 Hi n nd En) as [_ W]. destruct (W _ _ Q) as [_ W2]. eapply fwd_sum_shape; eauto. }
  split.
  - destruct (shapes_reach s R n g E) as [Q|(j & Q & _ & Q')]; [left; congruence|]. right. rewrite Ef in Q. injection Q as <-. exact Q'.
  - intros r h EB g' Eg.
    destruct (backward_effect (zero_grad (hp s) n) h r (zero_grad_ok _ _ Hi) EB) as (Q1 & Q2 & _ & _ & Q3).
    assert (Sg : shape g' = []).
    { apply (Q3 (fun sh => sh = []) n); auto.
      - intros sh ->. cbn [nodes zero_grad]. rewrite Es. reflexivity.
      - intros g0 E0. cbn [grads zero_grad] in E0. rewrite upd_same in E0. discriminate. }
    split; [exact Sg|]. destruct Q1 as [_ Q1]. destruct (Q1 n g' Eg) as [W _]. unfold wf in W. rewrite Sg in W.
    destruct (array g') as [|x [|]]; cbn in W; try discriminate. eauto.
Qed.
Example c38_sum_gradient_shape_ex :
  exists s' : state Z, run [CNew [5; 7]%Z [2]; CSum 0; CNeg 1; CZeroGrad 1; CBackward 2] init_state = Ret s' /\
    var_grad s' 1 = Some (mkRaw [-1]%Z []).
Proof. eexists. split; [vm_compute; reflexivity|reflexivity]. Qed.
