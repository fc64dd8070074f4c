(** * GraphFacts: invariants of heaps, programs and [backward] *)
From Verif Require Import Base ModelIndex ModelTensor ModelOps ModelJvp ModelGraph Spec SpecDual SpecGraph
  Lists IndexFacts TensorFacts OpsFacts JvpFacts FuelFacts ClaimsTensor.

(** ** Invariants of loops *)

Lemma foldM_keep A B (P : A -> Prop) (f : A -> B -> outcome A) l :
  (forall a b a', In b l -> P a -> f a b = Ret a' -> P a') -> forall a a', P a -> foldM f l a = Ret a' -> P a'.
Proof.
  induction l as [|b l IH]; intros H a a' Ha E; cbn [foldM] in E; [congruence|].
  destruct (f a b) as [a1| |] eqn:E1; cbn [bind] in E; try discriminate.
  apply (IH (fun a b a' Hb => H a b a' (or_intror Hb)) a1); auto. apply (H a b a1 (or_introl eq_refl) Ha E1).
Qed.

Lemma foldM_count A B (f : A -> B -> outcome A) (size : A -> nat) (c : nat) l :
  (forall a b a', In b l -> f a b = Ret a' -> size a' = size a + c) -> forall a a', foldM f l a = Ret a' -> size a' = size a + length l * c.
Proof.
  induction l as [|b l IH]; intros H a a' E; cbn [foldM] in E.
  - injection E as <-. cbn. lia.
  - destruct (f a b) as [a1| |] eqn:E1; cbn [bind] in E; try discriminate.
    rewrite (IH (fun a b a' Hb => H a b a' (or_intror Hb)) a1 a' E), (H a b a1 (or_introl eq_refl) E1). cbn [length]. lia.
Qed.

Lemma iter_fold_inv St I A (P : A -> Prop) (next : St -> outcome (option I * St)) (body : A -> I -> outcome A) :
  (forall a x a', P a -> body a x = Ret a' -> P a') -> forall fuel s a a', P a -> iter_fold next body fuel s a = Ret a' -> P a'.
Proof.
  intros H. induction fuel as [|fuel IH]; intros s a a' Ha E; cbn [iter_fold] in E; [discriminate|].
  destruct (next s) as [[[x|] s']| |]; cbn [bind] in E; try discriminate; [|congruence].
  destruct (body a x) as [a1| |] eqn:E1; cbn [bind] in E; try discriminate. eapply IH; [|exact E]. eauto.
Qed.

Lemma iter_fold_inv1 St I A (P : A -> Prop) (next : St -> outcome (option I * St)) (body : A -> I -> outcome A) :
  (forall a x a', body a x = Ret a' -> P a') -> forall fuel s a a',
  (forall s', next s <> Ret (None, s')) -> iter_fold next body fuel s a = Ret a' -> P a'.
Proof.
  intros H fuel s a a' Hs E. destruct fuel as [|fuel]; cbn [iter_fold] in E; [discriminate|].
  destruct (next s) as [[[x|] s']| |] eqn:En; cbn [bind] in E; try discriminate; [|destruct (Hs s'); auto].
  destruct (body a x) as [a1| |] eqn:E1; cbn [bind] in E; try discriminate.
  eapply (iter_fold_inv _ _ _ P); [|eapply H; exact E1|exact E]. eauto.
Qed.

Lemma mapM_len A B (f : A -> outcome B) l r : mapM f l = Ret r -> length r = length l.
Proof. intros E. apply mapM_length in E. induction E; cbn; auto. Qed.

Lemma mapM_ext_in A B (f g : A -> outcome B) l : (forall a, In a l -> f a = g a) -> mapM f l = mapM g l.
Proof.
  induction l as [|a l IH]; intros H; cbn [mapM]; [reflexivity|]. rewrite (H a (or_introl eq_refl)).
  rewrite IH by (intros; apply H; right; auto). reflexivity.
Qed.

Lemma Ret_inj A (a b : A) : Ret a = Ret b -> a = b.
Proof. intros E. injection E as E. exact E. Qed.

Section GraphFacts.
Context {T : Type} {NT : Num T}.

(** ** Results of operations are well formed *)

Lemma vset_inv A (v : list A) i x w : vset v i x = Ret w -> w = list_set v i x /\ i < length v.
Proof. unfold vset. destruct (Nat.ltb_spec i (length v)); [|discriminate]. intros E. injection E as <-. auto. Qed.

Lemma raw_set_form (t : raw T) i x t' : raw_set t i x = Ret (Ok t') -> shape t' = shape t /\ length (array t') = length (array t).
Proof.
  unfold raw_set. destruct (global_index i (shape t) None) as [[g|e]| |]; cbn [bind]; try discriminate.
  destruct (vset (array t) g x) as [a| |] eqn:E; cbn [bind]; try discriminate. intros E'. injection E' as <-.
  apply vset_inv in E as [-> _]. cbn. rewrite list_set_length. auto.
Qed.

Lemma binop_form (l r : tlike T) op t :
  generic_binop_raw l r op = Ret t -> wf t /\ shape t = max_shape (tl_shape l) (tl_shape r).
Proof.
  unfold generic_binop_raw. destruct (broadcastable _ _); cbn [assert bind]; [|discriminate].
  set (ms := max_shape _ _). intros E.
  apply (iter_fold_inv _ _ _ (fun t : raw T => wf t /\ shape t = ms)) in E; auto.
  - intros a x a' [Ha Hs] E'. destruct (tl_get_unwrap l x); cbn [bind] in E'; try discriminate.
    destruct (tl_get_unwrap r x); cbn [bind] in E'; try discriminate.
    destruct (raw_set a x _) as [[u|]| |] eqn:E1; cbn [bind unwrap] in E'; try discriminate. injection E' as <-.
    apply raw_set_form in E1 as [S1 L1]. unfold wf in *. rewrite L1, S1. auto.
  - rewrite raw_filler_tab. split; [apply tabulate_wf|reflexivity].
Qed.

Lemma unary_form (t t' : raw T) op : generic_unary_op (LRaw t) op = Ret t' -> wf t' /\ shape t' = shape t.
Proof.
  unfold generic_unary_op. cbn [tl_to_tensor bind tl_shape]. destruct (unary_loop _ _ _ _ _ _) as [a| |]; cbn [bind]; try discriminate.
  intros E. apply raw_new_inv in E as [-> L]. split; auto.
Qed.

Lemma bmm_rows_len (l r : tlike T) b n m arr : bmm_rows l r b n m = Ret arr -> length arr = b * (n * m).
Proof.
  unfold bmm_rows. destruct (foldM _ _ _) as [[a li]| |] eqn:E; cbn [bind fst]; try discriminate. intros E'. injection E' as <-.
  apply (foldM_count _ _ _ (fun x => length (fst x)) (n * m)) in E; [cbn [fst length] in E; rewrite seq_length in E; lia|].
  intros [a0 li0] c [a1 li1] _ E1. destruct (if _ =? 3 then _ else _) as [li2| |]; cbn [bind] in E1; try discriminate.
  apply (foldM_count _ _ _ (fun x => length (fst x)) m) in E1; [cbn [fst] in *; rewrite seq_length in E1; lia|].
  intros [a2 li3] i [a3 li4] _ E2. destruct (vset li3 _ i) as [li5| |]; cbn [bind] in E2; try discriminate.
  destruct (mapM _ _) as [row| |] eqn:E3; cbn [bind] in E2; try discriminate. injection E2 as <- <-.
  apply mapM_len in E3. rewrite seq_length in E3. cbn [fst]. rewrite app_length. lia.
Qed.

Lemma bmm_form (l r : tlike T) t : bmm_raw l r = Ret t -> wf t.
Proof.
  unfold bmm_raw. destruct (2 <=? _); cbn [assert bind]; [|discriminate]. destruct (length (tl_shape r) =? 2); cbn [assert bind]; [|discriminate].
  destruct (vindex (tl_shape l) (length (tl_shape l) - 1)) as [li| |]; cbn [bind]; try discriminate.
  destruct (vindex (tl_shape r) (length (tl_shape r) - 2)) as [ri| |]; cbn [bind]; try discriminate.
  destruct (li =? ri); cbn [assert bind]; [|discriminate].
  destruct (vindex (tl_shape l) 0) as [l0| |]; cbn [bind]; try discriminate.
  destruct (vindex (tl_shape l) 1) as [l1| |]; cbn [bind]; try discriminate.
  destruct (vindex (tl_shape r) 1) as [r1| |]; cbn [bind]; try discriminate.
  destruct (length (tl_shape l) =? 2).
  - destruct (bmm_rows _ _ _ _ _) as [arr| |] eqn:E; cbn [bind]; try discriminate. intros E'. injection E' as <-.
    apply bmm_rows_len in E. unfold wf. cbn. lia.
  - destruct (bmm_rows _ _ _ _ _) as [arr| |] eqn:E; cbn [bind]; try discriminate. intros E'. injection E' as <-.
    apply bmm_rows_len in E. unfold wf. cbn. lia.
Qed.

Lemma mul_form (a b t : raw T) : wf a -> wf b -> mul_raw a (LRaw b) = Ret t -> wf t.
Proof.
  intros Ha Hb. unfold mul_raw. cbn [tl_shape]. destruct (shape a) eqn:Ea.
  - destruct (vindex (array a) 0); cbn [bind]; try discriminate. intros E. injection E as <-. unfold wf. cbn. rewrite map_length. exact Hb.
  - destruct (shape b) eqn:Eb.
    + destruct (tl_get_first_elem (LRaw b)); cbn [bind]; try discriminate. intros E. injection E as <-. unfold wf. cbn. rewrite map_length. exact Ha.
    + unfold element_wise_multiplication. destruct (same_shape _ _); cbn [assert bind]; [|discriminate].
      destruct (iter_fold _ _ _ _ _); cbn [bind]; try discriminate. intros E. apply raw_new_inv in E as [-> L]. exact L.
Qed.

Lemma dot_form (l r : tlike T) t : dot_raw l r = Ret t -> wf t.
Proof.
  unfold dot_raw. destruct (same_shape l r); cbn [assert bind]; [|discriminate]. destruct (foldM _ _ _); cbn [bind]; try discriminate.
  intros E. injection E as <-. reflexivity.
Qed.

Lemma sum_form (l : tlike T) t : tl_sum l = Ret t -> wf t.
Proof.
  destruct l as [a|v]; cbn [tl_sum].
  - intros E. injection E as <-. reflexivity.
  - destruct (iter_fold _ _ _ _ _); cbn [bind]; try discriminate. intros E. injection E as <-. reflexivity.
Qed.

Lemma fwd_wf k xs (y : raw T) : Forall wf xs -> fwd k xs = Ret y -> wf y.
Proof.
  intros H. destruct k, xs as [|a [|b [|c xs]]]; cbn [fwd]; try discriminate; intros E.
  - apply binop_form in E. apply E.
  - apply unary_form in E. apply E.
  - apply unary_form in E. apply E.
  - apply unary_form in E. apply E.
  - apply unary_form in E. apply E.
  - apply sum_form in E. apply E.
  - apply bmm_form in E. apply E.
  - apply dot_form in E. apply E.
Qed.

(** A view that [to_tensor] accepts has no zero dimension. *)
Lemma to_tensor_positive (v : view T) t : tl_to_tensor (LView v) = Ret t -> positive (v_shape v) /\ wf t /\ shape t = v_shape v.
Proof.
  cbn [tl_to_tensor]. destruct (elements (LView v)) as [a| |] eqn:E; cbn [bind]; try discriminate. intros E'.
  apply raw_new_inv in E' as [-> L]. split; [|auto]. apply size_pos. rewrite <- L.
  apply (iter_fold_inv1 _ _ _ (fun a => 0 < length a)) in E; [exact E| |].
  - intros x y x' Ex. injection Ex as <-. rewrite app_length. cbn. lia.
  - intros s'. unfold elem_iter_next, elem_iter_new. cbn [ei_first]. destruct (tl_get_unwrap _ _); cbn [bind]; discriminate.
Qed.

(** [bmm] with a view is [bmm] with the materialised view. *)
Lemma bmm_view (a t r : raw T) o v :
  wf a -> wf t -> view_new t o = Ret v -> tl_to_tensor (LView v) = Ret r ->
  bmm_raw (LRaw a) (LView v) = bmm_raw (LRaw a) (LRaw r).
Proof.
  intros Ha Ht Hv Hr. destruct (to_tensor_positive v r Hr) as (Hp & Hwr & Hsr).
  destruct (c12_view_materialise T NT t o v Ht Hv Hp) as (m & Em & _ & _ & G & _). rewrite Hr in Em. injection Em as <-.
  assert (Eg : forall i, in_range (v_shape v) i -> tl_get_unwrap (LView v) i = tl_get_unwrap (LRaw r) i).
  { intros i Hi. destruct (G i Hi) as (x & G1 & G2). unfold tl_get_unwrap, tl_get. rewrite G1, G2. reflexivity. }
  unfold bmm_raw. cbn [tl_shape]. rewrite Hsr.
  destruct (2 <=? _); cbn [assert bind]; [|reflexivity].
  destruct (Nat.eqb_spec (length (v_shape v)) 2) as [El|]; cbn [assert bind]; [|reflexivity].
  destruct (v_shape v) as [|kd [|md [|]]] eqn:Es; try discriminate El.
  destruct (vindex (shape a) (length (shape a) - 1)) as [li| |]; cbn [bind]; try reflexivity.
  change (vindex [kd; md] (length [kd; md] - 2)) with (Ret kd). cbn [bind].
  destruct (li =? kd); cbn [assert bind]; [|reflexivity].
  destruct (vindex (shape a) 0) as [l0| |]; cbn [bind]; try reflexivity.
  destruct (vindex (shape a) 1) as [l1| |]; cbn [bind]; try reflexivity.
  change (vindex [kd; md] 1) with (Ret md). cbn [bind].
  assert (Ec : forall li j, j < md -> bmm_cell (LRaw a) (LView v) li j = bmm_cell (LRaw a) (LRaw r) li j).
  { intros li' j Hj. unfold bmm_cell. cbn [tl_shape]. rewrite Hsr, Es. rewrite vset2_1. cbn [bind]. change (vindex [kd; md] 0) with (Ret kd). cbn [bind].
    apply foldM_ext. intros x k0 Hk. apply in_seq in Hk. destruct (vset li' _ k0); cbn [bind]; try reflexivity.
    rewrite vset2_0. cbn [bind]. rewrite Eg; [reflexivity|]. repeat constructor; lia. }
  assert (Er : forall b n, bmm_rows (LRaw a) (LView v) b n md = bmm_rows (LRaw a) (LRaw r) b n md).
  { intros b n. unfold bmm_rows. f_equal. apply foldM_ext. intros [arr li'] c _. destruct (if _ =? 3 then _ else _); cbn [bind]; try reflexivity.
    apply foldM_ext. intros [arr' li''] i _. destruct (vset li'' _ i) as [li3| |]; cbn [bind]; try reflexivity.
    rewrite (mapM_ext_in _ _ (bmm_cell (LRaw a) (LView v) li3) (bmm_cell (LRaw a) (LRaw r) li3) (seq 0 md)); [reflexivity|].
    intros j Hj. apply in_seq in Hj. apply Ec. lia. }
  rewrite !Er. reflexivity.
Qed.

(** ** The heap *)

Lemma vof_app_old (ns : list (node T)) ext i : i < length ns -> vof (ns ++ ext) i = vof ns i.
Proof. intros H. unfold vof. rewrite nth_error_app1 by auto. reflexivity. Qed.
Lemma fn_app_old (ns : list (node T)) ext i : i < length ns -> fn_of (ns ++ ext) i = fn_of ns i.
Proof. intros H. unfold fn_of. rewrite nth_error_app1 by auto. reflexivity. Qed.

Lemma recorded_snoc ns (v : raw T) fn :
  recorded ns -> wf v ->
  (forall k ins, fn = Some (k, ins) -> Forall (fun i => i < length ns) ins /\ fwd k (map (vof ns) ins) = Ret v) ->
  recorded (ns ++ [mkNode v fn]).
Proof.
  intros HR Hv Hf n nd En.
  destruct (Nat.lt_ge_cases n (length ns)) as [Hn|Hn].
  - rewrite nth_error_app1 in En by auto. destruct (HR n nd En) as [H1 H2]. split; [exact H1|]. intros k ins E.
    destruct (H2 k ins E) as [H3 H4]. split; [exact H3|]. rewrite <- H4. f_equal. apply map_ext_in. intros i Hi.
    rewrite Forall_forall in H3. specialize (H3 i Hi). apply vof_app_old. lia.
  - assert (n = length ns).
    { assert (n < length (ns ++ [mkNode v fn])) by (apply nth_error_Some; congruence). rewrite app_length in *. cbn in *. lia. }
    subst n. rewrite nth_error_app2, Nat.sub_diag in En by auto. injection En as <-. cbn [n_val n_fn]. split; [exact Hv|].
    intros k ins E. destruct (Hf k ins E) as [H3 H4]. split; [exact H3|]. rewrite <- H4. f_equal. apply map_ext_in. intros i Hi.
    rewrite Forall_forall in H3. apply vof_app_old. auto.
Qed.

Lemma extends_refl (h : heap T) : extends h h.
Proof. exists []. rewrite app_nil_r. reflexivity. Qed.
Lemma extends_trans (h1 h2 h3 : heap T) : extends h1 h2 -> extends h2 h3 -> extends h1 h3.
Proof. intros [e1 H1] [e2 H2]. exists (e1 ++ e2). rewrite H2, H1, app_assoc. reflexivity. Qed.
Lemma extends_length (h h' : heap T) : extends h h' -> length (nodes h) <= length (nodes h').
Proof. intros [e ->]. rewrite app_length. lia. Qed.

Lemma alloc_ok (h : heap T) v fn g :
  heap_inv h -> wf v -> (forall g', g = Some g' -> wf g') ->
  (forall k ins, fn = Some (k, ins) -> Forall (fun i => i < length (nodes h)) ins /\ fwd k (map (vof (nodes h)) ins) = Ret v) ->
  let (h', i) := alloc h v fn g in
  heap_inv h' /\ extends h h' /\ grads_kept h h' /\ i = length (nodes h) /\ length (nodes h') = S i /\
  vof (nodes h') i = v /\ fn_of (nodes h') i = fn /\ grads h' i = g.
Proof.
  intros [H1 H2] Hv Hg Hf. unfold alloc. split; [split|].
  - apply recorded_snoc; auto.
  - intros i g' E. cbn [grads nodes] in *. unfold upd in E. rewrite app_length. cbn [length].
    destruct (Nat.eqb_spec i (length (nodes h))) as [->|Hne].
    + split; [auto|lia].
    + destruct (H2 i g' E). split; [auto|lia].
  - split; [eexists; reflexivity|]. split; [|split; [reflexivity|]].
    + intros i Hi. cbn [grads]. unfold upd. destruct (Nat.eqb_spec i (length (nodes h))); [lia|reflexivity].
    + cbn [nodes grads]. rewrite app_length. cbn [length]. split; [lia|].
      unfold vof, fn_of, upd. rewrite nth_error_app2, Nat.sub_diag, Nat.eqb_refl by auto. auto.
Qed.

Lemma hget_inv (h : heap T) i nd : hget h i = Ret nd -> nth_error (nodes h) i = Some nd /\ i < length (nodes h) /\ vof (nodes h) i = n_val nd.
Proof.
  unfold hget, vindex. destruct (nth_error (nodes h) i) as [nd'|] eqn:E; [|discriminate]. intros E'. injection E' as ->.
  split; [reflexivity|]. split; [apply nth_error_Some; congruence|]. unfold vof. rewrite E. reflexivity.
Qed.

Lemma hget_wf (h : heap T) i nd : heap_inv h -> hget h i = Ret nd -> wf (n_val nd).
Proof. intros [H _] E. apply hget_inv in E as [E _]. apply (H _ _ E). Qed.

(** What an operation on handles does *)
Definition makes (h h' : heap T) (i : nat) (v : raw T) (fn : option (opk * list nat)) (g : option (raw T)) : Prop :=
  heap_inv h' /\ extends h h' /\ grads_kept h h' /\ length (nodes h) <= i /\ length (nodes h') = S i /\
  vof (nodes h') i = v /\ fn_of (nodes h') i = fn /\ grads h' i = g.

Lemma alloc_makes (h : heap T) v fn g h' i :
  heap_inv h -> wf v -> (forall g', g = Some g' -> wf g') ->
  (forall k ins, fn = Some (k, ins) -> Forall (fun i => i < length (nodes h)) ins /\ fwd k (map (vof (nodes h)) ins) = Ret v) ->
  alloc h v fn g = (h', i) -> makes h h' i v fn g.
Proof.
  intros H1 H2 H3 H4 E. pose proof (alloc_ok h v fn g H1 H2 H3 H4) as Q. rewrite E in Q.
  destruct Q as (Q1 & Q2 & Q3 & -> & Q4). split; [exact Q1|]. split; [exact Q2|]. split; [exact Q3|]. split; [lia|]. exact Q4.
Qed.

Lemma op_unary_makes k op (h : heap T) i h' j :
  (forall a : raw T, fwd k [a] = generic_unary_op (LRaw a) op) -> heap_inv h ->
  (let* a := hget h i in let* t := generic_unary_op (LRaw (n_val a)) op in Ret (alloc h t (Some (k, [i])) None)) = Ret (h', j) ->
  exists v, fwd k [vof (nodes h) i] = Ret v /\ i < length (nodes h) /\ makes h h' j v (Some (k, [i])) None.
Proof.
  intros Hk Hh. destruct (hget h i) as [a| |] eqn:Ea; cbn [bind]; try discriminate.
  apply hget_inv in Ea as (_ & Hi & Ev). destruct (generic_unary_op (LRaw (n_val a)) op) as [t| |] eqn:Et; cbn [bind]; try discriminate.
  intros E. apply Ret_inj in E. exists t. rewrite Ev, Hk. split; [exact Et|]. split; [exact Hi|].
  eapply alloc_makes; [exact Hh| | | |exact E].
  - apply unary_form in Et. apply Et.
  - discriminate.
  - intros k' ins E'. injection E' as <- <-. split; [repeat constructor; auto|]. cbn [map]. rewrite Ev, Hk. exact Et.
Qed.

Lemma op_binary_makes k (op : raw T -> raw T -> outcome (raw T)) (h : heap T) i j h' n :
  (forall a b : raw T, fwd k [a; b] = op a b) -> (forall a b t, wf a -> wf b -> op a b = Ret t -> wf t) -> heap_inv h ->
  (let* a := hget h i in let* b := hget h j in let* t := op (n_val a) (n_val b) in Ret (alloc h t (Some (k, [i; j])) None)) = Ret (h', n) ->
  exists v, fwd k [vof (nodes h) i; vof (nodes h) j] = Ret v /\ i < length (nodes h) /\ j < length (nodes h) /\
    makes h h' n v (Some (k, [i; j])) None.
Proof.
  intros Hk Hw Hh. destruct (hget h i) as [a| |] eqn:Ea; cbn [bind]; try discriminate.
  destruct (hget h j) as [b| |] eqn:Eb; cbn [bind]; try discriminate.
  pose proof (hget_wf h i a Hh Ea) as Wa. pose proof (hget_wf h j b Hh Eb) as Wb.
  apply hget_inv in Ea as (_ & Hi & Ev). apply hget_inv in Eb as (_ & Hj & Ew).
  destruct (op (n_val a) (n_val b)) as [t| |] eqn:Et; cbn [bind]; try discriminate.
  intros E. apply Ret_inj in E. exists t. rewrite Ev, Ew, Hk. split; [exact Et|]. split; [exact Hi|]. split; [exact Hj|].
  eapply alloc_makes; [exact Hh| | | |exact E].
  - eapply Hw; [| |exact Et]; auto.
  - discriminate.
  - intros k' ins E'. injection E' as <- <-. split; [repeat constructor; auto|]. cbn [map]. rewrite Ev, Ew, Hk. exact Et.
Qed.


(** ** Gradient updates of one [compute_jvp], independent of the gradients stored so far *)

Definition upd_all (us : list (nat * raw T)) (gr : nat -> option (raw T)) : outcome (nat -> option (raw T)) :=
  foldM (fun gr '(i, g) => update_grad gr i g) us gr.

Definition traced (P : nat * raw T -> Prop) (F : (nat -> option (raw T)) -> outcome (nat -> option (raw T))) : Prop :=
  exists us (st : outcome unit), Forall P us /\ forall gr, F gr = (let* gr' := upd_all us gr in st ;; Ret gr').

Lemma traced_ret P : traced P (fun gr => Ret gr).
Proof. exists [], (Ret tt). split; auto. Qed.
Lemma traced_stop P (p : panic) : traced P (fun _ => Panic p).
Proof. exists [], (Panic p). split; auto. Qed.
Lemma traced_nofuel P : traced P (fun _ => NoFuel).
Proof. exists [], NoFuel. split; auto. Qed.
Lemma traced_update (P : nat * raw T -> Prop) i g : P (i, g) -> traced P (fun gr => update_grad gr i g).
Proof.
  intros H. exists [(i, g)], (Ret tt). split; [auto|]. intros gr. unfold upd_all. cbn [foldM].
  destruct (update_grad gr i g); reflexivity.
Qed.
Lemma traced_bind P F G : traced P F -> traced P G -> traced P (fun gr => let* gr' := F gr in G gr').
Proof.
  intros (u1 & s1 & H1 & E1) (u2 & s2 & H2 & E2). destruct s1 as [[]|p|] eqn:Es.
  - exists (u1 ++ u2), s2. split; [apply Forall_app; auto|]. intros gr. rewrite E1. unfold upd_all. rewrite foldM_app.
    fold (upd_all u1 gr). destruct (upd_all u1 gr); cbn [bind]; [apply E2|reflexivity|reflexivity].
  - exists u1, (Panic p). split; auto. intros gr. rewrite E1. destruct (upd_all u1 gr); reflexivity.
  - exists u1, NoFuel. split; auto. intros gr. rewrite E1. destruct (upd_all u1 gr); reflexivity.
Qed.
Lemma traced_foldM P B (f : (nat -> option (raw T)) -> B -> outcome (nat -> option (raw T))) l :
  (forall b, In b l -> traced P (fun gr => f gr b)) -> traced P (fun gr => foldM f l gr).
Proof.
  induction l as [|b l IH]; intros H; cbn [foldM]; [apply traced_ret|].
  apply (traced_bind P (fun gr => f gr b) (fun gr => foldM f l gr)); [apply H; left; auto|apply IH; intros; apply H; right; auto].
Qed.
Lemma traced_const P A (m : outcome A) F : (forall a, m = Ret a -> traced P (F a)) -> traced P (fun gr => let* a := m in F a gr).
Proof. intros H. destruct m as [a|p|]; cbn [bind]; [auto|apply traced_stop|apply traced_nofuel]. Qed.

(** The updates go to tensors the inputs were computed from, each with that tensor's shape. *)
Definition upd_ok (ns : list (node T)) (ins : list nat) (u : nat * raw T) : Prop :=
  (exists i, In i ins /\ uses ns i (fst u)) /\ wf (snd u) /\ shape (snd u) = shape (vof ns (fst u)) /\ fst u < length ns.

Lemma compute_jvp_traced ns : forall fuel k ins outer, traced (upd_ok ns ins) (compute_jvp fuel ns k ins outer).
Proof.
  induction fuel as [|fuel IH]; intros k ins outer; cbn [compute_jvp]; [apply traced_nofuel|].
  apply traced_const. intros nds En. apply traced_const. intros gs _. apply traced_foldM.
  intros [g [i nd]] Hin. apply in_combine_r in Hin. destruct (in_inputs ns ins nds i nd En Hin) as [Hi Hn].
  apply traced_const. intros _ _. apply traced_const. intros sg Es. apply raw_new_inv in Es as [-> Ls].
  assert (Hlt : i < length ns) by (apply nth_error_Some; congruence).
  assert (Ev : vof ns i = n_val nd) by (unfold vof; rewrite Hn; reflexivity).
  apply (traced_bind _ (fun gr => update_grad gr i (mkRaw (array g) (shape (n_val nd))))
    (fun gr' => match n_fn nd with Some (k', ins') => compute_jvp fuel ns k' ins' [g] gr' | None => Ret gr' end)).
  - apply traced_update. split; [|split; [exact Ls|split; [|exact Hlt]]].
    + exists i. split; [exact Hi|apply uses_refl].
    + cbn [fst snd shape]. rewrite Ev. reflexivity.
  - destruct (n_fn nd) as [[k' ins']|] eqn:Ef; [|apply traced_ret].
    destruct (IH k' ins' [g]) as (us & st & Hu & E). exists us, st. split; [|exact E].
    eapply Forall_impl; [|exact Hu]. intros [m gm] ((j & Hj & U) & W). split; [|exact W].
    exists i. split; [exact Hi|]. eapply uses_step; [|exact Hj|exact U]. unfold fn_of. rewrite Hn. exact Ef.
Qed.

Lemma uses_lt ns n m : recorded ns -> uses ns n m -> m <= n.
Proof.
  intros HR U. induction U as [|n k ins i m E Hi U IH]; auto. unfold fn_of in E. destruct (nth_error ns n) as [nd|] eqn:En; [|discriminate].
  destruct (HR n nd En) as [_ Q]. destruct (Q k ins E) as [Q1 _]. rewrite Forall_forall in Q1. specialize (Q1 i Hi). lia.
Qed.

Lemma recorded_backrefs (ns : list (node T)) : recorded ns -> backrefs ns.
Proof. intros H n nd k ins E Ef. destruct (H n nd E) as [_ Q]. apply (Q k ins Ef). Qed.

Lemma backward_unfold (h h' : heap T) i : backward h i = Ret h' ->
  exists nd k ins, nth_error (nodes h) i = Some nd /\ length (array (n_val nd)) = 1 /\ n_fn nd = Some (k, ins) /\ nodes h' = nodes h /\
    compute_jvp (S (length (nodes h))) (nodes h) k ins [raw_scalar n_one] (grads h) = Ret (grads h').
Proof.
  unfold backward. destruct (hget h i) as [nd| |] eqn:En; cbn [bind]; try discriminate. apply hget_inv in En as (En & Hi & Ev).
  destruct (Nat.eqb_spec (length (array (n_val nd))) 1) as [L|]; cbn [assert bind]; [|discriminate].
  destruct (n_fn nd) as [[k ins]|] eqn:Ef; cbn [unwrap_opt bind]; [|discriminate].
  destruct (compute_jvp _ _ _ _ _ _) as [gr| |] eqn:Ec; cbn [bind]; try discriminate. intros E. injection E as <-.
  exists nd, k, ins. cbn [nodes grads]. auto.
Qed.

(** The contribution of a [backward] call: a list of updates that depends on the recorded history
    only, not on the stored gradients. *)
Lemma backward_trace (ns : list (node T)) i : recorded ns ->
  exists us (st : outcome unit),
    Forall (fun u => uses ns i (fst u) /\ fst u <> i /\ wf (snd u) /\ shape (snd u) = shape (vof ns (fst u)) /\ fst u < length ns) us /\
    forall gr, backward (mkHeap ns gr) i = (let* gr' := upd_all us gr in st ;; Ret (mkHeap ns gr')).
Proof.
  intros HR. unfold backward. cbn [nodes grads]. unfold hget. cbn [nodes].
  destruct (vindex ns i) as [nd|p|] eqn:En; cbn [bind]; [|exists [], (Panic p); split; auto|exists [], NoFuel; split; auto].
  apply vindex_ret in En. destruct (assert (length (array (n_val nd)) =? 1)) as [[]|p|]; cbn [bind];
    [|exists [], (Panic p); split; auto|exists [], NoFuel; split; auto].
  destruct (n_fn nd) as [[k ins]|] eqn:Ef; cbn [unwrap_opt bind]; [|exists [], (Panic PUnwrap); split; auto].
  destruct (compute_jvp_traced ns (S (length ns)) k ins [raw_scalar n_one]) as (us & st & Hu & E).
  exists us, st. split.
  - eapply Forall_impl; [|exact Hu]. intros [m g] ((j & Hj & U) & W1 & W2 & W3). cbn [fst snd] in *.
    assert (Hfn : fn_of ns i = Some (k, ins)) by (unfold fn_of; rewrite En; exact Ef).
    split; [eapply uses_step; eauto|]. split; [|auto].
    destruct (HR i nd En) as [_ Q]. destruct (Q k ins Ef) as [Q1 _]. rewrite Forall_forall in Q1. specialize (Q1 j Hj).
    apply (uses_lt ns j m HR) in U. lia.
  - intros gr. rewrite E. destruct (upd_all us gr); cbn [bind]; auto. destruct st; reflexivity.
Qed.

Lemma upd_same A (f : nat -> A) i x : upd f i x i = x.
Proof. unfold upd. rewrite Nat.eqb_refl. reflexivity. Qed.
Lemma upd_other A (f : nat -> A) i j x : j <> i -> upd f i x j = f j.
Proof. unfold upd. destruct (Nat.eqb_spec j i); congruence. Qed.

Lemma update_grad_inv gr i (g : raw T) gr' : update_grad gr i g = Ret gr' ->
  (forall j, j <> i -> gr' j = gr j) /\
  ((gr i = None /\ gr' i = Some g) \/ exists o s, gr i = Some o /\ add_raw (LRaw o) (LRaw g) = Ret s /\ gr' i = Some s).
Proof.
  unfold update_grad. destruct (gr i) as [o|] eqn:E.
  - destruct (add_raw _ _) as [s| |] eqn:Es; cbn [bind]; try discriminate. intros E'. injection E' as <-.
    split; [intros; apply upd_other; auto|]. right. exists o, s. rewrite upd_same. auto.
  - intros E'. injection E' as <-. split; [intros; apply upd_other; auto|]. left. rewrite upd_same. auto.
Qed.

Lemma upd_all_keep (P : nat -> option (raw T) -> Prop) us : forall gr gr',
  (forall i g, In (i, g) us -> forall gr gr', update_grad gr i g = Ret gr' -> P i (gr i) -> P i (gr' i)) ->
  (forall i, P i (gr i)) -> upd_all us gr = Ret gr' -> forall i, P i (gr' i).
Proof.
  unfold upd_all. induction us as [|[j g] us IH]; intros gr gr' H Hg E; cbn [foldM] in E.
  - injection E as <-. exact Hg.
  - destruct (update_grad gr j g) as [gr1| |] eqn:E1; cbn [bind] in E; try discriminate.
    apply (IH gr1); [intros; eapply H; [right; eauto| |]; eauto| |exact E].
    intros i. destruct (Nat.eq_dec i j) as [->|Hne]; [apply (H j g (or_introl eq_refl) gr gr1 E1 (Hg j))|].
    apply update_grad_inv in E1 as [E1 _]. rewrite E1 by auto. apply Hg.
Qed.

Lemma upd_all_other us : forall gr gr' i, (forall u, In u us -> fst u <> i) -> upd_all us gr = Ret gr' -> gr' i = gr i.
Proof.
  unfold upd_all. induction us as [|[j g] us IH]; intros gr gr' i H E; cbn [foldM] in E; [congruence|].
  destruct (update_grad gr j g) as [gr1| |] eqn:E1; cbn [bind] in E; try discriminate.
  rewrite (IH gr1 gr' i); [|intros; apply H; right; auto|exact E].
  apply update_grad_inv in E1 as [E1 _]. apply E1. intros ->. apply (H (j, g) (or_introl eq_refl)). reflexivity.
Qed.

(** ** What [backward] changes *)
Lemma backward_effect (h h' : heap T) i : heap_inv h -> backward h i = Ret h' ->
  heap_inv h' /\ nodes h' = nodes h /\
  (forall j, ~ uses (nodes h) i j -> grads h' j = grads h j) /\ grads h' i = grads h i /\
  (forall (Q : list nat -> Prop) j, Q (shape (vof (nodes h) j)) -> (forall s, Q s -> Q (max_shape s (shape (vof (nodes h) j)))) ->
     (forall g, grads h j = Some g -> Q (shape g)) -> forall g, grads h' j = Some g -> Q (shape g)).
Proof.
  intros [HR HG] E. destruct (backward_trace (nodes h) i HR) as (us & st & Hu & Et).
  specialize (Et (grads h)). destruct h as [ns gr]. cbn [nodes grads] in *. rewrite E in Et.
  destruct (upd_all us gr) as [gr'| |] eqn:Eu; cbn [bind] in Et; try discriminate.
  destruct st as [[]| |]; cbn [bind] in Et; try discriminate. apply Ret_inj in Et. subst h'. cbn [nodes grads].
  rewrite Forall_forall in Hu.
  split; [split|split; [reflexivity|split; [|split]]].
  - exact HR.
  - intros j g Ej. cbn [nodes grads] in *. revert g Ej.
    apply (upd_all_keep (fun j o => forall g, o = Some g -> wf g /\ j < length ns) us gr gr'); [|exact HG|exact Eu].
    intros m g Hin gr1 gr2 E1 Hold g' Eg'. destruct (Hu _ Hin) as (_ & _ & W & _ & L). cbn [fst snd] in *.
    apply update_grad_inv in E1 as [_ [[_ E1]|(o & s & E0 & Es & E1)]].
    + rewrite E1 in Eg'. injection Eg' as <-. auto.
    + rewrite E1 in Eg'. injection Eg' as <-. apply binop_form in Es. split; [apply Es|exact L].
  - intros j Hj. apply (upd_all_other us gr gr'); [|exact Eu]. intros u Hin Ej. subst j. apply Hj. apply (Hu u Hin).
  - apply (upd_all_other us gr gr'); [|exact Eu]. intros u Hin. apply (Hu u Hin).
  - intros Q j Q0 Q1 Q2.
    assert (K : forall j', j' = j -> forall g, gr' j' = Some g -> Q (shape g)); [|exact (K j eq_refl)].
    apply (upd_all_keep (fun j' o => j' = j -> forall g, o = Some g -> Q (shape g)) us gr gr'); [|intros j' ->; exact Q2|exact Eu].
    intros m gm Hin gr1 gr2 E1 Hold -> g Eg. destruct (Hu _ Hin) as (_ & _ & W & Sm & L). cbn [fst snd] in *.
    apply update_grad_inv in E1 as [_ [[E0 E1]|(o & s & E0 & Es & E1)]]; rewrite E1 in Eg; injection Eg as <-; [rewrite Sm; exact Q0|].
    apply binop_form in Es as [_ Es]. cbn [tl_shape] in Es. rewrite Es, Sm. apply Q1, (Hold eq_refl o E0).
Qed.

End GraphFacts.
