(** * ApiFacts: facts about programs over the whole public interface *)
From Verif Require Import Base ModelIndex ModelTensor ModelOps ModelJvp ModelGraph ModelApi Spec SpecDual SpecGraph SpecApi
  Lists IndexFacts TensorFacts OpsFacts JvpFacts FuelFacts ClaimsTensor GraphFacts ProgFacts.

Section Elems.
Context {T : Type} {NT : Num T}.

(** Loops over the elements of any tensor or view without zero dimensions *)
Lemma elem_fold_aux A (l : tlike T) (body : A -> T -> outcome A) : positive (tl_shape l) ->
  forall n g fuel acc, g + S n = size (tl_shape l) -> n < fuel ->
  iter_fold (elem_iter_next l) body fuel (mkEI (unravel (tl_shape l) g) false) acc =
  foldM (fun acc i => let* x := tl_get_unwrap l i in body acc x) (map (unravel (tl_shape l)) (seq (S g) n)) acc.
Proof.
  intros Hp. induction n as [|n IH]; intros g fuel acc Hg Hf; destruct fuel as [|fuel]; try lia; cbn [iter_fold seq map foldM].
  - unfold elem_iter_next; cbn [ei_first ei_index]. rewrite increment_unravel by (auto; lia).
    destruct (Nat.ltb_spec (S g) (size (tl_shape l))); [lia|]. reflexivity.
  - unfold elem_iter_next at 1; cbn [ei_first ei_index]. rewrite increment_unravel by (auto; lia).
    destruct (Nat.ltb_spec (S g) (size (tl_shape l))); [|lia]. cbn [bind].
    destruct (tl_get_unwrap l _) as [x| |]; cbn [bind]; auto. destruct (body acc x); cbn [bind]; auto. apply IH; lia.
Qed.

Lemma elem_fold A (l : tlike T) (body : A -> T -> outcome A) acc : positive (tl_shape l) ->
  iter_fold (elem_iter_next l) body (index_fuel (tl_shape l)) (elem_iter_new l) acc =
  foldM (fun acc i => let* x := tl_get_unwrap l i in body acc x) (all_indices (tl_shape l)) acc.
Proof.
  intros Hp. pose proof (proj1 (size_pos _) Hp) as Hs.
  unfold index_fuel. rewrite product_max1 by auto. unfold elem_iter_new. rewrite <- unravel_0. rewrite all_indices_unravel.
  destruct (size (tl_shape l)) as [|n] eqn:E; [lia|].
  cbn [iter_fold seq map foldM]. unfold elem_iter_next at 1. cbn [ei_first ei_index].
  destruct (tl_get_unwrap l _) as [x| |]; cbn [bind]; auto. destruct (body acc x); cbn [bind]; auto.
  rewrite <- (elem_fold_aux A l body Hp n 0 (S n)); auto; lia.
Qed.

Lemma collect_mapM A B (f : A -> outcome B) l : forall acc,
  foldM (fun acc i => let* x := f i in Ret (acc ++ [x])) l acc = (let* r := mapM f l in Ret (acc ++ r)).
Proof.
  induction l as [|i l IH]; intros acc; cbn [foldM mapM bind]; [rewrite app_nil_r; reflexivity|].
  destruct (f i) as [x| |]; cbn [bind]; try reflexivity. rewrite IH. destruct (mapM f l) as [r| |]; cbn [bind]; try reflexivity.
  rewrite <- app_assoc. reflexivity.
Qed.

Lemma elements_mapM (l : tlike T) : positive (tl_shape l) -> elements l = mapM (tl_get_unwrap l) (all_indices (tl_shape l)).
Proof.
  intros Hp. unfold elements. rewrite elem_fold by auto. rewrite collect_mapM. destruct (mapM _ _); reflexivity.
Qed.

(** What a materialised view holds *)
Lemma to_tensor_reads (v : view T) r i : tl_to_tensor (LView v) = Ret r -> in_range (v_shape v) i ->
  tl_get_unwrap (LView v) i = tl_get_unwrap (LRaw r) i.
Proof.
  intros Hr Hi. destruct (to_tensor_positive v r Hr) as (Hp & Hwr & Hsr).
  cbn [tl_to_tensor] in Hr. rewrite elements_mapM in Hr by exact Hp. apply bind_Ret_inv in Hr as (a & Ea & Er). apply raw_new_inv in Er as [-> L].
  cbn [tl_shape] in Ea. apply mapM_length in Ea.
  unfold tl_get_unwrap at 2. cbn [tl_get]. rewrite raw_get_in_range; [|exact Hwr|exact Hi]. cbn [bind unwrap]. unfold tval. cbn [shape array].
  set (g := rm (v_shape v) i). assert (Hg : g < size (v_shape v)) by (apply rm_lt; exact Hi).
  assert (E1 : nth_error (all_indices (v_shape v)) g = Some i).
  { rewrite (nth_error_nth' _ []) by (rewrite all_indices_length; exact Hg). rewrite nth_all_indices by exact Hg. unfold g. rewrite unravel_rm by exact Hi. reflexivity. }
  clearbody g. clear -Ea E1. revert g E1. induction Ea as [|x y xs ys H _ IH]; intros [|g] E; cbn in *; try discriminate; [injection E as ->; exact H|apply IH, E].
Qed.

Lemma bmm_view_any (a r : raw T) v : tl_to_tensor (LView v) = Ret r -> bmm_raw (LRaw a) (LView v) = bmm_raw (LRaw a) (LRaw r).
Proof.
  intros Hr. destruct (to_tensor_positive v r Hr) as (Hp & Hwr & Hsr).
  assert (Eg : forall i, in_range (v_shape v) i -> tl_get_unwrap (LView v) i = tl_get_unwrap (LRaw r) i) by (intros; apply to_tensor_reads; auto).
  unfold bmm_raw. cbn [tl_shape]. rewrite Hsr.
  destruct (2 <=? _); cbn [assert bind]; [|reflexivity].
  destruct (Nat.eqb_spec (length (v_shape v)) 2) as [El|]; cbn [assert bind]; [|reflexivity].
  destruct (v_shape v) as [|kd [|md [|]]] eqn:Es; try discriminate El.
  destruct (vindex (shape a) (length (shape a) - 1)) as [li| |]; cbn [bind]; try reflexivity.
  change (vindex [kd; md] (length [kd; md] - 2)) with (Ret kd). cbn [bind].
  destruct (li =? kd); cbn [assert bind]; [|reflexivity].
  destruct (vindex (shape a) 0) as [l0| |]; cbn [bind]; try reflexivity.
  destruct (vindex (shape a) 1) as [l1| |]; cbn [bind]; try reflexivity.
  change (vindex [kd; md] 1) with (Ret md). cbn [bind].
  assert (Ec : forall li j, j < md -> bmm_cell (LRaw a) (LView v) li j = bmm_cell (LRaw a) (LRaw r) li j).
  { intros li' j Hj. unfold bmm_cell. cbn [tl_shape]. rewrite Hsr, Es. rewrite vset2_1. cbn [bind]. change (vindex [kd; md] 0) with (Ret kd). cbn [bind].
    apply foldM_ext. intros x k0 Hk. apply in_seq in Hk. destruct (vset li' _ k0); cbn [bind]; try reflexivity.
    rewrite vset2_0. cbn [bind]. rewrite Eg; [reflexivity|]. repeat constructor; lia. }
  assert (Er : forall b n, bmm_rows (LRaw a) (LView v) b n md = bmm_rows (LRaw a) (LRaw r) b n md).
  { intros b n. unfold bmm_rows. f_equal. apply foldM_ext. intros [arr li'] c _. destruct (if _ =? 3 then _ else _); cbn [bind]; try reflexivity.
    apply foldM_ext. intros [arr' li''] i _. destruct (vset li'' _ i) as [li3| |]; cbn [bind]; try reflexivity.
    rewrite (mapM_ext_in _ _ (bmm_cell (LRaw a) (LView v) li3) (bmm_cell (LRaw a) (LRaw r) li3) (seq 0 md)); [reflexivity|].
    intros j Hj. apply in_seq in Hj. apply Ec. lia. }
  rewrite !Er. reflexivity.
Qed.

End Elems.

Section Api.
Context {T : Type} {NT : Num T}.
Implicit Types (h : heap T) (a : astate T).

(** ** What every call does *)

(** A new tensor has no gradient, or has rank 0 (a [sum]), or is a copy of an old tensor with its gradient. *)
Definition fresh h h' : Prop := forall j g, length (nodes h) <= j < length (nodes h') -> grads h' j = Some g ->
  shape (vof (nodes h') j) = [] \/ exists i, i < length (nodes h) /\ grads h i = Some g /\ vof (nodes h') j = vof (nodes h) i.
Definition grown h h' : Prop := extends h h' /\ grads_kept h h' /\ (history_back h -> history_back h') /\ fresh h h'.
Definition grows h (r : outcome (heap T * nat)) : Prop := forall h' i, r = Ret (h', i) -> grown h h' /\ i < length (nodes h').

Lemma grown_refl h : grown h h.
Proof. split; [apply extends_refl|]. split; [intros i _; reflexivity|split; [auto|]]. intros j g Hj. lia. Qed.
Lemma grown_trans h1 h2 h3 : grown h1 h2 -> grown h2 h3 -> grown h1 h3.
Proof.
  intros (E1 & K1 & B1 & F1) (E2 & K2 & B2 & F2). split; [eapply extends_trans; eassumption|]. pose proof (extends_length _ _ E1) as L1.
  split; [|split; [auto|]].
  - intros i Hi. rewrite K2; [apply K1, Hi|lia].
  - intros j g Hj Eg. destruct E2 as [e2 E2]. destruct (Nat.lt_ge_cases j (length (nodes h2))) as [Hj2|Hj2].
    + rewrite K2 in Eg by auto. rewrite E2, vof_app_old by auto. apply F1; [lia|exact Eg].
    + destruct (F2 j g) as [H|(i & Hi & Gi & Vi)]; [lia|exact Eg|left; exact H|].
      destruct (Nat.lt_ge_cases i (length (nodes h1))) as [Hi1|Hi1].
      * right. exists i. split; [exact Hi1|]. rewrite K1 in Gi by auto. split; [exact Gi|]. rewrite Vi. destruct E1 as [e1 E1]. rewrite E1, vof_app_old by auto. reflexivity.
      * rewrite Vi. apply F1; [lia|exact Gi].
Qed.

Lemma vof_new h v fn g : vof (nodes (fst (alloc h v fn g))) (length (nodes h)) = v.
Proof. unfold vof. cbn [alloc fst nodes]. rewrite nth_error_app2, Nat.sub_diag by lia. reflexivity. Qed.

Lemma grows_alloc h v fn g : (history_back h -> forall k ins, fn = Some (k, ins) -> Forall (fun i => i < length (nodes h)) ins) ->
  (g = None \/ shape v = [] \/ exists i, i < length (nodes h) /\ grads h i = g /\ v = vof (nodes h) i) ->
  grows h (Ret (alloc h v fn g)).
Proof.
  intros Hf Hg h' i E. pose proof (vof_new h v fn g) as EV. injection E as <- <-. cbn [alloc fst nodes] in *. rewrite app_length. cbn [length]. split; [|lia].
  split; [eexists; reflexivity|]. split; [|split].
  - intros j Hj. cbn [grads]. unfold upd. destruct (Nat.eqb_spec j (length (nodes h))); [lia|reflexivity].
  - intros Hb n nd k ins E Ef. cbn [nodes] in E. destruct (Nat.lt_ge_cases n (length (nodes h))) as [Hn|Hn].
    + rewrite nth_error_app1 in E by auto. eapply Hb; eassumption.
    + assert (n = length (nodes h)) as ->.
      { apply Nat.le_antisymm; [|exact Hn]. assert (n < length (nodes h ++ [mkNode v fn])) by (apply nth_error_Some; congruence). rewrite app_length in *. cbn in *. lia. }
      rewrite nth_error_app2, Nat.sub_diag in E by lia. injection E as <-. cbn [n_fn] in Ef. eapply Hf; eassumption.
  - intros j g' Hj Ej. cbn [nodes grads] in *. rewrite app_length in Hj. cbn [length] in Hj. assert (j = length (nodes h)) as -> by lia. rewrite upd_same in Ej. rewrite EV.
    destruct Hg as [->|[Hg|(i & Hi & Gi & Vi)]]; [discriminate|left; exact Hg|right; exists i; subst; auto].
Qed.
Lemma grows_bind A h (m : outcome A) F : (forall x, m = Ret x -> grows h (F x)) -> grows h (let* x := m in F x).
Proof. intros H h' i E. apply bind_Ret_inv in E as (x & E1 & E2). eapply H; eassumption. Qed.
Lemma grows_pair h (m : outcome (heap T * nat)) F : grows h m -> (forall h' j, m = Ret (h', j) -> grown h h' -> j < length (nodes h') -> grows h' (F h' j)) ->
  grows h (let* (h', j) := m in F h' j).
Proof.
  intros Hm HF h2 i E. apply bind_Ret_inv in E as ([h1 j] & E1 & E2). destruct (Hm _ _ E1) as [G L]. destruct (HF _ _ E1 G L _ _ E2) as [G2 L2].
  split; [eapply grown_trans; eassumption|exact L2].
Qed.
Lemma grows_here h i : i < length (nodes h) -> grows h (Ret (h, i)).
Proof. intros Hi h' j E. injection E as <- <-. split; [apply grown_refl|exact Hi]. Qed.
Lemma grows_leaf h m : grows h (leaf h m).
Proof. apply grows_bind. intros t _. apply grows_alloc; [discriminate|auto]. Qed.

Lemma hget_lt h i nd : hget h i = Ret nd -> i < length (nodes h).
Proof. intros E. apply hget_inv in E. tauto. Qed.
Lemma grows_op1 h v k i : i < length (nodes h) -> grows h (Ret (alloc h v (Some (k, [i])) None)).
Proof. intros Hi. apply grows_alloc; [|auto]. intros _ k' ins [= <- <-]. repeat constructor; exact Hi. Qed.
Lemma grows_op2 h v k i j : i < length (nodes h) -> j < length (nodes h) -> grows h (Ret (alloc h v (Some (k, [i; j])) None)).
Proof. intros Hi Hj. apply grows_alloc; [|auto]. intros _ k' ins [= <- <-]. repeat constructor; assumption. Qed.

Ltac grow := repeat match goal with
  | H : hget _ _ = Ret _ |- _ => apply hget_lt in H
  | |- grows _ (bind _ _) => apply grows_bind; intros ? ?
  | |- grows _ (Ret (alloc _ _ None None)) => apply grows_alloc; [discriminate|auto]
  | |- grows _ (Ret (alloc _ _ (Some (_, [_])) None)) => apply grows_op1; assumption
  | |- grows _ (Ret (alloc _ _ (Some (_, [_; _])) None)) => apply grows_op2; assumption
  | |- grows _ (leaf _ _) => apply grows_leaf
  end.

Lemma grows_add h i j : grows h (op_add h i j).
Proof. unfold op_add. grow. Qed.
Lemma grows_neg h i : grows h (op_neg h i).
Proof. unfold op_neg. grow. Qed.
Lemma grows_sub h i j : grows h (op_sub h i j).
Proof. unfold op_sub. apply grows_pair; [apply grows_neg|]. intros. apply grows_add. Qed.
Lemma grows_copy h i : grows h (op_copy h i).
Proof.
  unfold op_copy. apply grows_bind. intros nd E. apply hget_inv in E as (E & L & V). apply grows_alloc; [|right; right; exists i; auto].
  intros Hb k ins Ef. eapply Forall_impl; [|eapply Hb; eassumption]. cbn. intros; lia.
Qed.
Lemma grows_to_tensor h v : tensor_of v < length (nodes h) -> grows h (op_to_tensor h v).
Proof. intros Hv. destruct v; cbn [op_to_tensor tensor_of] in *; [apply grows_here, Hv|apply grows_copy|grow]. Qed.
Lemma grows_bmm_any h i v : tensor_of v < length (nodes h) -> grows h (op_bmm_any h i v).
Proof.
  intros Hv. unfold op_bmm_any. do 3 (apply grows_bind; intros ? ?). match goal with H : hget _ _ = Ret _ |- _ => apply hget_lt in H end.
  apply grows_pair; [apply grows_to_tensor, Hv|]. intros h' j _ G Hj.
  apply grows_op2; [|exact Hj]. pose proof (extends_length _ _ (proj1 G)). lia.
Qed.
Lemma grows_two h v w op : grows h (op_two h v w op).
Proof. unfold op_two. grow. Qed.
Lemma sum_rank0 (l : tlike T) t : tl_sum l = Ret t -> shape t = [].
Proof. destruct l; cbn [tl_sum]; intros E; [injection E as <-; reflexivity|]. apply bind_Ret_inv in E as (x & _ & E). injection E as <-. reflexivity. Qed.
Lemma grows_raw_sum h i : grows h (op_raw_sum h i).
Proof. unfold op_raw_sum. apply grows_bind. intros nd _. apply grows_bind. intros t Et. apply grows_alloc; [discriminate|]. right. left. eapply sum_rank0, Et. Qed.
Lemma grows_sum h i : grows h (op_sum h i).
Proof.
  unfold op_sum. apply grows_bind. intros nd E. apply hget_lt in E. apply grows_bind. intros t Et. apply grows_alloc.
  - intros _ k ins [= <- <-]. repeat constructor; exact E.
  - right. left. eapply sum_rank0, Et.
Qed.

Definition grows_v h (r : outcome (heap T * val)) : Prop := forall h' v, r = Ret (h', v) -> grown h h' /\ tensor_of v < length (nodes h').
Lemma grows_slice h v o : grows_v h (op_slice h v o).
Proof.
  assert (P : forall h1 i, grows_v h1 (let* nd := hget h1 i in let* w := view_new (n_val nd) o in Ret (h1, VView i (v_shape w) (v_offset w)))).
  { intros h1 i h' u E. apply bind_Ret_inv in E as (nd & E1 & E). apply bind_Ret_inv in E as (w & _ & E). injection E as <- <-.
    split; [apply grown_refl|eapply hget_lt, E1]. }
  destruct v as [i|i|i s o']; cbn [op_slice]; try apply P.
  intros h' u E. apply bind_Ret_inv in E as ([h1 j] & E1 & E). destruct (grows_copy _ _ _ _ E1) as [G _]. destruct (P _ _ _ _ E) as [G2 L2].
  split; [eapply grown_trans; eassumption|exact L2].
Qed.

(** Every value the program holds belongs to a tensor. *)
Definition env_ok a : Prop := Forall (fun v => tensor_of v < length (nodes (ahp a))) (aenv a).

Definition effect a a' : Prop := grown (ahp a) (ahp a') /\ exists e, aenv a' = aenv a ++ e /\ Forall (fun v => tensor_of v < length (nodes (ahp a'))) e.

Lemma effect_rc a r a' : grows (ahp a) r -> bind_rc a r = Some (Ret a') -> effect a a'.
Proof.
  unfold bind_rc. intros G E. injection E as E. apply bind_Ret_inv in E as ([h i] & E1 & E). injection E as <-. destruct (G _ _ E1) as [Gr L].
  split; [exact Gr|]. eexists. split; [reflexivity|]. repeat constructor; exact L.
Qed.
Lemma effect_raw a r a' : grows (ahp a) r -> bind_raw a r = Some (Ret a') -> effect a a'.
Proof.
  unfold bind_raw. intros G E. injection E as E. apply bind_Ret_inv in E as ([h i] & E1 & E). injection E as <-. destruct (G _ _ E1) as [Gr L].
  split; [exact Gr|]. eexists. split; [reflexivity|]. repeat constructor; exact L.
Qed.
Lemma effect_val a r a' : grows_v (ahp a) r -> bind_val a r = Some (Ret a') -> effect a a'.
Proof.
  unfold bind_val. intros G E. injection E as E. apply bind_Ret_inv in E as ([h i] & E1 & E). injection E as <-. destruct (G _ _ E1) as [Gr L].
  split; [exact Gr|]. eexists. split; [reflexivity|]. repeat constructor; exact L.
Qed.

Lemma env_lt a x v : env_ok a -> nth_error (aenv a) x = Some v -> tensor_of v < length (nodes (ahp a)).
Proof. intros H E. exact (proj1 (Forall_forall _ _) H v (nth_error_In _ _ E)). Qed.

Ltac vars E Hok := repeat (match type of E with
  | context [match nth_error (aenv ?a) ?x with _ => _ end] =>
    let Ex := fresh "Ex" in destruct (nth_error (aenv a) x) as [[?i|?i|?i ?s ?o]|] eqn:Ex; try discriminate E;
    apply (env_lt _ _ _ Hok) in Ex; cbn [tensor_of] in Ex
  end).
Ltac done_effect E := first
  [ eapply effect_rc; [|exact E]; first [apply grows_add|apply grows_neg|apply grows_sub|apply grows_sum|apply grows_bmm_any; cbn [tensor_of]; assumption|apply grows_two|apply grows_copy|
      apply grows_to_tensor; assumption|apply grows_here; assumption|solve [unfold op_new, op_filler, op_scalar, op_from, op_relu, op_tanh, op_abs, op_dot, op_grad; grow]]
  | eapply effect_raw; [|exact E]; first [apply grows_two|apply grows_copy|apply grows_raw_sum|apply grows_here; assumption|solve [unfold op_new, op_filler, op_scalar, op_from; grow; apply grows_two]|
      solve [unfold op_new, op_filler, op_scalar, op_from; grow]]
  | eapply effect_val; [|exact E]; apply grows_slice ].

Lemma exec_grows a c a' : env_ok a -> changes_grads c = false -> a_exec a c = Some (Ret a') -> effect a a'.
Proof.
  intros Hok Hc E. unfold a_exec in E. destruct c as [c| | | | | | | | | | | | | | | | | | | | | | | | | | | | | | | | |]; try discriminate Hc.
  1: destruct c; try discriminate E.
  all: vars E Hok; try (done_effect E).
  - (* AClone of an RcTensor *) eapply effect_val; [|exact E]. intros h' v [= <- <-]. split; [apply grown_refl|exact Ex].
  - eapply effect_val; [|exact E]. intros h' v [= <- <-]. split; [apply grown_refl|exact Ex].
  - (* reshape *) eapply effect_val; [|exact E]. intros h' v Ev. apply bind_Ret_inv in Ev as (nd & _ & Ev). apply bind_Ret_inv in Ev as (w & _ & Ev). injection Ev as <- <-.
    split; [apply grown_refl|exact Ex].
Qed.

(** ** The calls that change gradients *)
Lemma exec_cells a c a' : changes_grads c = true -> a_exec a c = Some (Ret a') ->
  nodes (ahp a') = nodes (ahp a) /\ aenv a' = aenv a /\
  exists x v, nth_error (aenv a) x = Some v /\
    ((exists y, c = AUpdateGrad x y) \/ c = AZeroGrad x \/ c = ABackward x) /\
    forall j, ~ uses (nodes (ahp a)) (tensor_of v) j -> grads (ahp a') j = grads (ahp a) j.
Proof.
  intros Hc E. destruct c; try discriminate Hc; unfold a_exec in E.
  - (* update_grad *) destruct (nth_error (aenv a) x) as [[i|i|i s o]|] eqn:Ex; try discriminate E;
      destruct (nth_error (aenv a) y) as [[j|j|j s' o']|]; try discriminate E; injection E as E;
      apply bind_Ret_inv in E as (h' & E & E'); injection E' as <-; unfold op_update_grad in E;
      apply bind_Ret_inv in E as (g & _ & E); apply bind_Ret_inv in E as (gr & E & E'); injection E' as <-; cbn [nodes grads ahp aenv];
      (split; [reflexivity|split; [reflexivity|]]); exists x; eexists; (split; [exact Ex|split; [left; eexists; reflexivity|]]);
      intros m Hm; apply update_grad_inv in E as [E _]; apply E; intros ->; apply Hm; constructor.
  - (* zero_grad *) destruct (nth_error (aenv a) x) as [[i|i|i s o]|] eqn:Ex; try discriminate E; injection E as <-; cbn [zero_grad nodes grads ahp aenv];
      (split; [reflexivity|split; [reflexivity|]]); exists x; eexists; (split; [exact Ex|split; [right; left; reflexivity|]]);
      intros m Hm; apply upd_other; intros ->; apply Hm; constructor.
  - (* backward *) destruct (nth_error (aenv a) x) as [[i|i|i s o]|] eqn:Ex; try discriminate E. injection E as E.
    apply bind_Ret_inv in E as (h' & E & E'). injection E' as <-. cbn [ahp aenv].
    apply backward_unfold in E as (nd & k & ins & En & _ & Ef & EN & Ec). split; [exact EN|split; [reflexivity|]].
    exists x, (VRc i). split; [exact Ex|split; [right; right; reflexivity|]]. cbn [tensor_of]. intros m Hm.
    destruct (compute_jvp_traced (nodes (ahp a)) (S (length (nodes (ahp a)))) k ins [raw_scalar n_one]) as (us & st & Hu & Et).
    rewrite Et in Ec. apply bind_Ret_inv in Ec as (gr' & Eu & Ec). destruct st as [[]| |]; cbn [bind] in Ec; try discriminate. injection Ec as Ec. subst gr'.
    apply (upd_all_other us (grads (ahp a)) (grads h')); [|exact Eu]. intros u Hin Em. rewrite Forall_forall in Hu.
    destruct (Hu u Hin) as ((j & Hj & Hu') & _). apply Hm. eapply uses_step; [|exact Hj|rewrite <- Em; exact Hu'].
    unfold fn_of. rewrite En. exact Ef.
Qed.

Lemma effect_all a c a' : env_ok a -> a_exec a c = Some (Ret a') ->
  extends (ahp a) (ahp a') /\ (history_back (ahp a) -> history_back (ahp a')) /\
  exists e, aenv a' = aenv a ++ e /\ Forall (fun v => tensor_of v < length (nodes (ahp a'))) e.
Proof.
  intros Hok E. destruct (changes_grads c) eqn:Ec.
  - destruct (exec_cells a c a' Ec E) as (E1 & E2 & _). split; [|split].
    + exists []. rewrite app_nil_r. exact E1.
    + intros H n nd k ins. rewrite E1. apply H.
    + exists []. rewrite app_nil_r. auto.
  - destruct (exec_grows a c a' Hok Ec E) as ((E1 & _ & E3 & _) & E4). auto.
Qed.

Lemma env_ok_kept a c a' : env_ok a -> a_exec a c = Some (Ret a') -> env_ok a'.
Proof.
  intros Hok E. destruct (effect_all a c a' Hok E) as (E1 & _ & e & E2 & E3). unfold env_ok. rewrite E2. apply Forall_app. split; [|exact E3].
  eapply Forall_impl; [|exact Hok]. cbn. intros v Hv. pose proof (extends_length _ _ E1). lia.
Qed.
Lemma reach_env ok a : a_reach ok a -> env_ok a.
Proof. induction 1; [constructor|eapply env_ok_kept; eassumption]. Qed.
Lemma reach_back ok a : a_reach ok a -> history_back (ahp a).
Proof.
  induction 1 as [|a c a' R IH _ E].
  - intros n nd k ins E. destruct n; discriminate.
  - apply (effect_all a c a' (reach_env _ _ R) E), IH.
Qed.

(** ** Calls end *)
Lemma nf_as_like h v : as_like h v <> NoFuel.
Proof. destruct v; cbn [as_like]; (apply nf_bind; [apply nf_hget|discriminate]). Qed.
Lemma nf_leaf h m : m <> NoFuel -> leaf h m <> NoFuel.
Proof. intros H. apply nf_bind; [exact H|discriminate]. Qed.
Lemma nf_copy h i : op_copy h i <> NoFuel.
Proof. apply nf_bind; [apply nf_hget|discriminate]. Qed.
Lemma nf_op_to_tensor h v : op_to_tensor h v <> NoFuel.
Proof. destruct v; cbn [op_to_tensor]; [discriminate|apply nf_copy|apply nf_bind; [apply nf_as_like|intros; apply nf_leaf, nf_tl_to_tensor]]. Qed.
Lemma nf_reshape (v : view T) s : view_reshape v s <> NoFuel.
Proof. unfold view_reshape. apply nf_bind; [apply nf_assert|discriminate]. Qed.
Lemma nf_op_slice h v o : op_slice h v o <> NoFuel.
Proof.
  assert (P : forall h1 i, (let* nd := hget h1 i in let* w := view_new (n_val nd) o in Ret (h1, VView i (v_shape w) (v_offset w))) <> NoFuel)
    by (intros; apply nf_bind; [apply nf_hget|intros; apply nf_bind; [apply nf_view_new|discriminate]]).
  destruct v; cbn [op_slice]; try apply P. apply nf_bind; [apply nf_copy|]. intros [h1 j] _. apply P.
Qed.
Lemma nf_op_two h v w op : (forall l r, op l r <> NoFuel) -> op_two h v w op <> NoFuel.
Proof. intros H. apply nf_bind; [apply nf_as_like|intros]. apply nf_bind; [apply nf_as_like|intros]. apply nf_leaf, H. Qed.

Lemma nf_rc a r : r <> NoFuel -> bind_rc a r <> Some NoFuel.
Proof. unfold bind_rc. intros H [= E]. revert E. apply nf_bind; [exact H|]. intros [h i] _. discriminate. Qed.
Lemma nf_rawb a r : r <> NoFuel -> bind_raw a r <> Some NoFuel.
Proof. unfold bind_raw. intros H [= E]. revert E. apply nf_bind; [exact H|]. intros [h i] _. discriminate. Qed.
Lemma nf_val a r : r <> NoFuel -> bind_val a r <> Some NoFuel.
Proof. unfold bind_val. intros H [= E]. revert E. apply nf_bind; [exact H|]. intros [h i] _. discriminate. Qed.
Lemma nf_some A (m : outcome A) : m <> NoFuel -> Some m <> Some NoFuel.
Proof. congruence. Qed.

Ltac nfa := repeat first
  [ apply nf_rc | apply nf_rawb | apply nf_val | apply nf_some
  | apply nf_hget | apply nf_vindex | apply nf_unwrap_opt | apply nf_view_new | apply nf_add | apply nf_unary | apply nf_mul | apply nf_ewm | apply nf_reshape
  | apply nf_dot | apply nf_bmm | apply nf_tl_to_tensor | apply nf_tl_sum | apply nf_update_grad | apply nf_raw_new | apply nf_raw_from
  | apply nf_as_like | apply nf_copy | apply nf_op_to_tensor | apply nf_op_slice | apply nf_op_two; intros ? ? | apply nf_leaf
  | discriminate | match goal with x : (_ * _)%type |- _ => destruct x end
  | apply nf_bind; [|intros ? ?] ].

Lemma exec_ends a c : history_back (ahp a) -> a_exec a c <> Some NoFuel.
Proof.
  intros Hb. destruct c as [c| | | | | | | | | | | | | | | | | | | | | | | | | | | | | | | | |]; cbn [a_exec]; try (destruct c; try discriminate);
    repeat match goal with |- context [match nth_error (aenv a) ?x with _ => _ end] => destruct (nth_error (aenv a) x) as [[?i|?i|?i ?s ?o]|] end;
    try discriminate;
    unfold op_new, op_filler, op_scalar, op_from, op_sub, op_add, op_neg, op_abs, op_relu, op_tanh, op_sum, op_raw_sum, op_dot, op_bmm_any,
      op_grad, op_update_grad; try (nfa; fail).
  apply nf_some. apply nf_bind; [apply nf_backward; exact Hb|discriminate].
Qed.

Lemma run_ends : forall p a, env_ok a -> history_back (ahp a) -> a_run p a <> Some NoFuel.
Proof.
  induction p as [|c p IH]; intros a Hok Hb; cbn [a_run]; [discriminate|].
  pose proof (exec_ends a c Hb) as N. destruct (a_exec a c) as [[a'| |]|] eqn:E; try discriminate; [|congruence].
  apply IH; [eapply env_ok_kept; eassumption|apply (effect_all a c a' Hok E), Hb].
Qed.

Lemma run_reach (ok : astate T -> call T -> Prop) : forall p a a', (forall a c, ok a c) -> a_reach ok a -> a_run p a = Some (Ret a') -> a_reach ok a'.
Proof.
  induction p as [|c p IH]; intros a a' Hok R E; cbn [a_run] in E; [injection E as <-; exact R|].
  destruct (a_exec a c) as [[a1| |]|] eqn:E1; try discriminate. eapply IH; [exact Hok| |exact E]. eapply ar_step; [exact R|apply Hok|exact E1].
Qed.

Lemma run_app : forall p q a, a_run (p ++ q) a = match a_run p a with Some (Ret a') => a_run q a' | r => r end.
Proof.
  induction p as [|c p IH]; intros q a; cbn [a_run app]; [reflexivity|]. destruct (a_exec a c) as [[a1| |]|]; try reflexivity. apply IH.
Qed.

(** ** Careful programs: every tensor is well formed and is the value of its history. *)
Definition sound h (r : outcome (heap T * nat)) : Prop := forall h' i, r = Ret (h', i) -> heap_inv h'.

Lemma sound_bind A h (m : outcome A) F : (forall x, m = Ret x -> sound h (F x)) -> sound h (let* x := m in F x).
Proof. intros H h' i E. apply bind_Ret_inv in E as (x & E1 & E2). eapply H; eassumption. Qed.
Lemma sound_alloc h v fn g : heap_inv h -> wf v -> (forall g', g = Some g' -> wf g') ->
  (forall k ins, fn = Some (k, ins) -> Forall (fun i => i < length (nodes h)) ins /\ fwd k (map (vof (nodes h)) ins) = Ret v) ->
  sound h (Ret (alloc h v fn g)).
Proof. intros Hi Hw Hg Hf h' i E. pose proof (alloc_ok h v fn g Hi Hw Hg Hf) as P. apply Ret_inj in E. rewrite E in P. apply P. Qed.
Lemma sound_leaf h m : heap_inv h -> (forall t, m = Ret t -> wf t) -> sound h (leaf h m).
Proof. intros Hi Hm. apply sound_bind. intros t E. apply sound_alloc; auto; discriminate. Qed.
Lemma made_sound h r : made h r -> sound h r.
Proof. intros H h' i E. apply (H h' i E). Qed.
Lemma sound_here h i : heap_inv h -> sound h (Ret (h, i)).
Proof. intros Hi h' j [= <- _]. exact Hi. Qed.

Lemma sound_copy h i : heap_inv h -> sound h (op_copy h i).
Proof.
  intros Hi. apply sound_bind. intros nd E. apply hget_inv in E as (E & L & _). destruct (proj1 Hi i nd E) as [Hw Hf].
  apply sound_alloc; [exact Hi|exact Hw|intros g' Eg; apply (proj2 Hi i g' Eg)|].
  intros k ins Ef. destruct (Hf k ins Ef) as [F1 F2]. split; [|exact F2]. eapply Forall_impl; [|exact F1]. cbn. intros; lia.
Qed.

Lemma unary_any (l : tlike T) op t : generic_unary_op l op = Ret t -> wf t.
Proof. unfold generic_unary_op. intros E. apply bind_Ret_inv in E as (r & _ & E). apply bind_Ret_inv in E as (x & _ & E). eapply raw_new_wf, E. Qed.
Lemma product_any (l r : tlike T) t : element_wise_multiplication l r = Ret t -> wf t.
Proof. unfold element_wise_multiplication. intros E. apply bind_Ret_inv in E as (u & _ & E). apply bind_Ret_inv in E as (x & _ & E). eapply raw_new_wf, E. Qed.
Lemma filler_wf s (x : T) : wf (raw_filler s x).
Proof. unfold raw_filler. destruct s; unfold wf; cbn [array shape]; [reflexivity|]. rewrite repeat_length. apply product_size. Qed.
Lemma scale_left (t : raw T) c : wf t -> wf (left_scalar_multiplication (LRaw t) c).
Proof. unfold wf. cbn. rewrite map_length. auto. Qed.
Lemma scale_right (t : raw T) c : wf t -> wf (right_scalar_multiplication (LRaw t) c).
Proof. unfold wf. cbn. rewrite map_length. auto. Qed.
Lemma mul_any (t : raw T) (l : tlike T) u : wf t -> (forall r, l = LRaw r -> wf r) -> (forall v, l = LView v -> shape t <> []) -> mul_raw t l = Ret u -> wf u.
Proof.
  intros Ht Hr Hv E. unfold mul_raw in E. destruct (shape t) as [|d s] eqn:Es.
  - destruct l as [r|v]; [|destruct (Hv v eq_refl eq_refl)]. apply bind_Ret_inv in E as (c & _ & E). injection E as <-. apply scale_left, Hr. reflexivity.
  - destruct (tl_shape l).
    + apply bind_Ret_inv in E as (c & _ & E). injection E as <-. apply scale_right, Ht.
    + eapply product_any, E.
Qed.

Lemma like_wf h v l : heap_inv h -> as_like h v = Ret l -> forall r, l = LRaw r -> wf r.
Proof.
  intros Hi E r ->. destruct v; cbn [as_like] in E; apply bind_Ret_inv in E as (nd & E1 & E2); try discriminate; injection E2 as <-;
    eapply hget_wf; eassumption.
Qed.
Lemma to_tensor_wf h v l t : heap_inv h -> as_like h v = Ret l -> tl_to_tensor l = Ret t -> wf t.
Proof.
  intros Hi El E. destruct l as [r|w]; [injection E as <-; eapply like_wf; eauto|]. apply to_tensor_positive in E. apply E.
Qed.

Lemma sound_bmm_any h i v : heap_inv h -> tensor_of v < length (nodes h) -> sound h (op_bmm_any h i v).
Proof.
  intros Hi Hv. unfold op_bmm_any. apply sound_bind. intros nd E. apply sound_bind. intros l El. apply sound_bind. intros t Et.
  intros h2 m E2. apply bind_Ret_inv in E2 as ([h1 j] & E1 & E2).
  apply hget_inv in E as (En & Li & Ev). pose proof (bmm_form _ _ _ Et) as Wt.
  assert (G : grown h h1 /\ j < length (nodes h1)) by (eapply grows_to_tensor; [exact Hv|exact E1]).
  assert (H1 : heap_inv h1 /\ bmm_raw (LRaw (n_val nd)) (LRaw (vof (nodes h1) j)) = Ret t).
  { destruct v as [k|k|k s o]; cbn [op_to_tensor as_like tensor_of] in *.
    - injection E1 as <- <-. split; [exact Hi|]. apply bind_Ret_inv in El as (b & E & Eb). injection Eb as <-. apply hget_inv in E as (_ & _ & ->). exact Et.
    - split; [eapply sound_copy; eassumption|]. apply bind_Ret_inv in El as (b & E & Eb). injection Eb as <-.
      unfold op_copy in E1. rewrite E in E1. cbn [bind] in E1. injection E1 as <- <-. unfold vof. cbn [nodes]. rewrite nth_error_app2, Nat.sub_diag by lia. cbn. exact Et.
    - apply bind_Ret_inv in El as (b & E & Eb). injection Eb as <-. rewrite E in E1. cbn [bind] in E1.
      split; [eapply sound_leaf; [exact Hi| |exact E1]; intros; eapply to_tensor_wf; [exact Hi|instantiate (2 := VView k s o); cbn [as_like]; rewrite E; reflexivity|eassumption]|].
      unfold leaf in E1. apply bind_Ret_inv in E1 as (r & Er & E1). injection E1 as <- <-. unfold vof. cbn [nodes]. rewrite nth_error_app2, Nat.sub_diag by lia. cbn [nth_error n_val].
      rewrite <- (bmm_view_any (n_val nd) r _ Er). exact Et. }
  destruct H1 as [H1 Eb]. destruct G as [(Ge & _) Lj].
  refine (sound_alloc h1 t (Some (KBmm, [i; j])) None H1 Wt _ _ h2 m E2); [discriminate|].
  intros k ins [= <- <-]. pose proof (extends_length _ _ Ge). split; [repeat constructor; lia|]. cbn [map fwd].
  destruct Ge as [e Ge]. rewrite Ge, vof_app_old by lia. rewrite <- Ge, Ev. exact Eb.
Qed.

Lemma sound_two h v w op : heap_inv h -> (forall l r t, op l r = Ret t -> wf t) -> sound h (op_two h v w op).
Proof. intros Hi Ho. apply sound_bind. intros l _. apply sound_bind. intros r _. apply sound_leaf; [exact Hi|]. intros t. apply Ho. Qed.

Lemma sound_op1 h k i nd v g : heap_inv h -> hget h i = Ret nd -> fwd k [n_val nd] = Ret v -> (forall g', g = Some g' -> wf g') ->
  sound h (Ret (alloc h v (Some (k, [i])) g)).
Proof.
  intros Hi E Ef Hg. pose proof (hget_wf _ _ _ Hi E) as W. apply hget_inv in E as (_ & L & Ev).
  apply sound_alloc; [exact Hi| |exact Hg|].
  - eapply fwd_wf; [|exact Ef]. repeat constructor; exact W.
  - intros k' ins [= <- <-]. split; [repeat constructor; exact L|]. cbn [map]. rewrite Ev. exact Ef.
Qed.

Lemma careful_inv a c a' : env_ok a -> heap_inv (ahp a) -> careful a c -> a_exec a c = Some (Ret a') -> heap_inv (ahp a').
Proof.
  intros Hok Hi Hc E.
  assert (RC : forall r, sound (ahp a) r -> bind_rc a r = Some (Ret a') -> heap_inv (ahp a')).
  { intros r S Eb. unfold bind_rc in Eb. injection Eb as Eb. apply bind_Ret_inv in Eb as ([h i] & E1 & E2). injection E2 as <-. exact (S h i E1). }
  assert (RW : forall r, sound (ahp a) r -> bind_raw a r = Some (Ret a') -> heap_inv (ahp a')).
  { intros r S Eb. unfold bind_raw in Eb. injection Eb as Eb. apply bind_Ret_inv in Eb as ([h i] & E1 & E2). injection E2 as <-. exact (S h i E1). }
  assert (VL : forall (r : outcome (heap T * val)), (forall h' v, r = Ret (h', v) -> heap_inv h') -> bind_val a r = Some (Ret a') -> heap_inv (ahp a')).
  { intros r S Eb. unfold bind_val in Eb. injection Eb as Eb. apply bind_Ret_inv in Eb as ([h i] & E1 & E2). injection E2 as <-. exact (S h i E1). }
  assert (LF : forall v f, (forall l t, as_like (ahp a) v = Ret l -> f l = Ret t -> wf t) -> sound (ahp a) (let* l := as_like (ahp a) v in leaf (ahp a) (f l))).
  { intros v f Hf. apply sound_bind. intros l El. apply sound_leaf; [exact Hi|]. intros t. apply Hf, El. }
  assert (SL : forall v o h' u, op_slice (ahp a) v o = Ret (h', u) -> heap_inv h').
  { intros v o h' u Es.
    assert (P : forall h1 k, heap_inv h1 -> (let* nd := hget h1 k in let* w := view_new (n_val nd) o in Ret (h1, VView k (v_shape w) (v_offset w))) = Ret (h', u) -> heap_inv h').
    { intros h1 k H1 Ew. apply bind_Ret_inv in Ew as (nd & _ & Ew). apply bind_Ret_inv in Ew as (w & _ & Ew). injection Ew as <- <-. exact H1. }
    destruct v as [i|i|i s o']; cbn [op_slice] in Es; try (eapply P; [exact Hi|exact Es]).
    apply bind_Ret_inv in Es as ([h1 j] & Ec & Es). eapply P; [|exact Es]. eapply sound_copy; eassumption. }
  assert (MU : forall x i w y, careful a (AMul x y) -> nth_error (aenv a) y = Some w -> (nth_error (aenv a) x = Some (VRc i) \/ nth_error (aenv a) x = Some (VRaw i)) ->
     sound (ahp a) (let* b := hget (ahp a) i in let* r := as_like (ahp a) w in leaf (ahp a) (mul_raw (n_val b) r))).
  { intros x i w y Hcx Ew Ei. apply sound_bind. intros b Eb. apply sound_bind. intros r Er. apply sound_leaf; [exact Hi|]. intros t Et.
    eapply mul_any; [eapply hget_wf; eassumption|eapply like_wf; eassumption| |exact Et]. intros v ->. destruct w as [k|k|k s o]; cbn [as_like] in Er.
    1,2: apply bind_Ret_inv in Er as (? & _ & Er); discriminate.
    assert (A : exists u, nth_error (aenv a) x = Some u /\ as_like (ahp a) u = Ret (LRaw (n_val b))).
    { destruct Ei as [Ei|Ei]; eexists; (split; [exact Ei|]); cbn [as_like]; rewrite Eb; reflexivity. }
    destruct A as (u & Eu & Lu). refine (Hcx _ u _ Eu Lu). exists k, s, o. exact Ew. }
  unfold a_exec in E. destruct c as [c| | | | | | | | | | | | | | | | | | | | | | | | | | | | | | | | |].
  - destruct c; try discriminate E; refine (RC _ _ E); unfold op_new, op_filler, op_scalar, op_from.
    + apply sound_leaf; [exact Hi|]. intros; eapply raw_new_wf; eassumption.
    + apply (sound_leaf _ (Ret _) Hi). intros t [= <-]. apply filler_wf.
    + apply (sound_leaf _ (Ret _) Hi). intros t [= <-]. reflexivity.
    + apply sound_leaf; [exact Hi|]. intros t Et. destruct (raw_from_correct T NT n) as [Q _]. apply (Q t Et).
  - refine (RW _ _ E). apply sound_leaf; [exact Hi|]. intros; eapply raw_new_wf; eassumption.
  - refine (RW _ _ E). apply (sound_leaf _ (Ret _) Hi). intros t [= <-]. apply filler_wf.
  - refine (RW _ _ E). apply (sound_leaf _ (Ret _) Hi). intros t [= <-]. reflexivity.
  - refine (RW _ _ E). apply sound_leaf; [exact Hi|]. intros t Et. destruct (raw_from_correct T NT n) as [Q _]. apply (Q t Et).
  - destruct Hc.
  - (* deref *) destruct (nth_error (aenv a) x) as [[i|i|i s o]|]; try discriminate E. refine (RW _ _ E). apply sound_here, Hi.
  - (* clone *) destruct (nth_error (aenv a) x) as [[i|i|i s o]|]; try discriminate E.
    + refine (VL _ _ E). intros h' v [= <- _]. exact Hi.
    + refine (RW _ _ E). apply sound_copy, Hi.
    + refine (VL _ _ E). intros h' v [= <- _]. exact Hi.
  - (* to_tensor *) destruct (nth_error (aenv a) x) as [[i|i|i s o]|]; try discriminate E; refine (RC _ _ E); unfold op_to_tensor.
    + apply sound_here, Hi.
    + apply sound_copy, Hi.
    + apply LF. intros l t El. eapply to_tensor_wf; eassumption.
  - (* tensor *) destruct (nth_error (aenv a) x) as [[i|i|i s o]|]; try discriminate E; first [refine (RC _ _ E)|refine (RW _ _ E)]; apply sound_here, Hi.
  - (* deep_clone *) destruct (nth_error (aenv a) x) as [w|]; try discriminate E. refine (RC _ _ E). apply LF. intros l t El. eapply to_tensor_wf; eassumption.
  - (* slice *) destruct (nth_error (aenv a) x) as [w|]; try discriminate E. refine (VL _ _ E). apply SL.
  - (* reshape *) destruct (nth_error (aenv a) x) as [[i|i|i s0 o]|]; try discriminate E. refine (VL _ _ E). intros h' v Ev.
    apply bind_Ret_inv in Ev as (nd & _ & Ev). apply bind_Ret_inv in Ev as (w & _ & Ev). injection Ev as <- <-. exact Hi.
  - (* sum *) destruct (nth_error (aenv a) x) as [[i|i|i s o]|]; try discriminate E.
    + refine (RC _ _ E). unfold op_sum. apply sound_bind. intros nd En. apply sound_bind. intros t Et. eapply sound_op1; [exact Hi|exact En|exact Et|].
      intros g' [= <-]. apply filler_wf.
    + refine (RW _ _ E). unfold op_raw_sum. apply sound_bind. intros nd En. apply sound_bind. intros t Et. apply sound_alloc; [exact Hi|eapply sum_form, Et| |discriminate].
      intros g' [= <-]. apply filler_wf.
    + refine (RC _ _ E). apply LF. intros l t _. apply sum_form.
  - (* bmm *) destruct (nth_error (aenv a) x) as [[i|i|i s o]|]; try discriminate E; destruct (nth_error (aenv a) y) as [w|] eqn:Ey; try discriminate E.
    + refine (RC _ _ E). apply sound_bmm_any; [exact Hi|eapply env_lt; eassumption].
    + refine (RW _ _ E). apply sound_two; [exact Hi|apply bmm_form].
    + refine (RC _ _ E). apply sound_two; [exact Hi|apply bmm_form].
  - destruct (nth_error (aenv a) x) as [[i|i|i s o]|]; try discriminate E; destruct (nth_error (aenv a) y) as [w|] eqn:Ey; try discriminate E; refine (RC _ _ E).
    + apply sound_bmm_any; [exact Hi|eapply env_lt; eassumption].
    + apply sound_two; [exact Hi|apply bmm_form].
    + apply sound_two; [exact Hi|apply bmm_form].
  - (* dot method *) destruct (nth_error (aenv a) x) as [[i|i|i s o]|]; try discriminate E; destruct (nth_error (aenv a) y) as [w|] eqn:Ey; try discriminate E.
    refine (RC _ _ E). apply sound_two; [exact Hi|apply dot_form].
  - destruct (nth_error (aenv a) x) as [[i|i|i s o]|]; try discriminate E; destruct (nth_error (aenv a) y) as [[j|j|j s o]|]; try discriminate E.
    refine (RC _ _ E). unfold op_dot. apply sound_bind. intros b Eb. apply sound_bind. intros c Ec. apply sound_bind. intros t Et.
    apply made_sound. eapply made_op2; [exact Hi|exact Eb|exact Ec|exact Et].
  - destruct (nth_error (aenv a) x) as [u|]; try discriminate E; destruct (nth_error (aenv a) y) as [w|]; try discriminate E. refine (RC _ _ E). apply sound_two; [exact Hi|apply dot_form].
  - destruct (nth_error (aenv a) x) as [u|]; try discriminate E; destruct (nth_error (aenv a) y) as [w|]; try discriminate E. refine (RW _ _ E). apply sound_two; [exact Hi|apply product_any].
  - destruct (nth_error (aenv a) x) as [u|]; try discriminate E. refine (RW _ _ E). apply LF. intros l t _. apply unary_any.
  - destruct (nth_error (aenv a) x) as [[i|i|i s o]|]; try discriminate E. refine (RC _ _ E). unfold op_relu. apply sound_bind. intros nd En. apply sound_bind. intros t Et.
    eapply sound_op1; [exact Hi|exact En|exact Et|discriminate].
  - destruct (nth_error (aenv a) x) as [[i|i|i s o]|]; try discriminate E. refine (RC _ _ E). unfold op_tanh. apply sound_bind. intros nd En. apply sound_bind. intros t Et.
    eapply sound_op1; [exact Hi|exact En|exact Et|discriminate].
  - destruct (nth_error (aenv a) x) as [[i|i|i s o]|]; try discriminate E. refine (RC _ _ E). unfold op_abs. apply sound_bind. intros nd En. apply sound_bind. intros t Et.
    eapply sound_op1; [exact Hi|exact En|exact Et|discriminate].
  - (* add *) destruct (nth_error (aenv a) x) as [[i|i|i s o]|]; try discriminate E; destruct (nth_error (aenv a) y) as [w|]; try discriminate E.
    + destruct w; try discriminate E. refine (RC _ _ E). apply made_sound, made_add, Hi.
    + refine (RW _ _ E). apply sound_two; [exact Hi|]. intros l r t Et. apply binop_form in Et. apply Et.
  - (* sub *) destruct (nth_error (aenv a) x) as [[i|i|i s o]|]; try discriminate E; destruct (nth_error (aenv a) y) as [[j|j|j s' o']|]; try discriminate E.
    + refine (RC _ _ E). unfold op_sub. intros h' n En. apply bind_Ret_inv in En as ([h1 m] & E1 & E2). pose proof (made_sound _ _ (made_neg _ _ Hi) _ _ E1) as H1.
      exact (made_sound _ _ (made_add _ _ _ H1) _ _ E2).
    + refine (RW _ _ E). apply sound_bind. intros b _. apply sound_two; [exact Hi|]. intros l r t Et. apply bind_Ret_inv in Et as (n & _ & Et). apply binop_form in Et. apply Et.
    + refine (RW _ _ E). apply sound_bind. intros b _. apply sound_two; [exact Hi|]. intros l r t Et. apply bind_Ret_inv in Et as (n & _ & Et). apply binop_form in Et. apply Et.
  - (* neg *) destruct (nth_error (aenv a) x) as [[i|i|i s o]|]; try discriminate E.
    + refine (RC _ _ E). apply made_sound, made_neg, Hi.
    + refine (RW _ _ E). apply LF. intros l t _. apply unary_any.
  - (* mul *) destruct (nth_error (aenv a) x) as [[i|i|i s o]|] eqn:Ex; try discriminate E; destruct (nth_error (aenv a) y) as [w|] eqn:Ey; try discriminate E.
    + refine (RC _ _ E). eapply MU; [exact Hc|exact Ey|left; exact Ex].
    + refine (RW _ _ E). eapply MU; [exact Hc|exact Ey|right; exact Ex].
  - (* left scalar *) destruct (nth_error (aenv a) x) as [w|] eqn:Ex; try discriminate E. refine (RW _ _ E). apply (LF w (fun l => Ret _)). intros l t El [= <-].
    destruct w as [k|k|k s o]; [| |destruct Hc; exists k, s, o; exact Ex]; cbn [as_like] in El; apply bind_Ret_inv in El as (nd & En & El); injection El as <-; apply scale_left; eapply hget_wf; eassumption.
  - destruct (nth_error (aenv a) x) as [w|] eqn:Ex; try discriminate E. refine (RW _ _ E). apply (LF w (fun l => Ret _)). intros l t El [= <-].
    destruct w as [k|k|k s o]; [| |destruct Hc; exists k, s, o; exact Ex]; cbn [as_like] in El; apply bind_Ret_inv in El as (nd & En & El); injection El as <-; apply scale_right; eapply hget_wf; eassumption.
  - (* grad *) destruct (nth_error (aenv a) x) as [[i|i|i s o]|]; try discriminate E. refine (RC _ _ E). unfold op_grad. apply sound_bind. intros g Eg.
    apply (sound_leaf _ (Ret g) Hi). intros t [= <-]. destruct (grads (ahp a) i) as [g'|] eqn:Eg'; [|discriminate]. cbn in Eg. injection Eg as <-. apply (proj2 Hi i g' Eg').
  - (* update_grad *) destruct (nth_error (aenv a) x) as [[i|i|i s o]|] eqn:Ex; try discriminate E; destruct (nth_error (aenv a) y) as [[j|j|j s' o']|]; try discriminate E;
      injection E as E; apply bind_Ret_inv in E as (h' & Eu & E); injection E as <-; cbn [ahp];
      (eapply op_update_grad_ok; [exact Hi| |exact Eu]); apply (env_lt _ _ _ Hok) in Ex; exact Ex.
  - (* zero_grad *) destruct (nth_error (aenv a) x) as [[i|i|i s o]|]; try discriminate E; injection E as <-; apply zero_grad_ok, Hi.
  - (* backward *) destruct (nth_error (aenv a) x) as [[i|i|i s o]|]; try discriminate E. injection E as E. apply bind_Ret_inv in E as (h' & Eb & E). injection E as <-.
    eapply backward_effect; eassumption.
Qed.

Lemma careful_reach a : a_reach careful a -> heap_inv (ahp a).
Proof.
  induction 1 as [|a c a' R IH Hc E]; [apply inv_init|]. eapply careful_inv; [eapply reach_env, R|exact IH|exact Hc|exact E].
Qed.

(** ** The shapes of gradients *)
Definition rank0_or_own h : Prop := forall n g, n < length (nodes h) -> grads h n = Some g -> shape g = shape (vof (nodes h) n) \/ shape (vof (nodes h) n) = [].

Lemma shapes_kept a : a_reach careful_tidy a -> heap_inv (ahp a) /\ rank0_or_own (ahp a).
Proof.
  induction 1 as [|a c a' R [IH1 IH2] [Hc Ht] E]; [split; [apply inv_init|intros n g Hn]; cbn in Hn; lia|].
  pose proof (reach_env _ _ R) as Hok. split; [eapply careful_inv; eassumption|].
  destruct (changes_grads c) eqn:Ec.
  - destruct c; try discriminate Ec; [destruct (Ht x y eq_refl)| |]; unfold a_exec in E.
    + destruct (nth_error (aenv a) x) as [[i|i|i s o]|]; try discriminate E; injection E as <-; intros n g Hn Eg; cbn [ahp zero_grad nodes grads] in *;
        unfold upd in Eg; destruct (n =? i); try discriminate; apply IH2; assumption.
    + destruct (nth_error (aenv a) x) as [[i|i|i s o]|]; try discriminate E. injection E as E. apply bind_Ret_inv in E as (h' & Eb & E). injection E as <-. cbn [ahp].
      destruct (backward_effect _ _ _ IH1 Eb) as (_ & EN & _ & _ & Q). intros n g Hn Eg. rewrite EN in *.
      refine (Q (fun s => s = shape (vof (nodes (ahp a)) n) \/ shape (vof (nodes (ahp a)) n) = []) n _ _ _ g Eg); [left; reflexivity| |].
      * intros s [->|H0]; [left; apply max_shape_self|right; exact H0].
      * intros g0. apply IH2, Hn.
  - destruct (exec_grows a c a' Hok Ec E) as ((E1 & E2 & _ & E4) & _). intros n g Hn Eg. destruct (Nat.lt_ge_cases n (length (nodes (ahp a)))) as [L|L].
    + rewrite E2 in Eg by exact L. destruct E1 as [e E1]. rewrite E1, vof_app_old by exact L. apply IH2; assumption.
    + destruct (E4 n g) as [H|(i & Hi & Gi & Vi)]; [lia|exact Eg|right; exact H|]. rewrite Vi. apply IH2; assumption.
Qed.

(** ** Programs of ModelGraph are programs over the whole interface *)
Definition last_pos a : nat := length (aenv a).
Definition calls_for a (at_ : list nat) (c : cmd T) : list (call T) :=
  let p x := nth x at_ 0 in
  match c with
  | CNew _ _ | CFiller _ _ | CScalar _ | CFrom _ => [ARc c]
  | CAdd x y => [AAdd (p x) (p y)] | CSub x y => [ASub (p x) (p y)] | CNeg x => [ANeg (p x)] | CMul x y => [AMul (p x) (p y)]
  | CAbs x => [AAbs (p x)] | CRelu x => [ARelu (p x)] | CTanh x => [ATanh (p x)] | CSum x => [ASum (p x)]
  | CBmm x y => [ABmm (p x) (p y)] | CDot x y => [AFnDot (p x) (p y)] | CDotMethod x y => [ADotMethod (p x) (p y)]
  | CDeepClone x => [ADeepClone (p x)] | CGrad x => [AGrad (p x)]
  | CViewToTensor x o => [ASlice (p x) o; AToTensor (last_pos a)]
  | CViewSum x o => [ASlice (p x) o; ASum (last_pos a)]
  | CMulView x y o => [ASlice (p y) o; AMul (p x) (last_pos a)]
  | CBmmView x y o => [ASlice (p y) o; ABmm (p x) (last_pos a)]
  | CUpdateGrad x y => [AUpdateGrad (p x) (p y)] | CZeroGrad x => [AZeroGrad (p x)] | CBackward x => [ABackward (p x)]
  end.

Lemma holds_var a s at_ x : holds a s at_ -> x < length (env s) -> exists i, nth_error (env s) x = Some i /\ nth_error (aenv a) (nth x at_ 0) = Some (VRc i).
Proof.
  intros (_ & L & H) Hx. destruct (nth_error (env s) x) as [i|] eqn:E; [|apply nth_error_None in E; lia].
  exists i. split; [reflexivity|]. destruct (H x i E) as (p & Ep & Ei). rewrite (nth_error_nth _ _ _ Ep). exact Ei.
Qed.

Definition matches (r : option (outcome (astate T))) (r' : outcome (state T)) : Prop :=
  match r' with
  | Ret s' => exists a' at', r = Some (Ret a') /\ holds a' s' at'
  | Panic e => r = Some (Panic e)
  | NoFuel => r = Some NoFuel
  end.

Lemma holds_push a s at_ h i e : holds a s at_ -> holds (mkA h (aenv a ++ e ++ [VRc i])) (mkState h (env s ++ [i])) (at_ ++ [length (aenv a) + length e]).
Proof.
  intros (E & L & H). split; [reflexivity|]. cbn [hp env aenv]. rewrite !app_length. cbn [length]. split; [lia|].
  intros x j Ex. destruct (Nat.lt_ge_cases x (length (env s))) as [Hx|Hx].
  - rewrite nth_error_app1 in Ex by auto. destruct (H x j Ex) as (p & Ep & Ej). exists p. split.
    + rewrite nth_error_app1; [exact Ep|]. apply nth_error_Some. congruence.
    + rewrite nth_error_app1; [exact Ej|]. apply nth_error_Some. congruence.
  - assert (x = length (env s)) as ->.
    { apply Nat.le_antisymm; [|exact Hx]. assert (x < length (env s ++ [i])) by (apply nth_error_Some; congruence). rewrite app_length in *. cbn in *. lia. }
    rewrite nth_error_app2, Nat.sub_diag in Ex by lia. injection Ex as <-. eexists. split.
    + rewrite nth_error_app2, L, Nat.sub_diag by lia. reflexivity.
    + rewrite nth_error_app2 by lia. replace (length (aenv a) + length e - length (aenv a)) with (length e) by lia.
      rewrite nth_error_app2, Nat.sub_diag by lia. reflexivity.
Qed.

Lemma match_push a s at_ (r : outcome (heap T * nat)) : holds a s at_ -> matches (bind_rc a r) (push s r).
Proof.
  intros H. unfold bind_rc, push. destruct r as [[h i]|e|]; cbn [bind matches]; try reflexivity. do 2 eexists. split; [reflexivity|].
  apply (holds_push a s at_ h i [] H).
Qed.

Lemma one_call a c r : a_exec a c = r -> a_run [c] a = r.
Proof. intros <-. cbn [a_run]. destruct (a_exec a c) as [[| |]|]; reflexivity. Qed.

Lemma view_new_tensor (t : raw T) o w : view_new t o = Ret w -> mkView t (v_shape w) (v_offset w) = w.
Proof.
  unfold view_new. intros E. apply bind_Ret_inv in E as (u & _ & E). apply bind_Ret_inv in E as (s & _ & E). injection E as <-. reflexivity.
Qed.

Lemma hget_ok h i : i < length (nodes h) -> exists nd, hget h i = Ret nd.
Proof. intros H. unfold hget, vindex. destruct (nth_error (nodes h) i) as [nd|] eqn:E; [eauto|]. apply nth_error_None in E. lia. Qed.

Lemma slice_then a s at_ x o (F : view T -> heap T -> outcome (heap T * nat)) c : holds a s at_ -> env_ok a -> x < length (env s) ->
  (forall i nd w, nth_error (env s) x = Some i -> hget (hp s) i = Ret nd -> view_new (n_val nd) o = Ret w ->
     a_exec (mkA (hp s) (aenv a ++ [VView i (v_shape w) (v_offset w)])) c =
     bind_rc (mkA (hp s) (aenv a ++ [VView i (v_shape w) (v_offset w)])) (F w (hp s))) ->
  matches (a_run [ASlice (nth x at_ 0) o; c] a)
    (let* i := vindex (env s) x in push s (let* nd := hget (hp s) i in let* w := view_new (n_val nd) o in F w (hp s))).
Proof.
  intros H Hok Hx HF. destruct (holds_var a s at_ x H Hx) as (i & Ei & Ea). pose proof (env_lt _ _ _ Hok Ea) as Li. cbn [tensor_of] in Li.
  unfold vindex. rewrite Ei. cbn [bind]. rewrite (proj1 H) in Li. destruct (hget_ok _ _ Li) as [nd En].
  cbn [a_run a_exec]. rewrite Ea. cbn [op_slice]. rewrite (proj1 H), En. cbn [bind].
  destruct (view_new (n_val nd) o) as [w|e|] eqn:Ew; cbn [bind bind_val]; [|reflexivity|reflexivity].
  rewrite (HF i nd w Ei En Ew). destruct (F w (hp s)) as [[h j]|e|]; cbn [bind bind_rc push matches]; try reflexivity.
  do 2 eexists. split; [reflexivity|]. cbn [aenv]. rewrite <- app_assoc. apply (holds_push a s at_ h j [VView i (v_shape w) (v_offset w)] H).
Qed.

Lemma exec_in_api a s at_ c : holds a s at_ -> env_ok a -> Forall (fun x => x < length (env s)) (operands c) ->
  matches (a_run (calls_for a at_ c) a) (exec s c).
Proof.
  intros H Hok Hop.
  assert (P1 : forall x r, x < length (env s) -> forall c', (forall i, nth_error (env s) x = Some i -> nth_error (aenv a) (nth x at_ 0) = Some (VRc i) -> a_exec a c' = bind_rc a (r i)) ->
     matches (a_run [c'] a) (let* i := vindex (env s) x in push s (r i))).
  { intros x r Hx c' Hc'. destruct (holds_var a s at_ x H Hx) as (i & Ei & Ea). rewrite (one_call a c' _ (Hc' i Ei Ea)). unfold vindex. rewrite Ei. cbn [bind]. exact (match_push a s at_ _ H). }
  assert (P2 : forall x y r, x < length (env s) -> y < length (env s) -> forall c',
     (forall i j, nth_error (aenv a) (nth x at_ 0) = Some (VRc i) -> nth_error (aenv a) (nth y at_ 0) = Some (VRc j) -> a_exec a c' = bind_rc a (r i j)) ->
     matches (a_run [c'] a) (let* i := vindex (env s) x in let* j := vindex (env s) y in push s (r i j))).
  { intros x y r Hx Hy c' Hc'. destruct (holds_var a s at_ x H Hx) as (i & Ei & Ea). destruct (holds_var a s at_ y H Hy) as (j & Ej & Eb).
    rewrite (one_call a c' _ (Hc' i j Ea Eb)). unfold vindex. rewrite Ei, Ej. cbn [bind]. exact (match_push a s at_ _ H). }
  pose proof (proj1 H) as Eh.
  destruct c; cbn [operands calls_for exec] in *; repeat match goal with Q : Forall _ (_ :: _) |- _ => apply Forall_cons_iff in Q as [? Q] end;
    try (erewrite one_call by (cbn [a_exec]; rewrite Eh; reflexivity); exact (match_push a s at_ _ H));
    try (apply P2; [assumption|assumption|]; intros i j Ea Eb; cbn [a_exec]; rewrite Ea, Eb, Eh; reflexivity);
    try (apply P1; [assumption|]; intros i Ei Ea; cbn [a_exec]; rewrite Ea, Eh; reflexivity).
  - (* mul *) apply P2; [assumption|assumption|]. intros i j Ea Eb. cbn [a_exec]. rewrite Ea, Eb, Eh. unfold op_mul, as_like, leaf, bind_rc.
    destruct (hget (hp s) i) as [b| |]; cbn [bind]; try reflexivity. destruct (hget (hp s) j) as [b'| |]; reflexivity.
  - (* bmm *) apply P2; [assumption|assumption|]. intros i j Ea Eb. cbn [a_exec]. rewrite Ea, Eb, Eh. unfold op_bmm, op_bmm_any, as_like, bind_rc.
    destruct (hget (hp s) i) as [b| |]; cbn [bind]; try reflexivity. destruct (hget (hp s) j) as [b'| |]; cbn [bind]; reflexivity.
  - (* the method dot *) destruct (holds_var a s at_ x H ltac:(assumption)) as (i & Ei & Ea). destruct (holds_var a s at_ y H ltac:(assumption)) as (j & Ej & Eb).
    unfold vindex. rewrite Ei, Ej. cbn [a_run a_exec]. rewrite Ea, Eb. reflexivity.
  - (* deep_clone *) apply P1; [assumption|]. intros i Ei Ea. cbn [a_exec]. rewrite Ea, Eh. unfold op_deep_clone, as_like, leaf, bind_rc.
    destruct (hget (hp s) i) as [b| |]; reflexivity.
  - (* view to tensor *) apply (slice_then a s at_ x o (fun w h => leaf h (tl_to_tensor (LView w)))); [exact H|exact Hok|assumption|].
    intros i nd w Ei En Ew. cbn [a_exec aenv]. unfold last_pos. rewrite nth_error_app2, Nat.sub_diag by lia. cbn [nth_error op_to_tensor as_like ahp].
    rewrite En. cbn [bind]. rewrite (view_new_tensor _ _ _ Ew). reflexivity.
  - (* view sum *) apply (slice_then a s at_ x o (fun w h => leaf h (tl_sum (LView w)))); [exact H|exact Hok|assumption|].
    intros i nd w Ei En Ew. cbn [a_exec aenv]. unfold last_pos. rewrite nth_error_app2, Nat.sub_diag by lia. cbn [nth_error as_like ahp].
    rewrite En. cbn [bind]. rewrite (view_new_tensor _ _ _ Ew). reflexivity.
  - (* product with a view *) destruct (holds_var a s at_ x H ltac:(assumption)) as (i & Ei & Ea). pose proof (env_lt _ _ _ Hok Ea) as Li. cbn [tensor_of] in Li. rewrite Eh in Li.
    destruct (hget_ok _ _ Li) as [nx Ex].
    pose proof (slice_then a s at_ y o (fun w h => leaf h (mul_raw (n_val nx) (LView w))) (AMul (nth x at_ 0) (last_pos a)) H Hok ltac:(assumption)) as P.
    assert (Q : exec s (CMulView x y o) = (let* j := vindex (env s) y in push s (let* nd := hget (hp s) j in let* w := view_new (n_val nd) o in leaf (hp s) (mul_raw (n_val nx) (LView w))))).
    { cbn [exec]. unfold vindex at 1. rewrite Ei. cbn [bind]. unfold op_mul_view. rewrite Ex. reflexivity. }
    cbn [exec] in Q. rewrite Q. apply P. intros j nd w Ej En Ew. cbn [a_exec aenv]. unfold last_pos. rewrite nth_error_app1 by (apply nth_error_Some; congruence). rewrite Ea.
    rewrite nth_error_app2, Nat.sub_diag by lia. cbn [nth_error as_like ahp]. rewrite Ex, En. cbn [bind]. rewrite (view_new_tensor _ _ _ Ew). reflexivity.
  - (* bmm with a view *) destruct (holds_var a s at_ x H ltac:(assumption)) as (i & Ei & Ea). pose proof (env_lt _ _ _ Hok Ea) as Li. cbn [tensor_of] in Li. rewrite Eh in Li.
    destruct (hget_ok _ _ Li) as [nx Ex].
    pose proof (slice_then a s at_ y o (fun w h => let* t := bmm_raw (LRaw (n_val nx)) (LView w) in let* r := tl_to_tensor (LView w) in
      let (h1, ir) := alloc h r None None in Ret (alloc h1 t (Some (KBmm, [i; ir])) None)) (ABmm (nth x at_ 0) (last_pos a)) H Hok ltac:(assumption)) as P.
    assert (Q : exec s (CBmmView x y o) = (let* j := vindex (env s) y in push s (let* nd := hget (hp s) j in let* w := view_new (n_val nd) o in
      let* t := bmm_raw (LRaw (n_val nx)) (LView w) in let* r := tl_to_tensor (LView w) in let (h1, ir) := alloc (hp s) r None None in Ret (alloc h1 t (Some (KBmm, [i; ir])) None)))).
    { cbn [exec]. unfold vindex at 1. rewrite Ei. cbn [bind]. unfold op_bmm_view. rewrite Ex. reflexivity. }
    cbn [exec] in Q. rewrite Q. apply P. intros j nd w Ej En Ew. cbn [a_exec aenv]. unfold last_pos. rewrite nth_error_app1 by (apply nth_error_Some; congruence). rewrite Ea.
    rewrite nth_error_app2, Nat.sub_diag by lia. cbn [nth_error ahp]. unfold op_bmm_any, op_to_tensor, as_like. rewrite Ex, En. cbn [bind]. rewrite (view_new_tensor _ _ _ Ew).
    destruct (bmm_raw (LRaw (n_val nx)) (LView w)) as [t| |]; cbn [bind]; try reflexivity. unfold leaf. destruct (tl_to_tensor (LView w)) as [r| |]; reflexivity.
  - (* update_grad *) destruct (holds_var a s at_ x H ltac:(assumption)) as (i & Ei & Ea). destruct (holds_var a s at_ y H ltac:(assumption)) as (j & Ej & Eb).
    unfold vindex. rewrite Ei, Ej. cbn [bind a_run a_exec]. rewrite Ea, Eb, Eh. destruct (op_update_grad (hp s) i j) as [h'| |]; cbn [bind matches]; try reflexivity.
    exists (mkA h' (aenv a)), at_. split; [reflexivity|]. split; [reflexivity|exact (proj2 H)].
  - destruct (holds_var a s at_ x H ltac:(assumption)) as (i & Ei & Ea). unfold vindex. rewrite Ei. cbn [bind a_run a_exec]. rewrite Ea, Eh. cbn [matches].
    exists (mkA (zero_grad (hp s) i) (aenv a)), at_. split; [reflexivity|]. split; [reflexivity|exact (proj2 H)].
  - destruct (holds_var a s at_ x H ltac:(assumption)) as (i & Ei & Ea). unfold vindex. rewrite Ei. cbn [bind a_run a_exec]. rewrite Ea, Eh.
    destruct (backward (hp s) i) as [h'| |]; cbn [bind matches]; try reflexivity.
    exists (mkA h' (aenv a)), at_. split; [reflexivity|]. split; [reflexivity|exact (proj2 H)].
Qed.

Lemma exec_operands (s s' : state T) c : exec s c = Ret s' -> Forall (fun x => x < length (env s)) (operands c).
Proof.
  intros E. assert (V : forall x A (k : nat -> outcome A) r, (let* i := vindex (env s) x in k i) = Ret r -> x < length (env s)).
  { intros x A k r Ev. apply bind_Ret_inv in Ev as (i & Ei & _). apply env_get in Ei. apply nth_error_Some. congruence. }
  destruct c; cbn [exec operands] in *; repeat constructor; try (eapply V; exact E);
    apply bind_Ret_inv in E as (i & _ & E); eapply V; exact E.
Qed.

Lemma env_ok_run : forall p a a', env_ok a -> a_run p a = Some (Ret a') -> env_ok a'.
Proof.
  induction p as [|c p IH]; intros a a' Hok E; cbn [a_run] in E; [injection E as <-; exact Hok|].
  destruct (a_exec a c) as [[a1| |]|] eqn:E1; try discriminate. eapply IH; [eapply env_ok_kept; eassumption|exact E].
Qed.

Lemma run_in_api : forall p s, run p init_state = Ret s -> exists q a at_, a_run q a_init = Some (Ret a) /\ holds a s at_.
Proof.
  intros p. induction p as [|c p IH] using rev_ind; intros s E.
  - injection E as <-. exists [], a_init, []. split; [reflexivity|]. split; [reflexivity|split; [reflexivity|]]. intros x i Ex. destruct x; discriminate.
  - unfold run in E. rewrite foldM_app in E. apply bind_Ret_inv in E as (s1 & E1 & E). cbn [foldM] in E. apply bind_Ret_inv in E as (s2 & E2 & E). apply Ret_inj in E. subst s2.
    destruct (IH s1 E1) as (q & a & at_ & Eq & H). assert (Hok : env_ok a) by (eapply env_ok_run; [|exact Eq]; constructor).
    pose proof (exec_in_api a s1 at_ c H Hok (exec_operands _ _ _ E2)) as M. rewrite E2 in M. cbn [matches] in M. destruct M as (a' & at' & Ea & H').
    exists (q ++ calls_for a at_ c), a', at'. split; [|exact H']. rewrite run_app, Eq. exact Ea.
Qed.

(** ** What the calls compute *)

Lemma as_like_get h v l : as_like h v = Ret l -> exists nd, hget h (tensor_of v) = Ret nd /\
  l = match v with VView _ s o => LView (mkView (n_val nd) s o) | _ => LRaw (n_val nd) end.
Proof.
  destruct v; cbn [as_like tensor_of]; intros E; destruct (hget h i) as [nd|e|] eqn:Eg; cbn [bind] in E; try discriminate; inversion E; eauto.
Qed.

Lemma hget_alloc h v fn g : hget (fst (alloc h v fn g)) (length (nodes h)) = Ret (mkNode v fn).
Proof. unfold hget, vindex. cbn. rewrite nth_error_app2, Nat.sub_diag by lia. reflexivity. Qed.

Lemma hget_app h e i nd g : hget h i = Ret nd -> hget (mkHeap (nodes h ++ e) g) i = Ret nd.
Proof.
  unfold hget, vindex. cbn. destruct (nth_error (nodes h) i) eqn:E; [|discriminate]. rewrite nth_error_app1 by (apply nth_error_Some; congruence). rewrite E. auto.
Qed.

Definition as_meant a (r : outcome (astate T)) (ls : list (tlike T)) (m : outcome (tlike T)) : Prop :=
  (forall a', r = Ret a' -> exists v l, aenv a' = aenv a ++ [v] /\ as_like (ahp a') v = Ret l /\ m = Ret l) /\
  (forall e, m = Panic e -> r = Panic e) /\
  (forall l, m = Ret l -> Forall (fun l => exists t, l = LRaw t) ls -> exists a', r = Ret a').

Lemma meant_new (K : nat -> val) a (mm : outcome (raw T)) fn g ls : (K = VRc \/ K = VRaw) ->
  as_meant a (let* (h, i) := (let* t := mm in Ret (alloc (ahp a) t fn g)) in Ret (mkA h (aenv a ++ [K i]))) ls (let* x := mm in Ret (LRaw x)).
Proof.
  intros HK. destruct mm as [t|e|]; cbn [bind].
  - split; [|split; [discriminate|intros; eexists; reflexivity]]. intros a' E. injection E as <-. exists (K (length (nodes (ahp a)))), (LRaw t). cbn [aenv ahp]. split; [reflexivity|]. split; [|reflexivity].
    destruct HK as [-> | ->]; cbn [as_like]; pose proof (hget_alloc (ahp a) t fn g) as H; cbn [alloc fst] in H; rewrite H; reflexivity.
  - split; [discriminate|split; [|discriminate]]. intros e' E. inversion E; reflexivity.
  - split; [discriminate|split; discriminate].
Qed.

Lemma meant_ret (K : nat -> val) a (t : raw T) fn g ls : (K = VRc \/ K = VRaw) ->
  as_meant a (Ret (mkA (mkHeap (nodes (ahp a) ++ [mkNode t fn]) g) (aenv a ++ [K (length (nodes (ahp a)))]))) ls (Ret (LRaw t)).
Proof.
  intros HK. split; [|split; [discriminate|intros; eexists; reflexivity]]. intros a' E. injection E as <-. do 2 eexists. split; [reflexivity|]. split; [|reflexivity].
  destruct HK as [-> | ->]; cbn [as_like ahp]; unfold hget, vindex; cbn [nodes]; rewrite nth_error_app2, Nat.sub_diag by lia; reflexivity.
Qed.

Lemma meant_same a v l ls : as_like (ahp a) v = Ret l -> as_meant a (Ret (mkA (ahp a) (aenv a ++ [v]))) ls (Ret l).
Proof.
  intros H. split; [|split; [discriminate|intros; eexists; reflexivity]]. intros a' E. injection E as <-. cbn [aenv ahp]. eauto.
Qed.

Lemma meant_view a h' i nd (mm : outcome (view T)) ls : hget h' i = Ret nd -> (forall v, mm = Ret v -> v_tensor v = n_val nd) ->
  as_meant a (let* (h, v) := (let* w := mm in Ret (h', VView i (v_shape w) (v_offset w))) in Ret (mkA h (aenv a ++ [v]))) ls (let* v := mm in Ret (LView v)).
Proof.
  intros Hg Ht. destruct mm as [w|e|]; cbn [bind].
  - split; [|split; [discriminate|intros; eexists; reflexivity]]. intros a' E. injection E as <-. cbn [aenv ahp as_like]. do 2 eexists. split; [reflexivity|]. split; [|reflexivity].
    cbn [as_like]. rewrite Hg. cbn [bind]. specialize (Ht w eq_refl). destruct w; cbn in *; subst; reflexivity.
  - split; [discriminate|split; [|discriminate]]. intros e' E. inversion E; reflexivity.
  - split; [discriminate|split; discriminate].
Qed.

Lemma view_new_behind (t : raw T) o v : view_new t o = Ret v -> v_tensor v = t.
Proof. intros E. rewrite <- (view_new_tensor _ _ _ E). reflexivity. Qed.

Lemma view_reshape_behind (v w : view T) s : view_reshape v s = Ret w -> v_tensor w = v_tensor v.
Proof. unfold view_reshape. intros E. destruct (assert (product (v_shape v) =? product s)); inversion E; reflexivity. Qed.

Lemma filler_size (s : list nat) (x : T) : raw_filler s x = mkRaw (repeat x (size s)) s.
Proof. destruct s; [reflexivity|]. cbn [raw_filler]. rewrite product_size. reflexivity. Qed.

Lemma meant_bmm a i w nd l : hget (ahp a) i = Ret nd -> as_like (ahp a) w = Ret l ->
  as_meant a (let* (h, j) := op_bmm_any (ahp a) i w in Ret (mkA h (aenv a ++ [VRc j]))) [LRaw (n_val nd); l] (let* r := bmm_raw (LRaw (n_val nd)) l in Ret (LRaw r)).
Proof.
  intros Hg Hl. unfold op_bmm_any. rewrite Hg, Hl. cbn [bind]. destruct (bmm_raw (LRaw (n_val nd)) l) as [t|e|]; cbn [bind].
  - destruct (op_to_tensor (ahp a) w) as [[h1 j]|e|] eqn:Et; cbn [bind].
    + split; [|split; [discriminate|intros; eexists; reflexivity]]. intros a' E. injection E as <-. do 2 eexists. split; [reflexivity|]. split; [|reflexivity].
      cbn [as_like ahp]. pose proof (hget_alloc h1 t (Some (KBmm, [i; j])) None) as H. cbn [alloc fst] in H. rewrite H. reflexivity.
    + split; [discriminate|split; [discriminate|]]. intros l' _ HF. exfalso. inversion HF as [|? ? _ HF1]; subst. inversion HF1 as [|? ? [u ->] _]; subst.
      destruct w; cbn [op_to_tensor] in Et; [discriminate| |].
      * unfold op_copy in Et. apply as_like_get in Hl as (nd1 & Hg1 & _). cbn [tensor_of] in Hg1. rewrite Hg1 in Et. discriminate.
      * apply as_like_get in Hl as (nd1 & _ & Hl). discriminate.
    + exfalso. exact (nf_op_to_tensor _ _ Et).
  - split; [discriminate|split; [|discriminate]]. intros e' E. inversion E; reflexivity.
  - split; [discriminate|split; discriminate].
Qed.

Lemma meant_sub a i j nd0 nd ls : hget (ahp a) i = Ret nd0 -> hget (ahp a) j = Ret nd ->
  as_meant a (let* (h, k) := op_sub (ahp a) i j in Ret (mkA h (aenv a ++ [VRc k]))) ls
    (let* r := (let* n := generic_unary_op (LRaw (n_val nd)) n_neg in add_raw (LRaw (n_val nd0)) (LRaw n)) in Ret (LRaw r)).
Proof.
  intros Hi Hj. unfold op_sub, op_neg. rewrite Hj. cbn [bind]. unfold neg_raw. destruct (generic_unary_op (LRaw (n_val nd)) n_neg) as [n|e|]; cbn [bind].
  - set (h1 := fst (alloc (ahp a) n (Some (KNeg, [j])) None)). change (alloc (ahp a) n (Some (KNeg, [j])) None) with (h1, length (nodes (ahp a))). cbn beta iota.
    unfold op_add. assert (H1 : hget h1 i = Ret nd0) by (apply hget_app; exact Hi). rewrite H1. unfold h1 at 1. rewrite hget_alloc. cbn [bind n_val].
    destruct (add_raw (LRaw (n_val nd0)) (LRaw n)) as [t|e|]; cbn [bind].
    + split; [|split; [discriminate|intros; eexists; reflexivity]]. intros a' E. injection E as <-. do 2 eexists. split; [reflexivity|]. split; [|reflexivity].
      cbn [as_like ahp]. pose proof (hget_alloc h1 t (Some (KAdd, [i; length (nodes (ahp a))])) None) as H. unfold h1, alloc in H |- *. cbn [fst snd nodes grads] in H |- *.
      rewrite H. reflexivity.
    + split; [discriminate|split; [|discriminate]]. intros e' E. inversion E; reflexivity.
    + split; [discriminate|split; discriminate].
  - split; [discriminate|split; [|discriminate]]. intros e' E. inversion E; reflexivity.
  - split; [discriminate|split; discriminate].
Qed.

Lemma exec_means a c r ls m : a_exec a c = Some r -> api_reads a c ls -> api_means c ls = Some m -> as_meant a r ls m.
Proof.
  intros E R M. unfold api_reads in R.
  destruct c; cbn [api_operands] in R;
    repeat match goal with R : Forall2 _ (_ :: _) _ |- _ => inversion R; clear R; subst | R : Forall2 _ [] _ |- _ => inversion R; clear R; subst end;
    repeat match goal with H : exists v, _ |- _ => let v := fresh "v" in let Ev := fresh "Ev" in let Al := fresh "Al" in destruct H as (v & Ev & Al) end;
    cbn [a_exec] in E; repeat match goal with H : nth_error (aenv a) _ = Some _ |- _ => rewrite H in E end.
  all: repeat match goal with v : val |- _ => destruct v end; try discriminate E;
    repeat match goal with Al : as_like _ _ = Ret _ |- _ =>
      let nd := fresh "nd" in let Hg := fresh "Hg" in let Hl := fresh "Hl" in
      destruct (as_like_get _ _ _ Al) as (nd & Hg & Hl); cbn [tensor_of] in Hg; subst; revert Al end; intros;
    try (destruct c; try discriminate E); cbn [api_means behind v_tensor tl_shape] in M; try discriminate M; injection M as <-;
    unfold bind_rc, bind_raw, bind_val, op_two, op_new, op_filler, op_scalar, op_from, op_sum, op_raw_sum, op_relu, op_tanh, op_abs, op_add, op_neg, op_dot, leaf in E;
    repeat match type of E with context [as_like ?h ?v] => match goal with Al : as_like h v = Ret _ |- _ => rewrite Al in E end
      | context [hget ?h ?i] => match goal with Hg : hget h i = Ret _ |- _ => rewrite Hg in E end end;
    cbn [bind] in E; injection E as <-;
    try (first [apply (meant_new VRc); auto; fail | apply (meant_new VRaw); auto; fail]);
    try (apply meant_same; assumption).
  all: unfold op_copy, op_slice, op_to_tensor, leaf; cbn [as_like];
    repeat match goal with |- context [hget ?h ?i] => match goal with Hg : hget h i = Ret _ |- _ => rewrite Hg end end; cbn [bind];
    try (first [apply (meant_new VRc); auto; fail | apply (meant_new VRaw); auto; fail | apply (meant_ret VRc); auto; fail | apply (meant_ret VRaw); auto; fail]).
  all: try (apply meant_bmm; assumption); try (apply meant_sub; assumption).
  all: try (eapply meant_view; [eassumption|intros w Ew; apply view_new_behind in Ew; exact Ew]).
  all: try (eapply meant_view; [eassumption|intros w Ew; apply view_reshape_behind in Ew; exact Ew]).
  all: try (apply meant_same; cbn [as_like]; match goal with Hg : hget ?h ?i = Ret _ |- context [hget ?h ?i] => rewrite Hg end; reflexivity).
  - rewrite filler_size. apply (meant_ret VRc); auto.
  - rewrite filler_size. apply (meant_ret VRaw); auto.
  - pose proof (hget_alloc (ahp a) (n_val nd) (n_fn nd) (grads (ahp a) i)) as H. unfold alloc in H |- *. cbn [fst] in H. cbn beta iota. rewrite H. cbn [bind n_val].
    eapply meant_view; [exact H|]. intros w Ew. apply view_new_behind in Ew. exact Ew.
Qed.

End Api.
