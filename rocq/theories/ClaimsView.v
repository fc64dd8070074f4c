(** * ClaimsView: proofs of C13-C16, C51 *)
From Coq Require Import ZArith.
From Verif Require Import Base ModelIndex ModelTensor ModelOps ModelJvp ModelGraph Spec Lists IndexFacts
  TensorFacts OpsFacts Sums Instances ClaimsTensor.

(** ** C13 *)

(** C13 is false: [TensorView::get] panics outside the view. *)
Lemma c13_view_get_err_refuted :
  ~ (forall (T : Type) (NT : Num T) (t : raw T) (o : list slice_range) (v : view T) (idx : list nat),
       wf t -> positive (shape t) -> view_new t o = Ret v -> length idx = length (v_shape v) ->
       ~ in_range (v_shape v) idx -> exists r, view_get v idx = Ret r).
Proof.
  intros H.
  destruct (H Z ZNum (mkRaw [1; 2; 3]%Z [3]) [mkSR 0 2] _ [2] eq_refl
              (Forall_cons _ (Nat.lt_0_succ 2) (Forall_nil _)) eq_refl eq_refl) as [r Hr].
  - intros Hi. inversion Hi. lia.
  - discriminate.
Qed.
Example c13_view_get_err_refuted_ex :
  exists v, view_new (mkRaw [1; 2; 3]%Z [3]) [mkSR 0 2] = Ret v /\ view_get v [2] = Panic PUnwrap.
Proof. eexists. split; reflexivity. Qed.

(** What happens instead: [get] on a view never answers [Err]; it reads the element the index stands
    for, or panics. *)
Lemma c13_view_get_exact :
  forall (T : Type) (NT : Num T) (t : raw T) (o : list slice_range) (v : view T) (idx : list nat),
    wf t -> positive (shape t) -> view_new t o = Ret v ->
    (exists i x, wresolves (shape t) o idx i /\ raw_get t i = Ret (Ok x) /\ view_get v idx = Ret (Ok x)) \/
    ((forall i, ~ wresolves (shape t) o idx i) /\ view_get v idx = Panic PUnwrap).
Proof.
  intros T NT t o v idx Hw Hp Hv. apply view_new_inv in Hv as (Hwo & Hvr & ->).
  destruct (view_get_bad (mkView t (window_shape o) o) idx) as [(i & Hi & Hg)|[H1 H2]]; auto.
  - eapply Forall2_length'; eauto.
  - left. exists i, (tval t i). split; auto. split; auto. apply raw_get_in_range; auto.
    eapply wresolves_in_range; eauto.
Qed.
Example c13_view_get_exact_ex :
  exists v, view_new (mkRaw [1; 2; 3; 4]%Z [2; 2]) [mkSR 0 2; mkSR 1 2] = Ret v /\
    view_get v [1; 0] = Ret (Ok 4%Z) /\ view_get v [1; 1] = Panic PUnwrap.
Proof. eexists. repeat split; reflexivity. Qed.

(** ** C14 *)

(** C14 is false: slicing a view is relative to the underlying tensor, so the slice can show
    elements outside the view. *)
Lemma c14_slice_of_view_refuted :
  ~ (forall (T : Type) (NT : Num T) (t : raw T) (o o' : list slice_range) (v w : view T) (i : list nat),
       wf t -> view_new t o = Ret v -> view_slice v o' = Ret w -> in_range (v_shape w) i ->
       view_get w i = view_get v (shift o' i)).
Proof.
  intros H.
  specialize (H Z ZNum (mkRaw [10; 11; 12; 13]%Z [4]) [mkSR 2 4] [mkSR 0 1] _ _ [0] eq_refl eq_refl eq_refl).
  discriminate H. repeat constructor.
Qed.
Example c14_slice_of_view_refuted_ex :
  exists v w, view_new (mkRaw [10; 11; 12; 13]%Z [4]) [mkSR 2 4] = Ret v /\
    view_slice v [mkSR 0 1] = Ret w /\ view_get v [0] = Ret (Ok 12%Z) /\ view_get w [0] = Ret (Ok 10%Z).
Proof. eexists _, _. repeat split; reflexivity. Qed.

(** What happens instead: [view.slice(ranges)] is the window [ranges] of the underlying tensor,
    whatever the view selects. *)
Lemma c14_slice_of_view_is_slice_of_tensor :
  forall (T : Type) (NT : Num T) (t : raw T) (o o' : list slice_range) (v w : view T) (i : list nat),
    wf t -> view_new t o = Ret v -> view_slice v o' = Ret w -> in_range (v_shape w) i ->
    view_new t o' = Ret w /\ view_get w i = raw_get t (shift o' i).
Proof.
  intros T NT t o o' v w i Hw Hv Hs Hi. apply view_new_inv in Hv as (_ & _ & ->).
  unfold view_slice in Hs. cbn [v_tensor] in Hs. split; auto.
  apply view_new_inv in Hs as (Hwo & Hvr & ->). cbn [v_shape] in Hi.
  rewrite view_get_in_range by auto. cbn [v_tensor v_offset].
  rewrite raw_get_in_range; auto. apply shift_in_range; auto.
Qed.
Example c14_slice_of_view_is_slice_of_tensor_ex :
  exists v w, view_new (mkRaw [10; 11; 12; 13]%Z [4]) [mkSR 0 4] = Ret v /\
    view_slice v [mkSR 1 3] = Ret w /\ in_range (v_shape w) [1] /\ view_get w [1] = Ret (Ok 12%Z).
Proof. eexists _, _. split; [reflexivity|]. split; [reflexivity|]. split; [repeat constructor|reflexivity]. Qed.

(** ... and it succeeds for the windows of the underlying tensor, of a view as of a tensor. *)
Lemma c14_slice_exactly :
  forall (T : Type) (NT : Num T) (t : raw T) (o o' : list slice_range) (v : view T), view_new t o = Ret v ->
    tl_slice (LView v) o' = tl_slice (LRaw t) o' /\
    ((exists w, tl_slice (LView v) o' = Ret w) <-> window_ok (shape t) o' /\ valid_ranges o') /\
    forall w, tl_slice (LView v) o' = Ret w -> v_shape w = window_shape o' /\ v_tensor w = t.
Proof.
  intros T NT t o o' v Hv. apply view_new_inv in Hv as (_ & _ & ->). cbn [tl_slice]. unfold view_slice. cbn [v_tensor].
  split; [reflexivity|]. split; [split|].
  - intros [w E]. apply view_new_inv in E as (H1 & H2 & _). auto.
  - intros [H1 H2]. eexists. apply view_new_ok; auto.
  - intros w E. apply view_new_inv in E as (_ & _ & ->). auto.
Qed.
Example c14_slice_exactly_ex :
  exists v, view_new (mkRaw [10; 11; 12; 13]%Z [4]) [mkSR 2 3] = Ret v /\
    tl_slice (LView v) [mkSR 0 4] = Ret (mkView (mkRaw [10; 11; 12; 13]%Z [4]) [4] [mkSR 0 4]) /\
    tl_slice (LView v) [mkSR 0 5] = Panic PAssert.
Proof. eexists. repeat split; reflexivity. Qed.

(** ** C15 *)

(** C15 is false: a reshaped view is still indexed with the old shape. *)
Lemma c15_reshape_refuted :
  ~ (forall (T : Type) (NT : Num T) (t : raw T) (o : list slice_range) (v w : view T) (s : list nat),
       wf t -> view_new t o = Ret v -> positive s -> view_reshape v s = Ret w ->
       elements (LView w) = elements (LView v)).
Proof.
  intros H.
  specialize (H Z ZNum (mkRaw [10; 11; 12; 13]%Z [4]) [mkSR 0 4]
    (mkView (mkRaw [10; 11; 12; 13]%Z [4]) [4] [mkSR 0 4])
    (mkView (mkRaw [10; 11; 12; 13]%Z [4]) [2; 2] [mkSR 0 4]) [2; 2] eq_refl eq_refl).
  specialize (H ltac:(repeat constructor) eq_refl). discriminate H.
Qed.
Example c15_reshape_refuted_ex :
  (exists v w, view_new (mkRaw [10; 11; 12; 13]%Z [4]) [mkSR 0 4] = Ret v /\
     view_reshape v [2; 2] = Ret w /\ elements (LView w) = Ret [10; 11; 10; 11]%Z) /\
  (exists v w, view_new (mkRaw [10; 11; 12; 13]%Z [2; 2]) [mkSR 0 2; mkSR 0 2] = Ret v /\
     view_reshape v [4] = Ret w /\ elements (LView w) = Panic PUnwrap).
Proof. split; eexists _, _; repeat split; reflexivity. Qed.

Section Elements.
Context {T : Type} {NT : Num T}.

Lemma elements_reads_aux A (l : tlike T) (f : list nat -> T) (body : A -> T -> outcome A) :
  positive (tl_shape l) -> reads l (tl_shape l) f ->
  forall n g fuel acc, g + S n = size (tl_shape l) -> n < fuel ->
  iter_fold (elem_iter_next l) body fuel (mkEI (unravel (tl_shape l) g) false) acc =
  foldM body (map f (map (unravel (tl_shape l)) (seq (S g) n))) acc.
Proof.
  intros Hp Hr. induction n as [|n IH]; intros g fuel acc Hg Hf; (destruct fuel as [|fuel]; [lia|]);
    cbn [iter_fold]; unfold elem_iter_next; cbn [ei_first ei_index];
    rewrite increment_unravel by (auto; lia).
  - replace (S g <? size (tl_shape l)) with false by (symmetry; apply Nat.ltb_ge; lia). reflexivity.
  - replace (S g <? size (tl_shape l)) with true by (symmetry; apply Nat.ltb_lt; lia). cbn [bind].
    rewrite Hr by (apply unravel_in_range; lia). cbn [bind seq map foldM].
    destruct (body acc (f (unravel (tl_shape l) (S g)))); cbn [bind]; auto. apply IH; lia.
Qed.

Lemma elements_reads (l : tlike T) (f : list nat -> T) :
  positive (tl_shape l) -> reads l (tl_shape l) f ->
  elements l = Ret (map f (all_indices (tl_shape l))).
Proof.
  intros Hp Hr. assert (Hs : 0 < size (tl_shape l)) by (apply size_pos; auto).
  unfold elements, index_fuel. rewrite product_max1 by auto.
  cbn [iter_fold]. unfold elem_iter_next at 1, elem_iter_new. cbn [ei_first ei_index].
  rewrite <- unravel_0. rewrite Hr by (apply unravel_in_range; auto). cbn [bind].
  rewrite (elements_reads_aux _ l f _ Hp Hr (size (tl_shape l) - 1) 0) by lia.
  rewrite foldM_pure with (g := fun acc x => acc ++ [x]) by auto.
  rewrite (fold_left_snoc _ _ (fun x => x)), map_id. f_equal.
  rewrite all_indices_unravel. destruct (size (tl_shape l)) as [|n]; [lia|].
  cbn [seq map]. rewrite Nat.sub_succ, Nat.sub_0_r. reflexivity.
Qed.

Lemma view_get_leading (v : view T) extra idx :
  length (shape (v_tensor v)) <= length idx -> view_get v (extra ++ idx) = view_get v idx.
Proof.
  intros H. unfold view_get. f_equal. unfold global_index. rewrite app_length.
  replace (length idx <? length (shape (v_tensor v))) with false by (symmetry; apply Nat.ltb_ge; lia).
  replace (length extra + length idx <? length (shape (v_tensor v))) with false
    by (symmetry; apply Nat.ltb_ge; lia).
  cbn [andb]. rewrite rev_app_distr, combine_app_short; auto. rewrite !rev_length. auto.
Qed.

Lemma all_indices_ones k s : all_indices (repeat 1 k ++ s) = map (app (repeat 0 k)) (all_indices s).
Proof.
  induction k as [|k IH]; cbn [repeat app].
  - symmetry. rewrite <- (map_id (all_indices s)) at 2. apply map_ext. reflexivity.
  - cbn [all_indices seq flat_map]. rewrite app_nil_r, IH, map_map. reflexivity.
Qed.

Lemma in_range_app_inv s1 s2 i :
  in_range (s1 ++ s2) i -> exists i1 i2, i = i1 ++ i2 /\ in_range s1 i1 /\ in_range s2 i2.
Proof.
  intros H. apply Forall2_app_inv_l in H as (i1 & i2 & H1 & H2 & ->). eauto.
Qed.

End Elements.

(** C15, the part that holds: a reshape is accepted exactly when the number of elements is kept, and
    putting size-1 dimensions in front keeps the row-major sequence of elements. *)
Lemma c15_reshape_leading_ones :
  forall (T : Type) (NT : Num T) (t : raw T) (o : list slice_range) (v : view T) (s : list nat) (k : nat),
    wf t -> view_new t o = Ret v -> positive (v_shape v) ->
    ((exists w, view_reshape v s = Ret w) <-> size s = size (v_shape v)) /\
    exists w, view_reshape v (repeat 1 k ++ v_shape v) = Ret w /\ v_shape w = repeat 1 k ++ v_shape v /\
      exists xs, elements (LView w) = Ret xs /\ elements (LView v) = Ret xs.
Proof.
  intros T NT t o v s k Hw Hv Hp.
  assert (Hl : tl_wf (LView v)) by (eapply view_tl_wf; eauto). split.
  - unfold view_reshape. rewrite !product_size.
    destruct (Nat.eqb_spec (size (v_shape v)) (size s)) as [E|E]; cbn [assert bind].
    + split; intros _; auto. eexists; reflexivity.
    + split; [intros [w Hw']; discriminate|congruence].
  - unfold view_reshape. rewrite !product_size, size_app.
    replace (size (repeat 1 k)) with 1 by (induction k; cbn [repeat size]; lia).
    rewrite Nat.mul_1_l, Nat.eqb_refl. cbn [assert bind]. eexists. split; [reflexivity|].
    split; [reflexivity|]. exists (map (tl_val (LView v)) (all_indices (v_shape v))). split.
    + rewrite (elements_reads _ (fun i => tl_val (LView v) (skipn k i))).
      * cbn [tl_shape v_shape]. rewrite all_indices_ones, map_map. f_equal. apply map_ext. intros i.
        rewrite skipn_app, repeat_length, Nat.sub_diag, skipn_all2 by (rewrite repeat_length; lia). reflexivity.
      * cbn [tl_shape v_shape]. apply positive_app. split; auto. apply Forall_repeat. lia.
      * cbn [tl_shape v_shape]. intros i Hi.
        apply in_range_app_inv in Hi as (i1 & i2 & -> & H1 & H2).
        assert (Hk : length i1 = k) by (apply in_range_length in H1; rewrite repeat_length in H1; auto).
        rewrite skipn_app, Hk, Nat.sub_diag, skipn_all2 by lia. cbn [app skipn].
        unfold tl_get_unwrap, tl_get. rewrite view_get_leading.
        -- change (view_get (mkView (v_tensor v) (repeat 1 k ++ v_shape v) (v_offset v)) i2) with (view_get v i2).
           change (tl_get_unwrap (LView v) i2 = Ret (tl_val (LView v) i2)).
           apply tl_get_unwrap_in_range; auto.
        -- cbn [v_tensor]. destruct Hl as [(_ & Hwo & Hsh) _].
           apply in_range_length in H2. rewrite <- H2, Hsh. unfold window_shape. rewrite map_length.
           rewrite (Forall2_length' _ _ _ _ _ Hwo). auto.
    + rewrite elements_ok; auto.
Qed.
Example c15_reshape_leading_ones_ex :
  exists v w, view_new (mkRaw [10; 11; 12; 13]%Z [4]) [mkSR 1 4] = Ret v /\ positive (v_shape v) /\
     view_reshape v [1; 1; 3] = Ret w /\ elements (LView w) = Ret [11; 12; 13]%Z.
Proof. eexists _, _. split; [reflexivity|]. split; [repeat constructor|]. repeat split; reflexivity. Qed.

(** ** C16 *)

(** C16 is false: a size-1 window of a larger dimension does not broadcast. *)
Lemma c16_view_broadcast_refuted :
  ~ (forall (T : Type) (NT : Num T) (a t : raw T) (o : list slice_range) (v : view T) (m : raw T) (s : list nat),
       wf a -> positive (shape a) -> wf t -> view_new t o = Ret v -> positive (v_shape v) ->
       bcast (shape a) (v_shape v) s -> tl_to_tensor (LView v) = Ret m ->
       add_raw (LRaw a) (LView v) = add_raw (LRaw a) (LRaw m)).
Proof.
  intros H.
  specialize (H Z ZNum (mkRaw [1; 2]%Z [2]) (mkRaw [10; 11; 12]%Z [3]) [mkSR 1 2]
    (mkView (mkRaw [10; 11; 12]%Z [3]) [1] [mkSR 1 2]) (mkRaw [11]%Z [1]) [2] eq_refl).
  specialize (H ltac:(repeat constructor) eq_refl eq_refl ltac:(repeat constructor)).
  specialize (H ltac:(apply br_one_r; constructor) eq_refl). discriminate H.
Qed.
Example c16_view_broadcast_refuted_ex :
  exists v m, view_new (mkRaw [10; 11; 12]%Z [3]) [mkSR 1 2] = Ret v /\ tl_to_tensor (LView v) = Ret m /\
    add_raw (LRaw (mkRaw [1; 2]%Z [2])) (LRaw m) = Ret (mkRaw [12; 13]%Z [2]) /\
    add_raw (LRaw (mkRaw [1; 2]%Z [2])) (LView v) = Panic PUnwrap.
Proof. eexists _, _. repeat split; reflexivity. Qed.

Lemma resolves_wresolves_rev s o ri i :
  Forall2 (fun d r => sr_end r <= d) s o ->
  Forall2 (fun d r => sr_end r - sr_start r = 1 -> d = 1) s o ->
  resolves_rev (window_shape o) ri i -> wresolves_rev s o ri (shift o i).
Proof.
  intros Hw Hn. revert ri i Hn. induction Hw as [|d r s o Hr Hw IH]; intros ri i Hn H; inversion Hn as [|? ? ? ? H2 H3]; subst.
  - inversion H; subst. constructor.
  - cbn [window_shape map] in H. fold (window_shape o) in H.
    inversion H as [|? x ri' i' Hrr Heq|? i' Hrr Heq|? ? x ri' i' Hd Hx Hrr Heq]; subst; cbn [shift combine map].
    + specialize (H2 (eq_sym Heq)). subst d. replace (sr_start r + 0) with 0 by lia. constructor.
      apply IH; auto. 
    + specialize (H2 (eq_sym Heq)). subst d. replace (sr_start r + 0) with 0 by lia. constructor.
      apply IH; auto.
    + constructor; auto; try lia. apply IH; auto.
Qed.

(** C16, the part that holds: if every size-1 dimension of the view is a size-1 dimension of its
    tensor (or the shapes are equal), adding the view is adding the materialised view, broadcasting
    included. *)
Lemma c16_view_broadcast :
  forall (T : Type) (NT : Num T) (a t : raw T) (o : list slice_range) (v : view T) (m : raw T) (s : list nat),
    wf a -> positive (shape a) -> wf t -> view_new t o = Ret v -> positive (v_shape v) ->
    bcast (shape a) (v_shape v) s -> tl_to_tensor (LView v) = Ret m ->
    shape a = v_shape v \/
      (forall p, p < length o -> nth p (v_shape v) 0 = 1 -> nth p (shape t) 0 = 1) ->
    add_raw (LRaw a) (LView v) = add_raw (LRaw a) (LRaw m) /\
    exists r, add_raw (LRaw a) (LView v) = Ret r /\ shape r = s.
Proof.
  intros T NT a t o v m s Ha Hpa Ht Hv Hpv Hb Hm Hcase.
  assert (Hl : tl_wf (LView v)) by (eapply view_tl_wf; eauto).
  rewrite tl_to_tensor_ok in Hm by auto. injection Hm as <-.
  assert (Hs : s = max_shape (shape a) (v_shape v)) by (apply bcast_max_shape; auto).
  set (m := tabulate (tl_shape (LView v)) (tl_val (LView v))) in *.
  assert (Hmat : add_raw (LRaw a) (LRaw m) = Ret (tabulate s (fun i =>
            n_add (tval a (clamp (shape a) i)) (tval m (clamp (v_shape v) i))))).
  { unfold add_raw. rewrite (binop_raw_ok a m s); auto. apply tabulate_wf. }
  assert (Hadd : add_raw (LRaw a) (LView v) = Ret (tabulate s (fun i =>
            n_add (tval a (clamp (shape a) i)) (tval m (clamp (v_shape v) i))))).
  { unfold add_raw. subst s. apply (binop_reads (LRaw a) (LView v) n_add (fun i => tval a (clamp (shape a) i)) (fun i => tval m (clamp (v_shape v) i))).
    - eapply bcast_broadcastable; eauto.
    - cbn [tl_shape]. eapply bcast_positive; [| |exact Hb]; auto.
    - cbn [tl_shape]. eapply raw_reads; eauto.
    - cbn [tl_shape]. intros i Hi.
      assert (Hcl : in_range (v_shape v) (clamp (v_shape v) i)).
      { eapply clamp_in_range; [apply bcast_sym; exact Hb|auto]. }
      unfold m. rewrite tval_tabulate by auto.
      destruct Hcase as [Hsame|Hnar].
      + rewrite Hsame, max_shape_self in Hi. rewrite clamp_self by auto.
        apply tl_get_unwrap_in_range; auto.
      + apply view_new_inv in Hv as (Hwo & Hvr & ->). cbn [v_shape] in *.
        assert (Hpt : positive (shape t)) by (eapply window_positive; eauto).
        destruct (bcast_clamp _ _ _ _ Hb Hi) as [_ Hres].
        assert (Hwres : wresolves (shape t) o i (shift o (clamp (window_shape o) i))).
        { unfold wresolves.
          assert (Hlen : length o = length (clamp (window_shape o) i)).
          { apply in_range_length in Hcl. rewrite <- Hcl. unfold window_shape. rewrite map_length. auto. }
          rewrite <- shift_rev by auto. apply resolves_wresolves_rev.
          - apply Forall2_rev. exact Hwo.
          - apply Forall2_rev. clear -Hwo Hnar.
            assert (Hlen := Forall2_length' _ _ _ _ _ Hwo). clear Hwo.
            revert o Hlen Hnar. induction (shape t) as [|d st IH]; intros [|r o] Hlen Hnar; try discriminate; constructor.
            + intros E. apply (Hnar 0); cbn; auto; lia.
            + apply IH; [cbn in Hlen; lia|]. intros p Hp E. apply (Hnar (S p)); cbn; auto; lia.
          - rewrite window_shape_rev. exact Hres. }
        unfold tl_get_unwrap, tl_get, view_get. cbn [v_tensor v_offset tl_val].
        destruct (global_index_some i (shape t) o) as [(j & Hj & Hg)|[Hno _]]; auto.
        * eapply Forall2_length'; eauto.
        * rewrite Hg. cbn [unwrap bind].
          rewrite (wresolves_det _ _ _ _ _ Hj Hwres).
          rewrite (vindex_lt _ _ _ n_zero); [reflexivity|].
          rewrite Ht. apply rm_lt. eapply wresolves_in_range; eauto.
        * exfalso. eapply Hno; eauto. }
  split; [exact (eq_trans Hadd (eq_sym Hmat))|]. rewrite Hadd. eexists. split; reflexivity.
Qed.
Example c16_view_broadcast_ex :
  exists v m, view_new (mkRaw [10; 11; 12; 13]%Z [1; 4]) [mkSR 0 1; mkSR 1 3] = Ret v /\ positive (v_shape v) /\
    tl_to_tensor (LView v) = Ret m /\ bcast [3; 2] (v_shape v) [3; 2] /\
    (forall p, p < 2 -> nth p (v_shape v) 0 = 1 -> nth p [1; 4] 0 = 1) /\
    add_raw (LRaw (mkRaw [1; 2; 3; 4; 5; 6]%Z [3; 2])) (LView v) = Ret (mkRaw [12; 14; 14; 16; 16; 18]%Z [3; 2]).
Proof.
  eexists _, _. split; [reflexivity|]. split; [repeat constructor|]. split; [reflexivity|].
  split; [apply br_eq, br_one_r; constructor|]. split; [|reflexivity].
  intros [|[|p]] Hp; cbn; lia.
Qed.

(** ** C51 *)

(** C51: equality compares shapes and elements only. *)
Lemma c51_eq_spec :
  forall (T : Type) (NT : Num T) (a b : raw T), wf a -> wf b ->
    (raw_eq a b = true <->
     shape a = shape b /\
     forall i, in_range (shape a) i ->
       exists x y, raw_get a i = Ret (Ok x) /\ raw_get b i = Ret (Ok y) /\ n_eq x y = true).
Proof.
  intros T NT a b Ha Hb. rewrite raw_eq_spec. split; intros [Hs H]; split; auto.
  - intros i Hi. exists (tval a i), (tval b i). split; [apply raw_get_in_range; auto|].
    split; [apply raw_get_in_range; auto; rewrite <- Hs; auto|].
    rewrite (array_tabulate a), (array_tabulate b) in H by auto. rewrite <- Hs in H.
    assert (G : forall l, Forall2 (fun x y => n_eq x y = true) (map (tval a) l) (map (tval b) l) ->
                 forall i, In i l -> n_eq (tval a i) (tval b i) = true).
    { clear. induction l; intros H i Hi; [inversion Hi|]. inversion H; subst. destruct Hi as [->|Hi]; auto. }
    eapply G; eauto. apply in_all_indices; auto.
  - rewrite (array_tabulate a), (array_tabulate b) by auto. rewrite <- Hs.
    assert (G : forall l, (forall i, In i l -> n_eq (tval a i) (tval b i) = true) ->
                Forall2 (fun x y => n_eq x y = true) (map (tval a) l) (map (tval b) l)).
    { clear. induction l; intros H; constructor; [apply H; left; auto|]. apply IHl. intros; apply H; right; auto. }
    apply G. intros i Hi. apply in_all_indices in Hi. destruct (H i Hi) as (x & y & Hx & Hy & E).
    rewrite raw_get_in_range in Hx, Hy by (try rewrite <- Hs; auto). congruence.
Qed.
Example c51_eq_spec_ex :
  raw_eq (mkRaw [1; 2]%Z [2]) (mkRaw [1; 2]%Z [2]) = true /\ raw_eq (mkRaw [1; 2]%Z [2]) (mkRaw [1; 2]%Z [2; 1]) = false /\
  raw_eq (mkRaw [1; 2]%Z [2]) (mkRaw [1; 3]%Z [2]) = false.
Proof. repeat split; reflexivity. Qed.

(** C51: tensor equality is an equivalence when element equality is one. *)
Lemma c51_eq_equivalence :
  forall (T : Type) (NT : Num T),
    ((forall x : T, n_eq x x = true) -> forall a, raw_eq a a = true) /\
    ((forall x y : T, n_eq x y = true -> n_eq y x = true) ->
       forall a b, raw_eq a b = true -> raw_eq b a = true) /\
    ((forall x y z : T, n_eq x y = true -> n_eq y z = true -> n_eq x z = true) ->
       forall a b c, raw_eq a b = true -> raw_eq b c = true -> raw_eq a c = true).
Proof.
  intros T NT. split; [|split].
  - intros H a. apply raw_eq_spec. split; auto. induction (array a); constructor; auto.
  - intros H a b Hab. apply raw_eq_spec in Hab as [Hs HF]. apply raw_eq_spec. split; auto.
    induction HF; constructor; auto.
  - intros H a b c Hab Hbc. apply raw_eq_spec in Hab as [Hs HF]. apply raw_eq_spec in Hbc as [Hs' HF'].
    apply raw_eq_spec. split; [congruence|]. clear Hs Hs'. revert HF'. generalize (array c).
    induction HF; intros lc HF'; inversion HF'; subst; constructor; eauto.
Qed.
Example c51_eq_equivalence_ex : forall a b : raw Z, raw_eq a b = true -> raw_eq b a = true.
Proof.
  apply (proj1 (proj2 (c51_eq_equivalence Z ZNum))). intros x y H. cbn in *. apply Z.eqb_eq in H. subst. apply Z.eqb_refl.
Qed.
