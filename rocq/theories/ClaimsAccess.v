(** * ClaimsAccess: reading and writing single elements (C73) *)
From Coq Require Import ZArith.
From Verif Require Import Base ModelIndex ModelTensor Spec Lists IndexFacts TensorFacts FuelFacts Instances.

(** C73: [set] writes exactly the element that [get] reads at the same index, whichever index stands for
    it, and nothing else; where there is no such element it reports an error. *)
Lemma c73_set :
  forall (T : Type) (NT : Num T) (a : list T) (s idx : list nat) (x : T) (t : raw T),
  raw_new a s = Ret t -> positive s ->
  (exists i t', resolves s idx i /\ raw_set t idx x = Ret (Ok t') /\ shape t' = s /\
     forall j k, resolves s j k -> (k = i -> raw_get t' j = Ret (Ok x)) /\ (k <> i -> raw_get t' j = raw_get t j)) \/
  ((forall i, ~ resolves s idx i) /\ exists e, raw_set t idx x = Ret (Err e)).
Proof.
  intros T NT a s idx x t H Hp. apply raw_new_inv in H as [-> Hl].
  destruct (global_index_none idx s Hp) as [(i & Hr & Hg)|[Hr [e He]]].
  - left. assert (Hi : in_range s i) by (eapply resolves_in_range; eauto). pose proof (rm_lt s i Hi) as Hlt.
    exists i, (mkRaw (list_set a (rm s i) x) s). split; [auto|]. split; [|split; [reflexivity|]].
    + unfold raw_set. cbn [shape array]. rewrite Hg. cbn [bind]. unfold vset. rewrite Hl. rewrite (proj2 (Nat.ltb_lt _ _) Hlt). reflexivity.
    + intros j k Hk. assert (Hki : in_range s k) by (eapply resolves_in_range; eauto).
      assert (W : wf (mkRaw a s)) by (exact Hl). assert (W' : wf (mkRaw (list_set a (rm s i) x) s)) by (unfold wf; cbn; rewrite list_set_length; exact Hl).
      rewrite (raw_get_resolves (mkRaw (list_set a (rm s i) x) s) j k) by auto. rewrite (raw_get_resolves (mkRaw a s) j k) by auto. unfold tval. cbn [array shape]. split.
      * intros ->. rewrite list_set_nth_eq by lia. reflexivity.
      * intros Hne. rewrite list_set_nth_neq; [reflexivity|]. intros E. apply Hne. symmetry. eapply rm_inj; eauto.
  - right. split; auto. exists e. unfold raw_set. cbn [shape]. rewrite He. reflexivity.
Qed.
Example c73_set_ex :
  raw_new [1; 2; 3; 4]%Z [2; 1; 2] = Ret (mkRaw [1; 2; 3; 4]%Z [2; 1; 2]) /\ positive [2; 1; 2] /\ resolves [2; 1; 2] [9; 1; 7; 0] [1; 0; 0] /\
  raw_set (mkRaw [1; 2; 3; 4]%Z [2; 1; 2]) [9; 1; 7; 0] 8%Z = Ret (Ok (mkRaw [1; 2; 8; 4]%Z [2; 1; 2])) /\
  raw_set (mkRaw [1; 2; 3; 4]%Z [2; 1; 2]) [2; 0; 0] 8%Z = Ret (Err ErrView).
Proof. split; [reflexivity|]. split; [repeat constructor|]. split; [repeat constructor; lia|]. split; reflexivity. Qed.

(** C73: [t[&index]] is the element where [get] gives one, and panics where [get] reports an error. *)
Lemma c73_index :
  forall (T : Type) (NT : Num T) (t : raw T) (idx : list nat),
  match raw_get t idx with
  | Ret (Ok x) => raw_at t idx = Ret x
  | Ret (Err _) => raw_at t idx = Panic PUnwrap
  | Panic e => raw_at t idx = Panic e
  | NoFuel => False
  end.
Proof. intros T NT t idx. pose proof (nf_raw_get t idx) as H. unfold raw_at. destruct (raw_get t idx) as [[x|e]|e|]; cbn; auto. Qed.
Example c73_index_ex :
  raw_at (mkRaw [1; 2; 3]%Z [3]) [2] = Ret 3%Z /\ raw_at (mkRaw [1; 2; 3]%Z [3]) [3] = Panic PUnwrap.
Proof. split; reflexivity. Qed.

(** C73: [elem] gives the element of a tensor or view without dimensions, and panics on everything else. *)
Lemma c73_elem :
  forall (T : Type) (NT : Num T) (a : list T) (s : list nat) (t : raw T), raw_new a s = Ret t ->
  (forall x, s = [] -> a = [x] -> tl_elem (LRaw t) = Ret x) /\ (s <> [] -> tl_elem (LRaw t) = Panic PAssert) /\
  (forall o v, view_new t o = Ret v -> tl_elem (LView v) = tl_elem (LRaw t)).
Proof.
  intros T NT a s t H. apply raw_new_inv in H as [-> Hl]. split; [|split].
  - intros x -> ->. reflexivity.
  - intros Hs. unfold tl_elem. cbn [tl_shape shape]. destruct s; [congruence|reflexivity].
  - intros o v Hv. apply view_new_inv in Hv as (Hw & _ & ->). unfold tl_elem. cbn [tl_shape shape v_shape].
    destruct s; inversion Hw; subst; cbn; [|reflexivity]. destruct a as [|x [|]]; try discriminate Hl. reflexivity.
Qed.
Example c73_elem_ex :
  raw_new [5%Z] [] = Ret (mkRaw [5%Z] []) /\ tl_elem (LRaw (mkRaw [5%Z] [])) = Ret 5%Z /\
  view_new (mkRaw [5%Z] []) [] = Ret (mkView (mkRaw [5%Z] []) [] []) /\ raw_new [5%Z] [1] = Ret (mkRaw [5%Z] [1]) /\ tl_elem (LRaw (mkRaw [5%Z] [1])) = Panic PAssert.
Proof. repeat split. Qed.

(** C73: [get_first_elem] gives the first element in row-major order: of the array, or of the window. *)
Lemma c73_first :
  forall (T : Type) (NT : Num T) (a : list T) (s : list nat) (t : raw T), raw_new a s = Ret t -> positive s ->
  (exists x r, a = x :: r /\ tl_get_first_elem (LRaw t) = Ret x) /\
  (forall o v, view_new t o = Ret v -> positive (v_shape v) -> exists x, raw_get t (map sr_start o) = Ret (Ok x) /\ tl_get_first_elem (LView v) = Ret x).
Proof.
  intros T NT a s t H Hp. apply raw_new_inv in H as [-> Hl].
  assert (Z0 : forall s, positive s -> in_range s (repeat 0 (length s)) /\ rm s (repeat 0 (length s)) = 0).
  { clear. induction s; intros H; cbn; [split; [constructor|reflexivity]|]. inversion H; subst. destruct (IHs H3) as [A B]. split; [constructor; auto|exact B]. }
  split.
  - destruct (Z0 s Hp) as [A B]. pose proof (rm_lt _ _ A) as L. rewrite B in L. destruct a as [|x r]; [cbn in Hl; lia|].
    exists x, r. split; [reflexivity|]. unfold tl_get_first_elem, tl_get_unwrap. cbn [tl_shape tl_get shape]. rewrite raw_get_in_range by auto. unfold tval. cbn [array shape]. rewrite B. reflexivity.
  - intros o v Hv Hpv. apply view_new_inv in Hv as (Hw & Hvr & ->). cbn [v_shape] in *. destruct (Z0 _ Hpv) as [A _].
    assert (Hj : in_range s (map (fun '(r, x) => sr_start r + x) (combine o (repeat 0 (length (window_shape o)))))) by (apply shift_in_range; auto).
    replace (map (fun '(r, x) => sr_start r + x) (combine o (repeat 0 (length (window_shape o))))) with (map sr_start o) in Hj.
    2: { unfold window_shape. rewrite map_length. clear. induction o; cbn; [reflexivity|]. f_equal; [lia|exact IHo]. }
    exists (tval (mkRaw a s) (map sr_start o)). split; [apply raw_get_in_range; auto|].
    unfold tl_get_first_elem. rewrite tl_get_unwrap_in_range; [|repeat split; auto|exact A]. cbn [tl_val v_tensor v_offset tl_shape v_shape]. f_equal. f_equal.
    unfold window_shape. rewrite map_length. clear. unfold shift. induction o; cbn; [reflexivity|]. f_equal; [lia|exact IHo].
Qed.
Example c73_first_ex :
  let t := mkRaw [1; 2; 3; 4; 5; 6]%Z [2; 3] in let o := [mkSR 1 2; mkSR 1 3] in
  raw_new [1; 2; 3; 4; 5; 6]%Z [2; 3] = Ret t /\ positive [2; 3] /\ tl_get_first_elem (LRaw t) = Ret 1%Z /\
  view_new t o = Ret (mkView t [1; 2] o) /\ tl_get_first_elem (LView (mkView t [1; 2] o)) = Ret 5%Z.
Proof. cbv zeta. split; [reflexivity|]. split; [repeat constructor|]. repeat split. Qed.

(** C73: [count] is the number of elements, of a tensor or a view. *)
Lemma c73_count :
  forall (T : Type) (NT : Num T) (a : list T) (s : list nat) (t : raw T), raw_new a s = Ret t ->
  tl_count (LRaw t) = length (all_indices s) /\ (forall o v, view_new t o = Ret v -> tl_count (LView v) = length (all_indices (v_shape v))).
Proof.
  intros T NT a s t H. apply raw_new_inv in H as [-> Hl]. cbn [tl_count array]. split; [|intros o v _]; rewrite all_indices_length; [exact Hl|apply product_size].
Qed.
Example c73_count_ex :
  let t := mkRaw [1; 2; 3; 4; 5; 6]%Z [2; 3] in let o := [mkSR 1 2; mkSR 1 3] in
  raw_new [1; 2; 3; 4; 5; 6]%Z [2; 3] = Ret t /\ tl_count (LRaw t) = 6 /\ view_new t o = Ret (mkView t [1; 2] o) /\ tl_count (LView (mkView t [1; 2] o)) = 2.
Proof. repeat split. Qed.

(** C73: [same_shape] and [broadcastable]: equal shapes; dimensions that, counted from the right, are
    equal or one of them 1. *)
Lemma c73_shapes :
  forall (T : Type) (NT : Num T) (l r : tlike T) (s s' : list nat),
  (same_shape l r = true <-> tl_shape l = tl_shape r) /\
  (broadcastable s s' = true <-> forall p, p < length s -> p < length s' -> let d := nth p (rev s) 0 in let d' := nth p (rev s') 0 in d = d' \/ d = 1 \/ d' = 1).
Proof.
  intros T NT l r s s'. split.
  - unfold same_shape. destruct (shape_eqb_spec (tl_shape l) (tl_shape r)); split; congruence.
  - unfold broadcastable. rewrite <- (rev_length s), <- (rev_length s'). generalize (rev s) (rev s'). clear.
    induction l as [|d l IH]; intros [|d' l']; cbn [combine forallb length]; try (split; [intros; cbn in *; lia|reflexivity]).
    rewrite Bool.andb_true_iff, IH. rewrite !Bool.orb_true_iff, !Nat.eqb_eq. split.
    + intros [H1 H2] [|p] Hp Hp'; cbn; [tauto|]. apply H2; lia.
    + intros H. split; [specialize (H 0 ltac:(lia) ltac:(lia)); cbn in H; tauto|]. intros p Hp Hp'. apply (H (S p)); lia.
Qed.
Example c73_shapes_ex :
  broadcastable [4; 1; 3] [2; 3] = true /\ broadcastable [3; 2] [2; 3] = false /\
  same_shape (LRaw (mkRaw [1; 2]%Z [1; 2])) (LRaw (mkRaw [1; 2]%Z [2; 1])) = false.
Proof. repeat split. Qed.
