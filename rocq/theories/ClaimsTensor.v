(** * ClaimsTensor: proofs of C01-C08, C11-C16, C51 *)
From Coq Require Import ZArith Sorting.Sorted.
From Verif Require Import Base ModelIndex ModelTensor ModelOps ModelJvp ModelGraph Spec Lists IndexFacts
  TensorFacts OpsFacts Sums Instances.

(** ** C01 *)

(** C01: an in-range index reads the array element at its row-major position. *)
Lemma c01_get_row_major :
  forall (T : Type) (NT : Num T) (a : list T) (s i : list nat) (t : raw T),
    raw_new a s = Ret t -> in_range s i ->
    exists x, nth_error a (rm s i) = Some x /\ raw_get t i = Ret (Ok x).
Proof.
  intros T NT a s i t H Hi. apply raw_new_inv in H as [-> Hl].
  exists (nth (rm s i) a n_zero). split.
  - apply nth_error_nth'. rewrite Hl. apply rm_lt; auto.
  - rewrite raw_get_in_range; auto.
Qed.
Example c01_get_row_major_ex :
  exists t, raw_new [10; 11; 12; 13; 14; 15]%Z [2; 3] = Ret t /\ in_range [2; 3] [1; 2] /\
            raw_get t [1; 2] = Ret (Ok 15%Z).
Proof. eexists. split; [reflexivity|]. split; [repeat constructor|reflexivity]. Qed.

(** ** C02 *)

Lemma resolves_rev_iff rs : forall ri,
  (exists i, resolves_rev rs ri i) <->
  (forall q, q < length rs -> nth q rs 0 = 1 \/ (q < length ri /\ nth q ri 0 < nth q rs 0)).
Proof.
  induction rs as [|d rs IH]; intros ri.
  - split; [intros _ q Hq; simpl in Hq; lia|]. intros _. exists []. constructor.
  - split.
    + intros [i Hi] q Hq. simpl in Hq.
      inversion Hi as [|? x ri' i' Hr|? i' Hr|? ? x ri' i' Hd Hx Hr]; subst; (destruct q as [|q]; [simpl; auto|]); simpl.
      * destruct (proj1 (IH ri') (ex_intro _ _ Hr) q) as [E|E]; [lia|auto|].
        right; split; [lia|tauto].
      * destruct (proj1 (IH []) (ex_intro _ _ Hr) q) as [E|E]; [lia|auto|].
        simpl in E; lia.
      * right. split; [lia|auto].
      * destruct (proj1 (IH ri') (ex_intro _ _ Hr) q) as [E|E]; [lia|auto|].
        right; split; [lia|tauto].
    + intros H. destruct ri as [|x ri].
      * destruct (proj2 (IH [])) as [i Hi].
        { intros q Hq. destruct (H (S q)) as [E|E]; simpl in *; try lia; auto. }
        destruct (H 0) as [E|E]; simpl in *; try lia. subst. exists (0 :: i). constructor; auto.
      * destruct (proj2 (IH ri)) as [i Hi].
        { intros q Hq. destruct (H (S q)) as [E|[E1 E2]]; simpl in *; try (right; split; [lia|auto]); try lia; auto. }
        destruct (Nat.eq_dec d 1) as [->|Hd].
        { exists (0 :: i). constructor; auto. }
        destruct (H 0) as [E|[E1 E2]]; simpl in *; try lia.
        exists (x :: i). constructor; auto.
Qed.

Lemma resolves_iff s idx :
  (exists i, resolves s idx i) <->
  (forall p, p < length s -> nth p s 0 = 1 \/
     (length s - p <= length idx /\ nth (length idx - (length s - p)) idx 0 < nth p s 0)).
Proof.
  transitivity (exists i, resolves_rev (rev s) (rev idx) i).
  { split; intros [i Hi].
    - exists (rev i). exact Hi.
    - exists (rev i). unfold resolves. rewrite rev_involutive. exact Hi. }
  rewrite resolves_rev_iff, rev_length.
  split; intros H p Hp.
  - specialize (H (length s - S p)). rewrite !rev_nth in H by lia.
    replace (length s - S (length s - S p)) with p in H by lia.
    destruct H as [E|[E1 E2]]; [lia|auto|]. right. rewrite rev_length in E1. split; [lia|].
    rewrite rev_nth in E2 by lia.
    replace (length idx - (length s - p)) with (length idx - S (length s - S p)) by lia. exact E2.
  - specialize (H (length s - S p)). rewrite (rev_nth s) by lia.
    destruct H as [E|[E1 E2]]; [lia|auto|]. right. rewrite rev_length. split; [lia|].
    rewrite rev_nth by lia.
    replace (length idx - (length s - (length s - S p))) with (length idx - S p) in E2 by lia. exact E2.
Qed.

(** C02: on a tensor without zero dimensions, [get] returns for every index whatsoever: the element
    that the index stands for under broadcasting, or [Err]. *)
Lemma c02_get_total :
  forall (T : Type) (NT : Num T) (a : list T) (s idx : list nat) (t : raw T),
    raw_new a s = Ret t -> positive s ->
    (exists i x, resolves s idx i /\ nth_error a (rm s i) = Some x /\ raw_get t idx = Ret (Ok x)) \/
    ((forall i, ~ resolves s idx i) /\ exists e, raw_get t idx = Ret (Err e)).
Proof.
  intros T NT a s idx t H Hp. apply raw_new_inv in H as [-> Hl].
  destruct (global_index_none idx s Hp) as [(i & Hr & Hg)|[Hr [e He]]].
  - left. exists i, (nth (rm s i) a n_zero). split; [auto|]. split.
    + apply nth_error_nth'. rewrite Hl. apply rm_lt. eapply resolves_in_range; eauto.
    + rewrite (raw_get_resolves (mkRaw a s) idx i); auto.
  - right. split; auto. exists e. unfold raw_get. simpl. rewrite He. reflexivity.
Qed.
Example c02_get_total_ex :
  (* shape [2;1;3]: a rank-4 index, a too short index, a coordinate of a size-1 dimension *)
  exists t, raw_new [10; 11; 12; 13; 14; 15]%Z [2; 1; 3] = Ret t /\ positive [2; 1; 3] /\
            raw_get t [9; 1; 7; 2] = Ret (Ok 15%Z) /\ resolves [2; 1; 3] [9; 1; 7; 2] [1; 0; 2] /\
            (exists e, raw_get t [2; 0; 0] = Ret (Err e)) /\ (exists e, raw_get t [0; 0] = Ret (Err e)).
Proof.
  eexists. split; [reflexivity|]. repeat split; try (eexists; reflexivity).
  - repeat constructor.
  - unfold resolves; simpl. repeat (constructor; try lia).
Qed.

(** C02: exactly when [get] succeeds, in terms of positions counted from the right. *)
Lemma c02_get_ok_iff :
  forall (T : Type) (NT : Num T) (a : list T) (s idx : list nat) (t : raw T),
    raw_new a s = Ret t -> positive s ->
    ((exists x, raw_get t idx = Ret (Ok x)) <->
     forall p, p < length s ->
       nth p s 0 = 1 \/
       (length s - p <= length idx /\ nth (length idx - (length s - p)) idx 0 < nth p s 0)).
Proof.
  intros T NT a s idx t H Hp. rewrite <- resolves_iff.
  destruct (c02_get_total T NT a s idx t H Hp) as [(i & x & Hr & _ & Hg)|[Hr [e He]]].
  - split; intros _; eauto.
  - split.
    + intros [x Hx]. rewrite He in Hx. discriminate.
    + intros [i Hi]. exfalso. eapply Hr; eauto.
Qed.
Example c02_get_ok_iff_ex :
  exists t, raw_new [1; 2; 3]%Z [1; 3] = Ret t /\ positive [1; 3] /\ raw_get t [2] = Ret (Ok 3%Z).
Proof. eexists. split; [reflexivity|]. split; [repeat constructor|reflexivity]. Qed.

Lemma combine_app_short A B (l : list A) (x y : list B) :
  length l <= length x -> combine l (x ++ y) = combine l x.
Proof.
  revert x; induction l as [|a l IH]; intros [|b x] H; simpl in *; auto; try lia.
  f_equal. apply IH. lia.
Qed.

(** C02: leading extra coordinates are ignored (for every tensor, empty ones included). *)
Lemma c02_leading_ignored :
  forall (T : Type) (NT : Num T) (t : raw T) (extra idx : list nat),
    length (shape t) <= length idx -> raw_get t (extra ++ idx) = raw_get t idx.
Proof.
  intros T NT t extra idx H. unfold raw_get. f_equal. unfold global_index.
  rewrite app_length.
  replace (length idx <? length (shape t)) with false by (symmetry; apply Nat.ltb_ge; lia).
  replace (length extra + length idx <? length (shape t)) with false
    by (symmetry; apply Nat.ltb_ge; lia).
  cbn [andb]. rewrite rev_app_distr, combine_app_short; auto. rewrite !rev_length. auto.
Qed.
Example c02_leading_ignored_ex :
  raw_get (mkRaw [1; 2; 3]%Z [3]) [5; 7; 2] = Ret (Ok 3%Z) /\ raw_get (mkRaw [1; 2; 3]%Z [3]) [2] = Ret (Ok 3%Z).
Proof. split; reflexivity. Qed.

(** ** C03 *)

(** C03 is false: [get(&[])] on an empty tensor panics. *)
Lemma c03_get_never_panics_refuted :
  ~ (forall (T : Type) (NT : Num T) (a : list T) (s idx : list nat) (t : raw T),
       raw_new a s = Ret t -> exists r, raw_get t idx = Ret r).
Proof.
  intros H. destruct (H Z ZNum [] [0] [] (mkRaw [] [0]) eq_refl) as [r Hr]. discriminate.
Qed.
Example c03_get_never_panics_refuted_ex :
  raw_new (@nil Z) [0] = Ret (mkRaw [] [0]) /\ raw_get (mkRaw (@nil Z) [0]) [] = Panic PIndex.
Proof. split; reflexivity. Qed.

Lemma gi_loop_zero rank : forall rs ri pos g m,
  length rs <= length ri -> ~ Forall (fun d => 0 < d) rs ->
  exists e, gi_loop rank None (combine rs ri) pos g m = Ret (Err e).
Proof.
  induction rs as [|d rs IH]; intros [|x ri] pos g m Hl Hz; simpl in Hl; try lia.
  - exfalso. apply Hz. constructor.
  - exfalso. apply Hz. constructor.
  - cbn [combine gi_loop].
    destruct (Nat.eqb_spec d 1) as [->|Hd].
    { apply IH; [lia|]. intros HF. apply Hz. constructor; auto. }
    cbn [bind]. destruct (Nat.leb_spec d x); [eauto|].
    apply IH; [lia|]. intros HF. apply Hz. constructor; auto. lia.
Qed.

Lemma positive_rev_iff s : positive (rev s) <-> positive s.
Proof.
  split; intros H; [|apply positive_rev; auto]. rewrite <- rev_involutive. apply positive_rev; auto.
Qed.

(** C03, the part that holds: an empty tensor answers [Err] to every index that has at least one
    coordinate per dimension. *)
Lemma c03_get_empty_full_index :
  forall (T : Type) (NT : Num T) (a : list T) (s idx : list nat) (t : raw T),
    raw_new a s = Ret t -> ~ positive s -> length s <= length idx ->
    exists e, raw_get t idx = Ret (Err e).
Proof.
  intros T NT a s idx t H Hp Hl. apply raw_new_inv in H as [-> Hla].
  unfold raw_get, global_index. cbn [shape].
  replace (length idx <? length s) with false by (symmetry; apply Nat.ltb_ge; lia).
  cbn [andb].
  destruct (gi_loop_zero (length s) (rev s) (rev idx) 0 0 1) as [e He].
  - rewrite !rev_length; auto.
  - intros HF. apply Hp. apply positive_rev_iff. exact HF.
  - exists e. rewrite He. reflexivity.
Qed.
Example c03_get_empty_full_index_ex :
  exists t, raw_new (@nil Z) [2; 0] = Ret t /\ ~ positive [2; 0] /\ exists e, raw_get t [1; 0] = Ret (Err e).
Proof.
  eexists. split; [reflexivity|]. split; [|eexists; reflexivity].
  intros H. inversion H as [|? ? _ H2]. inversion H2; lia.
Qed.

(** ** C04 *)

(** C04: storage positions and in-range indices are in bijection through [tensor_index] and
    [global_index]; a position past the end is reported. *)
Lemma c04_position_bijection :
  forall s : list nat, positive s ->
    (forall g, g < size s ->
       exists i, tensor_index g s = Ret (Ok i) /\ in_range s i /\ global_index i s None = Ret (Ok g)) /\
    (forall i, in_range s i ->
       exists g, g < size s /\ global_index i s None = Ret (Ok g) /\ tensor_index g s = Ret (Ok i)) /\
    (forall i j g, in_range s i -> in_range s j ->
       global_index i s None = Ret (Ok g) -> global_index j s None = Ret (Ok g) -> i = j) /\
    (forall g, size s <= g -> exists e, tensor_index g s = Ret (Err e)).
Proof.
  intros s Hs. repeat split.
  - intros g Hg. exists (unravel s g). rewrite tensor_index_ok by auto.
    rewrite (proj2 (Nat.ltb_lt _ _) Hg). split; auto. split; [apply unravel_in_range; auto|].
    rewrite global_index_in_range, rm_unravel; auto. apply unravel_in_range; auto.
  - intros i Hi. exists (rm s i). split; [apply rm_lt; auto|]. split; [apply global_index_in_range; auto|].
    rewrite tensor_index_ok by auto. rewrite (proj2 (Nat.ltb_lt _ _) (rm_lt _ _ Hi)).
    rewrite unravel_rm; auto.
  - intros i j g Hi Hj H1 H2. rewrite global_index_in_range in H1, H2 by auto.
    apply (rm_inj s); auto. congruence.
  - intros g Hg. rewrite tensor_index_ok by auto. rewrite (proj2 (Nat.ltb_ge _ _) Hg). eauto.
Qed.
Example c04_position_bijection_ex :
  positive [2; 3; 2] /\ tensor_index 9 [2; 3; 2] = Ret (Ok [1; 1; 1]) /\
  global_index [1; 1; 1] [2; 3; 2] None = Ret (Ok 9) /\ (exists e, tensor_index 12 [2; 3; 2] = Ret (Err e)).
Proof. split; [repeat constructor|]. repeat split; try reflexivity. eexists; reflexivity. Qed.

(** ** C05, C06 *)

Lemma all_indices_sorted s : StronglySorted lex_lt (all_indices s).
Proof.
  rewrite all_indices_unravel.
  assert (H : forall n k, k + n <= size s -> StronglySorted lex_lt (map (unravel s) (seq k n))).
  { induction n as [|n IH]; intros k Hk; simpl; constructor.
    - apply IH. lia.
    - apply Forall_forall. intros i Hi. apply in_map_iff in Hi as (g & <- & Hg).
      apply in_seq in Hg. apply (lex_lt_rm s); try apply unravel_in_range; try lia.
      rewrite !rm_unravel; lia. }
  apply H. lia.
Qed.

(** C05: iteration yields exactly the in-range indices, each once, in lexicographic order. *)
Lemma c05_iter_indices :
  forall (T : Type) (NT : Num T) (l : tlike T), positive (tl_shape l) ->
    exists is, tl_iter_indices l = Ret is /\
      (forall i, In i is <-> in_range (tl_shape l) i) /\ NoDup is /\ StronglySorted lex_lt is /\
      length is = size (tl_shape l).
Proof.
  intros T NT l Hp. exists (all_indices (tl_shape l)).
  unfold tl_iter_indices. rewrite index_iter_collect_ok by auto.
  repeat split; auto using NoDup_all_indices, all_indices_sorted, all_indices_length.
  - apply in_all_indices.
  - apply in_all_indices.
Qed.
Example c05_iter_indices_ex :
  tl_iter_indices (LRaw (mkRaw [1; 2; 3; 4]%Z [2; 1; 2])) =
    Ret [[0; 0; 0]; [0; 0; 1]; [1; 0; 0]; [1; 0; 1]] /\
  tl_iter_indices (LRaw (mkRaw [1]%Z [])) = Ret [[]].
Proof. split; reflexivity. Qed.

(** C06 is false: iterating over the indices of an empty tensor panics. *)
Lemma c06_iter_empty_refuted :
  ~ (forall (T : Type) (NT : Num T) (t : raw T), wf t -> ~ positive (shape t) ->
       tl_iter_indices (LRaw t) = Ret []).
Proof.
  intros H. specialize (H Z ZNum (mkRaw [] [0]) eq_refl). discriminate H.
  intros Hp. inversion Hp; lia.
Qed.
Example c06_iter_empty_refuted_ex : tl_iter_indices (LRaw (mkRaw (@nil Z) [0; 3])) = Panic PArith.
Proof. reflexivity. Qed.

Lemma not_positive_split s : ~ positive s -> exists s1 s2, s = s1 ++ 0 :: s2 /\ positive s2.
Proof.
  induction s as [|d s IH]; intros H.
  - exfalso. apply H. constructor.
  - destruct (Forall_dec (fun d => 0 < d) (fun d => lt_dec 0 d) s) as [Hs|Hs].
    + exists [], s. split; auto. destruct d; auto. exfalso. apply H. constructor; [lia|auto].
    + destruct IH as (s1 & s2 & -> & H2); auto. exists (d :: s1), s2. auto.
Qed.

Lemma increment_zero_dim s1 s2 g :
  positive s2 -> g < size s2 ->
  increment_index (repeat 0 (length s1) ++ 0 :: unravel s2 g) (s1 ++ 0 :: s2) =
  if S g <? size s2 then Ret (repeat 0 (length s1) ++ 0 :: unravel s2 (S g), true) else Panic PArith.
Proof.
  intros H2 Hg. induction s1 as [|d s1 IH]; cbn [length repeat app].
  - rewrite increment_cons by (rewrite unravel_length; auto). rewrite increment_unravel by auto.
    destruct (S g <? size s2); reflexivity.
  - rewrite increment_cons.
    + rewrite IH. destruct (S g <? size s2); reflexivity.
    + rewrite !app_length, repeat_length. cbn [length]. rewrite unravel_length. reflexivity.
Qed.

Lemma iter_zero_panics A (body : A -> list nat -> outcome A) s1 s2 :
  positive s2 -> (forall a i, exists a', body a i = Ret a') ->
  forall n g fuel acc, g + S n = size s2 -> n < fuel ->
  iter_fold index_iter_next body fuel
    (mkII (repeat 0 (length s1) ++ 0 :: unravel s2 g) (s1 ++ 0 :: s2) false) acc = Panic PArith.
Proof.
  intros H2 Hb. induction n as [|n IH]; intros g fuel acc Hg Hf; (destruct fuel as [|fuel]; [lia|]);
    cbn [iter_fold]; unfold index_iter_next; cbn [ii_first ii_index ii_dims];
    rewrite increment_zero_dim by (auto; lia).
  - replace (S g <? size s2) with false by (symmetry; apply Nat.ltb_ge; lia). reflexivity.
  - replace (S g <? size s2) with true by (symmetry; apply Nat.ltb_lt; lia). cbn [bind].
    destruct (Hb acc (repeat 0 (length s1) ++ 0 :: unravel s2 (S g))) as [a' ->]. cbn [bind].
    apply IH; lia.
Qed.

(** What happens instead: iterating over a shape with a zero dimension always panics (dev profile:
    [dim - 1] underflows). *)
Lemma c06_iter_empty_always_panics :
  forall (T : Type) (NT : Num T) (l : tlike T), ~ positive (tl_shape l) ->
    tl_iter_indices l = Panic PArith.
Proof.
  intros T NT l Hp. unfold tl_iter_indices, index_iter_collect.
  destruct (not_positive_split _ Hp) as (s1 & s2 & -> & H2).
  assert (Hsz : 0 < size s2) by (apply size_pos; auto).
  assert (Hf : size s2 < index_fuel (s1 ++ 0 :: s2)).
  { unfold index_fuel. rewrite product_size, map_app, size_app. cbn [map size].
    rewrite <- (product_size (map _ s2)), product_max1 by auto.
    assert (0 < size (map (Nat.max 1) s1)).
    { apply size_pos. apply Forall_map. apply Forall_forall. intros; lia. }
    replace (Nat.max 1 0) with 1 by reflexivity. nia. }
  destruct (index_fuel (s1 ++ 0 :: s2)) as [|fuel]; [lia|].
  cbn [iter_fold]. unfold index_iter_next at 1, index_iter_new. cbn [ii_first ii_index ii_dims bind].
  rewrite app_length. cbn [length].
  rewrite repeat_app. cbn [repeat]. rewrite <- (unravel_0 s2).
  apply (iter_zero_panics _ (fun acc i => Ret (acc ++ [i])) s1 s2 H2) with (n := size s2 - 1); try lia. intros; eauto.
Qed.
Example c06_iter_empty_always_panics_ex :
  ~ positive [2; 0; 3] /\ tl_iter_indices (LRaw (mkRaw (@nil Z) [2; 0; 3])) = Panic PArith.
Proof.
  split; [|reflexivity]. intros H. inversion H as [|? ? _ H2]. inversion H2; lia.
Qed.

(** ** C07 *)

(** C07: [new] accepts exactly matching lengths and keeps the data. *)
Lemma c07_new_iff :
  forall (T : Type) (NT : Num T) (a : list T) (s : list nat),
    (length a = size s -> raw_new a s = Ret (mkRaw a s)) /\
    (length a <> size s -> raw_new a s = Panic PAssert).
Proof.
  intros T NT a s. split; intros H; [apply raw_new_ok; auto|].
  unfold raw_new. rewrite product_size. rewrite (proj2 (Nat.eqb_neq (size s) (length a))); auto.
Qed.
Example c07_new_iff_ex :
  raw_new [1; 2]%Z [2] = Ret (mkRaw [1; 2]%Z [2]) /\ raw_new [1; 2]%Z [3] = Panic PAssert /\
  raw_new [1]%Z [] = Ret (mkRaw [1%Z] []).
Proof. repeat split; reflexivity. Qed.

(** C07: filler and scalar constructors, and [is_scalar]. *)
Lemma c07_filler_scalar :
  forall (T : Type) (NT : Num T) (s : list nat) (x : T) (t : raw T),
    raw_filler s x = mkRaw (repeat x (size s)) s /\
    raw_scalar x = mkRaw [x] [] /\
    (is_scalar t = true <-> shape t = [] /\ length (array t) = 1).
Proof.
  intros T NT s x t. repeat split.
  - unfold raw_filler. destruct s; rewrite ?product_size; reflexivity.
  - unfold is_scalar in H. apply andb_prop in H as [_ H]. destruct (shape t); auto; discriminate.
  - unfold is_scalar in H. apply andb_prop in H as [H _]. apply Nat.eqb_eq in H. auto.
  - intros [H1 H2]. unfold is_scalar. rewrite H1, H2. reflexivity.
Qed.
Example c07_filler_scalar_ex :
  raw_filler [2; 2] 7%Z = mkRaw [7; 7; 7; 7]%Z [2; 2] /\ raw_filler [2; 0] 7%Z = mkRaw [] [2; 0] /\
  is_scalar (raw_scalar 3%Z) = true /\ is_scalar (mkRaw [3%Z] [1]) = false.
Proof. repeat split; reflexivity. Qed.

(** C07: an [RcTensor] made by [new] holds the data, no gradient and no history. *)
Lemma c07_rc_new :
  forall (T : Type) (NT : Num T) (h h' : heap T) (a : list T) (s : list nat) (i : nat),
    op_new h a s = Ret (h', i) ->
    length a = size s /\ hget h' i = Ret (mkNode (mkRaw a s) None) /\ grads h' i = None.
Proof.
  intros T NT h h' a s i H. unfold op_new in H. apply bind_Ret_inv in H as (t & Ht & H).
  apply raw_new_inv in Ht as [-> Hl]. injection H as <- <-. split; auto. cbn. split.
  - unfold hget. cbn. unfold vindex. rewrite nth_error_app2, Nat.sub_diag by lia. reflexivity.
  - unfold upd. rewrite Nat.eqb_refl. reflexivity.
Qed.
Example c07_rc_new_ex :
  exists h i, op_new empty_heap [1; 2]%Z [2; 1] = Ret (h, i) /\ hget h i = Ret (mkNode (mkRaw [1; 2]%Z [2; 1]) None).
Proof. eexists _, _. split; reflexivity. Qed.

(** ** C08 *)

Lemma nest_ind' T (P : nest T -> Prop) :
  (forall x, P (NLeaf x)) -> (forall l, Forall P l -> P (NVec l)) -> forall n, P n.
Proof.
  intros Hl Hv. fix IH 1. intros [x|l]; [apply Hl|]. apply Hv.
  induction l; constructor; auto.
Qed.

Lemma raw_from_vec T (NT : Num T) (l : list (nest T)) :
  raw_from (NVec l) = (let* ts := mapM raw_from l in raw_from_list ts).
Proof.
  cbn [raw_from]. f_equal. induction l as [|a l IH]; cbn [mapM]; auto.
  destruct (raw_from a); cbn [bind]; auto. rewrite IH. reflexivity.
Qed.

Lemma raw_from_list_spec T (NT : Num T) (ts : list (raw T)) :
  (forall t, raw_from_list ts = Ret t ->
     exists s, ts <> [] /\ Forall (fun u => shape u = s) ts /\
               t = mkRaw (concat (map array ts)) (length ts :: s)) /\
  (forall s, ts <> [] -> Forall (fun u => shape u = s) ts ->
     raw_from_list ts = Ret (mkRaw (concat (map array ts)) (length ts :: s))) /\
  raw_from_list ts <> NoFuel.
Proof.
  unfold raw_from_list. destruct ts as [|t0 ts]; cbn [map].
  - repeat split; try discriminate. intros s H; congruence.
  - assert (Hall : forall s, Forall (fun u : raw T => shape u = s) (t0 :: ts) <->
              shape t0 = s /\ forallb (fun s => shape_eqb s (shape t0)) (shape t0 :: map shape ts) = true).
    { intros s. split.
      - intros H. inversion H as [|? ? H1 H2]; subst. split; auto.
        cbn [forallb]. rewrite shape_eqb_refl. cbn [andb]. apply forallb_forall.
        intros x Hx. apply in_map_iff in Hx as (u & <- & Hu).
        rewrite Forall_forall in H2. rewrite H2 by auto. apply shape_eqb_refl.
      - intros [H1 H2]. rewrite forallb_forall in H2. apply Forall_forall. intros u Hu.
        assert (Hin : In (shape u) (shape t0 :: map shape ts)) by (apply (in_map shape) in Hu; exact Hu).
        specialize (H2 _ Hin). destruct (shape_eqb_spec (shape u) (shape t0)); congruence. }
    split; [|split].
    + intros t H. apply bind_Ret_inv in H as (u & Ha & H). apply assert_inv in Ha.
      cbn in H. injection H as <-. exists (shape t0). split; [discriminate|]. split.
      * apply Hall. split; auto.
      * cbn [length]. rewrite map_length. reflexivity.
    + intros s _ HF. apply Hall in HF as [Hs HF]. rewrite assert_true by exact HF. cbn.
      rewrite map_length, Hs. reflexivity.
    + unfold assert. destruct (forallb _ _); cbn; discriminate.
Qed.

Lemma concat_block A (ls : list (list A)) n d k j :
  Forall (fun l => length l = n) ls -> j < n ->
  nth (k * n + j) (concat ls) d = nth j (nth k ls []) d.
Proof.
  intros HF Hj. revert k. induction HF as [|l ls Hl HF IH]; intros k; cbn [concat].
  - rewrite !nth_overflow; auto; destruct k; cbn; lia.
  - destruct k as [|k]; cbn [nth].
    + rewrite app_nth1 by lia. reflexivity.
    + rewrite app_nth2 by lia. rewrite <- IH. f_equal. lia.
Qed.

Lemma concat_length A (ls : list (list A)) n :
  Forall (fun l => length l = n) ls -> length (concat ls) = length ls * n.
Proof. induction 1; cbn [concat length]; rewrite ?app_length; lia. Qed.

Lemma rect_det T (m : nest T) : forall s1 s2, rect m s1 -> rect m s2 -> s1 = s2.
Proof.
  induction m as [x|l IH] using nest_ind'; intros s1 s2 H1 H2;
    inversion H1 as [|? r1 Hn1 HF1]; inversion H2 as [|? r2 Hn2 HF2]; subst; auto.
  f_equal. destruct l as [|a l]; [congruence|].
  inversion IH; inversion HF1; inversion HF2; subst. auto.
Qed.

Lemma raw_from_correct T (NT : Num T) (n : nest T) :
  (forall t, raw_from n = Ret t ->
     rect n (shape t) /\ wf t /\
     forall i, in_range (shape t) i -> nest_at n i = Some (tval t i)) /\
  (forall s, rect n s -> exists t, raw_from n = Ret t) /\ raw_from n <> NoFuel.
Proof.
  induction n as [x|l IH] using nest_ind'.
  - split; [|split].
    + intros t H. injection H as <-. split; [constructor|]. split; [reflexivity|].
      intros i Hi. inversion Hi. reflexivity.
    + intros s _. eexists. reflexivity.
    + discriminate.
  - rewrite (raw_from_vec T NT).
    assert (Hmap : forall ts, mapM raw_from l = Ret ts ->
              Forall2 (fun n t => rect n (shape t) /\ wf t /\
                 forall i, in_range (shape t) i -> nest_at n i = Some (tval t i)) l ts).
    { intros ts H. apply mapM_Forall2 in H. clear -H IH. revert IH.
      induction H; intros IH; constructor; inversion IH; subst.
      - apply (proj1 H3). auto.
      - apply IHForall2; auto. }
    split; [|split].
    + intros t H. apply bind_Ret_inv in H as (ts & Hts & H). specialize (Hmap ts Hts).
      apply (proj1 (raw_from_list_spec T NT ts)) in H as (s & Hne & HF & ->). cbn [shape].
      assert (Hlen : length l = length ts) by (eapply Forall2_length'; eauto).
      assert (Hblk : Forall (fun a => length a = size s) (map array ts)).
      { apply Forall_map. clear -Hmap HF. revert HF. induction Hmap; intros HF; constructor; inversion HF; subst.
        - destruct H as (_ & Hw & _). exact Hw.
        - apply IHHmap; auto. }
      split; [|split].
      * rewrite <- Hlen. constructor.
        -- intros ->. destruct ts; [congruence|discriminate].
        -- clear -Hmap HF. revert HF. induction Hmap; intros HF; constructor; inversion HF; subst.
           ++ tauto.
           ++ apply IHHmap; auto.
      * unfold wf. cbn [array shape size]. rewrite (concat_length _ _ (size s)) by auto.
        rewrite map_length. reflexivity.
      * intros i Hi. inversion Hi as [|d k s' i' Hk Hi']; subst.
        cbn [nest_at]. rewrite <- Hlen in Hk.
        destruct (nth_error l k) as [m|] eqn:Em; [|apply nth_error_None in Em; lia].
        assert (Hts' : exists u, nth_error ts k = Some u /\ shape u = s /\
                 forall i, in_range (shape u) i -> nest_at m i = Some (tval u i)).
        { clear -Hmap HF Em. revert k HF Em. induction Hmap; intros k HF Em; destruct k; cbn in *; try discriminate.
          - injection Em as <-. inversion HF; subst. eexists; split; [reflexivity|]. split; [auto|]. tauto.
          - inversion HF; subst. apply IHHmap; auto. }
        destruct Hts' as (u & Eu & Hsu & Hu). rewrite Hu by (rewrite Hsu; auto). f_equal.
        unfold tval at 2. cbn [array shape rm]. rewrite concat_block; auto.
        -- unfold tval. rewrite Hsu. f_equal.
           rewrite (nth_indep _ [] (array u)).
           ++ rewrite map_nth. rewrite (nth_error_nth _ _ _ Eu). reflexivity.
           ++ rewrite map_length, <- Hlen. auto.
        -- apply rm_lt; auto.
    + intros s H. inversion H as [|? s' Hne HF]; subst.
      assert (Hts : exists ts, mapM raw_from l = Ret ts).
      { clear -IH HF. induction l as [|a l IHl]; [eexists; reflexivity|]. inversion IH; inversion HF; subst.
        destruct (proj1 (proj2 H1) _ H5) as [t Ht]. destruct IHl as [ts Hts]; auto.
        exists (t :: ts). cbn [mapM]. rewrite Ht. cbn [bind]. rewrite Hts. reflexivity. }
      destruct Hts as [ts Hts]. rewrite Hts. cbn [bind].
      eexists. apply (proj1 (proj2 (raw_from_list_spec T NT ts))) with (s := s').
      * intros ->. apply mapM_length in Hts. destruct l; [congruence|discriminate].
      * specialize (Hmap ts Hts). clear -Hmap HF.
        induction Hmap; constructor; inversion HF; subst; auto.
        destruct H as (Hr & _). eapply rect_det; eauto.
    + assert (Hnf : mapM raw_from l <> NoFuel).
      { clear -IH. induction IH as [|a l (_ & _ & Ha) _ IHl]; [discriminate|]. cbn [mapM].
        destruct (raw_from a); cbn [bind]; try discriminate; try congruence.
        destruct (mapM raw_from l); cbn [bind]; try discriminate; congruence. }
      destruct (mapM raw_from l); cbn [bind]; try discriminate; try congruence.
      exact (proj2 (proj2 (raw_from_list_spec T NT _))).
Qed.

(** C08: a nesting converts exactly when it is rectangular with no empty level; the result has the
    nesting's shape and elements; everything else panics. *)
Lemma c08_from_nested :
  forall (T : Type) (NT : Num T) (n : nest T),
    (forall t, raw_from n = Ret t ->
       rect n (shape t) /\ wf t /\
       forall i, in_range (shape t) i ->
         exists x, nest_at n i = Some x /\ raw_get t i = Ret (Ok x)) /\
    (forall s, rect n s -> exists t, raw_from n = Ret t /\ shape t = s) /\
    ((forall s, ~ rect n s) -> exists p, raw_from n = Panic p).
Proof.
  intros T NT n. destruct (raw_from_correct T NT n) as (H1 & H2 & H3). split; [|split].
  - intros t Ht. destruct (H1 t Ht) as (Hr & Hw & Hi). split; auto. split; auto.
    intros i Hin. exists (tval t i). split; auto. apply raw_get_in_range; auto.
  - intros s Hs. destruct (H2 s Hs) as [t Ht]. exists t. split; auto.
    destruct (H1 t Ht) as (Hr & _). eapply rect_det; eauto.
  - intros Hno. destruct (raw_from n) as [t|p|] eqn:E; [|eauto|congruence].
    exfalso. destruct (H1 t eq_refl) as (Hr & _). eapply Hno; eauto.
Qed.
Example c08_from_nested_ex :
  let n := NVec [NVec [NLeaf 1%Z; NLeaf 2%Z; NLeaf 3%Z]; NVec [NLeaf 4%Z; NLeaf 5%Z; NLeaf 6%Z]] in
  rect n [2; 3] /\ raw_from n = Ret (mkRaw [1; 2; 3; 4; 5; 6]%Z [2; 3]) /\
  nest_at n [1; 0] = Some 4%Z /\
  raw_from (NVec [NVec [NLeaf 1%Z]; NVec [NLeaf 1%Z; NLeaf 2%Z]]) = Panic PAssert /\
  raw_from (NVec (@nil (nest Z))) = Panic PIndex.
Proof.
  cbv zeta. repeat split; try reflexivity.
  apply (rect_vec [_; _]); [discriminate|].
  repeat (constructor; try (apply (rect_vec [_; _; _]); [discriminate|]; repeat constructor)).
Qed.

(** ** C11, C12: views *)

(** C11: a view is accepted exactly when there is one range per dimension, each ending within the
    dimension; it then has shape [end - start]. *)
Lemma c11_view_accepted :
  forall (T : Type) (NT : Num T) (t : raw T) (o : list slice_range), valid_ranges o ->
    (length o = length (shape t) /\ (forall p, p < length o -> sr_end (nth p o (mkSR 0 0)) <= nth p (shape t) 0) ->
       view_new t o = Ret (mkView t (map (fun r => sr_end r - sr_start r) o) o)) /\
    (~ (length o = length (shape t) /\ forall p, p < length o -> sr_end (nth p o (mkSR 0 0)) <= nth p (shape t) 0) ->
       view_new t o = Panic PAssert).
Proof.
  intros T NT t o Hv.
  assert (Hw : window_ok (shape t) o <->
    (length o = length (shape t) /\ forall p, p < length o -> sr_end (nth p o (mkSR 0 0)) <= nth p (shape t) 0)).
  { unfold window_ok. split.
    - intros H. split; [symmetry; eapply Forall2_length'; eauto|].
      induction H; intros p Hp; [simpl in Hp; lia|]. destruct p; cbn [nth]; auto.
      apply IHForall2; [inversion Hv; auto|simpl in Hp; lia].
    - intros [Hl H]. clear Hv. revert o Hl H. induction (shape t) as [|d s IH]; intros [|r o] Hl H; try discriminate; constructor.
      + apply (H 0). simpl; lia.
      + apply IH; [simpl in Hl; lia|]. intros p Hp. apply (H (S p)). simpl; lia. }
  split; intros H.
  - apply view_new_ok; auto. apply Hw; auto.
  - unfold view_new. destruct (Nat.eqb_spec (length o) (length (shape t))) as [Hl|Hl]; [|reflexivity].
    cbn [assert bind].
    assert (Hn : ~ window_ok (shape t) o) by (intros HH; apply H, Hw, HH). clear H Hw. revert o Hv Hl Hn.
    assert (G : forall s o, valid_ranges o -> length o = length s -> ~ window_ok s o ->
      mapM (fun '(r, dim) => assert (sr_end r <=? dim);;
              (if sr_end r <? sr_start r then Panic PArith else Ret (sr_end r - sr_start r)))
           (combine o s) = Panic PAssert).
    { induction s as [|d s IH]; intros [|r o] Hv Hl Hn; try discriminate; cbn [combine mapM].
      - exfalso. apply Hn. constructor.
      - inversion Hv; subst. destruct (Nat.leb_spec (sr_end r) d); [|reflexivity]. cbn [assert bind].
        rewrite (proj2 (Nat.ltb_ge _ _)) by auto. cbn [bind]. rewrite IH; auto.
        intros HH. apply Hn. constructor; auto. }
    intros o Hv Hl Hn. rewrite G; auto.
Qed.
Example c11_view_accepted_ex :
  valid_ranges [mkSR 0 1; mkSR 1 3] /\
  view_new (mkRaw [1; 2; 3; 4; 5; 6]%Z [2; 3]) [mkSR 0 1; mkSR 1 3] =
    Ret (mkView (mkRaw [1; 2; 3; 4; 5; 6]%Z [2; 3]) [1; 2] [mkSR 0 1; mkSR 1 3]) /\
  view_new (mkRaw [1; 2]%Z [2]) [mkSR 0 3] = Panic PAssert /\
  view_new (mkRaw [1; 2]%Z [2]) [] = Panic PAssert.
Proof. repeat split; try reflexivity. repeat constructor. Qed.

(** C11: ... where the ranges are made by [SliceRange::new], which accepts exactly [start <= end]: views are
    accepted or refused, without any assumption on the ranges. *)
Lemma c11_view_of_new_ranges :
  forall (T : Type) (NT : Num T) (t : raw T) (ps : list (nat * nat)),
    let fits := length ps = length (shape t) /\
      forall p, p < length ps -> fst (nth p ps (0, 0)) <= snd (nth p ps (0, 0)) /\ snd (nth p ps (0, 0)) <= nth p (shape t) 0 in
    let made := let* o := mapM (fun '(a, b) => slice_range_new a b) ps in view_new t o in
    (fits -> exists o, made = Ret (mkView t (map (fun '(a, b) => b - a) ps) o) /\ map sr_start o = map fst ps /\ map sr_end o = map snd ps) /\
    (~ fits -> made = Panic PAssert).
Proof.
  intros T NT t ps fits made.
  assert (M : (exists o, mapM (fun '(a, b) => slice_range_new a b) ps = Ret o /\ Forall (fun p => fst p <= snd p) ps /\ o = map (fun p => mkSR (fst p) (snd p)) ps) \/
              (mapM (fun '(a, b) => slice_range_new a b) ps = Panic PAssert /\ ~ Forall (fun p => fst p <= snd p) ps)).
  { clear fits made. induction ps as [|[a b] ps IH]; cbn [mapM map]; [left; exists []; repeat split; constructor|].
    change (slice_range_new a b) with (assert (a <=? b) ;; Ret (mkSR a b)). destruct (Nat.leb_spec a b) as [Hab|Hab]; cbn [assert bind].
    - destruct IH as [(o & -> & HF & ->)|[-> HF]]; cbn [bind].
      + left. eexists. split; [reflexivity|]. split; [constructor; auto|reflexivity].
      + right. split; [reflexivity|]. intros H; inversion H; auto.
    - right. split; [reflexivity|]. intros H; inversion H; subst. cbn in *. lia. }
  assert (HN : forall p : nat, nth p (map (fun p => mkSR (fst p) (snd p)) ps) (mkSR 0 0) = mkSR (fst (nth p ps (0, 0))) (snd (nth p ps (0, 0)))).
  { intros p. exact (map_nth (fun p => mkSR (fst p) (snd p)) ps (0, 0) p). }
  unfold made. destruct M as [(o & -> & HF & Ho)|[-> HF]]; cbn [bind].
  - assert (Hv : valid_ranges o) by (subst o; clear -HF; induction HF; cbn; constructor; auto).
    destruct (c11_view_accepted T NT t o Hv) as [A1 A2]. rewrite Forall_forall in HF. split.
    + intros [Hl Hp]. exists o. split; [|subst o; rewrite !map_map; split; reflexivity].
      rewrite A1.
      * f_equal. f_equal. subst o. rewrite map_map. apply map_ext. intros [a b]. reflexivity.
      * subst o. rewrite map_length. split; auto. intros p Hq. rewrite HN. apply Hp, Hq.
    + intros Hn. apply A2. intros [Hl Hp]. apply Hn. subst o. rewrite map_length in *. split; auto. intros p Hq. split.
      * apply HF, nth_In, Hq.
      * specialize (Hp p Hq). rewrite HN in Hp. exact Hp.
  - split; [|reflexivity]. intros [Hl Hp]. exfalso. apply HF. apply Forall_forall. intros q Hq. apply (In_nth _ _ (0, 0)) in Hq as (p & Hp1 & <-). apply Hp, Hp1.
Qed.
Example c11_view_of_new_ranges_ex :
  (let* o := mapM (fun '(a, b) => slice_range_new a b) [(0, 1); (2, 2)] in view_new (mkRaw [1; 2; 3; 4]%Z [2; 2]) o) =
    Ret (mkView (mkRaw [1; 2; 3; 4]%Z [2; 2]) [1; 0] [mkSR 0 1; mkSR 2 2]) /\
  (let* o := mapM (fun '(a, b) => slice_range_new a b) [(0, 1); (2, 1)] in view_new (mkRaw [1; 2; 3; 4]%Z [2; 2]) o) = Panic PAssert.
Proof. split; reflexivity. Qed.

(** C11: an in-range view index reads the tensor at index + start, by [get] and by [[]]. *)
Lemma c11_view_get :
  forall (T : Type) (NT : Num T) (t : raw T) (o : list slice_range) (v : view T) (i : list nat),
    wf t -> view_new t o = Ret v -> in_range (v_shape v) i ->
    let j := map (fun '(r, x) => sr_start r + x) (combine o i) in
    in_range (shape t) j /\
    exists x, raw_get t j = Ret (Ok x) /\ view_get v i = Ret (Ok x) /\ view_at v i = Ret x.
Proof.
  intros T NT t o v i Hw Hv Hi j. apply view_new_inv in Hv as (Hwo & Hvr & ->). cbn [v_shape] in Hi.
  assert (Hj : in_range (shape t) j) by (apply shift_in_range; auto). split; auto.
  exists (tval t j). split; [apply raw_get_in_range; auto|]. split.
  - apply view_get_in_range; auto.
  - apply view_at_in_range; auto.
Qed.
Example c11_view_get_ex :
  exists v, view_new (mkRaw [1; 2; 3; 4; 5; 6]%Z [2; 3]) [mkSR 1 2; mkSR 1 3] = Ret v /\
    in_range (v_shape v) [0; 1] /\ view_get v [0; 1] = Ret (Ok 6%Z).
Proof. eexists. split; [reflexivity|]. split; [repeat constructor|reflexivity]. Qed.

(** C12: materialising, counting, summing and cloning a non-empty view. *)
Lemma c12_view_materialise :
  forall (T : Type) (NT : Num T) (t : raw T) (o : list slice_range) (v : view T),
    wf t -> view_new t o = Ret v -> positive (v_shape v) ->
    exists m : raw T, tl_to_tensor (LView v) = Ret m /\ shape m = v_shape v /\ wf m /\
      (forall i, in_range (v_shape v) i -> exists x, raw_get m i = Ret (Ok x) /\ view_get v i = Ret (Ok x)) /\
      tl_count (LView v) = length (array m) /\
      tl_sum (LView v) = Ret (raw_scalar (fold_left n_add (array m) n_zero)) /\
      tl_deep_clone (LView v) = Ret m.
Proof.
  intros T NT t o v Hw Hv Hp.
  assert (Hl : tl_wf (LView v)) by (eapply view_tl_wf; eauto).
  exists (tabulate (v_shape v) (tl_val (LView v))).
  rewrite tl_to_tensor_ok by auto. split; [reflexivity|]. split; [reflexivity|].
  split; [apply tabulate_wf|]. split; [|split; [|split]].
  - intros i Hi. exists (tl_val (LView v) i). split.
    + rewrite raw_get_in_range; [|apply tabulate_wf|auto]. rewrite tval_tabulate; auto.
    + apply (tl_get_in_range (LView v)); auto.
  - cbn [tl_count tabulate array]. rewrite map_length, all_indices_length, product_size. reflexivity.
  - rewrite tl_sum_ok by auto. reflexivity.
  - unfold tl_deep_clone. rewrite tl_to_tensor_ok by auto. reflexivity.
Qed.
Example c12_view_materialise_ex :
  exists v, view_new (mkRaw [1; 2; 3; 4; 5; 6]%Z [2; 3]) [mkSR 0 2; mkSR 1 3] = Ret v /\ positive (v_shape v) /\
    tl_to_tensor (LView v) = Ret (mkRaw [2; 3; 5; 6]%Z [2; 2]) /\ tl_sum (LView v) = Ret (raw_scalar 16%Z) /\
    tl_count (LView v) = 4.
Proof. eexists. split; [reflexivity|]. split; [repeat constructor|]. repeat split; reflexivity. Qed.

(** C12: a view equals another view or tensor exactly when shapes and all elements agree. *)
Lemma c12_view_eq :
  forall (T : Type) (NT : Num T) (t : raw T) (o : list slice_range) (v : view T) (l : tlike T),
    wf t -> view_new t o = Ret v -> positive (v_shape v) ->
    (match l with
     | LRaw u => wf u /\ positive (shape u)
     | LView w => exists u o', wf u /\ view_new u o' = Ret w /\ positive (v_shape w)
     end) ->
    exists b : bool, view_eq v l = Ret b /\
      (b = true <-> v_shape v = tl_shape l /\
         forall i, in_range (v_shape v) i ->
           exists x y, view_get v i = Ret (Ok x) /\ tl_get l i = Ret (Ok y) /\ n_eq x y = true).
Proof.
  intros T NT t o v l Hw Hv Hp Hl.
  assert (H1 : tl_wf (LView v)) by (eapply view_tl_wf; eauto).
  assert (H2 : tl_wf l).
  { destruct l as [u|w].
    - destruct Hl. split; auto.
    - destruct Hl as (u & o' & ? & ? & ?). eapply view_tl_wf; eauto. }
  destruct (view_eq_ok v l H1 H2) as (b & Hb & Hiff). exists b. split; auto.
  rewrite Hiff. split; intros [Hs Hi]; split; auto; intros i Hin.
  - exists (tl_val (LView v) i), (tl_val l i). split; [apply (tl_get_in_range (LView v)); auto|].
    split; [apply tl_get_in_range; auto; rewrite <- Hs; auto|]. auto.
  - destruct (Hi i Hin) as (x & y & Hx & Hy & Hxy).
    rewrite (tl_get_in_range (LView v) i (tl_wf_wf0 _ H1) Hin : view_get v i = _) in Hx.
    rewrite (tl_get_in_range l i (tl_wf_wf0 _ H2)) in Hy by (rewrite <- Hs; auto). congruence.
Qed.
Example c12_view_eq_ex :
  exists v, view_new (mkRaw [1; 2; 3; 4]%Z [4]) [mkSR 1 3] = Ret v /\ positive (v_shape v) /\
    view_eq v (LRaw (mkRaw [2; 3]%Z [2])) = Ret true /\ view_eq v (LRaw (mkRaw [2; 4]%Z [2])) = Ret false /\
    view_eq v (LRaw (mkRaw [2; 3]%Z [1; 2])) = Ret false.
Proof. eexists. split; [reflexivity|]. split; [repeat constructor|]. repeat split; reflexivity. Qed.
