(** * OpsFacts: closed forms of the forward operations *)
From Verif Require Import Base ModelIndex ModelTensor ModelOps Spec Lists IndexFacts TensorFacts.

Section OpsFacts.
Context {T : Type} {NT : Num T}.

(** ** Filling a tensor element by element *)

Lemma fill_prefix s (arr0 : list T) (body : raw T -> list nat -> outcome (raw T)) (f : list nat -> T) :
  length arr0 = size s ->
  (forall t i, shape t = s -> wf t -> in_range s i ->
     body t i = Ret (mkRaw (list_set (array t) (rm s i) (f i)) s)) ->
  forall k, k <= size s ->
  foldM body (map (unravel s) (seq 0 k)) (mkRaw arr0 s) =
  Ret (mkRaw (map (fun g => f (unravel s g)) (seq 0 k) ++ skipn k arr0) s).
Proof.
  intros Hl Hb. induction k as [|k IH]; intros Hk.
  - reflexivity.
  - rewrite seq_S, map_app, foldM_app, IH by lia. cbn [bind map foldM Nat.add].
    rewrite Hb; cbn [shape]; auto.
    + cbn [array bind]. rewrite rm_unravel by lia. do 2 f_equal.
      destruct (skipn k arr0) as [|x rest] eqn:E.
      * apply (f_equal (@length T)) in E. rewrite skipn_length in E. simpl in E. lia.
      * apply skipn_cons_nth in E as [_ E]. rewrite E.
        replace k with (length (map (fun g => f (unravel s g)) (seq 0 k))) at 2
          by (rewrite map_length, seq_length; auto).
        rewrite list_set_mid, map_app, <- app_assoc. reflexivity.
    + unfold wf; cbn [array shape]. rewrite app_length, map_length, seq_length, skipn_length. lia.
    + apply unravel_in_range; lia.
Qed.

Lemma fill_ok s (x0 : T) (body : raw T -> list nat -> outcome (raw T)) (f : list nat -> T) :
  (forall t i, shape t = s -> wf t -> in_range s i ->
     body t i = Ret (mkRaw (list_set (array t) (rm s i) (f i)) s)) ->
  foldM body (all_indices s) (raw_filler s x0) = Ret (tabulate s f).
Proof.
  intros Hb. rewrite raw_filler_tab. unfold tabulate at 1. rewrite all_indices_unravel at 1.
  rewrite fill_prefix with (f := f); auto.
  - rewrite skipn_all2 by (rewrite map_length, all_indices_length; auto).
    rewrite app_nil_r. unfold tabulate. rewrite all_indices_unravel, map_map. reflexivity.
  - rewrite map_length, all_indices_length; auto.
Qed.

(** ** Broadcasting binary operations *)

(** What a tensor-like yields for the indices of the broadcast shape *)
Definition reads (l : tlike T) (s : list nat) (f : list nat -> T) : Prop :=
  forall i, in_range s i -> tl_get_unwrap l i = Ret (f i).

Lemma binop_reads l r op fl fr :
  broadcastable (tl_shape l) (tl_shape r) = true ->
  positive (max_shape (tl_shape l) (tl_shape r)) ->
  reads l (max_shape (tl_shape l) (tl_shape r)) fl ->
  reads r (max_shape (tl_shape l) (tl_shape r)) fr ->
  generic_binop_raw l r op =
  Ret (tabulate (max_shape (tl_shape l) (tl_shape r)) (fun i => op (fl i) (fr i))).
Proof.
  intros Hb Hp Hl Hr. unfold generic_binop_raw. rewrite Hb. cbn [assert bind].
  rewrite iter_fold_index by auto. apply fill_ok.
  intros t i Hs Hw Hi. rewrite Hl, Hr by auto. cbn [bind]. rewrite raw_set_in_range by (auto; congruence).
  cbn [bind unwrap]. rewrite Hs. reflexivity.
Qed.

Lemma raw_reads (a : raw T) s r :
  wf a -> positive (shape a) -> bcast (shape a) r s -> reads (LRaw a) s (fun i => tval a (clamp (shape a) i)).
Proof.
  intros Hw Hp Hb i Hi. destruct (bcast_clamp _ _ _ _ Hb Hi) as [H1 _].
  unfold tl_get_unwrap, tl_get. rewrite (raw_get_resolves a i _ Hw Hp H1). reflexivity.
Qed.

Lemma tl_reads_self (l : tlike T) : tl_wf0 l -> reads l (tl_shape l) (tl_val l).
Proof. intros Hw i Hi. apply tl_get_unwrap_in_range; auto. Qed.

Lemma binop_raw_ok (a b : raw T) s op :
  wf a -> wf b -> positive (shape a) -> positive (shape b) -> bcast (shape a) (shape b) s ->
  generic_binop_raw (LRaw a) (LRaw b) op =
  Ret (tabulate s (fun i => op (tval a (clamp (shape a) i)) (tval b (clamp (shape b) i)))).
Proof.
  intros Ha Hb Pa Pb Hs. pose proof (bcast_max_shape _ _ _ Pa Pb Hs) as E. subst s.
  apply binop_reads; simpl.
  - eapply bcast_broadcastable; eauto.
  - eapply bcast_positive; [| |eauto]; auto.
  - eapply raw_reads; eauto.
  - eapply raw_reads; eauto. apply bcast_sym; eauto.
Qed.

Lemma binop_raw_refused (a b : raw T) op :
  positive (shape a) -> positive (shape b) -> (forall s, ~ bcast (shape a) (shape b) s) ->
  generic_binop_raw (LRaw a) (LRaw b) op = Panic PAssert.
Proof.
  intros Pa Pb Hn. unfold generic_binop_raw. simpl tl_shape.
  destruct (broadcastable (shape a) (shape b)) eqn:E; [|reflexivity].
  exfalso. eapply Hn. apply broadcastable_bcast; auto.
Qed.

(** Same-shape case for any tensor-likes, views included *)
Lemma binop_same_shape (l r : tlike T) op :
  tl_wf l -> tl_wf r -> tl_shape l = tl_shape r ->
  generic_binop_raw l r op = Ret (tabulate (tl_shape l) (fun i => op (tl_val l i) (tl_val r i))).
Proof.
  intros Hl Hr E. pose proof (binop_reads l r op (tl_val l) (tl_val r)) as H.
  rewrite <- E, max_shape_self in H. apply H.
  - apply broadcastable_self.
  - apply tl_wf_positive; auto.
  - apply tl_reads_self; auto.
  - rewrite E. apply tl_reads_self; auto.
Qed.

Lemma add_same_shape (a b : raw T) :
  wf a -> wf b -> positive (shape a) -> shape a = shape b ->
  add_raw (LRaw a) (LRaw b) = Ret (tabulate (shape a) (fun i => n_add (tval a i) (tval b i))).
Proof.
  intros Ha Hb Hp E. unfold add_raw.
  rewrite (binop_same_shape (LRaw a) (LRaw b)); auto; split; simpl; auto. rewrite <- E; auto.
Qed.

(** ** Unary operations *)

Lemma unary_loop_ok (l : tlike T) op :
  tl_wf0 l -> forall n g acc, g + n <= size (tl_shape l) ->
  unary_loop l (tl_shape l) op n (unravel (tl_shape l) g) acc =
  Ret (acc ++ map (fun g => op (tl_val l (unravel (tl_shape l) g))) (seq g n)).
Proof.
  intros Hw. set (s := tl_shape l). induction n as [|n IH]; intros g acc Hg.
  - simpl. rewrite app_nil_r. reflexivity.
  - simpl. rewrite tl_get_unwrap_in_range by (auto; apply unravel_in_range; fold s; lia). cbn [bind].
    assert (Hp : positive s) by (apply size_pos; lia).
    rewrite increment_unravel by (auto; lia).
    destruct (Nat.ltb_spec (S g) (size s)) as [H|H]; cbn [bind].
    + rewrite IH by lia. rewrite <- app_assoc. reflexivity.
    + assert (n = 0) by lia. subst n. reflexivity.
Qed.

Lemma unary_ok_raw (t : raw T) op :
  wf t -> generic_unary_op (LRaw t) op = Ret (tabulate (shape t) (fun i => op (tval t i))).
Proof.
  intros Hw. unfold generic_unary_op. simpl tl_to_tensor. cbn [bind].
  rewrite Hw. rewrite <- unravel_0. change (shape t) with (tl_shape (LRaw t)).
  rewrite unary_loop_ok by (auto; simpl; lia). cbn [bind]. simpl.
  rewrite <- raw_new_tab. rewrite all_indices_unravel, map_map. reflexivity.
Qed.

Lemma unary_ok (l : tlike T) op :
  tl_wf l -> generic_unary_op l op = Ret (tabulate (tl_shape l) (fun i => op (tl_val l i))).
Proof.
  intros Hw. unfold generic_unary_op. rewrite tl_to_tensor_ok by auto. cbn [bind].
  unfold tabulate at 1. cbn [array]. rewrite map_length, all_indices_length.
  rewrite <- unravel_0. rewrite unary_loop_ok by (auto; lia). cbn [bind]. simpl.
  rewrite <- raw_new_tab. rewrite all_indices_unravel, map_map. reflexivity.
Qed.

(** ** Products *)

Lemma ewm_ok (l r : tlike T) :
  tl_wf l -> tl_wf r -> tl_shape l = tl_shape r ->
  element_wise_multiplication l r =
  Ret (tabulate (tl_shape l) (fun i => n_mul (tl_val l i) (tl_val r i))).
Proof.
  intros Hl Hr E. unfold element_wise_multiplication, same_shape.
  rewrite E, shape_eqb_refl. cbn [assert bind]. rewrite <- E, zip_fold by auto.
  rewrite foldM_pure with (g := fun acc p => acc ++ [n_mul (fst p) (snd p)]) by (intros ? [? ?] _; auto).
  rewrite fold_left_snoc with (f := fun p => n_mul (fst p) (snd p)). cbn [bind].
  rewrite map_map. cbn [app fst snd]. apply raw_new_tab.
Qed.

Lemma mul_scalar_l (c : T) (b : raw T) :
  wf b -> mul_raw (raw_scalar c) (LRaw b) = Ret (tabulate (shape b) (fun i => n_mul c (tval b i))).
Proof.
  intros Hw. unfold mul_raw. simpl. unfold left_scalar_multiplication. simpl.
  rewrite (array_tabulate b) by auto. rewrite map_map. reflexivity.
Qed.

Lemma mul_scalar_r (a : raw T) (c : T) :
  wf a -> shape a <> [] ->
  mul_raw a (LRaw (raw_scalar c)) = Ret (tabulate (shape a) (fun i => n_mul (tval a i) c)).
Proof.
  intros Hw Hn. unfold mul_raw. destruct (shape a) as [|d s] eqn:E; [congruence|]. simpl.
  unfold right_scalar_multiplication. simpl.
  rewrite (array_tabulate a) by auto. rewrite map_map, E. reflexivity.
Qed.

Lemma scalar_shape (a : raw T) : wf a -> shape a = [] -> exists c, a = raw_scalar c.
Proof.
  intros Hw E. unfold wf in Hw. rewrite E in Hw. simpl in Hw.
  destruct a as [arr s]; simpl in *. subst s. destruct arr as [|c [|]]; try discriminate. exists c; reflexivity.
Qed.

Lemma mul_same (a : raw T) (l : tlike T) :
  wf a -> tl_wf l -> shape a = tl_shape l -> shape a <> [] ->
  mul_raw a l = Ret (tabulate (shape a) (fun i => n_mul (tval a i) (tl_val l i))).
Proof.
  intros Ha Hl E Hn. unfold mul_raw. rewrite <- E.
  destruct (shape a) as [|d s] eqn:Es; [congruence|]. rewrite <- Es.
  apply (ewm_ok (LRaw a) l); auto; [|simpl; congruence].
  split; simpl; auto. rewrite Es, E. apply tl_wf_positive; auto.
Qed.

Lemma mul_refused (a : raw T) (l : tlike T) :
  shape a <> [] -> tl_shape l <> [] -> shape a <> tl_shape l -> mul_raw a l = Panic PAssert.
Proof.
  intros H1 H2 H3. unfold mul_raw, element_wise_multiplication, same_shape. simpl tl_shape.
  destruct (shape a) as [|d s] eqn:E; [congruence|].
  destruct (tl_shape l) as [|d' s'] eqn:E'; [congruence|].
  destruct (shape_eqb_spec (d :: s) (d' :: s')); [congruence|]. reflexivity.
Qed.

Lemma dot_ok (a b : raw T) :
  wf a -> wf b -> shape a = shape b ->
  dot_raw (LRaw a) (LRaw b) =
  Ret (mkRaw [lsum (map (fun i => n_mul (tval a i) (tval b i)) (all_indices (shape a)))] [1]).
Proof.
  intros Ha Hb E. unfold dot_raw, same_shape. simpl tl_shape. rewrite E, shape_eqb_refl. cbn [assert bind tl_tensor].
  rewrite foldM_pure with
    (g := fun acc i => n_add acc (n_mul (nth i (array a) n_zero) (nth i (array b) n_zero))).
  - cbn [bind]. do 3 f_equal. unfold lsum. rewrite all_indices_unravel, map_map, <- E.
    rewrite Ha.
    assert (H : forall n acc, n <= size (shape a) ->
      fold_left (fun acc i => n_add acc (n_mul (nth i (array a) n_zero) (nth i (array b) n_zero))) (seq 0 n) acc =
      fold_left n_add (map (fun x => n_mul (tval a (unravel (shape a) x)) (tval b (unravel (shape a) x))) (seq 0 n)) acc).
    { induction n as [|n IH]; intros acc Hn; auto.
      rewrite seq_S, map_app, !fold_left_app, IH by lia. simpl. f_equal. unfold tval.
      rewrite <- E, !rm_unravel by lia. reflexivity. }
    apply H; auto.
  - intros acc i Hi. apply in_seq in Hi.
    rewrite vindex_lt with (d := n_zero) by lia. cbn [bind].
    rewrite vindex_lt with (d := n_zero) by (rewrite Hb, <- E, <- Ha; lia). reflexivity.
Qed.

(** ** bmm *)

Lemma vset2_1 (x y z : nat) : vset [x; y] 1 z = Ret [x; z].
Proof. reflexivity. Qed.
Lemma vset2_0 (x y z : nat) : vset [x; y] 0 z = Ret [z; y].
Proof. reflexivity. Qed.

Lemma fold_left_map A B C (f : A -> B -> A) (g : C -> B) l a :
  fold_left f (map g l) a = fold_left (fun a c => f a (g c)) l a.
Proof. revert a; induction l; simpl; auto. Qed.

Lemma bmm_cell_ok (l r : tlike T) (li : list nat) (last : nat) (k m j : nat) :
  tl_wf0 l -> tl_wf0 r -> tl_shape r = [k; m] -> j < m ->
  (forall t, t < k -> in_range (tl_shape l) (li ++ [t])) ->
  bmm_cell l r (li ++ [last]) j =
  Ret (sumn k (fun t => n_mul (tl_val l (li ++ [t])) (tl_val r [t; j]))).
Proof.
  intros Hl Hr Es Hj Hin. unfold bmm_cell. rewrite Es. rewrite vset2_1. cbn [bind].
  change (vindex [k; m] 0) with (Ret k). cbn [bind].
  rewrite foldM_pure with
    (g := fun val t => n_add val (n_mul (tl_val l (li ++ [t])) (tl_val r [t; j]))).
  - unfold sumn, lsum. rewrite fold_left_map. reflexivity.
  - intros val t Ht. apply in_seq in Ht.
    rewrite app_length. cbn [length]. replace (length li + 1 - 1) with (length li) by lia.
    unfold vset at 1. rewrite app_length. cbn [length].
    destruct (Nat.ltb_spec (length li) (length li + 1)); [|lia]. cbn [bind].
    rewrite list_set_mid. rewrite vset2_0. cbn [bind].
    rewrite tl_get_unwrap_in_range by (auto; apply Hin; lia). cbn [bind].
    rewrite tl_get_unwrap_in_range; [reflexivity|auto|].
    rewrite Es. repeat constructor; lia.
Qed.

(** rank 2 *)
Lemma bmm_rows2 (l r : tlike T) n k m :
  tl_wf0 l -> tl_wf0 r -> tl_shape l = [n; k] -> tl_shape r = [k; m] ->
  bmm_rows l r 1 n m =
  Ret (flat_map (fun i => map (fun j => sumn k (fun t => n_mul (tl_val l [i; t]) (tl_val r [t; j])))
                     (seq 0 m)) (seq 0 n)).
Proof.
  intros Hl Hr El Er. unfold bmm_rows. rewrite El. cbn [length seq foldM Nat.eqb bind Nat.sub].
  assert (H : forall p, p <= n -> forall arr i0,
     foldM (fun '(arr, left_index) i =>
        let* left_index := vset left_index 0 i in
        let* row := mapM (bmm_cell l r left_index) (seq 0 m) in
        Ret (arr ++ row, left_index)) (seq 0 p) (arr, [i0; k]) =
     Ret (arr ++ flat_map (fun i => map (fun j => sumn k (fun t => n_mul (tl_val l [i; t]) (tl_val r [t; j])))
                     (seq 0 m)) (seq 0 p), [match p with O => i0 | S q => q end; k])).
  { induction p as [|p IH]; intros Hp arr i0.
    - simpl. rewrite app_nil_r. reflexivity.
    - rewrite seq_S, foldM_app, IH by lia. cbn [bind foldM Nat.add]. rewrite vset2_0. cbn [bind].
      rewrite mapM_pure with (g := fun j => sumn k (fun t => n_mul (tl_val l [p; t]) (tl_val r [t; j]))).
      + cbn [bind]. rewrite flat_map_app. simpl. rewrite app_nil_r, <- app_assoc. reflexivity.
      + intros j Hj. apply in_seq in Hj.
        apply (bmm_cell_ok l r [p] k k m j); auto; [lia|].
        intros t Ht. rewrite El. repeat constructor; lia. }
  rewrite H by auto. cbn [bind fst app]. reflexivity.
Qed.

Lemma all_indices_2 n m :
  all_indices [n; m] = flat_map (fun i => map (fun j => [i; j]) (seq 0 m)) (seq 0 n).
Proof.
  simpl. apply flat_map_ext_in. intros i _. rewrite (map_flat_map _ _ _ (cons i)). simpl.
  induction (seq 0 m) as [|x q IH]; simpl; [reflexivity|]. rewrite IH. reflexivity.
Qed.

Definition ix (p : nat) (i : list nat) : nat := nth p i 0.

(** The matrix product as a tensor *)
Definition mm (l r : tlike T) (n k m : nat) : raw T :=
  tabulate [n; m] (fun i => sumn k (fun t => n_mul (tl_val l [ix 0 i; t]) (tl_val r [t; ix 1 i]))).

Lemma bmm2_ok (l r : tlike T) n k m :
  tl_wf0 l -> tl_wf0 r -> tl_shape l = [n; k] -> tl_shape r = [k; m] ->
  bmm_raw l r = Ret (mm l r n k m).
Proof.
  intros Hl Hr El Er. unfold bmm_raw. rewrite El, Er. cbn [length Nat.leb assert bind Nat.sub Nat.eqb].
  change (vindex [n; k] 1) with (Ret k). change (vindex [k; m] 0) with (Ret k). cbn [bind].
  rewrite Nat.eqb_refl. cbn [assert bind].
  change (vindex [n; k] 0) with (Ret n). change (vindex [k; m] 1) with (Ret m). cbn [bind].
  rewrite (bmm_rows2 l r n k m) by auto. cbn [bind skipn]. unfold mm, tabulate.
  rewrite all_indices_2, map_flat_map. do 2 f_equal.
  apply flat_map_ext_in. intros i _. rewrite map_map. reflexivity.
Qed.

(** rank 3 *)
Lemma bmm_rows3 (l r : tlike T) b n k m :
  tl_wf0 l -> tl_wf0 r -> tl_shape l = [b; n; k] -> tl_shape r = [k; m] ->
  bmm_rows l r b n m =
  Ret (flat_map (fun c => flat_map (fun i =>
         map (fun j => sumn k (fun t => n_mul (tl_val l [c; i; t]) (tl_val r [t; j])))
             (seq 0 m)) (seq 0 n)) (seq 0 b)).
Proof.
  intros Hl Hr El Er. unfold bmm_rows. rewrite El. cbn [length Nat.eqb Nat.sub].
  set (cell c i j := sumn k (fun t => n_mul (tl_val l [c; i; t]) (tl_val r [t; j]))).
  assert (H : forall c, c < b -> forall p, p <= n -> forall arr i0,
     foldM (fun '(arr, left_index) i =>
        let* left_index := vset left_index 1 i in
        let* row := mapM (bmm_cell l r left_index) (seq 0 m) in
        Ret (arr ++ row, left_index)) (seq 0 p) (arr, [c; i0; k]) =
     Ret (arr ++ flat_map (fun i => map (cell c i) (seq 0 m)) (seq 0 p),
          [c; match p with O => i0 | S q => q end; k])).
  { intros c Hc. induction p as [|p IH]; intros Hp arr i0.
    - simpl. rewrite app_nil_r. reflexivity.
    - rewrite seq_S, foldM_app, IH by lia. cbn [bind foldM Nat.add].
      change (vset [c; match p with O => i0 | S q => q end; k] 1 p) with (Ret [c; p; k]). cbn [bind].
      rewrite mapM_pure with (g := cell c p).
      + cbn [bind]. rewrite flat_map_app. simpl. rewrite app_nil_r, <- app_assoc. reflexivity.
      + intros j Hj. apply in_seq in Hj.
        apply (bmm_cell_ok l r [c; p] k k m j); auto; [lia|].
        intros t Ht. rewrite El. repeat constructor; lia. }
  assert (H2 : forall q, q <= b -> forall arr c0 i0, exists li',
     foldM (fun '(arr, left_index) batch_idx =>
        let* left_index := vset left_index 0 batch_idx in
        foldM (fun '(arr, left_index) i =>
          let* left_index := vset left_index 1 i in
          let* row := mapM (bmm_cell l r left_index) (seq 0 m) in
          Ret (arr ++ row, left_index)) (seq 0 n) (arr, left_index)) (seq 0 q) (arr, [c0; i0; k]) =
     Ret (arr ++ flat_map (fun c => flat_map (fun i => map (cell c i) (seq 0 m)) (seq 0 n)) (seq 0 q), li')
     /\ exists c1 i1, li' = [c1; i1; k]).
  { induction q as [|q IH]; intros Hq arr c0 i0.
    - simpl. rewrite app_nil_r. eauto.
    - destruct (IH ltac:(lia) arr c0 i0) as (li & E & c1 & i1 & ->).
      rewrite seq_S, foldM_app, E by lia. cbn [bind foldM Nat.add].
      change (vset [c1; i1; k] 0 q) with (Ret [q; i1; k]). cbn [bind].
      rewrite H by lia. cbn [bind]. eexists; split.
      + rewrite flat_map_app. simpl. rewrite app_nil_r, <- app_assoc. reflexivity.
      + eexists _, _. reflexivity. }
  destruct (H2 b (le_n b) [] b n) as (li & E & _). rewrite E. reflexivity.
Qed.

Lemma all_indices_3 b n m :
  all_indices [b; n; m] =
  flat_map (fun c => flat_map (fun i => map (fun j => [c; i; j]) (seq 0 m)) (seq 0 n)) (seq 0 b).
Proof.
  change (all_indices [b; n; m]) with
    (flat_map (fun x => map (cons x) (all_indices [n; m])) (seq 0 b)).
  apply flat_map_ext_in. intros c _. rewrite all_indices_2, map_flat_map.
  apply flat_map_ext_in. intros i _. rewrite map_map. reflexivity.
Qed.

Lemma bmm3_ok (l r : tlike T) b n k m :
  tl_wf0 l -> tl_wf0 r -> tl_shape l = [b; n; k] -> tl_shape r = [k; m] ->
  bmm_raw l r =
  Ret (tabulate [b; n; m] (fun i => sumn k (fun t =>
         n_mul (tl_val l [ix 0 i; ix 1 i; t]) (tl_val r [t; ix 2 i])))).
Proof.
  intros Hl Hr El Er. unfold bmm_raw. rewrite El, Er. cbn [length Nat.leb assert bind Nat.sub Nat.eqb].
  change (vindex [b; n; k] 2) with (Ret k). change (vindex [k; m] 0) with (Ret k). cbn [bind].
  rewrite Nat.eqb_refl. cbn [assert bind].
  change (vindex [b; n; k] 0) with (Ret b). change (vindex [b; n; k] 1) with (Ret n).
  change (vindex [k; m] 1) with (Ret m). cbn [bind].
  rewrite (bmm_rows3 l r b n k m) by auto. cbn [bind]. unfold tabulate.
  rewrite all_indices_3, map_flat_map. do 2 f_equal.
  apply flat_map_ext_in. intros c _. rewrite map_flat_map.
  apply flat_map_ext_in. intros i _. rewrite map_map. reflexivity.
Qed.

(** Refusals *)
Lemma bmm_refused_rank (l r : tlike T) :
  length (tl_shape l) < 2 \/ length (tl_shape r) <> 2 -> bmm_raw l r = Panic PAssert.
Proof.
  intros H. unfold bmm_raw. destruct (Nat.leb_spec 2 (length (tl_shape l))); cbn [assert bind]; [|reflexivity].
  destruct (Nat.eqb_spec (length (tl_shape r)) 2); [lia|reflexivity].
Qed.

Lemma bmm_refused_inner (l r : tlike T) k k' m ls :
  tl_shape l = ls ++ [k] -> ls <> [] -> tl_shape r = [k'; m] -> k <> k' -> bmm_raw l r = Panic PAssert.
Proof.
  intros El Hn Er Hk. unfold bmm_raw. rewrite El, Er, app_length. cbn [length].
  assert (0 < length ls) by (destruct ls; simpl in *; [congruence|lia]).
  destruct (Nat.leb_spec 2 (length ls + 1)); [|lia]. cbn [assert bind Nat.eqb].
  replace (length ls + 1 - 1) with (length ls) by lia.
  rewrite (vindex_some _ _ _ k) by (rewrite nth_error_app2, Nat.sub_diag by lia; reflexivity).
  cbn [bind]. change (vindex [k'; m] (2 - 2)) with (Ret k'). cbn [bind].
  destruct (Nat.eqb_spec k k'); [congruence|reflexivity].
Qed.

End OpsFacts.
