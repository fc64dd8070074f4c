(** * Lists: facts about lists, [foldM], [mapM], updates.  Nothing about the code. *)
From Verif Require Import Base.

Lemma vindex_some A (v : list A) i x : nth_error v i = Some x -> vindex v i = Ret x.
Proof. unfold vindex; intros ->; reflexivity. Qed.

Lemma vindex_lt A (v : list A) i d : i < length v -> vindex v i = Ret (nth i v d).
Proof. intros H. apply vindex_some. apply nth_error_nth'; assumption. Qed.

Lemma vindex_ge A (v : list A) i : length v <= i -> vindex v i = Panic PIndex.
Proof. intros H. unfold vindex. apply nth_error_None in H. rewrite H. reflexivity. Qed.

Lemma vindex_ret A (v : list A) i x : vindex v i = Ret x -> nth_error v i = Some x.
Proof. unfold vindex. destruct (nth_error v i); congruence. Qed.

Lemma list_set_length A (v : list A) i x : length (list_set v i x) = length v.
Proof. revert i; induction v as [|a v IH]; intros [|i]; simpl; auto. Qed.

Lemma list_set_nth_eq A (v : list A) i x d : i < length v -> nth i (list_set v i x) d = x.
Proof. revert i; induction v as [|a v IH]; intros [|i] H; simpl in *; try lia; auto with arith. Qed.

Lemma list_set_nth_neq A (v : list A) i j x d : i <> j -> nth j (list_set v i x) d = nth j v d.
Proof.
  revert i j; induction v as [|a v IH]; intros [|i] [|j] H; simpl; auto; try lia.
Qed.

Lemma list_set_nth A (v : list A) i j x d :
  i < length v -> nth j (list_set v i x) d = if j =? i then x else nth j v d.
Proof.
  intros H. destruct (Nat.eqb_spec j i) as [->|Hn].
  - apply list_set_nth_eq; auto.
  - apply list_set_nth_neq; auto.
Qed.

Lemma list_set_app_l A (u v : list A) i x :
  i < length u -> list_set (u ++ v) i x = list_set u i x ++ v.
Proof. revert i; induction u as [|a u IH]; intros [|i] H; simpl in *; try lia; auto.
  rewrite IH; auto with arith. Qed.

Lemma list_set_app_r A (u v : list A) i x :
  list_set (u ++ v) (length u + i) x = u ++ list_set v i x.
Proof. induction u; simpl; auto. rewrite IHu; auto. Qed.

Lemma list_set_mid A (u v : list A) a x :
  list_set (u ++ a :: v) (length u) x = u ++ x :: v.
Proof.
  replace (length u) with (length u + 0) by lia. rewrite list_set_app_r. reflexivity.
Qed.

Lemma nth_ext_len A (u v : list A) d :
  length u = length v -> (forall i, i < length u -> nth i u d = nth i v d) -> u = v.
Proof. intros. apply nth_ext with (d := d) (d' := d); auto. Qed.

(** ** foldM, mapM *)

Lemma foldM_app A B (f : A -> B -> outcome A) l1 l2 a :
  foldM f (l1 ++ l2) a = (let* a' := foldM f l1 a in foldM f l2 a').
Proof.
  revert a; induction l1 as [|b l1 IH]; intros a; simpl; auto.
  destruct (f a b); simpl; auto.
Qed.

Lemma foldM_pure A B (f : A -> B -> outcome A) (g : A -> B -> A) l a :
  (forall a b, In b l -> f a b = Ret (g a b)) -> foldM f l a = Ret (fold_left g l a).
Proof.
  revert a; induction l as [|b l IH]; intros a H; simpl; auto.
  rewrite H by (simpl; auto). simpl. apply IH. intros; apply H; simpl; auto.
Qed.

Lemma foldM_ext A B (f g : A -> B -> outcome A) l a :
  (forall a b, In b l -> f a b = g a b) -> foldM f l a = foldM g l a.
Proof.
  revert a; induction l as [|b l IH]; intros a H; simpl; auto.
  rewrite H by (simpl; auto). destruct (g a b); simpl; auto.
  apply IH. intros; apply H; simpl; auto.
Qed.

(** Invariant version *)
Lemma foldM_inv A B (P : A -> Prop) (f : A -> B -> outcome A) (g : A -> B -> A) l a :
  P a -> (forall a b, P a -> In b l -> f a b = Ret (g a b) /\ P (g a b)) ->
  foldM f l a = Ret (fold_left g l a) /\ P (fold_left g l a).
Proof.
  revert a; induction l as [|b l IH]; intros a Ha H; simpl; auto.
  destruct (H a b Ha) as [E Hg]; [simpl; auto|]. rewrite E. simpl.
  apply IH; auto. intros; apply H; simpl; auto.
Qed.

Lemma foldM_map A B C (f : A -> B -> outcome A) (h : C -> B) l a :
  foldM f (map h l) a = foldM (fun a c => f a (h c)) l a.
Proof.
  revert a; induction l as [|c l IH]; intros a; simpl; auto.
  destruct (f a (h c)); simpl; auto.
Qed.

Lemma mapM_pure A B (f : A -> outcome B) (g : A -> B) l :
  (forall a, In a l -> f a = Ret (g a)) -> mapM f l = Ret (map g l).
Proof.
  induction l as [|a l IH]; intros H; simpl; auto.
  rewrite H by (simpl; auto). simpl. rewrite IH; auto.
  intros; apply H; simpl; auto.
Qed.

Lemma mapM_app A B (f : A -> outcome B) l1 l2 :
  mapM f (l1 ++ l2) = (let* a := mapM f l1 in let* b := mapM f l2 in Ret (a ++ b)).
Proof.
  induction l1 as [|x l1 IH]; simpl.
  - destruct (mapM f l2); reflexivity.
  - destruct (f x); simpl; auto. rewrite IH. destruct (mapM f l1); simpl; auto.
    destruct (mapM f l2); reflexivity.
Qed.

Lemma mapM_length A B (f : A -> outcome B) l r : mapM f l = Ret r -> length r = length l.
Proof.
  revert r; induction l as [|a l IH]; simpl; intros r H.
  - injection H as <-; reflexivity.
  - destruct (f a); simpl in H; try discriminate. destruct (mapM f l); simpl in H; try discriminate.
    injection H as <-. simpl. f_equal. apply IH; reflexivity.
Qed.

Lemma mapM_Forall2 A B (f : A -> outcome B) l r :
  mapM f l = Ret r <-> Forall2 (fun a b => f a = Ret b) l r.
Proof.
  revert r; induction l as [|a l IH]; simpl; intros r; split; intros H.
  - injection H as <-; constructor.
  - inversion H; subst; reflexivity.
  - destruct (f a) eqn:E; simpl in H; try discriminate.
    destruct (mapM f l) eqn:E2; simpl in H; try discriminate.
    injection H as <-. constructor; auto. apply IH; reflexivity.
  - inversion H; subst. rewrite H2. simpl. apply IH in H4. rewrite H4. reflexivity.
Qed.

Lemma fold_left_snoc A B (f : A -> B) l acc :
  fold_left (fun acc b => acc ++ [f b]) l acc = acc ++ map f l.
Proof.
  revert acc; induction l as [|x l IH]; intros acc; simpl.
  - rewrite app_nil_r; reflexivity.
  - rewrite IH, <- app_assoc. reflexivity.
Qed.

Lemma bind_ret A (m : outcome A) : (let* x := m in Ret x) = m.
Proof. destruct m; reflexivity. Qed.

Lemma bind_assoc A B C (m : outcome A) (f : A -> outcome B) (g : B -> outcome C) :
  bind (bind m f) g = bind m (fun a => bind (f a) g).
Proof. destruct m; reflexivity. Qed.

Lemma bind_Ret_inv A B (m : outcome A) (f : A -> outcome B) b :
  bind m f = Ret b -> exists a, m = Ret a /\ f a = Ret b.
Proof. destruct m; simpl; intros; try discriminate. eauto. Qed.

Lemma assert_true b : b = true -> assert b = Ret tt.
Proof. intros ->; reflexivity. Qed.

Lemma assert_inv b u : assert b = Ret u -> b = true.
Proof. destruct b; simpl; congruence. Qed.

(** ** seq, flat_map *)

Lemma seq_flat d n : seq 0 (d * n) = flat_map (fun x => seq (x * n) n) (seq 0 d).
Proof.
  induction d as [|d IH]; [reflexivity|].
  rewrite seq_S, flat_map_app, <- IH. simpl. rewrite app_nil_r.
  replace (n + d * n) with (d * n + n) by lia. rewrite seq_app. reflexivity.
Qed.

Lemma map_flat_map A B C (f : B -> C) (g : A -> list B) l :
  map f (flat_map g l) = flat_map (fun x => map f (g x)) l.
Proof. induction l; simpl; auto. rewrite map_app, IHl; auto. Qed.

Lemma flat_map_map A B C (f : A -> B) (g : B -> list C) l :
  flat_map g (map f l) = flat_map (fun x => g (f x)) l.
Proof. induction l; simpl; auto. rewrite IHl; auto. Qed.

Lemma flat_map_ext_in A B (f g : A -> list B) l :
  (forall a, In a l -> f a = g a) -> flat_map f l = flat_map g l.
Proof.
  induction l; simpl; intros; auto. rewrite H by auto. rewrite IHl; auto.
Qed.

Lemma flat_map_length_const A B (f : A -> list B) n l :
  (forall a, In a l -> length (f a) = n) -> length (flat_map f l) = length l * n.
Proof.
  induction l; simpl; intros; auto. rewrite app_length, H, IHl; auto.
Qed.

Lemma nth_map_seq A (f : nat -> A) n i d : i < n -> nth i (map f (seq 0 n)) d = f i.
Proof.
  intros H. rewrite nth_indep with (d' := f 0) by (rewrite map_length, seq_length; auto).
  rewrite map_nth. rewrite seq_nth; auto.
Qed.

Lemma map_nth_seq A (l : list A) d : map (fun i => nth i l d) (seq 0 (length l)) = l.
Proof.
  apply nth_ext_len with (d := d).
  - rewrite map_length, seq_length; auto.
  - intros i H. rewrite map_length, seq_length in H. rewrite nth_map_seq; auto.
Qed.

Lemma nth_map' A B (f : A -> B) l i d d' : i < length l -> nth i (map f l) d = f (nth i l d').
Proof.
  intros H. rewrite nth_indep with (d' := f d') by (rewrite map_length; auto).
  apply map_nth.
Qed.

Lemma repeat_nth A (x d : A) n i : i < n -> nth i (repeat x n) d = x.
Proof. revert i; induction n; intros [|i] H; simpl; auto; try lia. apply IHn; lia. Qed.

Lemma Forall_repeat A (P : A -> Prop) x n : P x -> Forall P (repeat x n).
Proof. induction n; simpl; auto. Qed.

Lemma rev_repeat A (x : A) n : rev (repeat x n) = repeat x n.
Proof.
  induction n; simpl; auto. rewrite IHn. clear IHn. induction n; simpl; auto. rewrite <- IHn; auto.
Qed.

Lemma nth_error_rev A (l : list A) i :
  i < length l -> nth_error (rev l) i = nth_error l (length l - S i).
Proof.
  intros H. destruct (nth_error l (length l - S i)) eqn:E.
  - rewrite <- E. destruct l as [|a0 l0]; [simpl in H; lia|].
    rewrite !nth_error_nth' with (d := a0) by (try rewrite rev_length; simpl in *; lia).
    rewrite rev_nth; auto.
  - apply nth_error_None in E. lia.
Qed.

Lemma Forall2_rev A B (P : A -> B -> Prop) l1 l2 :
  Forall2 P l1 l2 -> Forall2 P (rev l1) (rev l2).
Proof.
  induction 1; simpl; auto. apply Forall2_app; auto.
Qed.

Lemma Forall2_length' A B (P : A -> B -> Prop) l1 l2 : Forall2 P l1 l2 -> length l1 = length l2.
Proof. induction 1; simpl; auto. Qed.

Lemma combine_app A B (a1 a2 : list A) (b1 b2 : list B) :
  length a1 = length b1 -> combine (a1 ++ a2) (b1 ++ b2) = combine a1 b1 ++ combine a2 b2.
Proof.
  revert b1; induction a1 as [|x a1 IH]; intros [|y b1] H; simpl in *; try discriminate; auto.
  rewrite IH; auto.
Qed.

Lemma NoDup_map_inj A B (f : A -> B) l :
  (forall x y, In x l -> In y l -> f x = f y -> x = y) -> NoDup l -> NoDup (map f l).
Proof.
  intros Hf. induction 1 as [|a l Ha Hl IH]; simpl; constructor.
  - intros Hin. apply in_map_iff in Hin as (b & E & Hb).
    assert (b = a) by (apply Hf; simpl; auto). subst. auto.
  - apply IH. intros; apply Hf; simpl; auto.
Qed.
