(** * JvpFacts: closed forms of the backward rules *)
From Coq Require Import Ring Permutation.
From Verif Require Import Base ModelIndex ModelTensor ModelOps ModelJvp ModelGraph Spec SpecDual Lists IndexFacts
  TensorFacts OpsFacts Sums.

Section JvpFacts.
Context {T : Type} {NT : Num T}.

(** ** Accumulating into slots *)

Definition acc_at (arr : list T) (o : nat) (v : T) : list T := list_set arr o (n_add (nth o arr n_zero) v).

Lemma acc_at_length arr o v : length (acc_at arr o v) = length arr.
Proof. apply list_set_length. Qed.

Lemma acc_at_ok (arr : list T) o v :
  o < length arr -> (let* old := vindex arr o in vset arr o (n_add old v)) = Ret (acc_at arr o v).
Proof.
  intros H. rewrite (vindex_lt _ arr o n_zero) by auto. cbn [bind]. unfold vset.
  destruct (Nat.ltb_spec o (length arr)); [reflexivity|lia].
Qed.

Lemma acc_length A (l : list A) (o : A -> nat) (v : A -> T) arr :
  length (fold_left (fun arr a => acc_at arr (o a) (v a)) l arr) = length arr.
Proof. revert arr. induction l; intros; cbn; auto. rewrite IHl. apply acc_at_length. Qed.

Lemma acc_nth A (l : list A) (o : A -> nat) (v : A -> T) arr p :
  (forall a, In a l -> o a < length arr) ->
  nth p (fold_left (fun arr a => acc_at arr (o a) (v a)) l arr) n_zero =
  fold_left n_add (map v (filter (fun a => o a =? p) l)) (nth p arr n_zero).
Proof.
  revert arr. induction l as [|a l IH]; intros arr H; cbn; auto.
  rewrite IH by (intros b Hb; rewrite acc_at_length; apply H; right; auto).
  unfold acc_at. rewrite list_set_nth by (apply H; left; auto).
  destruct (Nat.eqb_spec (o a) p) as [->|Hne].
  - rewrite Nat.eqb_refl. reflexivity.
  - destruct (Nat.eqb_spec p (o a)); [congruence|]. reflexivity.
Qed.

Lemma raw_at_grad g d0 N r p :
  grad_rows g d0 N -> r < d0 -> p < N -> raw_at g [r; p] = Ret (gval g r p).
Proof.
  intros (Hw & H1 & H2 & [Hs|(Hs & -> & ->)]) Hr Hp; unfold gval; rewrite Hs.
  - apply raw_at_in_range; auto. rewrite Hs. repeat constructor; auto.
  - apply raw_at_resolves; auto; rewrite Hs; constructor.
Qed.

Lemma filter_flat_map A B (f : B -> bool) (g : A -> list B) l :
  filter f (flat_map g l) = flat_map (fun a => filter f (g a)) l.
Proof. induction l; cbn; auto. rewrite filter_app, IHl. reflexivity. Qed.

Lemma flat_map_singleton_filter A B (f : A -> bool) (h : A -> B) l :
  flat_map (fun a => if f a then [h a] else []) l = map h (filter f l).
Proof. induction l; cbn; auto. destruct (f a); cbn; rewrite IHl; reflexivity. Qed.

Lemma filter_seq_eq (r n : nat) : r < n -> filter (fun x => x =? r) (seq 0 n) = [r].
Proof.
  intros H. replace n with (r + S (n - S r)) by lia. rewrite seq_app, filter_app. cbn [seq filter].
  rewrite Nat.eqb_refl.
  assert (E : forall k m, (forall x, In x (seq k m) -> x <> r) -> filter (fun x => x =? r) (seq k m) = []).
  { intros k m Hx. induction (seq k m) as [|y l IH]; auto. cbn. destruct (Nat.eqb_spec y r).
    - exfalso. eapply Hx; [left; reflexivity|auto].
    - apply IH. intros; apply Hx; right; auto. }
  rewrite !E; auto; intros x Hx; apply in_seq in Hx; lia.
Qed.


Lemma in_range_pair n m a b : a < n -> b < m -> in_range [n; m] [a; b].
Proof. intros. repeat constructor; auto. Qed.

Lemma rm_pair n m a b : rm [n; m] [a; b] = a * m + b.
Proof. cbn. rewrite !Nat.mul_1_r. lia. Qed.

Lemma unravel_row N g : g < N -> unravel [1; N] g = [0; g].
Proof.
  intros H. rewrite <- (unravel_rm [1; N] [0; g]) by (apply in_range_pair; lia).
  rewrite rm_pair. reflexivity.
Qed.

Lemma unravel_pair n m p : p < n * m -> unravel [n; m] p = [p / m; p mod m].
Proof.
  intros H. assert (m <> 0) by lia.
  rewrite <- (unravel_rm [n; m] [p / m; p mod m]).
  - rewrite rm_pair. f_equal. rewrite Nat.mul_comm. apply Nat.div_mod; auto.
  - apply in_range_pair; [apply Nat.div_lt_upper_bound; lia|apply Nat.mod_upper_bound; auto].
Qed.

Lemma size_row d N : size [d; N] = d * N.
Proof. cbn. rewrite Nat.mul_1_r. reflexivity. Qed.

(** ** Diagonal Jacobians *)

Section Diag.
Variables (diag grad : raw T) (d0 M N : nat) (bs ishape : list nat) (out : nat -> nat).
Hypotheses (Hbs : positive bs) (HN : N = size bs) (Hdiag : wf diag) (Hds : shape diag = [1; N])
  (Hg : grad_rows grad d0 N) (HM : 0 < M)
  (Hout : forall g, g < N -> global_index (unravel bs g) ishape None = Ret (Ok (out g)) /\ out g < M).

Definition jdb_step (arr : list T) (gr : nat * nat) : list T :=
  acc_at arr (snd gr * M + out (fst gr)) (n_mul (tval diag [0; fst gr]) (gval grad (snd gr) (fst gr))).

Lemma jdb_row g arr :
  g < N -> length arr = d0 * M ->
  foldM (jdb_body diag grad [d0; M] ishape [0; g] (unravel bs g) g) (seq 0 d0) arr =
  Ret (fold_left jdb_step (map (pair g) (seq 0 d0)) arr) /\
  length (fold_left jdb_step (map (pair g) (seq 0 d0)) arr) = d0 * M.
Proof.
  intros Hgn Hlen.
  assert (H : foldM (jdb_body diag grad [d0; M] ishape [0; g] (unravel bs g) g) (seq 0 d0) arr =
     Ret (fold_left (fun a r => jdb_step a (g, r)) (seq 0 d0) arr) /\
     length (fold_left (fun a r => jdb_step a (g, r)) (seq 0 d0) arr) = d0 * M).
  2: { rewrite fold_left_map. exact H. }
  apply (foldM_inv _ _ (fun a => length a = d0 * M)); auto.
  intros a r Ha Hr. apply in_seq in Hr.
  destruct (Hout g Hgn) as [Ho HoM]. unfold jdb_body. rewrite Ho. cbn [bind unwrap].
  rewrite (global_index_in_range [d0; M] [r; out g]) by (apply in_range_pair; lia).
  cbn [bind unwrap]. rewrite rm_pair. rewrite (raw_at_grad grad d0 N) by (auto; lia).
  rewrite (raw_at_in_range diag [0; g]) by (auto; rewrite Hds; apply in_range_pair; lia). cbn [bind].
  split.
  - apply acc_at_ok. rewrite Ha. nia.
  - unfold jdb_step. rewrite acc_at_length. auto.
Qed.

Lemma jdb_loop_ok : forall n g fuel arr, g + S n = N -> n < fuel -> length arr = d0 * M ->
  jdb_loop fuel diag grad [d0; M] bs ishape d0 [0; g] (unravel bs g) arr =
  Ret (fold_left jdb_step (flat_map (fun g => map (pair g) (seq 0 d0)) (seq g (S n))) arr).
Proof.
  induction n as [|n IH]; intros g fuel arr Hgn Hf Hlen; (destruct fuel as [|fuel]; [lia|]); cbn [jdb_loop].
  - rewrite Hds. rewrite (global_index_in_range [1; N] [0; g]) by (apply in_range_pair; lia).
    cbn [bind unwrap]. rewrite rm_pair. cbn [Nat.mul Nat.add].
    destruct (jdb_row g arr) as [-> Hl']; [lia|auto|]. cbn [bind].
    rewrite <- (unravel_row N g) by lia.
    rewrite increment_unravel by (try (rewrite size_row; lia); repeat constructor; lia).
    rewrite size_row. destruct (Nat.ltb_spec (S g) (1 * N)); [lia|]. cbn [bind seq flat_map].
    rewrite app_nil_r. reflexivity.
  - rewrite Hds. rewrite (global_index_in_range [1; N] [0; g]) by (apply in_range_pair; lia).
    cbn [bind unwrap]. rewrite rm_pair. cbn [Nat.mul Nat.add].
    destruct (jdb_row g arr) as [-> Hl']; [lia|auto|]. cbn [bind].
    rewrite <- (unravel_row N g) by lia.
    rewrite increment_unravel by (try (rewrite size_row; lia); repeat constructor; lia).
    rewrite size_row. destruct (Nat.ltb_spec (S g) (1 * N)); [|lia]. cbn [bind].
    rewrite increment_unravel by (auto; lia). destruct (Nat.ltb_spec (S g) (size bs)); [|lia]. cbn [bind assert].
    rewrite unravel_row by lia. rewrite IH by (auto; lia).
    rewrite <- fold_left_app. reflexivity.
Qed.

Lemma jdb_ok :
  jvp_from_diagonal_broadcast diag (Some [d0; M]) bs ishape grad =
  Ret (tabulate [d0; M] (fun i =>
    lsum (map (fun g => n_mul (tval diag [0; g]) (gval grad (ix 0 i) g))
              (filter (fun g => out g =? ix 1 i) (seq 0 N))))).
Proof.
  unfold jvp_from_diagonal_broadcast. rewrite Hds.
  pose proof Hg as (Hgw & Hd0 & HN0 & Hgs).
  replace (length (shape grad) <=? 2) with true by (destruct Hgs as [->|[-> _]]; reflexivity).
  cbn [assert bind].
  replace (if length (shape grad) <=? 1 then Ret 1 else vindex (shape grad) 0) with (Ret d0)
    by (destruct Hgs as [->|(-> & -> & _)]; reflexivity).
  cbn [bind]. change (vindex [d0; M] 0) with (Ret d0). cbn [bind]. rewrite Nat.eqb_refl. cbn [assert bind].
  change (vindex [d0; M] 1) with (Ret M). cbn [bind].
  change (repeat 0 (length [1; N])) with [0; 0]. rewrite <- (unravel_0 bs).
  rewrite (jdb_loop_ok (N - 1) 0) by (try lia; try apply repeat_length; unfold index_fuel; rewrite product_max1, size_row by (repeat constructor; lia); lia).
  cbn [bind]. replace (S (N - 1)) with N by lia.
  set (l := flat_map (fun g => map (pair g) (seq 0 d0)) (seq 0 N)).
  set (o := fun gr : nat * nat => snd gr * M + out (fst gr)).
  set (v := fun gr : nat * nat => n_mul (tval diag [0; fst gr]) (gval grad (snd gr) (fst gr))).
  change (fold_left jdb_step l (repeat n_zero (d0 * M)))
    with (fold_left (fun arr a => acc_at arr (o a) (v a)) l (repeat n_zero (d0 * M))).
  assert (Hin : forall a, In a l -> fst a < N /\ snd a < d0).
  { intros a Ha. unfold l in Ha. apply in_flat_map in Ha as (g & Hgs' & Ha). apply in_map_iff in Ha as (r & <- & Hr).
    apply in_seq in Hgs', Hr. cbn. lia. }
  rewrite raw_new_ok by (rewrite acc_length, repeat_length, size_row; auto).
  f_equal. unfold tabulate. f_equal. apply (nth_ext_len _ _ _ n_zero).
  - rewrite acc_length, repeat_length, map_length, all_indices_length, size_row. reflexivity.
  - intros p Hp. rewrite acc_length, repeat_length in Hp.
    rewrite acc_nth by (intros a Ha; rewrite repeat_length; destruct (Hin a Ha) as [H1 H2]; unfold o; destruct (Hout _ H1); nia).
    rewrite repeat_nth by auto.
    rewrite (nth_map' _ _ _ _ _ n_zero []) by (rewrite all_indices_length, size_row; auto).
    rewrite nth_all_indices by (rewrite size_row; auto).
    assert (Hpu : unravel [d0; M] p = [p / M; p mod M]) by (apply unravel_pair; auto).
    rewrite Hpu. unfold ix. cbn [nth]. unfold lsum. f_equal.
    unfold l. rewrite filter_flat_map.
    assert (Hdiv : p / M < d0) by (apply Nat.div_lt_upper_bound; lia).
    assert (Hmod : p mod M < M) by (apply Nat.mod_upper_bound; lia).
    assert (Hpm : p = p / M * M + p mod M) by (rewrite Nat.mul_comm; apply Nat.div_mod; lia).
    transitivity (map v (flat_map (fun g => if out g =? p mod M then [(g, p / M)] else []) (seq 0 N))).
    + f_equal. apply flat_map_ext_in. intros g Hgs'. apply in_seq in Hgs'. destruct (Hout g ltac:(lia)) as [_ HoM].
      clear - Hdiv Hmod Hpm HoM. revert Hdiv Hmod Hpm. generalize (p / M) as q, (p mod M) as r. intros q r Hdiv Hmod Hpm.
      transitivity (map (pair g) (filter (fun r' => (r' =? q) && (out g =? r)) (seq 0 d0))).
      * induction (seq 0 d0) as [|x t IH]; auto. cbn [map filter]. rewrite IH. unfold o. cbn [fst snd].
        destruct (Nat.eqb_spec (x * M + out g) p) as [E|E].
        -- assert (x = q) by nia. assert (out g = r) by nia. subst x. rewrite H0, !Nat.eqb_refl. reflexivity.
        -- destruct (Nat.eqb_spec x q); destruct (Nat.eqb_spec (out g) r); auto. exfalso. apply E. congruence.
      * destruct (out g =? r).
        -- rewrite (filter_ext _ (fun r' => r' =? q)) by (intros; apply Bool.andb_true_r).
           rewrite filter_seq_eq by auto. reflexivity.
        -- rewrite (filter_ext _ (fun r' => false)) by (intros; apply Bool.andb_false_r).
           induction (seq 0 d0); auto.
    + rewrite flat_map_singleton_filter, map_map. reflexivity.
Qed.

End Diag.

(** ** Unary rules *)

Lemma unary_diag_ok (t : raw T) deriv :
  wf t -> positive (shape t) ->
  forall n g fuel acc, g + S n = size (shape t) -> n < fuel ->
  unary_diag_loop fuel t deriv (unravel (shape t) g) acc =
  Ret (acc ++ map (fun g => deriv (tval t (unravel (shape t) g))) (seq g (S n))).
Proof.
  intros Hw Hp. induction n as [|n IH]; intros g fuel acc Hgn Hf; (destruct fuel as [|fuel]; [lia|]); cbn [unary_diag_loop];
  rewrite raw_at_in_range by (auto; apply unravel_in_range; lia); cbn [bind]; rewrite increment_unravel by (auto; lia).
  - destruct (Nat.ltb_spec (S g) (size (shape t))); [lia|]. reflexivity.
  - destruct (Nat.ltb_spec (S g) (size (shape t))); [|lia]. cbn [bind]. rewrite IH by lia.
    rewrite <- app_assoc. reflexivity.
Qed.

Lemma unary_jvp_ok (t grad : raw T) d0 deriv :
  wf t -> positive (shape t) -> grad_rows grad d0 (size (shape t)) ->
  generic_unary_jvp t grad deriv =
  Ret [tabulate [d0; size (shape t)] (fun i =>
         n_add n_zero (n_mul (deriv (nth (ix 1 i) (array t) n_zero)) (gval grad (ix 0 i) (ix 1 i))))].
Proof.
  intros Hw Hp Hg. unfold generic_unary_jvp.
  assert (Hs : 0 < size (shape t)) by (apply size_pos; auto).
  rewrite <- unravel_0, (unary_diag_ok t deriv Hw Hp (size (shape t) - 1))
    by (try lia; unfold index_fuel; rewrite product_max1 by auto; lia).
  cbn [bind app]. replace (S (size (shape t) - 1)) with (size (shape t)) by lia.
  rewrite raw_new_ok by (rewrite map_length, seq_length, size_row, Hw; lia). cbn [bind].
  rewrite Hw. set (N := size (shape t)).
  replace (match shape grad with [] => 1 | d :: _ => d end) with d0
    by (destruct Hg as (_ & _ & _ & [->|(-> & -> & _)]); reflexivity).
  assert (Hdv : forall g, g < N -> tval (mkRaw (map (fun g => deriv (tval t (unravel (shape t) g))) (seq 0 N)) [1; N]) [0; g] =
     deriv (nth g (array t) n_zero)).
  { intros g Hgn. unfold tval. cbn [array shape]. rewrite rm_pair. cbn [Nat.mul Nat.add].
    rewrite nth_map_seq by auto. rewrite rm_unravel by auto. reflexivity. }
  rewrite (jdb_ok _ grad d0 N N (shape t) (shape t) (fun g => g)); auto.
  - cbn [bind]. do 2 f_equal. apply tabulate_ext. intros i Hi.
    inversion Hi as [|? r ? l1 Hr H1]; subst. inversion H1 as [|? p ? l2 Hpp H2]; subst. inversion H2; subst.
    unfold ix. cbn [nth]. rewrite filter_seq_eq by auto. cbn [map lsum fold_left]. unfold lsum. cbn [fold_left].
    rewrite Hdv by auto. reflexivity.
  - unfold wf. cbn. rewrite map_length, seq_length. lia.
  - intros g Hgn. split; auto. rewrite global_index_in_range by (apply unravel_in_range; auto).
    rewrite rm_unravel; auto.
Qed.

(** ** Binary rules with broadcasting *)

Lemma binop_diag_ok (a b : raw T) deriv bs fa fb :
  positive bs ->
  (forall i, in_range bs i -> raw_at a i = Ret (fa i)) -> (forall i, in_range bs i -> raw_at b i = Ret (fb i)) ->
  forall n g fuel acc, g + S n = size bs -> n < fuel ->
  binop_diag_loop fuel a b deriv bs (unravel bs g) acc =
  Ret (acc ++ map (fun g => deriv (fa (unravel bs g)) (fb (unravel bs g))) (seq g (S n))).
Proof.
  intros Hp Ha Hb. induction n as [|n IH]; intros g fuel acc Hgn Hf; (destruct fuel as [|fuel]; [lia|]); cbn [binop_diag_loop];
  rewrite Ha, Hb by (apply unravel_in_range; lia); cbn [bind]; rewrite increment_unravel by (auto; lia).
  - destruct (Nat.ltb_spec (S g) (size bs)); [lia|]. reflexivity.
  - destruct (Nat.ltb_spec (S g) (size bs)); [|lia]. cbn [bind]. rewrite IH by lia.
    rewrite <- app_assoc. reflexivity.
Qed.

(** The position of the operand's element that position [g] of the broadcast result reads *)
Definition src (ishape bs : list nat) (g : nat) : nat := rm ishape (clamp ishape (unravel bs g)).

Lemma src_lt ishape r bs g : bcast ishape r bs -> g < size bs -> src ishape bs g < size ishape.
Proof. intros H Hg. apply rm_lt. eapply clamp_in_range; eauto. apply unravel_in_range; auto. Qed.

Lemma src_global ishape r bs g :
  positive ishape -> bcast ishape r bs -> g < size bs ->
  global_index (unravel bs g) ishape None = Ret (Ok (src ishape bs g)).
Proof.
  intros Hp H Hg. apply global_index_resolves; auto.
  apply (bcast_clamp _ _ _ _ H). apply unravel_in_range; auto.
Qed.

Lemma binop_jvp_ok (a b grad : raw T) d0 bs deriv :
  wf a -> wf b -> positive (shape a) -> positive (shape b) -> bcast (shape a) (shape b) bs ->
  grad_rows grad d0 (size bs) ->
  let side (s : list nat) := tabulate [d0; size s] (fun i =>
    lsum (map (fun g => n_mul (deriv (nth (src (shape a) bs g) (array a) n_zero) (nth (src (shape b) bs g) (array b) n_zero))
                              (gval grad (ix 0 i) g))
              (filter (fun g => src s bs g =? ix 1 i) (seq 0 (size bs))))) in
  generic_binop_jvp a b grad deriv = Ret [side (shape a); side (shape b)].
Proof.
  intros Ha Hb Hpa Hpb Hbc Hg side. unfold generic_binop_jvp.
  assert (Hpbs : positive bs) by exact (bcast_positive _ _ _ Hpa Hpb Hbc).
  assert (Hs : 0 < size bs) by (apply size_pos; auto).
  rewrite <- (bcast_max_shape _ _ _ Hpa Hpb Hbc). rewrite product_size.
  replace (if 2 <=? length (shape grad) then let* g1 := vindex (shape grad) 1 in assert (g1 =? size bs) else Ret tt)
    with (Ret tt).
  2: { destruct Hg as (_ & _ & _ & [->|(-> & _ & _)]); [|reflexivity].
       change (vindex [d0; size bs] 1) with (Ret (size bs)). cbn [length Nat.leb bind]. rewrite Nat.eqb_refl. reflexivity. }
  cbn [bind].
  replace (match shape grad with [] => 1 | d :: _ => d end) with d0
    by (destruct Hg as (_ & _ & _ & [->|(-> & -> & _)]); reflexivity).
  rewrite <- unravel_0.
  rewrite (binop_diag_ok a b deriv bs (fun i => tval a (clamp (shape a) i)) (fun i => tval b (clamp (shape b) i)) Hpbs)
    with (n := size bs - 1) (g := 0).
  2: { intros i Hi. apply raw_at_resolves; auto. apply (bcast_clamp _ _ _ _ Hbc Hi). }
  2: { intros i Hi. apply raw_at_resolves; auto. apply (bcast_clamp _ _ _ _ Hbc Hi). }
  2: lia.
  2: { unfold index_fuel. rewrite product_max1 by auto. lia. }
  cbn [bind app]. replace (S (size bs - 1)) with (size bs) by lia.
  rewrite raw_new_ok by (rewrite map_length, seq_length, size_row; lia). cbn [bind].
  rewrite Ha, Hb. set (N := size bs).
  set (diag := mkRaw (map (fun g => deriv (tval a (clamp (shape a) (unravel bs g))) (tval b (clamp (shape b) (unravel bs g)))) (seq 0 N)) [1; N]).
  assert (Hdv : forall g, g < N -> tval diag [0; g] =
     deriv (nth (src (shape a) bs g) (array a) n_zero) (nth (src (shape b) bs g) (array b) n_zero)).
  { intros g Hgn. unfold tval at 1. unfold diag. cbn [array shape]. rewrite rm_pair. cbn [Nat.mul Nat.add].
    rewrite nth_map_seq by auto. reflexivity. }
  assert (Hdw : wf diag) by (unfold wf, diag; cbn; rewrite map_length, seq_length; lia).
  assert (Hside : forall s r, positive s -> bcast s r bs -> 
     jvp_from_diagonal_broadcast diag (Some [d0; size s]) bs s grad = Ret (side s)).
  { intros s r Hps Hbr. rewrite (jdb_ok diag grad d0 (size s) N bs s (src s bs)); auto.
    - f_equal. apply tabulate_ext. intros i Hi. f_equal. apply map_ext_in. intros g Hgi.
      apply filter_In in Hgi as [Hgi _]. apply in_seq in Hgi. rewrite Hdv by lia. reflexivity.
    - apply size_pos; auto.
    - intros g Hgn. split; [eapply src_global; eauto|eapply src_lt; eauto]. }
  rewrite (Hside (shape a) (shape b)) by auto. cbn [bind].
  rewrite (Hside (shape b) (shape a)) by auto using bcast_sym. reflexivity.
Qed.

(** ** [sum] *)

Lemma ones_ok (t g : raw T) d0 N : grad_rows g d0 N ->
  ones [t] [g] = Ret [tabulate [d0 * N; size (shape t)] (fun _ => n_one)].
Proof.
  intros (_ & _ & _ & H). unfold ones. cbn [one_one bind]. rewrite raw_filler_tab, !product_size.
  destruct H as [->|(-> & -> & ->)]; rewrite ?size_row; reflexivity.
Qed.

(** ** [SplitArrayWriter] *)

(** Where the element that the messages call [g] really lives in an array of [n] elements *)
Definition phi (w n g : nat) : nat := (n - w * (g / w + 1)) + g mod w.

Lemma rchunks_aux_fuel A w (l : list A) f : 0 < w -> length l <= f -> rchunks_aux f w l = rchunks w l.
Proof.
  intros Hw. unfold rchunks.
  assert (H : forall n f1 f2 (l : list A), length l <= n -> length l <= f1 -> length l <= f2 -> rchunks_aux f1 w l = rchunks_aux f2 w l).
  { induction n as [|n IH]; intros f1 f2 l0 Hn H1 H2.
    - destruct l0; [|cbn in Hn; lia]. destruct f1, f2; reflexivity.
    - destruct l0 as [|x l0]; [destruct f1, f2; reflexivity|].
      destruct f1 as [|f1]; [cbn in H1; lia|]. destruct f2 as [|f2]; [cbn in H2; lia|].
      cbn [rchunks_aux]. f_equal. apply IH; rewrite firstn_length; cbn [length] in *; lia. }
  intros Hf. apply (H (length l)); auto.
Qed.

Lemma rchunks_cons A w (l : list A) : 0 < w -> l <> [] ->
  rchunks w l = skipn (length l - w) l :: rchunks w (firstn (length l - w) l).
Proof.
  intros Hw Hl. unfold rchunks at 1. destruct l as [|x l]; [congruence|]. cbn [length rchunks_aux].
  f_equal. apply rchunks_aux_fuel; auto. rewrite firstn_length. cbn [length]. lia.
Qed.

Lemma split_join_rchunks (l : list T) w : 0 < w -> split_join (rchunks w l) = l.
Proof.
  intros Hw. unfold split_join. remember (length l) as n eqn:Hn. revert l Hn.
  induction n as [n IH] using lt_wf_ind. intros l Hn. destruct l as [|x l]; [reflexivity|].
  rewrite rchunks_cons by (auto; congruence). cbn [rev]. rewrite concat_app. cbn [concat]. rewrite app_nil_r.
  rewrite (IH (length (firstn (length (x :: l) - w) (x :: l)))).
  - apply firstn_skipn.
  - rewrite firstn_length. subst n. cbn [length]. lia.
  - reflexivity.
Qed.

Lemma phi_lt w n g : 0 < w -> g < n -> phi w n g < n.
Proof.
  intros Hw Hg. unfold phi.
  pose proof (Nat.div_mod g w ltac:(lia)). pose proof (Nat.mod_upper_bound g w ltac:(lia)).
  revert H H0. generalize (g / w) as q, (g mod w) as r. intros. nia.
Qed.

Lemma phi_inj w n g h : 0 < w -> g < n -> h < n -> phi w n g = phi w n h -> g = h.
Proof.
  intros Hw Hg Hh. unfold phi.
  pose proof (Nat.div_mod g w ltac:(lia)) as H1. pose proof (Nat.mod_upper_bound g w ltac:(lia)) as H2.
  pose proof (Nat.div_mod h w ltac:(lia)) as H3. pose proof (Nat.mod_upper_bound h w ltac:(lia)) as H4.
  revert H1 H2 H3 H4. generalize (g / w) as q, (g mod w) as r, (h / w) as q', (h mod w) as r'. intros.
  assert (q = q') by nia. subst q'. nia.
Qed.

Lemma phi_small w n g : 0 < w -> n <= w -> g < n -> phi w n g = g.
Proof.
  intros Hw Hn Hg. unfold phi. rewrite Nat.div_small, Nat.mod_small by lia. lia.
Qed.

Lemma acc_at_app_l (u v : list T) o x : o < length u -> acc_at (u ++ v) o x = acc_at u o x ++ v.
Proof. intros H. unfold acc_at. rewrite app_nth1, list_set_app_l by auto. reflexivity. Qed.
Lemma acc_at_app_r (u v : list T) o x : acc_at (u ++ v) (length u + o) x = u ++ acc_at v o x.
Proof.
  unfold acc_at. rewrite list_set_app_r, app_nth2 by lia.
  replace (length u + o - length u) with o by lia. reflexivity.
Qed.

Lemma length_ne A (l : list A) : 0 < length l -> l <> [].
Proof. destruct l; cbn; [lia|congruence]. Qed.

Lemma vset_lt A (v : list A) i x : i < length v -> vset v i x = Ret (list_set v i x).
Proof. intros H. unfold vset. destruct (Nat.ltb_spec i (length v)); [reflexivity|lia]. Qed.

(** The receiver of segment [s] and its slice, with the width as a parameter *)
Lemma segment_update w (Hw : 0 < w) : forall s (l : list T) (r : nat) x,
  r < w -> w * s + r < length l ->
  s < length (rchunks w l) /\
  exists sl, nth_error (rchunks w l) s = Some sl /\ r < length sl /\
    list_set (rchunks w l) s (acc_at sl r x) = rchunks w (acc_at l ((length l - w * (s + 1)) + r) x).
Proof.
  induction s as [|s IH]; intros l r x Hr Hl.
  - assert (Hne : l <> []) by (destruct l; [cbn in Hl; lia|congruence]).
    rewrite (rchunks_cons _ w l) by auto. cbn [length]. split; [lia|]. eexists. split; [reflexivity|].
    rewrite skipn_length. split; [lia|]. cbn [list_set].
    rewrite Nat.add_0_l, Nat.mul_1_r.
    set (u := firstn (length l - w) l). set (v := skipn (length l - w) l).
    assert (Hu : length u = length l - w) by (unfold u; rewrite firstn_length; lia).
    assert (E : l = u ++ v) by (symmetry; apply firstn_skipn).
    assert (E2 : acc_at l (length l - w + r) x = u ++ acc_at v r x).
    { rewrite E at 1. rewrite <- Hu. apply acc_at_app_r. }
    rewrite E2. rewrite (rchunks_cons _ w (u ++ acc_at v r x)) by (auto; apply (length_ne _); rewrite <- E2, acc_at_length; lia).
    assert (E4 : length (u ++ acc_at v r x) = length l) by (rewrite <- E2; apply acc_at_length).
    rewrite E4, <- Hu. rewrite skipn_app, firstn_app, skipn_all, firstn_all, Nat.sub_diag. cbn [skipn firstn app].
    rewrite app_nil_r. reflexivity.
  - assert (Hne : l <> []) by (destruct l; [cbn in Hl; lia|congruence]).
    set (u := firstn (length l - w) l). set (v := skipn (length l - w) l).
    assert (Hu : length u = length l - w) by (unfold u; rewrite firstn_length; lia).
    assert (E : l = u ++ v) by (symmetry; apply firstn_skipn).
    destruct (IH u r x Hr) as (H1 & sl & H2 & H3 & H4); [rewrite Hu; lia|].
    rewrite (rchunks_cons _ w l) by auto. fold u v. cbn [length]. split; [lia|]. exists sl. split; [exact H2|]. split; [exact H3|].
    cbn [list_set]. rewrite H4. rewrite Hu.
    replace (length l - w - w * (s + 1)) with (length l - w * (S s + 1)) by lia.
    set (p := length l - w * (S s + 1) + r).
    assert (Hp : p < length u) by (unfold p; rewrite Hu; nia).
    assert (E2 : acc_at l p x = acc_at u p x ++ v) by (rewrite E at 1; apply acc_at_app_l; auto).
    rewrite E2. rewrite (rchunks_cons _ w (acc_at u p x ++ v)) by (auto; apply (length_ne _); rewrite <- E2, acc_at_length; lia).
    assert (E4 : length (acc_at u p x ++ v) = length l) by (rewrite <- E2; apply acc_at_length).
    rewrite E4. replace (length l - w) with (length (acc_at u p x)) by (rewrite acc_at_length; auto).
    rewrite skipn_app, firstn_app, skipn_all, firstn_all, Nat.sub_diag. cbn [skipn firstn app].
    rewrite app_nil_r. reflexivity.
Qed.

Lemma deliver_ok (l : list T) g x :
  g < length l -> deliver (split_new l) (g, x) = Ret (split_new (acc_at l (phi width (length l) g) x)).
Proof.
  intros Hg. unfold split_new, deliver. cbn [fst].
  assert (Hw : 0 < width) by (unfold width; lia).
  pose proof (Nat.div_mod g width ltac:(lia)) as Hdm. pose proof (Nat.mod_upper_bound g width ltac:(lia)) as Hm.
  assert (Hsh : Nat.shiftr g bit_width = g / width) by (rewrite Nat.shiftr_div_pow2; reflexivity).
  destruct (segment_update width Hw (g / width) l (g mod width) x Hm) as (H1 & sl & H2 & H3 & H4); [lia|].
  unfold writer_channel. rewrite Hsh. destruct (Nat.ltb_spec (g / width) (length (rchunks width l))); [|lia].
  cbn [bind]. rewrite (vindex_some _ _ _ _ H2). cbn [bind]. unfold receive.
  replace (g / width * width) with (width * (g / width)) by lia.
  destruct (Nat.ltb_spec g (width * (g / width))); [lia|].
  replace (g - width * (g / width)) with (g mod width) by lia.
  destruct (Nat.ltb_spec (g mod width) (length sl)); [|lia]. cbn [assert bind].
  rewrite acc_at_ok by auto. cbn [bind]. rewrite vset_lt by auto. rewrite H4. reflexivity.
Qed.

Lemma deliver_fold A (f : A -> nat) (v : A -> T) (l : list A) : forall (arr : list T),
  (forall a, In a l -> f a < length arr) ->
  foldM deliver (map (fun a => (f a, v a)) l) (split_new arr) =
  Ret (split_new (fold_left (fun arr' a => acc_at arr' (phi width (length arr) (f a)) (v a)) l arr)).
Proof.
  induction l as [|a l IH]; intros arr H; [reflexivity|]. cbn [map foldM fold_left].
  rewrite deliver_ok by (apply H; left; auto). cbn [bind].
  rewrite IH by (intros b Hb; rewrite acc_at_length; apply H; right; auto).
  rewrite acc_at_length. reflexivity.
Qed.

(** ** [bmm] *)

Lemma list_prod_flat A B (l : list A) (m : list B) : list_prod l m = flat_map (fun a => map (pair a) m) l.
Proof. induction l; cbn; auto. rewrite IHl. reflexivity. Qed.

Lemma flat_map_flat_map A B C (f : A -> list B) (g : B -> list C) l :
  flat_map g (flat_map f l) = flat_map (fun a => flat_map g (f a)) l.
Proof. induction l; cbn; auto. rewrite flat_map_app, IHl. reflexivity. Qed.

Lemma filter_one A (f : A -> bool) (g : nat -> list A) n i0 :
  i0 < n -> (forall i, i < n -> i <> i0 -> filter f (g i) = []) ->
  filter f (flat_map g (seq 0 n)) = filter f (g i0).
Proof.
  intros Hi H. replace n with (i0 + S (n - S i0)) in * by lia. rewrite seq_app, flat_map_app, filter_app.
  cbn [seq flat_map plus]. rewrite filter_app.
  assert (E : forall k m, (forall x, In x (seq k m) -> x < i0 + S (n - S i0) /\ x <> i0) -> filter f (flat_map g (seq k m)) = []).
  { intros k m Hx. rewrite filter_flat_map. induction (seq k m) as [|y l IH]; auto. cbn.
    rewrite H by (apply (Hx y); left; auto). apply IH. intros; apply Hx; right; auto. }
  rewrite !E; [rewrite app_nil_r; reflexivity|..]; intros x Hx; apply in_seq in Hx; lia.
Qed.

Lemma filter_none A (f : A -> bool) l : (forall a, In a l -> f a = false) -> filter f l = [].
Proof. induction l; intros H; cbn; auto. rewrite H by (left; auto). apply IHl. intros; apply H; right; auto. Qed.

Lemma flat_map_nil' A B (f : A -> list B) l : (forall a, In a l -> f a = []) -> flat_map f l = [].
Proof. induction l; intros H; cbn; auto. rewrite H by (left; auto). apply IHl. intros; apply H; right; auto. Qed.

Lemma flat_map_single A B (f : A -> list B) (h : A -> B) l :
  (forall a, In a l -> f a = [h a]) -> flat_map f l = map h l.
Proof. induction l; intros H; cbn; auto. rewrite H by (left; auto). cbn. rewrite IHl; auto. intros; apply H; right; auto. Qed.

Section BmmJvp.
Variables (a b jac : raw T) (n kk m d0 : nat).
Hypotheses (Ha : wf a) (Hb : wf b) (Hj : wf jac)
  (Hsa : shape a = [n; kk]) (Hsb : shape b = [kk; m]) (Hsj : shape jac = [d0; n * m])
  (Hn : 0 < n) (Hk : 0 < kk) (Hm : 0 < m) (Hd : 0 < d0).

(** Messages, as (i, k, j, row) *)
Definition msgs : list (nat * nat * nat * nat) :=
  flat_map (fun i => flat_map (fun k => flat_map (fun j => map (fun r => (i, k, j, r)) (seq 0 d0))
    (seq 0 m)) (seq 0 kk)) (seq 0 n).
Definition lpos (x : nat * nat * nat * nat) : nat :=
  let '(i, k, j, r) := x in r * (n * kk) + (i * kk + k).
Definition rpos (x : nat * nat * nat * nat) : nat :=
  let '(i, k, j, r) := x in r * (kk * m) + (k * m + j).
Definition lmsg (x : nat * nat * nat * nat) : T :=
  let '(i, k, j, r) := x in n_mul (tval jac [r; i * m + j]) (tval b [k; j]).
Definition rmsg (x : nat * nat * nat * nat) : T :=
  let '(i, k, j, r) := x in n_mul (tval jac [r; i * m + j]) (tval a [i; k]).

Lemma in_msgs x : In x msgs <-> let '(i, k, j, r) := x in i < n /\ k < kk /\ j < m /\ r < d0.
Proof.
  destruct x as [[[i k] j] r]. unfold msgs. split.
  - intros H. apply in_flat_map in H as (i' & Hi & H). apply in_flat_map in H as (k' & Hk' & H).
    apply in_flat_map in H as (j' & Hj' & H). apply in_map_iff in H as (r' & E & Hr'). injection E as -> -> -> ->.
    apply in_seq in Hi, Hk', Hj', Hr'. lia.
  - intros (H1 & H2 & H3 & H4). apply in_flat_map. exists i. split; [apply in_seq; lia|].
    apply in_flat_map. exists k. split; [apply in_seq; lia|]. apply in_flat_map. exists j. split; [apply in_seq; lia|].
    apply in_map_iff. exists r. split; auto. apply in_seq; lia.
Qed.

Lemma bmm_task_ok i k j : i < n -> k < kk -> j < m ->
  bmm_task a b jac [n; m] [n * m; n * kk] [d0; n * kk] [d0; kk * m] i k j =
  Ret (map (fun r => ((lpos (i, k, j, r), lmsg (i, k, j, r)), (rpos (i, k, j, r), rmsg (i, k, j, r)))) (seq 0 d0)).
Proof.
  intros Hi Hkk Hjm. unfold bmm_task. rewrite Hsa, Hsb, Hsj.
  assert (H1 : i * m + j < n * m) by nia. assert (H2 : i * kk + k < n * kk) by nia. assert (H3 : k * m + j < kk * m) by nia.
  rewrite (global_index_in_range [n; m] [i; j]), (global_index_in_range [n; kk] [i; k]), (global_index_in_range [kk; m] [k; j])
    by (apply in_range_pair; auto).
  cbn [bind unwrap]. rewrite !rm_pair.
  change (vindex [n * m; n * kk] 0) with (Ret (n * m)). change (vindex [d0; n * m] 1) with (Ret (n * m)).
  change (vindex [n * m; n * kk] 1) with (Ret (n * kk)). change (vindex [d0; n * m] 0) with (Ret d0). cbn [bind].
  destruct (Nat.ltb_spec (i * m + j) (n * m)); [|lia]. destruct (Nat.ltb_spec (i * kk + k) (n * kk)); [|lia].
  cbn [assert bind]. apply mapM_pure. intros r Hr. apply in_seq in Hr.
  rewrite (global_index_in_range [d0; n * kk]) by (apply in_range_pair; lia). cbn [bind unwrap].
  rewrite (raw_at_in_range jac) by (auto; rewrite Hsj; apply in_range_pair; lia). cbn [bind].
  rewrite (raw_at_in_range b) by (auto; rewrite Hsb; apply in_range_pair; lia). cbn [bind].
  rewrite (global_index_in_range [d0; kk * m]) by (apply in_range_pair; lia). cbn [bind unwrap].
  rewrite (raw_at_in_range a) by (auto; rewrite Hsa; apply in_range_pair; lia). cbn [bind].
  rewrite !rm_pair. reflexivity.
Qed.

Definition acc_msgs (pos : nat * nat * nat * nat -> nat) (v : nat * nat * nat * nat -> T) (len : nat) : list T :=
  fold_left (fun arr x => acc_at arr (phi width len (pos x)) (v x)) msgs (repeat n_zero len).

Lemma lpos_lt x : In x msgs -> lpos x < d0 * (n * kk).
Proof.
  destruct x as [[[i k] j] r]. rewrite in_msgs. cbn. intros (H1 & H2 & H3 & H4).
  assert (i * kk + k < n * kk) by nia. nia.
Qed.
Lemma rpos_lt x : In x msgs -> rpos x < d0 * (kk * m).
Proof.
  destruct x as [[[i k] j] r]. rewrite in_msgs. cbn. intros (H1 & H2 & H3 & H4).
  assert (k * m + j < kk * m) by nia. nia.
Qed.

Lemma bmm_jvp_acc :
  bmm_jvp [a; b] [jac] =
  Ret [mkRaw (acc_msgs lpos lmsg (d0 * (n * kk))) [d0; n * kk];
       mkRaw (acc_msgs rpos rmsg (d0 * (kk * m))) [d0; kk * m]].
Proof.
  unfold bmm_jvp. cbn [two_one bind]. rewrite Hsa, Hsb, Hsj.
  change (vindex [n; kk] 1) with (Ret kk). change (vindex [kk; m] 0) with (Ret kk).
  change (vindex [n; kk] 0) with (Ret n). change (vindex [kk; m] 1) with (Ret m).
  change (vindex [d0; n * m] 0) with (Ret d0). cbn [bind]. rewrite Nat.eqb_refl. cbn [assert bind].
  rewrite (mapM_pure _ _ _ (fun '(i, k, j) => map (fun r => ((lpos (i, k, j, r), lmsg (i, k, j, r)), (rpos (i, k, j, r), rmsg (i, k, j, r)))) (seq 0 d0))).
  2: { intros [[i k] j] H. unfold ikj in H. apply in_prod_iff in H as [H H3]. apply in_prod_iff in H as [H1 H2].
       apply in_seq in H1, H2, H3. apply bmm_task_ok; lia. }
  cbn [bind]. rewrite <- flat_map_concat_map.
  assert (E : flat_map (fun '(i, k, j) => map (fun r => ((lpos (i, k, j, r), lmsg (i, k, j, r)), (rpos (i, k, j, r), rmsg (i, k, j, r)))) (seq 0 d0)) (ikj n kk m)
     = map (fun x => ((lpos x, lmsg x), (rpos x, rmsg x))) msgs).
  { unfold ikj, msgs. rewrite !list_prod_flat, !flat_map_flat_map, map_flat_map. apply flat_map_ext_in. intros i _.
    rewrite !flat_map_map, ?flat_map_flat_map, ?map_flat_map.
    apply flat_map_ext_in. intros k _. rewrite flat_map_map, map_flat_map. apply flat_map_ext_in. intros j _.
    rewrite map_map. reflexivity. }
  rewrite E. rewrite !map_map. cbn [fst snd].
  rewrite (deliver_fold _ lpos lmsg) by (intros x Hx; rewrite repeat_length; apply lpos_lt; auto). cbn [bind].
  rewrite (deliver_fold _ rpos rmsg) by (intros x Hx; rewrite repeat_length; apply rpos_lt; auto). cbn [bind].
  unfold split_new. rewrite !split_join_rchunks by (unfold width; lia). rewrite !repeat_length.
  rewrite !raw_new_ok by (rewrite acc_length, repeat_length, size_row; reflexivity). reflexivity.
Qed.

Lemma acc_msgs_nth pos v len q :
  (forall x, In x msgs -> pos x < len) -> q < len ->
  nth (phi width len q) (acc_msgs pos v len) n_zero = lsum (map v (filter (fun x => pos x =? q) msgs)).
Proof.
  intros H Hq. unfold acc_msgs. assert (Hw : 0 < width) by (unfold width; lia).
  rewrite (acc_nth _ msgs (fun x => phi width len (pos x)) v) by (intros x Hx; rewrite repeat_length; apply phi_lt; auto).
  rewrite repeat_nth by (apply phi_lt; auto). unfold lsum. do 2 f_equal. apply filter_ext_in. intros x Hx.
  destruct (Nat.eqb_spec (pos x) q) as [->|Hne]; [apply Nat.eqb_refl|].
  apply Nat.eqb_neq. intros E. apply Hne. eapply phi_inj; eauto.
Qed.

Lemma acc_msgs_length pos v len : length (acc_msgs pos v len) = len.
Proof. unfold acc_msgs. rewrite (acc_length _ msgs (fun x => phi width len (pos x)) v). apply repeat_length. Qed.

Lemma lfilter r i k : r < d0 -> i < n -> k < kk ->
  filter (fun x => lpos x =? r * (n * kk) + (i * kk + k)) msgs = map (fun j => (i, k, j, r)) (seq 0 m).
Proof.
  intros Hr Hi Hkk. unfold msgs.
  assert (Hpos : forall i' k' j' r', i' < n -> k' < kk -> r' < d0 ->
     lpos (i', k', j', r') = r * (n * kk) + (i * kk + k) -> i' = i /\ k' = k /\ r' = r).
  { intros i' k' j' r' H1 H2 H3 E. cbn in E. assert (i' * kk + k' < n * kk) by nia. assert (i * kk + k < n * kk) by nia.
    assert (r' = r) by nia. subst. assert (i' = i) by nia. subst. lia. }
  rewrite (filter_one _ _ _ n i Hi).
  2: { intros i' Hi' Hne. apply filter_none. intros x Hx. apply in_flat_map in Hx as (k' & Hk' & Hx).
       apply in_flat_map in Hx as (j' & Hj' & Hx). apply in_map_iff in Hx as (r' & <- & Hr').
       apply in_seq in Hk', Hj', Hr'. apply Nat.eqb_neq. intros E. apply Hpos in E; [|lia..]. lia. }
  rewrite (filter_one _ _ _ kk k Hkk).
  2: { intros k' Hk' Hne. apply filter_none. intros x Hx.
       apply in_flat_map in Hx as (j' & Hj' & Hx). apply in_map_iff in Hx as (r' & <- & Hr').
       apply in_seq in Hj', Hr'. apply Nat.eqb_neq. intros E. apply Hpos in E; [|lia..]. lia. }
  rewrite filter_flat_map. apply flat_map_single. intros j Hjm.
  transitivity (map (fun r' => (i, k, j, r')) (filter (fun r' => r' =? r) (seq 0 d0))).
  - assert (Hall : forall r', In r' (seq 0 d0) -> r' < d0) by (intros r' H; apply in_seq in H; lia).
    induction (seq 0 d0) as [|y t IH]; auto. cbn [map filter].
    destruct (Nat.eqb_spec (lpos (i, k, j, y)) (r * (n * kk) + (i * kk + k))) as [E|E].
    + apply Hpos in E as (_ & _ & ->); [|auto|auto|apply Hall; left; auto]. rewrite Nat.eqb_refl. cbn. f_equal. apply IH. intros; apply Hall; right; auto.
    + destruct (Nat.eqb_spec y r) as [->|]; [exfalso; apply E; reflexivity|]. apply IH. intros; apply Hall; right; auto.
  - rewrite filter_seq_eq by auto. reflexivity.
Qed.

Lemma rfilter r k j : r < d0 -> k < kk -> j < m ->
  filter (fun x => rpos x =? r * (kk * m) + (k * m + j)) msgs = map (fun i => (i, k, j, r)) (seq 0 n).
Proof.
  intros Hr Hkk Hjm. unfold msgs.
  assert (Hpos : forall i' k' j' r', k' < kk -> j' < m -> r' < d0 ->
     rpos (i', k', j', r') = r * (kk * m) + (k * m + j) -> k' = k /\ j' = j /\ r' = r).
  { intros i' k' j' r' H1 H2 H3 E. cbn in E. assert (k' * m + j' < kk * m) by nia. assert (k * m + j < kk * m) by nia.
    assert (r' = r) by nia. subst. assert (k' = k) by nia. subst. lia. }
  rewrite filter_flat_map. apply flat_map_single. intros i Hi.
  rewrite (filter_one _ _ _ kk k Hkk).
  2: { intros k' Hk' Hne. apply filter_none. intros x Hx.
       apply in_flat_map in Hx as (j' & Hj' & Hx). apply in_map_iff in Hx as (r' & <- & Hr').
       apply in_seq in Hj', Hr'. apply Nat.eqb_neq. intros E. apply Hpos in E; [|lia..]. lia. }
  rewrite (filter_one _ _ _ m j Hjm).
  2: { intros j' Hj' Hne. apply filter_none. intros x Hx. apply in_map_iff in Hx as (r' & <- & Hr').
       apply in_seq in Hr'. apply Nat.eqb_neq. intros E. apply Hpos in E; [|lia..]. lia. }
  transitivity (map (fun r' => (i, k, j, r')) (filter (fun r' => r' =? r) (seq 0 d0))).
  - assert (Hall : forall r', In r' (seq 0 d0) -> r' < d0) by (intros r' H; apply in_seq in H; lia).
    induction (seq 0 d0) as [|y t IH]; auto. cbn [map filter].
    destruct (Nat.eqb_spec (rpos (i, k, j, y)) (r * (kk * m) + (k * m + j))) as [E|E].
    + apply Hpos in E as (_ & _ & ->); [|auto|auto|apply Hall; left; auto]. rewrite Nat.eqb_refl. cbn. f_equal. apply IH. intros; apply Hall; right; auto.
    + destruct (Nat.eqb_spec y r) as [->|]; [exfalso; apply E; reflexivity|]. apply IH. intros; apply Hall; right; auto.
  - rewrite filter_seq_eq by auto. reflexivity.
Qed.

(** The gradients [bmm_jvp] returns, for every size: right values, at the positions [phi] gives. *)
Lemma bmm_jvp_ok :
  exists L R, bmm_jvp [a; b] [jac] = Ret [mkRaw L [d0; n * kk]; mkRaw R [d0; kk * m]] /\
    length L = d0 * (n * kk) /\ length R = d0 * (kk * m) /\
    (forall r i k, r < d0 -> i < n -> k < kk ->
       nth (phi width (d0 * (n * kk)) (r * (n * kk) + (i * kk + k))) L n_zero =
       sumn m (fun j => n_mul (tval jac [r; i * m + j]) (tval b [k; j]))) /\
    (forall r k j, r < d0 -> k < kk -> j < m ->
       nth (phi width (d0 * (kk * m)) (r * (kk * m) + (k * m + j))) R n_zero =
       sumn n (fun i => n_mul (tval jac [r; i * m + j]) (tval a [i; k]))).
Proof.
  eexists _, _. split; [apply bmm_jvp_acc|]. split; [apply acc_msgs_length|]. split; [apply acc_msgs_length|]. split.
  - intros r i k Hr Hi Hkk. assert (H1 : i * kk + k < n * kk) by nia.
    rewrite acc_msgs_nth by (try apply lpos_lt; nia). rewrite lfilter by auto. rewrite map_map. reflexivity.
  - intros r k j Hr Hkk Hjm. assert (H1 : k * m + j < kk * m) by nia.
    rewrite acc_msgs_nth by (try apply rpos_lt; nia). rewrite rfilter by auto. rewrite map_map. reflexivity.
Qed.

(** With at most 32 entries everything is in place. *)
Lemma bmm_jvp_small :
  d0 * (n * kk) <= width -> d0 * (kk * m) <= width ->
  bmm_jvp [a; b] [jac] =
  Ret [tabulate [d0; n * kk] (fun x => sumn m (fun j => n_mul (tval jac [ix 0 x; ix 1 x / kk * m + j]) (tval b [ix 1 x mod kk; j])));
       tabulate [d0; kk * m] (fun x => sumn n (fun i => n_mul (tval jac [ix 0 x; i * m + ix 1 x mod m]) (tval a [i; ix 1 x / m])))].
Proof.
  intros H1 H2. destruct bmm_jvp_ok as (L & R & E & HL & HR & HLv & HRv). rewrite E. clear E.
  assert (Hw : 0 < width) by (unfold width; lia).
  assert (EL : mkRaw L [d0; n * kk] = tabulate [d0; n * kk] (fun x => sumn m (fun j => n_mul (tval jac [ix 0 x; ix 1 x / kk * m + j]) (tval b [ix 1 x mod kk; j])))).
  { apply raw_ext; [unfold wf; cbn [array shape]; rewrite size_row; auto|apply tabulate_wf|reflexivity|].
    intros i Hi. cbn [shape] in Hi. rewrite tval_tabulate by auto.
    inversion Hi as [|? r ? l1 Hr Q1]; subst. inversion Q1 as [|? p ? l2 Hpp Q2]; subst. inversion Q2; subst.
    unfold ix, tval at 1. cbn [nth array shape]. rewrite rm_pair.
    assert (Hdv : p / kk < n) by (apply Nat.div_lt_upper_bound; lia).
    assert (Hmd : p mod kk < kk) by (apply Nat.mod_upper_bound; lia).
    rewrite <- HLv by auto. f_equal. rewrite phi_small by (auto; nia).
    f_equal. rewrite Nat.mul_comm. apply Nat.div_mod; lia. }
  assert (ER : mkRaw R [d0; kk * m] = tabulate [d0; kk * m] (fun x => sumn n (fun i => n_mul (tval jac [ix 0 x; i * m + ix 1 x mod m]) (tval a [i; ix 1 x / m])))).
  { apply raw_ext; [unfold wf; cbn [array shape]; rewrite size_row; auto|apply tabulate_wf|reflexivity|].
    intros i Hi. cbn [shape] in Hi. rewrite tval_tabulate by auto.
    inversion Hi as [|? r ? l1 Hr Q1]; subst. inversion Q1 as [|? p ? l2 Hpp Q2]; subst. inversion Q2; subst.
    unfold ix, tval at 1. cbn [nth array shape]. rewrite rm_pair.
    assert (Hdv : p / m < kk) by (apply Nat.div_lt_upper_bound; lia).
    assert (Hmd : p mod m < m) by (apply Nat.mod_upper_bound; lia).
    rewrite <- HRv by auto. f_equal. rewrite phi_small by (auto; nia).
    f_equal. rewrite Nat.mul_comm. apply Nat.div_mod; lia. }
  rewrite EL, ER. reflexivity.
Qed.

End BmmJvp.

End JvpFacts.
