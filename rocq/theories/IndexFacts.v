(** * IndexFacts: row-major arithmetic, iteration, [global_index], [tensor_index] *)
From Verif Require Import Base ModelIndex ModelTensor Spec Lists.

(** ** Sizes and positions *)

Lemma fold_mul_size s a : fold_left Nat.mul s a = a * size s.
Proof. revert a; induction s as [|d s IH]; intros a; simpl; [lia|]. rewrite IH. lia. Qed.

Lemma product_size s : product s = size s.
Proof. unfold product. rewrite fold_mul_size. lia. Qed.

Lemma size_app s1 s2 : size (s1 ++ s2) = size s1 * size s2.
Proof. induction s1; simpl; [lia|]. rewrite IHs1. lia. Qed.

Lemma size_rev s : size (rev s) = size s.
Proof. induction s; simpl; auto. rewrite size_app, IHs. simpl. lia. Qed.

Lemma size_pos s : positive s <-> 0 < size s.
Proof.
  split.
  - induction 1; simpl; lia.
  - induction s as [|d s IH]; simpl; intros H; constructor; [lia|]. apply IH. lia.
Qed.

Lemma positive_app s1 s2 : positive (s1 ++ s2) <-> positive s1 /\ positive s2.
Proof. apply Forall_app. Qed.

Lemma positive_rev s : positive s -> positive (rev s).
Proof. apply Forall_rev. Qed.

Lemma in_range_length s i : in_range s i -> length s = length i.
Proof. apply Forall2_length'. Qed.

Lemma rm_lt s i : in_range s i -> rm s i < size s.
Proof. induction 1; simpl; [lia|]. nia. Qed.

Lemma in_range_app s1 s2 i1 i2 : in_range s1 i1 -> in_range s2 i2 -> in_range (s1 ++ s2) (i1 ++ i2).
Proof. apply Forall2_app. Qed.

Lemma in_range_positive s i : in_range s i -> positive s.
Proof. induction 1; constructor; auto; lia. Qed.

Lemma rm_app s1 s2 i1 i2 :
  length s1 = length i1 -> rm (s1 ++ s2) (i1 ++ i2) = rm s1 i1 * size s2 + rm s2 i2.
Proof.
  revert i1; induction s1 as [|d s1 IH]; intros [|x i1] H; simpl in *; try discriminate; auto.
  rewrite size_app, IH by lia. lia.
Qed.

Lemma unravel_length s g : length (unravel s g) = length s.
Proof. revert g; induction s; intros; simpl; auto. Qed.

Lemma unravel_in_range s g : g < size s -> in_range s (unravel s g).
Proof.
  revert g; induction s as [|d s IH]; intros g H; simpl in *; [constructor|].
  assert (size s <> 0) by nia.
  constructor.
  - apply Nat.div_lt_upper_bound; lia.
  - apply IH. apply Nat.mod_upper_bound; auto.
Qed.

Lemma rm_unravel s g : g < size s -> rm s (unravel s g) = g.
Proof.
  revert g; induction s as [|d s IH]; intros g H; simpl in *; [lia|].
  assert (size s <> 0) by nia.
  rewrite IH by (apply Nat.mod_upper_bound; auto).
  rewrite (Nat.div_mod g (size s)) at 3 by auto. lia.
Qed.

Lemma unravel_rm s i : in_range s i -> unravel s (rm s i) = i.
Proof.
  induction 1 as [|d x s i Hx Hi IH]; simpl; auto.
  pose proof (rm_lt _ _ Hi).
  assert (size s <> 0) by lia.
  rewrite Nat.add_comm, Nat.div_add, Nat.mod_add by auto.
  rewrite Nat.div_small, Nat.mod_small by auto.
  simpl. rewrite IH. reflexivity.
Qed.

Lemma rm_inj s i j : in_range s i -> in_range s j -> rm s i = rm s j -> i = j.
Proof. intros Hi Hj E. rewrite <- (unravel_rm s i), <- (unravel_rm s j), E; auto. Qed.

(** ** All indices *)

Lemma seq_shift' n k : seq k n = map (Nat.add k) (seq 0 n).
Proof.
  assert (H : forall m, seq (k + m) n = map (Nat.add k) (seq m n)).
  { induction n as [|n IHn]; intros m; simpl; auto. f_equal. rewrite <- IHn. f_equal. lia. }
  specialize (H 0). rewrite Nat.add_0_r in H. exact H.
Qed.

Lemma all_indices_unravel s : all_indices s = map (unravel s) (seq 0 (size s)).
Proof.
  induction s as [|d s IH]; [reflexivity|].
  simpl all_indices. simpl size. rewrite seq_flat, map_flat_map.
  apply flat_map_ext_in. intros x _. rewrite IH, map_map.
  rewrite (seq_shift' (size s) (x * size s)), map_map. apply map_ext_in. intros y Hy. apply in_seq in Hy.
  simpl. assert (size s <> 0) by lia.
  rewrite Nat.add_comm, Nat.div_add, Nat.mod_add by auto.
  rewrite Nat.div_small, Nat.mod_small by lia. reflexivity.
Qed.

Lemma all_indices_length s : length (all_indices s) = size s.
Proof. rewrite all_indices_unravel, map_length, seq_length. reflexivity. Qed.

Lemma in_all_indices s i : In i (all_indices s) <-> in_range s i.
Proof.
  rewrite all_indices_unravel, in_map_iff. split.
  - intros (g & <- & Hg). apply in_seq in Hg. apply unravel_in_range; lia.
  - intros H. exists (rm s i). split; [apply unravel_rm; auto|].
    apply in_seq. pose proof (rm_lt _ _ H). lia.
Qed.

Lemma nth_all_indices s g d : g < size s -> nth g (all_indices s) d = unravel s g.
Proof. intros. rewrite all_indices_unravel. apply nth_map_seq; auto. Qed.

Lemma NoDup_all_indices s : NoDup (all_indices s).
Proof.
  rewrite all_indices_unravel.
  apply NoDup_map_inj; [|apply seq_NoDup].
  intros x y Hx Hy E. apply in_seq in Hx, Hy.
  apply (f_equal (rm s)) in E. rewrite !rm_unravel in E by lia. exact E.
Qed.

Lemma lex_lt_rm s i j : in_range s i -> in_range s j -> (lex_lt i j <-> rm s i < rm s j).
Proof.
  revert i j; induction s as [|d s IH]; intros i j Hi Hj.
  - inversion Hi; inversion Hj; subst. simpl. split; [inversion 1|lia].
  - inversion Hi as [|? x ? i' Hx Hi' ]; inversion Hj as [|? y ? j' Hy Hj']; subst.
    pose proof (rm_lt _ _ Hi'). pose proof (rm_lt _ _ Hj'). simpl. split.
    + intros HL; inversion HL as [? ? ? ? Hlt|? ? ? HL']; subst.
      * nia.
      * apply IH in HL'; auto. lia.
    + intros H1. destruct (lt_eq_lt_dec x y) as [[Hlt|Heq]|Hgt].
      * constructor; auto.
      * subst. apply lex_tail. apply IH; auto. lia.
      * nia.
Qed.

(** ** increment_index *)

Lemma inc_loop_cons n x i d s :
  n <= length i -> length i = length s ->
  inc_loop (S n) (x :: i) (d :: s) =
  (let* (i', b) := inc_loop n i s in
   if b then Ret (x :: i', true)
   else if d =? 0 then Panic PArith
   else if x <? d - 1 then Ret (x + 1 :: repeat 0 (length i), true)
   else Ret (x :: i', false)).
Proof.
  revert x i d s. induction n as [|n IH]; intros x i d s Hn Hl.
  - simpl. unfold vindex; simpl. destruct (d =? 0); auto. destruct (x <? d - 1); auto.
    unfold reset_trailing_indices. simpl. rewrite Nat.sub_0_r. reflexivity.
  - change (inc_loop (S (S n)) (x :: i) (d :: s)) with
      (let* v := vindex (x :: i) (S n) in
       let* dim := vindex (d :: s) (S n) in
       if dim =? 0 then Panic PArith
       else if v <? dim - 1
         then Ret (reset_trailing_indices (list_set (x :: i) (S n) (v + 1)) (S n), true)
         else inc_loop (S n) (x :: i) (d :: s)).
    change (inc_loop (S n) i s) with
      (let* v := vindex i n in
       let* dim := vindex s n in
       if dim =? 0 then Panic PArith
       else if v <? dim - 1
         then Ret (reset_trailing_indices (list_set i n (v + 1)) n, true)
         else inc_loop n i s).
    unfold vindex. simpl nth_error.
    destruct (nth_error i n) as [v|] eqn:Ev;
      [|apply nth_error_None in Ev; lia].
    destruct (nth_error s n) as [dim|] eqn:Ed;
      [|apply nth_error_None in Ed; lia].
    cbn [bind]. destruct (dim =? 0); auto.
    destruct (v <? dim - 1) eqn:E.
    + reflexivity.
    + rewrite IH by lia. reflexivity.
Qed.

Lemma increment_cons x i d s :
  length i = length s ->
  increment_index (x :: i) (d :: s) =
  (let* (i', b) := increment_index i s in
   if b then Ret (x :: i', true)
   else if d =? 0 then Panic PArith
   else if x <? d - 1 then Ret (x + 1 :: repeat 0 (length i), true)
   else Ret (x :: i', false)).
Proof. intros H. unfold increment_index. simpl length. apply inc_loop_cons; auto. Qed.

Lemma unravel_0 s : unravel s 0 = repeat 0 (length s).
Proof.
  induction s as [|d s IH]; simpl; auto.
  destruct (Nat.eq_dec (size s) 0) as [E|E].
  - rewrite E. simpl. f_equal. exact IH.
  - rewrite Nat.div_0_l, Nat.mod_0_l by auto. f_equal; auto.
Qed.

(** Incrementing the index of position [g] gives that of [g+1], or reports the end and leaves the
    index alone. *)
Lemma increment_unravel s g :
  positive s -> g < size s ->
  increment_index (unravel s g) s =
  if S g <? size s then Ret (unravel s (S g), true) else Ret (unravel s g, false).
Proof.
  revert g. induction s as [|d s IH]; intros g Hp Hg.
  - simpl in *. destruct (Nat.ltb_spec (S g) 1); try lia. reflexivity.
  - inversion Hp as [|? ? Hd Hs]; subst. pose proof (proj1 (size_pos s) Hs) as Hsz.
    simpl unravel. rewrite increment_cons by apply unravel_length.
    set (n := size s) in *. simpl size in *. fold n in Hg |- *.
    pose proof (Nat.div_mod g n ltac:(lia)) as Hdm.
    pose proof (Nat.mod_upper_bound g n ltac:(lia)) as Hmod.
    rewrite IH by (auto; fold n; lia). fold n.
    assert (Hq : g / n < d) by (apply Nat.div_lt_upper_bound; lia).
    assert (Hsucc : forall q r, r < n -> S g = q * n + r ->
                      S g / n = q /\ S g mod n = r).
    { intros q r Hr ->. rewrite (Nat.add_comm (q * n)), Nat.div_add, Nat.mod_add by lia.
      rewrite Nat.div_small, Nat.mod_small by lia. auto. }
    revert Hdm Hmod Hq Hsucc. generalize (g / n) as q. generalize (g mod n) as r.
    intros r q Hdm Hr Hq Hsucc.
    destruct (Nat.ltb_spec (S r) n) as [H1|H1]; cbn [bind].
    + destruct (Hsucc q (S r)) as [E1 E2]; [lia|nia|].
      destruct (Nat.ltb_spec (S g) (d * n)) as [H2|H2]; [|nia].
      rewrite E1, E2. reflexivity.
    + destruct (Hsucc (q + 1) 0) as [E1 E2]; [lia|nia|].
      destruct (Nat.eqb_spec d 0); [lia|].
      destruct (Nat.ltb_spec q (d - 1)) as [H2|H2].
      * destruct (Nat.ltb_spec (S g) (d * n)) as [H3|H3]; [|nia].
        rewrite E1, E2. rewrite unravel_0, unravel_length. reflexivity.
      * destruct (Nat.ltb_spec (S g) (d * n)) as [H3|H3]; [nia|]. reflexivity.
Qed.

Lemma product_max1 s : positive s -> product (map (Nat.max 1) s) = size s.
Proof.
  intros H. rewrite product_size. f_equal.
  induction H; [reflexivity|]. cbn [map]. f_equal; [lia|auto].
Qed.

(** ** Loops over the index iterator are loops over [all_indices] *)

Lemma iter_fold_index_aux A (body : A -> list nat -> outcome A) s :
  positive s ->
  forall n g fuel acc, g + S n = size s -> n < fuel ->
  iter_fold index_iter_next body fuel (mkII (unravel s g) s false) acc =
  foldM body (map (unravel s) (seq (S g) n)) acc.
Proof.
  intros Hp. induction n as [|n IH]; intros g fuel acc Hg Hf;
    destruct fuel as [|fuel]; try lia; simpl.
  - unfold index_iter_next; simpl. rewrite increment_unravel by (auto; lia).
    destruct (Nat.ltb_spec (S g) (size s)); [lia|]. reflexivity.
  - unfold index_iter_next at 1; simpl. rewrite increment_unravel by (auto; lia).
    destruct (Nat.ltb_spec (S g) (size s)); [|lia]. simpl.
    destruct (body acc (unravel s (S g))); simpl; auto.
    apply IH; lia.
Qed.

Lemma iter_fold_index A (body : A -> list nat -> outcome A) s acc :
  positive s ->
  iter_fold index_iter_next body (index_fuel s) (index_iter_new s) acc =
  foldM body (all_indices s) acc.
Proof.
  intros Hp. pose proof (proj1 (size_pos s) Hp) as Hs.
  unfold index_fuel. rewrite product_max1 by auto.
  unfold index_iter_new. simpl. rewrite <- unravel_0.
  rewrite all_indices_unravel.
  destruct (size s) as [|n] eqn:E; [lia|].
  simpl. destruct (body acc (unravel s 0)); simpl; auto.
  rewrite <- (iter_fold_index_aux A body s Hp n 0 (S n)); auto; lia.
Qed.

Lemma iter_all_index_aux (test : list nat -> outcome bool) (t : list nat -> bool) s :
  positive s -> (forall i, in_range s i -> test i = Ret (t i)) ->
  forall n g fuel, g + S n = size s -> n < fuel ->
  iter_all index_iter_next test fuel (mkII (unravel s g) s false) =
  Ret (forallb t (map (unravel s) (seq (S g) n))).
Proof.
  intros Hp Ht. induction n as [|n IH]; intros g fuel Hg Hf;
    destruct fuel as [|fuel]; try lia; simpl.
  - unfold index_iter_next; simpl. rewrite increment_unravel by (auto; lia).
    destruct (Nat.ltb_spec (S g) (size s)); [lia|]. reflexivity.
  - unfold index_iter_next at 1; simpl. rewrite increment_unravel by (auto; lia).
    destruct (Nat.ltb_spec (S g) (size s)); [|lia]. simpl.
    rewrite Ht by (apply unravel_in_range; auto). simpl.
    destruct (t (unravel s (S g))); simpl; auto. apply IH; lia.
Qed.

Lemma iter_all_index (test : list nat -> outcome bool) (t : list nat -> bool) s :
  positive s -> (forall i, in_range s i -> test i = Ret (t i)) ->
  iter_all index_iter_next test (index_fuel s) (index_iter_new s) =
  Ret (forallb t (all_indices s)).
Proof.
  intros Hp Ht. pose proof (proj1 (size_pos s) Hp) as Hs.
  unfold index_fuel. rewrite product_max1 by auto.
  unfold index_iter_new. simpl. rewrite <- unravel_0.
  rewrite all_indices_unravel.
  destruct (size s) as [|n] eqn:E; [lia|].
  simpl. rewrite Ht by (apply unravel_in_range; lia). simpl.
  destruct (t (unravel s 0)); simpl; auto.
  rewrite <- (iter_all_index_aux test t s Hp Ht n 0 (S n)); auto; lia.
Qed.

(** A hand-written [loop { body; if !increment { break } }] over the indices of [s] with a state *)
Lemma index_iter_collect_ok s : positive s -> index_iter_collect s = Ret (all_indices s).
Proof.
  intros Hp. unfold index_iter_collect. rewrite iter_fold_index by auto.
  rewrite foldM_pure with (g := fun acc i => acc ++ [i]) by auto.
  rewrite fold_left_snoc with (f := fun i => i). rewrite map_id. reflexivity.
Qed.

(** ** tensor_index *)

Lemma ti_loop_ok s g acc :
  positive s ->
  ti_loop (rev s) g acc = Ret (unravel s (g mod size s) ++ acc, g / size s).
Proof.
  revert g acc. induction s as [|d s IH] using rev_ind; intros g acc Hp.
  - cbn [rev ti_loop size unravel app]. rewrite Nat.div_1_r. reflexivity.
  - apply positive_app in Hp as [Hs Hd]. inversion Hd as [|? ? Hd' _]; subst.
    rewrite rev_app_distr. simpl. destruct (Nat.eqb_spec d 0); [lia|].
    rewrite IH by auto. rewrite size_app. simpl. rewrite Nat.mul_1_r.
    pose proof (proj1 (size_pos s) Hs).
    f_equal. f_equal.
    + assert (H1 : forall h, h < size s * d -> unravel (s ++ [d]) h = unravel s (h / d) ++ [h mod d]).
      { intros h Hh.
        assert (Hq : h / d < size s) by (apply Nat.div_lt_upper_bound; lia).
        assert (Hm : h mod d < d) by (apply Nat.mod_upper_bound; lia).
        apply rm_inj with (s := s ++ [d]).
        - apply unravel_in_range. rewrite size_app; simpl; lia.
        - apply in_range_app; [apply unravel_in_range; auto|]. repeat constructor; auto.
        - rewrite rm_unravel by (rewrite size_app; simpl; lia).
          rewrite rm_app by (rewrite unravel_length; auto).
          rewrite rm_unravel by auto. simpl.
          rewrite (Nat.div_mod h d) at 1 by lia. lia. }
      rewrite H1 by (apply Nat.mod_upper_bound; nia).
      rewrite <- app_assoc. simpl. f_equal.
      * f_equal. rewrite Nat.mul_comm. rewrite Nat.mod_mul_r by lia.
        rewrite Nat.add_comm, Nat.mul_comm, Nat.div_add_l by lia.
        rewrite (Nat.div_small (g mod d)) by (apply Nat.mod_upper_bound; lia). lia.
      * f_equal. rewrite (Nat.mul_comm (size s) d). rewrite Nat.mod_mul_r by lia.
        rewrite Nat.add_comm, Nat.mul_comm, Nat.add_comm, Nat.mod_add by lia.
        rewrite Nat.mod_mod by lia. reflexivity.
    + rewrite Nat.mul_comm. rewrite Nat.div_div by lia. reflexivity.
Qed.

Lemma tensor_index_ok s g :
  positive s ->
  tensor_index g s = if g <? size s then Ret (Ok (unravel s g)) else Ret (Err ErrBig).
Proof.
  intros Hp. pose proof (proj1 (size_pos s) Hp).
  unfold tensor_index. rewrite ti_loop_ok by auto. cbn [bind].
  destruct (Nat.ltb_spec g (size s)) as [H1|H1].
  - rewrite Nat.div_small, Nat.mod_small by auto. simpl. rewrite app_nil_r. reflexivity.
  - assert (1 <= g / size s) by (apply Nat.div_le_lower_bound; lia).
    destruct (Nat.ltb_spec 0 (g / size s)); [reflexivity|lia].
Qed.

(** ** global_index without offset *)

(** Little-endian position, on reversed lists *)
Fixpoint lrm (rs ri : list nat) : nat :=
  match rs, ri with
  | d :: rs', x :: ri' => x + d * lrm rs' ri'
  | _, _ => 0
  end.

Lemma lrm_rm s i : length s = length i -> lrm (rev s) (rev i) = rm s i.
Proof.
  revert i. induction s as [|d s IH] using rev_ind; intros i H.
  - destruct i; [reflexivity|discriminate].
  - destruct i as [|x i] using rev_ind; [rewrite app_length in H; simpl in H; lia|]. clear IHi.
    rewrite !app_length in H. simpl in H.
    rewrite !rev_app_distr. simpl. rewrite IH by lia.
    rewrite rm_app by lia. simpl. lia.
Qed.

Lemma resolves_length rs ri i : resolves_rev rs ri i -> length i = length rs.
Proof. induction 1; simpl; auto. Qed.

Lemma resolves_rev_det rs ri i j : resolves_rev rs ri i -> resolves_rev rs ri j -> i = j.
Proof.
  intros H; revert j; induction H; intros j Hj; inversion Hj; subst; auto; try congruence;
    f_equal; auto.
Qed.

Lemma resolves_rev_in_range rs ri i : resolves_rev rs ri i -> Forall2 (fun d x => x < d) rs i.
Proof. induction 1; constructor; auto; lia. Qed.

Lemma resolves_in_range s idx i : resolves s idx i -> in_range s i.
Proof.
  intros H. apply resolves_rev_in_range in H. apply Forall2_rev in H.
  rewrite !rev_involutive in H. exact H.
Qed.

(** [gi_loop] succeeds exactly on resolvable indices. *)
Lemma gi_loop_none rank rs ri pos g m :
  Forall (fun d => d <= 1) (skipn (length ri) rs) ->
  Forall (fun d => 0 < d) rs ->
  (exists i, resolves_rev rs ri i /\
     gi_loop rank None (combine rs ri) pos g m = Ret (Ok (g + m * lrm rs i))) \/
  ((forall i, ~ resolves_rev rs ri i) /\ exists e, gi_loop rank None (combine rs ri) pos g m = Ret (Err e)).
Proof.
  revert ri pos g m. induction rs as [|d rs IH]; intros ri pos g m Hsk Hpos.
  - left. exists []. split; [constructor|]. simpl. f_equal. f_equal. lia.
  - inversion Hpos as [|? ? Hd Hrs]; subst.
    destruct ri as [|x ri].
    + simpl in Hsk. inversion Hsk as [|? ? H1 H2]; subst.
      assert (d = 1) by lia. subst d.
      destruct (IH [] pos g m) as [(i & Hi & E)|(Hn & e & E)]; auto.
      * left. exists (0 :: i). split; [constructor; auto|].
        simpl in *. destruct rs; simpl in *; injection E as E; f_equal; f_equal; lia.
      * exfalso. destruct rs; simpl in E; discriminate.
    + simpl in Hsk. simpl combine. simpl gi_loop.
      destruct (Nat.eqb_spec d 1) as [->|Hd1].
      * destruct (IH ri (S pos) g m) as [(i & Hi & E)|(Hn & e & E)]; auto.
        -- left. exists (0 :: i). split; [constructor; auto|]. rewrite E. simpl. f_equal. f_equal. lia.
        -- right. split; [|eauto]. intros i Hi. inversion Hi; subst; [eapply Hn; eauto|lia].
      * cbn [bind]. destruct (Nat.leb_spec d x) as [Hx|Hx].
        -- right. split; [|eauto]. intros i Hi. inversion Hi; subst; lia.
        -- destruct (IH ri (S pos) (g + x * m) (m * d)) as [(i & Hi & E)|(Hn & e & E)]; auto.
           ++ left. exists (x :: i). split; [constructor; auto|]. rewrite E. simpl. f_equal. f_equal. lia.
           ++ right. split; [|eauto]. intros i Hi. inversion Hi; subst; [lia|]. eapply Hn; eauto.
Qed.

Lemma existsb_short (s : list nat) n :
  n <= length s -> positive s ->
  existsb (fun dim => 1 <? dim) (firstn n s) = true <->
  ~ Forall (fun d => d <= 1) (skipn (length s - n) (rev s)).
Proof.
  intros Hn Hp. rewrite skipn_rev. replace (length s - (length s - n)) with n by lia.
  rewrite existsb_exists. split.
  - intros (d & Hin & Hd) HF. apply Nat.ltb_lt in Hd. rewrite Forall_forall in HF.
    specialize (HF d). rewrite <- in_rev in HF. specialize (HF Hin). lia.
  - intros HF. destruct (existsb (fun dim => 1 <? dim) (firstn n s)) eqn:E.
    + apply existsb_exists; auto.
    + exfalso. apply HF. apply Forall_forall. intros d Hd. rewrite <- in_rev in Hd.
      destruct (le_lt_dec d 1); auto.
      assert (existsb (fun dim => 1 <? dim) (firstn n s) = true).
      { apply existsb_exists. exists d. split; auto. apply Nat.ltb_lt; auto. }
      congruence.
Qed.

Lemma resolves_short_ones rs ri i :
  resolves_rev rs ri i -> Forall (fun d => d <= 1) (skipn (length ri) rs).
Proof. induction 1; simpl in *; auto. rewrite skipn_nil; auto. Qed.

(** The complete behaviour of [global_index] without offset, on shapes without zero dimension. *)
Lemma global_index_none idx s :
  positive s ->
  (exists i, resolves s idx i /\ global_index idx s None = Ret (Ok (rm s i))) \/
  ((forall i, ~ resolves s idx i) /\ exists e, global_index idx s None = Ret (Err e)).
Proof.
  intros Hp. unfold global_index.
  destruct ((length idx <? length s) &&
            existsb (fun dim => 1 <? dim) (firstn (length s - length idx) s)) eqn:E.
  - right. apply andb_true_iff in E as [E1 E2]. apply Nat.ltb_lt in E1.
    split; [|eauto]. intros i Hi. apply existsb_short in E2; auto; [|lia].
    apply E2. replace (length s - (length s - length idx)) with (length idx) by lia.
    apply resolves_short_ones in Hi. rewrite rev_length in Hi. exact Hi.
  - assert (HF : Forall (fun d => d <= 1) (skipn (length (rev idx)) (rev s))).
    { rewrite rev_length. destruct (le_lt_dec (length s) (length idx)) as [H|H].
      - rewrite skipn_all2 by (rewrite rev_length; lia). constructor.
      - apply andb_false_iff in E as [E|E]; [apply Nat.ltb_ge in E; lia|].
        destruct (Forall_dec (fun d => d <= 1) (fun d => le_dec d 1) (skipn (length idx) (rev s))) as [|Hn]; auto.
        exfalso.
        pose proof (existsb_short s (length s - length idx) ltac:(lia) Hp) as [_ Hx].
        replace (length s - (length s - length idx)) with (length idx) in Hx by lia.
        rewrite Hx in E; auto; discriminate. }
    destruct (gi_loop_none (length s) (rev s) (rev idx) 0 0 1 HF (positive_rev _ Hp))
      as [(i & Hi & Eg)|(Hn & e & Eg)].
    + left. exists (rev i). unfold resolves. rewrite rev_involutive. split; auto.
      rewrite Eg. f_equal. f_equal.
      rewrite <- (rev_involutive i) at 1. rewrite lrm_rm; [lia|].
      rewrite rev_length. apply resolves_length in Hi. rewrite rev_length in Hi. auto.
    + right. split; [|eauto]. intros i Hi. eapply Hn; eauto.
Qed.

Lemma resolves_det s idx i j : resolves s idx i -> resolves s idx j -> i = j.
Proof.
  intros H1 H2. pose proof (resolves_rev_det _ _ _ _ H1 H2) as E.
  rewrite <- (rev_involutive i), <- (rev_involutive j), E. reflexivity.
Qed.

Lemma global_index_resolves s idx i :
  positive s -> resolves s idx i -> global_index idx s None = Ret (Ok (rm s i)).
Proof.
  intros Hp Hi. destruct (global_index_none idx s Hp) as [(j & Hj & E)|(Hn & _)].
  - rewrite E. f_equal. f_equal. f_equal. eapply resolves_det; eauto.
  - exfalso. eapply Hn; eauto.
Qed.

(** In-range indices resolve to themselves. *)
Lemma resolves_rev_self rs i : Forall2 (fun d x => x < d) rs i -> resolves_rev rs i i.
Proof.
  induction 1 as [|d x rs i Hx Hi IH]; [constructor|].
  destruct (Nat.eq_dec d 1) as [->|Hd].
  - assert (x = 0) by lia. subst. constructor; auto.
  - constructor; auto.
Qed.

Lemma resolves_self s i : in_range s i -> resolves s i i.
Proof. intros H. apply resolves_rev_self. apply Forall2_rev. exact H. Qed.

Lemma global_index_in_range s i :
  in_range s i -> global_index i s None = Ret (Ok (rm s i)).
Proof.
  intros H. apply global_index_resolves; [eapply in_range_positive; eauto|apply resolves_self; auto].
Qed.

(** ** global_index with an offset *)

Lemma wres_short_ones rs ro ri i :
  wresolves_rev rs ro ri i -> Forall (fun d => d <= 1) (skipn (length ri) rs).
Proof. induction 1; simpl in *; auto. rewrite skipn_nil; auto. Qed.

Lemma wres_length rs ro ri i : wresolves_rev rs ro ri i -> length i = length rs.
Proof. induction 1; simpl; auto. Qed.

Lemma skipn_cons_nth A (l : list A) n x t : skipn n l = x :: t -> nth_error l n = Some x /\ skipn (S n) l = t.
Proof.
  revert l; induction n as [|n IH]; intros [|a l] H; simpl in *; try discriminate.
  - injection H as -> ->. auto.
  - apply IH; auto.
Qed.

Lemma gi_loop_some o rs ro ri pos g m :
  ro = skipn pos (rev o) -> length rs = length ro ->
  Forall (fun r => sr_start r <= sr_end r) ro ->
  Forall (fun d => d <= 1) (skipn (length ri) rs) ->
  Forall (fun d => 0 < d) rs ->
  (exists i, wresolves_rev rs ro ri i /\
     gi_loop (length o) (Some o) (combine rs ri) pos g m = Ret (Ok (g + m * lrm rs i))) \/
  ((forall i, ~ wresolves_rev rs ro ri i) /\
   exists e, gi_loop (length o) (Some o) (combine rs ri) pos g m = Ret (Err e)).
Proof.
  revert ro ri pos g m. induction rs as [|d rs IH]; intros ro ri pos g m Ero Hl Hv Hsk Hpos.
  - destruct ro; [|discriminate]. left. exists []. split; [constructor|]. simpl. f_equal. f_equal. lia.
  - destruct ro as [|r ro]; [discriminate|]. simpl in Hl.
    inversion Hpos as [|? ? Hd Hrs]; subst. inversion Hv as [|? ? Hr Hv']; subst.
    symmetry in Ero. apply skipn_cons_nth in Ero as [Enth Ero]. symmetry in Ero.
    destruct ri as [|x ri].
    + simpl in Hsk. apply Forall_cons_iff in Hsk as [H1 H2].
      assert (d = 1) by lia. subst d.
      destruct (IH ro [] (S pos) g m Ero ltac:(lia) Hv') as [(i & Hi & E)|(Hn & e & E)]; auto.
      * left. exists (0 :: i). split; [constructor; auto|].
        simpl in *. destruct rs; simpl in *; injection E as E; f_equal; f_equal; lia.
      * exfalso. destruct rs; simpl in E; discriminate.
    + simpl in Hsk. simpl combine. simpl gi_loop.
      assert (Hp : pos < length (rev o)) by (apply nth_error_Some; congruence).
      rewrite rev_length in Hp.
      destruct (Nat.eqb_spec d 1) as [->|Hd1].
      * destruct (IH ro ri (S pos) g m Ero ltac:(lia) Hv') as [(i & Hi & E)|(Hn & e & E)]; auto.
        -- left. exists (0 :: i). split; [constructor; auto|]. rewrite E. simpl. f_equal. f_equal. lia.
        -- right. split; [|eauto]. intros i Hi. inversion Hi; subst; [eapply Hn; eauto|lia].
      * rewrite nth_error_rev in Enth by auto.
        replace (length o - pos - 1) with (length o - S pos) by lia.
        rewrite (vindex_some _ _ _ _ Enth). cbn [bind].
        destruct (Nat.ltb_spec (sr_end r) (sr_start r)); [lia|]. cbn [bind].
        destruct (Nat.leb_spec (sr_end r - sr_start r) x) as [Hx|Hx].
        -- right. split; [|eauto]. intros i Hi. inversion Hi; subst; lia.
        -- destruct (Nat.leb_spec d (sr_start r + x)) as [Hx2|Hx2].
           ++ right. split; [|eauto]. intros i Hi. inversion Hi; subst; lia.
           ++ destruct (IH ro ri (S pos) (g + (sr_start r + x) * m) (m * d) Ero ltac:(lia) Hv')
                as [(i & Hi & E)|(Hn & e & E)]; auto.
              ** left. exists (sr_start r + x :: i). split; [constructor; auto|].
                 rewrite E. simpl. f_equal. f_equal. lia.
              ** right. split; [|eauto]. intros i Hi. inversion Hi; subst; [lia|]. eapply Hn; eauto.
Qed.

Lemma global_index_some idx s o :
  positive s -> length s = length o -> valid_ranges o ->
  (exists i, wresolves s o idx i /\ global_index idx s (Some o) = Ret (Ok (rm s i))) \/
  ((forall i, ~ wresolves s o idx i) /\ exists e, global_index idx s (Some o) = Ret (Err e)).
Proof.
  intros Hp Hlen Hv. unfold global_index.
  destruct ((length idx <? length s) &&
            existsb (fun dim => 1 <? dim) (firstn (length s - length idx) s)) eqn:E.
  - right. apply andb_true_iff in E as [E1 E2]. apply Nat.ltb_lt in E1.
    split; [|eauto]. intros i Hi. apply existsb_short in E2; auto; [|lia].
    apply E2. replace (length s - (length s - length idx)) with (length idx) by lia.
    apply wres_short_ones in Hi. rewrite rev_length in Hi. exact Hi.
  - assert (HF : Forall (fun d => d <= 1) (skipn (length (rev idx)) (rev s))).
    { rewrite rev_length. destruct (le_lt_dec (length s) (length idx)) as [H|H].
      - rewrite skipn_all2 by (rewrite rev_length; lia). constructor.
      - apply andb_false_iff in E as [E|E]; [apply Nat.ltb_ge in E; lia|].
        destruct (Forall_dec (fun d => d <= 1) (fun d => le_dec d 1) (skipn (length idx) (rev s))) as [|Hn]; auto.
        exfalso.
        pose proof (existsb_short s (length s - length idx) ltac:(lia) Hp) as [_ Hx].
        replace (length s - (length s - length idx)) with (length idx) in Hx by lia.
        rewrite Hx in E; auto; discriminate. }
    rewrite Hlen.
    destruct (gi_loop_some o (rev s) (rev o) (rev idx) 0 0 1) as [(i & Hi & Eg)|(Hn & e & Eg)];
      auto; [rewrite !rev_length; auto|apply Forall_rev; exact Hv|apply positive_rev; auto| |].
    + left. exists (rev i). unfold wresolves. rewrite rev_involutive. split; auto.
      rewrite Eg. f_equal. f_equal.
      rewrite <- (rev_involutive i) at 1. rewrite lrm_rm; [lia|].
      rewrite rev_length. apply wres_length in Hi. rewrite rev_length in Hi. auto.
    + right. split; [|eauto]. intros i Hi. eapply Hn; eauto.
Qed.

Lemma wresolves_rev_det rs ro ri i j : wresolves_rev rs ro ri i -> wresolves_rev rs ro ri j -> i = j.
Proof.
  intros H; revert j; induction H; intros j Hj; inversion Hj; subst; auto; try congruence;
    f_equal; auto.
Qed.

Lemma wresolves_det s o idx i j : wresolves s o idx i -> wresolves s o idx j -> i = j.
Proof.
  intros H1 H2. pose proof (wresolves_rev_det _ _ _ _ _ H1 H2) as E.
  rewrite <- (rev_involutive i), <- (rev_involutive j), E. reflexivity.
Qed.

Lemma wresolves_in_range s o idx i : wresolves s o idx i -> in_range s i.
Proof.
  intros H.
  assert (Hr : Forall2 (fun d x => x < d) (rev s) (rev i)).
  { unfold wresolves in H. revert H. generalize (rev s) (rev o) (rev idx) (rev i).
    induction 1; constructor; auto; lia. }
  apply Forall2_rev in Hr. rewrite !rev_involutive in Hr. exact Hr.
Qed.

Lemma window_shape_rev o : window_shape (rev o) = rev (window_shape o).
Proof. unfold window_shape. rewrite map_rev. reflexivity. Qed.

Lemma shift_rev o i : length o = length i -> shift (rev o) (rev i) = rev (shift o i).
Proof.
  revert i. induction o as [|r o IH]; intros [|x i] H; simpl in *; try discriminate; auto.
  unfold shift in *. rewrite combine_app by (rewrite !rev_length; lia).
  rewrite map_app, IH by lia. reflexivity.
Qed.

(** In-range view indices stand for the shifted index. *)
Lemma wresolves_shift s o i :
  window_ok s o -> in_range (window_shape o) i -> wresolves s o i (shift o i).
Proof.
  intros Hw Hi. unfold wresolves.
  pose proof (in_range_length _ _ Hi) as Hl. unfold window_shape in Hl. rewrite map_length in Hl.
  rewrite <- shift_rev by auto.
  apply Forall2_rev in Hw. apply Forall2_rev in Hi. rewrite <- window_shape_rev in Hi.
  revert Hw Hi. generalize (rev s) (rev o) (rev i). clear.
  intros s o i Hw. revert i. induction Hw as [|d r s o Hr Hw IH]; intros i Hi.
  - inversion Hi; subst. constructor.
  - inversion Hi as [|? x ? i' Hx Hi']; subst. change (shift (r :: o) (x :: i')) with (sr_start r + x :: shift o i').
    destruct (Nat.eq_dec d 1) as [->|Hd].
    + assert (sr_start r + x = 0) as -> by lia. constructor. apply IH; auto.
    + constructor; auto; lia.
Qed.

Lemma shift_in_range s o i :
  window_ok s o -> in_range (window_shape o) i -> in_range s (shift o i).
Proof. intros Hw Hi. eapply wresolves_in_range. apply wresolves_shift; eauto. Qed.

Lemma window_positive s o : window_ok s o -> positive (window_shape o) -> positive s.
Proof.
  unfold positive, window_shape. intros Hw. rewrite Forall_map. induction Hw; intros H'; inversion H'; subst; constructor; auto. lia.
Qed.

Lemma window_valid o : positive (window_shape o) -> valid_ranges o.
Proof.
  unfold positive, window_shape. rewrite Forall_map. induction 1; constructor; auto; lia.
Qed.

Lemma global_index_window s o i :
  window_ok s o -> in_range (window_shape o) i ->
  global_index i s (Some o) = Ret (Ok (rm s (shift o i))).
Proof.
  intros Hw Hi. pose proof (in_range_positive _ _ Hi) as Hp.
  pose proof (wresolves_shift _ _ _ Hw Hi) as Hr.
  destruct (global_index_some i s o) as [(j & Hj & E)|(Hn & _)].
  - eapply window_positive; eauto.
  - eapply Forall2_length'; eauto.
  - eapply window_valid; eauto.
  - rewrite E. do 3 f_equal. eapply wresolves_det; eauto.
  - exfalso. eapply Hn; eauto.
Qed.
