(** * ClaimsWord: index arithmetic on machine words (C09, C10) *)
From Coq Require Import NArith.
From Verif Require Import Base ModelIndex ModelTensor ModelWord Spec SpecWord Lists IndexFacts.
Local Open Scope N_scope.

Definition lift (r : result nat) : result N := match r with Ok g => Ok (N.of_nat g) | Err e => Err e end.

Lemma word_small M md x : x < M -> word M md x = Ret x.
Proof. intros H. unfold word. apply N.ltb_lt in H. rewrite H. reflexivity. Qed.

Lemma eqb_nat a b : (N.of_nat a =? N.of_nat b) = (a =? b)%nat.
Proof. destruct (Nat.eqb_spec a b) as [->|H]; [apply N.eqb_refl|]. apply N.eqb_neq. lia. Qed.
Lemma leb_nat a b : (N.of_nat a <=? N.of_nat b) = (a <=? b)%nat.
Proof. destruct (Nat.leb_spec a b); [apply N.leb_le|apply N.leb_gt]; lia. Qed.
Lemma ltb_nat a b : (N.of_nat a <? N.of_nat b) = (a <? b)%nat.
Proof. destruct (Nat.ltb_spec a b); [apply N.ltb_lt|apply N.ltb_ge]; lia. Qed.

Definition off_ok (M : N) (md : profile) (offset : option (list slice_range)) (idx : list nat) : Prop :=
  match offset with
  | None => True
  | Some o => forall r, In r o -> (sr_start r <= sr_end r)%nat /\ N.of_nat (sr_end r) < M /\
      (md = Checked -> forall x, In x idx -> N.of_nat (sr_start r + x) < M)
  end.

Lemma size_pos l : Forall (fun d => (0 < d)%nat) l -> (0 < size l)%nat.
Proof. induction 1; cbn [size]; [lia|]. apply Nat.mul_pos_pos; auto. Qed.

Lemma w_gi_sim M md rank offset pairs : forall pos g m r,
  Forall (fun '(d, x) => (0 < d)%nat /\ N.of_nat d < M /\ N.of_nat x < M) pairs ->
  off_ok M md offset (map snd pairs) ->
  N.of_nat (m * size (map fst pairs)) < M -> (g < m)%nat ->
  gi_loop rank offset pairs pos g m = Ret r ->
  w_gi_loop M md rank (option_map word_ranges offset) (map (fun '(d, x) => (N.of_nat d, N.of_nat x)) pairs) pos (N.of_nat g) (N.of_nat m) = Ret (lift r).
Proof.
  induction pairs as [|[d x] pairs IH]; intros pos g m r HF HO HM Hg E.
  - cbn in E. injection E as <-. reflexivity.
  - apply Forall_cons_iff in HF as [(Hd & HdM & HxM) HF]. cbn [map fst size] in HM. cbn [gi_loop] in E. cbn [map w_gi_loop].
    assert (SP : (0 < size (map fst pairs))%nat).
    { apply size_pos. apply Forall_forall. intros z Hz. apply in_map_iff in Hz as ([z' y] & <- & Hz). rewrite Forall_forall in HF. apply (HF _ Hz). }
    assert (HO' : off_ok M md offset (map snd pairs)).
    { destruct offset as [o|]; [|exact I]. intros q Hq. destruct (HO q Hq) as (A & B & C). split; [exact A|]. split; [exact B|]. intros Hc z Hz. apply C; auto. cbn [map In]. auto. }
    change 1 with (N.of_nat 1). rewrite eqb_nat. destruct (Nat.eqb_spec d 1) as [->|Hd1].
    + apply IH; auto. nia.
    + assert (STEP : forall y, (y < d)%nat -> gi_loop rank offset pairs (S pos) (g + y * m) (m * d) = Ret r ->
        (let* p := w_mul M md (N.of_nat y) (N.of_nat m) in let* g0 := w_add M md (N.of_nat g) p in let* m0 := w_mul M md (N.of_nat m) (N.of_nat d) in
         w_gi_loop M md rank (option_map word_ranges offset) (map (fun '(d, x) => (N.of_nat d, N.of_nat x)) pairs) (S pos) g0 m0) = Ret (lift r)).
      { intros y Hy E'. unfold w_mul, w_add.
        assert (B1 : N.of_nat (m * d) < M) by (revert HM SP; generalize (size (map fst pairs)); intros; nia).
        assert (B2 : (g + y * m < m * d)%nat) by nia.
        rewrite (word_small M md (N.of_nat y * N.of_nat m)) by nia. cbn [bind].
        rewrite (word_small M md (N.of_nat g + _)) by nia. cbn [bind].
        rewrite (word_small M md (N.of_nat m * _)) by nia. cbn [bind].
        replace (N.of_nat g + N.of_nat y * N.of_nat m) with (N.of_nat (g + y * m)) by lia. rewrite <- Nat2N.inj_mul.
        apply IH; auto. rewrite <- Nat.mul_assoc. exact HM. }
      destruct offset as [o|]; cbn [option_map] in *.
      * unfold vindex, word_ranges in *. rewrite nth_error_map. destruct (nth_error o (rank - pos - 1)) as [q|] eqn:Eq; cbn [option_map bind] in *; [|discriminate].
        destruct (HO q ltac:(eapply nth_error_In; eauto)) as (Hq & HqM & HqC).
        destruct (Nat.ltb_spec (sr_end q) (sr_start q)); [lia|]. cbn [bind] in E.
        unfold w_sub at 1. rewrite leb_nat. destruct (Nat.leb_spec (sr_start q) (sr_end q)); [|lia]. cbn [bind].
        assert (W : exists z, w_add M md (N.of_nat (sr_start q)) (N.of_nat x) = Ret z /\ ((x < sr_end q - sr_start q)%nat -> z = N.of_nat (sr_start q + x))).
        { unfold w_add. destruct (N.lt_ge_cases (N.of_nat (sr_start q + x)) M) as [L|L].
          - rewrite word_small by lia. eexists. split; [reflexivity|]. lia.
          - destruct md; [specialize (HqC eq_refl x ltac:(cbn; auto)); lia|]. unfold word. destruct (N.ltb_spec (N.of_nat (sr_start q) + N.of_nat x) M); [lia|].
            eexists. split; [reflexivity|]. lia. }
        destruct W as (z & EW & Hz). rewrite EW. cbn [bind].
        rewrite <- Nat2N.inj_sub, leb_nat. destruct (Nat.leb_spec (sr_end q - sr_start q) x); [injection E as <-; reflexivity|].
        rewrite Hz by lia. rewrite leb_nat. destruct (Nat.leb_spec d (sr_start q + x)); [injection E as <-; reflexivity|].
        apply STEP; auto.
      * cbn [bind] in *. rewrite leb_nat. destruct (Nat.leb_spec d x); [injection E as <-; reflexivity|]. apply STEP; auto.
Qed.

Lemma existsb_words l : existsb (fun dim => 1 <? dim) (words l) = existsb (fun dim => 1 <? dim)%nat l.
Proof. induction l as [|d l IH]; [reflexivity|]. cbn [words map existsb]. change 1 with (N.of_nat 1) at 1. rewrite ltb_nat. f_equal. exact IH. Qed.

Lemma combine_size (a b : list nat) : Forall (fun d => (0 < d)%nat) a -> (size (map fst (combine a b)) <= size a)%nat.
Proof.
  revert b. induction a as [|d a IH]; intros [|x b] HF; cbn [combine map size fst]; try lia.
  - apply Forall_cons_iff in HF as [Hd HF]. pose proof (size_pos _ HF). nia.
  - apply Forall_cons_iff in HF as [Hd HF]. specialize (IH b HF). nia.
Qed.

Lemma combine_map {A B C D} (f : A -> C) (g : B -> D) a b : combine (map f a) (map g b) = map (fun '(x, y) => (f x, g y)) (combine a b).
Proof. revert b. induction a as [|x a IH]; intros [|y b]; cbn; auto. f_equal. apply IH. Qed.

Lemma w_global_index_sim M md idx s offset r : positive s -> fits M s -> fits M idx -> N.of_nat (size s) < M -> off_ok M md offset idx ->
  global_index idx s offset = Ret r -> w_global_index M md (words idx) (words s) (option_map word_ranges offset) = Ret (lift r).
Proof.
  intros HP HS HI HM HO E. unfold w_global_index, global_index in *. unfold words. rewrite !map_length, firstn_map. fold (words (firstn (length s - length idx) s)). rewrite existsb_words.
  destruct (_ && _); [injection E as <-; reflexivity|]. rewrite <- !map_rev, combine_map.
  apply (w_gi_sim M md (length s) offset (combine (rev s) (rev idx)) 0 0 1 r); auto.
  - apply Forall_forall. intros [d x] H. pose proof (in_combine_l _ _ _ _ H) as H1. pose proof (in_combine_r _ _ _ _ H) as H2. rewrite <- in_rev in H1, H2.
    unfold positive, fits in *. rewrite Forall_forall in HP, HS, HI. auto.
  - destruct offset as [o|]; [|exact I]. intros q Hq. destruct (HO q Hq) as (A & B & C). split; [exact A|]. split; [exact B|]. intros Hc x Hx. apply C; auto.
    apply in_map_iff in Hx as ([d y] & <- & Hx). apply in_combine_r in Hx. rewrite <- in_rev in Hx. exact Hx.
  - pose proof (combine_size (rev s) (rev idx) (Forall_rev HP)) as L. rewrite size_rev in L. lia.
Qed.

(** C09: for every tensor without zero dimension whose length fits in a word, in both profiles, the
    position of any index is the mathematical one or an [Err]. *)
Lemma c09_positions :
  forall (M : N) (md : profile) (s idx : list nat), positive s -> fits M s -> fits M idx -> N.of_nat (size s) < M ->
    (exists i, resolves s idx i /\ w_global_index M md (words idx) (words s) None = Ret (Ok (N.of_nat (rm s i)))) \/
    ((forall i, ~ resolves s idx i) /\ exists e, w_global_index M md (words idx) (words s) None = Ret (Err e)).
Proof.
  intros M md s idx HP HS HI HM. destruct (global_index_none idx s HP) as [(i & Hi & E)|(Hn & e & E)].
  - left. exists i. split; [exact Hi|]. exact (w_global_index_sim M md idx s None _ HP HS HI HM I E).
  - right. split; [exact Hn|]. exists e. exact (w_global_index_sim M md idx s None _ HP HS HI HM I E).
Qed.
Example c09_positions_ex : positive [3; 5]%nat /\ fits 16 [3; 5]%nat /\ fits 16 [2; 4]%nat /\ N.of_nat (size [3; 5]%nat) < 16 /\
  w_global_index 16 Checked (words [2; 4]%nat) (words [3; 5]%nat) None = Ret (Ok 14) /\ w_global_index 16 Wrapping (words [15; 4]%nat) (words [3; 5]%nat) None = Ret (Err ErrView).
Proof. repeat split; try reflexivity; repeat constructor; lia. Qed.

(** a checked product that succeeds is the mathematical one *)
Lemma w_product_ok M md l : forall a, no_overflow M a l -> foldM (w_mul M md) l a = Ret (a * prod l).
Proof.
  induction l as [|d l IH]; intros a H; cbn [foldM prod fold_right]; [rewrite N.mul_1_r; reflexivity|].
  inversion H; subst. unfold w_mul at 1. rewrite word_small by auto. cbn [bind]. rewrite IH by auto. f_equal. unfold prod. lia.
Qed.
Lemma w_product_checked M l : forall a x, foldM (w_mul M Checked) l a = Ret x -> no_overflow M a l.
Proof.
  induction l as [|d l IH]; intros a x E; [constructor|]. cbn [foldM] in E. unfold w_mul at 1, word in E. destruct (N.ltb_spec (a * d) M); [|discriminate].
  cbn [bind] in E. constructor; eauto.
Qed.
Lemma prod_words s : prod (words s) = N.of_nat (size s).
Proof. induction s as [|d s IH]; [reflexivity|]. unfold prod in *. cbn [words map fold_right size]. change (map N.of_nat s) with (words s). rewrite IH. lia. Qed.
Lemma no_overflow_last M l : forall a, a < M -> no_overflow M a l -> a * prod l < M.
Proof.
  induction l as [|d l IH]; intros a Ha H; unfold prod; cbn [fold_right]; [lia|]. inversion H; subst. fold (prod l). rewrite N.mul_assoc. apply IH; auto.
Qed.

(** C09: in particular for every tensor the constructor accepted in the dev profile *)
Lemma c09_built_positions :
  forall (M : N) (md : profile) (A : Type) (a : list A) (s idx : list nat), 1 < M -> w_new M Checked a (words s) = Ret tt ->
    positive s -> fits M s -> fits M idx ->
    (exists i, resolves s idx i /\ w_global_index M md (words idx) (words s) None = Ret (Ok (N.of_nat (rm s i))) /\
       exists x, nth_error a (rm s i) = Some x /\ w_get M md a (words s) (words idx) = Ret (Ok x)) \/
    ((forall i, ~ resolves s idx i) /\ exists e, w_global_index M md (words idx) (words s) None = Ret (Err e) /\ w_get M md a (words s) (words idx) = Ret (Err e)).
Proof.
  intros M md A a s idx M1 E HP HS HI. unfold w_new in E. destruct (w_product M Checked (words s)) as [len| |] eqn:EL; [|discriminate|discriminate]. cbn [bind] in E.
  pose proof (w_product_checked _ _ _ _ EL) as NO. unfold w_product in EL. rewrite (w_product_ok _ _ _ _ NO), prod_words, N.mul_1_l in EL. injection EL as <-.
  unfold assert in E. destruct (N.eqb_spec (N.of_nat (size s)) (N.of_nat (length a))) as [L|]; [|discriminate]. apply Nat2N.inj in L.
  assert (HM : N.of_nat (size s) < M) by (pose proof (no_overflow_last M _ 1 M1 NO) as Q; rewrite prod_words in Q; lia).
  destruct (c09_positions M md s idx HP HS HI HM) as [(i & Hi & EG)|(Hn & e & EG)].
  - left. exists i. split; [exact Hi|]. split; [exact EG|]. assert (B : (rm s i < length a)%nat) by (rewrite <- L; apply rm_lt; eapply resolves_in_range; eauto).
    destruct (nth_error a (rm s i)) as [x|] eqn:Ex; [|apply nth_error_None in Ex; lia]. exists x. split; [reflexivity|].
    unfold w_get. rewrite EG. cbn [bind]. rewrite ltb_nat. destruct (Nat.ltb_spec (rm s i) (length a)); [|lia]. rewrite Nat2N.id. unfold vindex. rewrite Ex. reflexivity.
  - right. split; [exact Hn|]. exists e. split; [exact EG|]. unfold w_get. rewrite EG. reflexivity.
Qed.
Example c09_built_positions_ex : 1 < 2 ^ 64 /\ w_new (2 ^ 64) Checked [5; 6; 7; 8; 9; 10]%nat (words [2; 3]%nat) = Ret tt /\ positive [2; 3]%nat /\
  fits (2 ^ 64) [2; 3]%nat /\ fits (2 ^ 64) [7; 1; 2]%nat /\ w_get (2 ^ 64) Wrapping [5; 6; 7; 8; 9; 10]%nat (words [2; 3]%nat) (words [7; 1; 2]%nat) = Ret (Ok 10%nat).
Proof. split; [lia|]. split; [reflexivity|]. split; [repeat constructor|]. split; [repeat constructor|]. split; [repeat constructor|]. vm_compute. reflexivity. Qed.

(** C09: positions in views.  In the release profile no index overflows; in the dev profile none for which
    the range start plus the coordinate fits in a word. *)
Lemma c09_view_positions :
  forall (M : N) (md : profile) (s : list nat) (o : list slice_range) (idx : list nat), positive s -> fits M s -> fits M idx -> N.of_nat (size s) < M ->
    valid_ranges o -> window_ok s o ->
    (md = Checked -> forall r x, In r o -> In x idx -> N.of_nat (sr_start r + x) < M) ->
    (exists i, wresolves s o idx i /\ w_global_index M md (words idx) (words s) (Some (word_ranges o)) = Ret (Ok (N.of_nat (rm s i)))) \/
    ((forall i, ~ wresolves s o idx i) /\ exists e, w_global_index M md (words idx) (words s) (Some (word_ranges o)) = Ret (Err e)).
Proof.
  intros M md s o idx HP HS HI HM HV HW HC.
  assert (HO : off_ok M md (Some o) idx).
  { intros r Hr. split; [unfold valid_ranges in HV; rewrite Forall_forall in HV; auto|]. split; [|auto].
    clear - HW HS Hr. revert HS Hr. induction HW as [|d q s o Hd HW IH]; intros HS Hr; [destruct Hr|]. apply Forall_cons_iff in HS as [H1 H2].
    destruct Hr as [->|Hr]; [|auto]. apply N.le_lt_trans with (N.of_nat d); [lia|exact H1]. }
  assert (HL : length s = length o) by (clear - HW; induction HW; cbn; auto).
  destruct (global_index_some idx s o HP HL HV) as [(i & Hi & E)|(Hn & e & E)].
  - left. exists i. split; [exact Hi|]. exact (w_global_index_sim M md idx s (Some o) _ HP HS HI HM HO E).
  - right. split; [exact Hn|]. exists e. exact (w_global_index_sim M md idx s (Some o) _ HP HS HI HM HO E).
Qed.
Example c09_view_positions_ex : positive [3]%nat /\ fits 8 [3]%nat /\ fits 8 [7]%nat /\ N.of_nat (size [3]%nat) < 8 /\ valid_ranges [mkSR 1%nat 3%nat] /\ window_ok [3%nat] [mkSR 1%nat 3%nat] /\
  w_global_index 8 Wrapping (words [7]%nat) (words [3]%nat) (Some (word_ranges [mkSR 1%nat 3%nat])) = Ret (Err ErrView) /\
  w_global_index 8 Wrapping (words [1]%nat) (words [3]%nat) (Some (word_ranges [mkSR 1%nat 3%nat])) = Ret (Ok 2).
Proof. repeat split; try reflexivity; repeat constructor; cbn; lia. Qed.

(** C09: beyond that, in the dev profile, a view index can overflow instead of giving an [Err]: with any
    word size, looking up the largest coordinate in a window that does not start at 0. *)
Lemma c09_view_overflow_refuted :
  ~ forall (M : N) (s : list N) (o : list (N * N)) (idx : list N), 4 <= M -> Forall (fun x => x < M) s -> Forall (fun x => x < M) idx ->
    Forall2 (fun d r => fst r <= snd r /\ snd r <= d) s o -> w_global_index M Checked idx s (Some o) <> Panic PArith.
Proof.
  intros H. apply (H (2 ^ 64) [3] [(1, 3)] [2 ^ 64 - 1]); [lia| | |repeat constructor; cbn; lia|vm_compute; reflexivity]; repeat constructor; lia.
Qed.

(** C09: zero dimensions are different: an accepted empty tensor on which looking up an index overflows *)
Lemma c09_zero_dimension_overflows :
  forall (A : Type), w_new (2 ^ 64) Checked (@nil A) [0; 2 ^ 40; 2 ^ 40] = Ret tt /\
    w_global_index (2 ^ 64) Checked [0; 0; 0] [0; 2 ^ 40; 2 ^ 40] None = Panic PArith /\
    w_global_index (2 ^ 64) Wrapping [0; 0; 0] [0; 2 ^ 40; 2 ^ 40] None = Ret (Err ErrView).
Proof. intros A. vm_compute. auto. Qed.

(** [increment_index] and [tensor_index] on words *)
Lemma words_set l i x : words (list_set l i x) = list_set (words l) i (N.of_nat x).
Proof. revert i. induction l as [|a l IH]; intros [|i]; cbn; auto. f_equal. apply IH. Qed.
Lemma w_inc_sim M md n : forall idx s r, 1 < M -> fits M s -> fits M idx -> inc_loop n idx s = Ret r ->
  w_inc_loop M md n (words idx) (words s) = Ret (words (fst r), snd r).
Proof.
  induction n as [|i IH]; intros idx s r M1 HS HI E; cbn [inc_loop w_inc_loop] in *; [injection E as <-; reflexivity|].
  unfold vindex, words in *. rewrite !nth_error_map. destruct (nth_error idx i) as [v|] eqn:Ev; [|discriminate]. cbn [option_map bind] in *.
  destruct (nth_error s i) as [d|] eqn:Ed; [|discriminate]. cbn [option_map bind] in *. destruct (Nat.eqb_spec d 0) as [|Hd]; [discriminate|].
  unfold w_sub at 1. change 1 with (N.of_nat 1) at 1. rewrite leb_nat. destruct (Nat.leb_spec 1 d); [|lia]. cbn [bind].
  change 1 with (N.of_nat 1) at 1. rewrite <- Nat2N.inj_sub, ltb_nat. destruct (Nat.ltb_spec v (d - 1)) as [Hv|Hv].
  - injection E as <-. cbn [fst snd]. apply nth_error_In in Ed. unfold fits in HS. rewrite Forall_forall in HS. specialize (HS d Ed).
    unfold w_add. rewrite word_small by lia. cbn [bind]. unfold reset_trailing_indices. rewrite map_app, <- firstn_map. do 2 f_equal. f_equal.
    + f_equal. fold (words (list_set idx i (v + 1)%nat)). rewrite words_set. unfold words. f_equal. lia.
    + rewrite map_length. assert (LL : length (list_set idx i (v + 1)%nat) = length idx) by (clear; revert i; induction idx as [|? ? IH]; intros [|i]; cbn; auto).
      rewrite LL. generalize (length idx - (i + 1))%nat. intros k. induction k as [|k IHk]; cbn; [reflexivity|]. f_equal. exact IHk.
  - apply IH; auto.
Qed.

(** C09: stepping to the next index never overflows for shapes without zero dimension: both profiles
    compute what unbounded arithmetic does ... *)
Lemma c09_increment :
  forall (M : N) (md : profile) (s i : list nat), 1 < M -> fits M s -> positive s -> in_range s i ->
    exists i' more, increment_index i s = Ret (i', more) /\ w_increment_index M md (words i) (words s) = Ret (words i', more).
Proof.
  intros M md s i M1 HS HP HR.
  assert (HI : fits M i). { unfold fits in *. clear HP. induction HR as [|d x s i Hd HR IH]; [constructor|]. apply Forall_cons_iff in HS as [H1 H2]. constructor; [lia|auto]. }
  assert (HL : length s = length i) by (clear - HR; induction HR; cbn; auto).
  assert (G : forall n, (n <= length i)%nat -> exists r, inc_loop n i s = Ret r).
  { induction n as [|n IH]; intros Hn; cbn [inc_loop]; [eauto|]. unfold vindex.
    destruct (nth_error i n) as [v|] eqn:Ev; [|apply nth_error_None in Ev; lia]. destruct (nth_error s n) as [d|] eqn:Ed; [|apply nth_error_None in Ed; lia]. cbn [bind].
    destruct (Nat.eqb_spec d 0) as [->|]; [apply nth_error_In in Ed; unfold positive in HP; rewrite Forall_forall in HP; specialize (HP _ Ed); lia|].
    destruct (v <? d - 1)%nat; [eauto|]. apply IH. lia. }
  destruct (G (length i) ltac:(lia)) as ([i' more] & E). exists i', more. split; [exact E|]. unfold w_increment_index, words. rewrite map_length.
  exact (w_inc_sim M md (length i) i s (i', more) M1 HS HI E).
Qed.
Example c09_increment_ex : 1 < 8 /\ fits 8 [2; 7]%nat /\ positive [2; 7]%nat /\ in_range [2; 7]%nat [0; 6]%nat /\
  w_increment_index 8 Checked (words [0; 6]%nat) (words [2; 7]%nat) = Ret ([1; 0], true).
Proof. repeat split; try reflexivity; repeat constructor; lia. Qed.

(** C09: ... and for a zero dimension the release profile goes on to indices that do not exist: [dim - 1]
    wraps, so that an index iterator over the shape [0] yields one index for every word. *)
Lemma c09_increment_zero_dimension :
  forall (M v : N), v + 1 < M -> w_increment_index M Checked [v] [0] = Panic PArith /\ w_increment_index M Wrapping [v] [0] = Ret ([v + 1], true).
Proof.
  intros M v H. split; [reflexivity|]. unfold w_increment_index. cbn [length w_inc_loop vindex nth_error bind]. unfold w_sub. cbn [N.leb N.compare bind].
  destruct (N.ltb_spec v (0 + M - 1)); [|lia]. unfold w_add. rewrite word_small by auto. reflexivity.
Qed.
Example c09_increment_zero_dimension_ex : w_increment_index (2 ^ 64) Wrapping [41] [0] = Ret ([42], true).
Proof. vm_compute. reflexivity. Qed.

(** C09: going back from positions to indices divides only: no overflow for any shape and position *)
Lemma c09_tensor_index :
  forall (s : list nat) (g : nat),
    w_tensor_index (N.of_nat g) (words s) =
    match tensor_index g s with Ret (Ok i) => Ret (Ok (words i)) | Ret (Err e) => Ret (Err e) | Panic p => Panic p | NoFuel => NoFuel end.
Proof.
  intros s g. unfold w_tensor_index, tensor_index.
  assert (G : forall rs g acc, w_ti_loop (words rs) (N.of_nat g) (words acc) = match ti_loop rs g acc with Ret (i, r) => Ret (words i, N.of_nat r) | Panic p => Panic p | NoFuel => NoFuel end).
  { clear. induction rs as [|d rs IH]; intros g acc; cbn [words map w_ti_loop ti_loop]; [reflexivity|]. change 0 with (N.of_nat 0) at 1. rewrite eqb_nat.
    destruct (d =? 0)%nat; [reflexivity|]. rewrite <- IH. unfold words. cbn [map]. rewrite Nat2N.inj_div, Nat2N.inj_mod. reflexivity. }
  specialize (G (rev s) g []). unfold words in G at 1 2. cbn [map] in G. unfold words at 1. rewrite <- map_rev, G. destruct (ti_loop (rev s) g []) as [[i r]| |]; cbn [bind]; auto.
  change 0 with (N.of_nat 0) at 1. rewrite ltb_nat. destruct (0 <? r)%nat; reflexivity.
Qed.
Example c09_tensor_index_ex : w_tensor_index 11 (words [3; 4]%nat) = Ret (Ok [2; 3]) /\ w_tensor_index 12 (words [3; 4]%nat) = Ret (Err ErrBig).
Proof. split; reflexivity. Qed.

(** C10: false in the release profile: an empty array is accepted with shape [2^32, 2^32]. *)
Lemma c10_wrapping_refuted :
  ~ forall (A : Type) (a : list A) (s : list N), Forall (fun d => d < 2 ^ 64) s -> w_new (2 ^ 64) Wrapping a s = Ret tt -> N.of_nat (length a) = prod s.
Proof.
  intros H. specialize (H unit [] [2 ^ 32; 2 ^ 32]). assert (B : N.of_nat (length (@nil unit)) = prod [2 ^ 32; 2 ^ 32]) by (apply H; [repeat constructor; lia|vm_compute; reflexivity]).
  vm_compute in B. discriminate.
Qed.

(** C10: what the release profile checks is the length modulo the word size. *)
Lemma c10_wrapping_exact :
  forall (M : N) (A : Type) (a : list A) (s : list N), 1 < M ->
    w_new M Wrapping a s = Ret tt <-> N.of_nat (length a) = prod s mod M.
Proof.
  intros M A a s M1. unfold w_new, w_product.
  assert (G : forall l x, foldM (w_mul M Wrapping) l (x mod M) = Ret ((x * prod l) mod M)).
  { induction l as [|d l IH]; intros x; cbn [foldM]; [unfold prod; cbn [fold_right]; rewrite N.mul_1_r; reflexivity|].
    assert (E : w_mul M Wrapping (x mod M) d = Ret ((x * d) mod M)).
    { unfold w_mul, word. rewrite <- (N.mul_mod_idemp_l x d M) by lia. destruct (N.ltb_spec (x mod M * d) M); [rewrite (N.mod_small (x mod M * d) M) by auto; reflexivity|reflexivity]. }
    rewrite E. cbn [bind]. rewrite IH. unfold prod. cbn [fold_right]. do 2 f_equal. lia. }
  pose proof (G s 1) as E. rewrite (N.mod_small 1 M), N.mul_1_l in E by auto. rewrite E. cbn [bind]. unfold assert.
  destruct (N.eqb_spec (prod s mod M) (N.of_nat (length a))) as [Q|Q]; split; intros H; auto; try discriminate; congruence.
Qed.
Example c10_wrapping_exact_ex : 1 < 2 ^ 64 /\ w_new (2 ^ 64) Wrapping [7; 7; 7]%nat [3; 2 ^ 63 + 1; 1] <> Ret tt /\ prod [2 ^ 63 + 3; 2] mod 2 ^ 64 = 6 /\
  w_new (2 ^ 64) Wrapping [1; 2; 3; 4; 5; 6]%nat [2 ^ 63 + 3; 2] = Ret tt.
Proof. split; [lia|]. split; [vm_compute; discriminate|]. split; vm_compute; reflexivity. Qed.

(** C10: it holds in the dev profile: [new] accepts exactly the arrays of the right length whose shape
    multiplies without overflow from the left. *)
Lemma c10_checked :
  forall (M : N) (A : Type) (a : list A) (s : list N),
    w_new M Checked a s = Ret tt <-> (N.of_nat (length a) = prod s /\ no_overflow M 1 s).
Proof.
  intros M A a s. unfold w_new, w_product. split.
  - intros E. destruct (foldM (w_mul M Checked) s 1) as [len| |] eqn:EL; [|discriminate|discriminate]. pose proof (w_product_checked _ _ _ _ EL) as NO. split; [|exact NO].
    rewrite (w_product_ok _ _ _ _ NO) in EL. assert (Q : 1 * prod s = len) by congruence. clear EL. cbn [bind] in E. unfold assert in E. destruct (N.eqb_spec len (N.of_nat (length a))); [|discriminate]. lia.
  - intros [L NO]. rewrite (w_product_ok _ _ _ _ NO). cbn [bind]. unfold assert. destruct (N.eqb_spec (1 * prod s) (N.of_nat (length a))); [reflexivity|lia].
Qed.
Example c10_checked_ex : w_new 16 Checked [1; 2; 3; 4; 5; 6]%nat [2; 3] = Ret tt /\ w_new 16 Checked (@nil nat) [4; 4] = Panic PArith /\
  w_new 16 Checked (@nil nat) [4; 4; 0] = Panic PArith /\ w_new 16 Checked (@nil nat) [0; 4; 4] = Ret tt.
Proof. repeat split; reflexivity. Qed.

(** C10: without zero dimension, a shape is accepted in the dev profile exactly if the product fits. *)
Lemma c10_checked_positive :
  forall (M : N) (A : Type) (a : list A) (s : list N), Forall (fun d => 0 < d) s -> 1 < M ->
    w_new M Checked a s = Ret tt <-> (N.of_nat (length a) = prod s /\ prod s < M).
Proof.
  intros M A a s HP M1. rewrite c10_checked. split; intros [L H]; (split; [exact L|]).
  - pose proof (no_overflow_last M s 1 M1 H). lia.
  - clear L a A. assert (G : forall x, 0 < x -> x * prod s < M -> no_overflow M x s).
    { clear H M1. induction HP as [|d l Hd HP IH]; intros x Hx HM; [constructor|]. unfold prod in HM. cbn [fold_right] in HM. fold (prod l) in HM.
      assert (0 < prod l) by (clear - HP; unfold prod; induction HP; cbn [fold_right]; [lia|apply N.mul_pos_pos; auto]).
      constructor; [nia|]. apply IH; [apply N.mul_pos_pos; auto|]. rewrite <- N.mul_assoc. exact HM. }
    apply G; lia.
Qed.
Example c10_checked_positive_ex : Forall (fun d => 0 < d) [2; 3] /\ 1 < 16 /\ N.of_nat (length [1; 2; 3; 4; 5; 6]) = prod [2; 3] /\ prod [2; 3] < 16.
Proof. repeat split; repeat constructor. Qed.

(** C10: what the wrap-around leads to: every full index of the accepted tensor panics. *)
Lemma c10_wrapped_get_panics :
  forall (A : Type) (i j : N), i < 2 ^ 32 -> j < 2 ^ 32 ->
    w_new (2 ^ 64) Wrapping (@nil A) [2 ^ 32; 2 ^ 32] = Ret tt /\ w_get (2 ^ 64) Wrapping (@nil A) [2 ^ 32; 2 ^ 32] [i; j] = Panic PIndex.
Proof.
  intros A i j Hi Hj. split; [vm_compute; reflexivity|]. unfold w_get.
  assert (E : exists g, w_global_index (2 ^ 64) Wrapping [i; j] [2 ^ 32; 2 ^ 32] None = Ret (Ok g)).
  { unfold w_global_index. cbn [length Nat.ltb Nat.leb andb rev app combine]. cbn [w_gi_loop].
    change (2 ^ 32 =? 1) with false. cbn iota. cbn [bind]. destruct (N.leb_spec (2 ^ 32) j); [lia|].
    assert (W : forall x, exists y, word (2 ^ 64) Wrapping x = Ret y) by (intros x; unfold word; destruct (x <? 2 ^ 64); eauto).
    unfold w_mul, w_add. destruct (W (j * 1)) as [y1 E1]. rewrite E1. cbn [bind]. destruct (W (0 + y1)) as [y2 E2]. rewrite E2. cbn [bind]. destruct (W (1 * 2 ^ 32)) as [y3 E3]. rewrite E3. cbn [bind].
    destruct (N.leb_spec (2 ^ 32) i); [lia|]. destruct (W (i * y3)) as [y4 E4]. rewrite E4. cbn [bind]. destruct (W (y2 + y4)) as [y5 E5]. rewrite E5. cbn [bind]. destruct (W (y3 * 2 ^ 32)) as [y6 E6]. rewrite E6. cbn [bind]. eauto. }
  destruct E as [g E]. rewrite E. cbn [bind length]. destruct (N.ltb_spec g (N.of_nat 0)); [lia|reflexivity].
Qed.
Example c10_wrapped_get_panics_ex : w_get (2 ^ 64) Wrapping (@nil nat) [2 ^ 32; 2 ^ 32] [3; 5] = Panic PIndex.
Proof. vm_compute. reflexivity. Qed.
