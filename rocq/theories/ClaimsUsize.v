(** * ClaimsUsize: whole programs with machine words (C86) *)
From Coq Require Import ZArith.
From Verif Require Import Base ModelIndex ModelTensor ModelOps ModelJvp ModelGraph ModelUsize Spec SpecDual SpecGraph Lists IndexFacts GraphFacts ProgFacts UsizeFacts UsizeSmall Instances.

Lemma dev_bind A B (m m' : outcome A) (f f' : A -> outcome B) : m = m' \/ m = Panic PArith -> (forall a, f a = f' a \/ f a = Panic PArith) ->
  bind m f = bind m' f' \/ bind m f = Panic PArith.
Proof. intros [-> | ->] H; [|right; reflexivity]. destruct m'; cbn [bind]; auto. Qed.

(** C86: with overflow checks, a program does what the model with unbounded numbers does, or panics because a [usize]
    overflowed. *)
Lemma c86_checked :
  forall (M : nat) (T : Type) (NT : Num T) (p : list (cmd T)) (s : state T),
    @u_run (checked M) T NT p s = run p s \/ @u_run (checked M) T NT p s = Panic PArith.
Proof.
  intros M T NT p s. rewrite <- n_run. apply (r_run (fun A o o' => o = o' \/ o = Panic PArith)).
  - intros; left; reflexivity.
  - apply dev_bind.
  - intros a b. cbn [u_add u_mul u_sub checked unbounded]. destruct (a + b <? M); auto.
  - intros a b. cbn [u_add u_mul u_sub checked unbounded]. destruct (a * b <? M); auto.
  - intros a b. cbn [u_add u_mul u_sub checked unbounded]. destruct (b <=? a); auto.
  - intros b. left. reflexivity.
Qed.
Example c86_checked_ex : exists s, @u_run (checked 8) Z ZNum [CNew [1; 2; 3; 4]%Z [2; 2]; CSum 0; CBackward 1] init_state = Ret s /\
  run (T := Z) [CNew [1; 2; 3; 4]%Z [2; 2]; CTanh 0] init_state <> Panic PArith /\ @u_run (checked 8) Z ZNum [CNew [1; 2; 3; 4]%Z [2; 2]; CTanh 0; CSum 1; CBackward 2] init_state = Panic PArith.
Proof. eexists. split; [vm_compute; reflexivity|]. split; [vm_compute; discriminate|vm_compute; reflexivity]. Qed.

(** C86: if a program returns with overflow checks, it returns the same without them, and so does the model. *)
Lemma c86_wrapping :
  forall (M : nat) (T : Type) (NT : Num T) (p : list (cmd T)) (s s' : state T),
    @u_run (checked M) T NT p s = Ret s' -> @u_run (wrapping M) T NT p s = Ret s' /\ run p s = Ret s'.
Proof.
  intros M T NT p s s' E. split.
  - revert s' E. change (pres (@u_run (checked M) T NT p s) (@u_run (wrapping M) T NT p s)). apply (r_run (fun A o o' => pres o o')).
    + intros; apply p_refl.
    + intros A B m m' f f' H1 H2. apply p_bind; auto.
    + intros a b y. cbn [u_add u_mul u_sub checked wrapping]. destruct (Nat.ltb_spec (a + b) M); [|discriminate]. rewrite Nat.mod_small by assumption. auto.
    + intros a b y. cbn [u_add u_mul u_sub checked wrapping]. destruct (Nat.ltb_spec (a * b) M); [|discriminate]. rewrite Nat.mod_small by assumption. auto.
    + intros a b y. cbn [u_add u_mul u_sub checked wrapping]. destruct (b <=? a); [auto|discriminate].
    + intros b [] _. reflexivity.
  - destruct (c86_checked M T NT p s) as [E' | E']; rewrite E in E'; [symmetry; exact E'|discriminate].
Qed.
Example c86_wrapping_ex : exists s, @u_run (checked 32) Z ZNum [CNew [1; 2; 3; 4]%Z [2; 2]; CRelu 0; CBmm 0 1; CSum 2; CBackward 3] init_state = Ret s.
Proof. eexists. vm_compute. reflexivity. Qed.

(** C86: as long as no tensor has more than B elements (none is empty), and B * B is below the number of words, nothing
    overflows: with or without checks, the program does what the model does, through every index, offset, product of
    dimensions and jacobian of forward and backward pass. *)
Lemma c86_small :
  forall (M B : nat) (T : Type) (NT : Num T) (p : list (cmd T)) (s : state T),
    B * B < M -> Forall tidy p -> Forall (fun c => forall x y o, c <> CMulView x y o) p ->
    run p init_state = Ret s -> Forall (fun nd => positive (shape (n_val nd)) /\ size (shape (n_val nd)) <= B) (nodes (hp s)) ->
    @u_run (checked M) T NT p init_state = Ret s /\ @u_run (wrapping M) T NT p init_state = Ret s.
Proof.
  intros M B T NT p s HB H1 H2 E HF.
  assert (G : @u_run (checked M) T NT p init_state = Ret s); [|split; [exact G|apply (c86_wrapping M T NT p _ _ G)]].
  apply (@s_run (checked M) M) with (B := B); auto.
  - intros a b H. cbn [u_add u_mul u_sub checked]. rewrite (proj2 (Nat.ltb_lt _ _) H). reflexivity.
  - intros a b H. cbn [u_add u_mul u_sub checked]. rewrite (proj2 (Nat.ltb_lt _ _) H). reflexivity.
  - intros a b H. cbn [u_add u_mul u_sub checked]. rewrite (proj2 (Nat.leb_le _ _) H). reflexivity.
  - apply reach_init.
Qed.
Example c86_small_ex : exists s, 4 * 4 < 17 /\ run (T := Z) [CNew [1; 2; 3; 4]%Z [2; 2]; CBmm 0 0; CTanh 1; CSum 2; CBackward 3; CViewSum 0 [mkSR 0 1; mkSR 1 2]] init_state = Ret s /\
  Forall (fun nd => positive (shape (n_val nd)) /\ size (shape (n_val nd)) <= 4) (nodes (hp s)) /\ grads (hp s) 0 <> None /\
  @u_run (checked 16) Z ZNum [CNew [1; 2; 3; 4]%Z [2; 2]; CBmm 0 0; CTanh 1; CSum 2; CBackward 3] init_state = Panic PArith.
Proof.
  eexists. split; [lia|]. split; [vm_compute; reflexivity|]. split; [cbn; repeat constructor; cbn; lia|]. split; [vm_compute; discriminate|]. vm_compute. reflexivity.
Qed.

(** C86: so with words of w bits, tensors of up to 2^b elements are safe if 2 * b < w: up to 2^31 elements on a 64-bit machine. *)
Lemma c86_bits :
  forall (w b : nat) (T : Type) (NT : Num T) (p : list (cmd T)) (s : state T),
    2 * b < w -> Forall tidy p -> Forall (fun c => forall x y o, c <> CMulView x y o) p ->
    run p init_state = Ret s -> Forall (fun nd => positive (shape (n_val nd)) /\ size (shape (n_val nd)) <= 2 ^ b) (nodes (hp s)) ->
    @u_run (checked (2 ^ w)) T NT p init_state = Ret s /\ @u_run (wrapping (2 ^ w)) T NT p init_state = Ret s.
Proof.
  intros w b T NT p s Hb H1 H2 E HF. apply (c86_small (2 ^ w) (2 ^ b)); auto. rewrite <- Nat.pow_add_r. apply Nat.pow_lt_mono_r; lia.
Qed.
Example c86_bits_ex : exists s, 2 * 2 < 64 /\ run (T := Z) [CNew [1; -2; 3]%Z [3]; CAbs 0; CAdd 0 1; CSum 2] init_state = Ret s /\
  Forall (fun nd => positive (shape (n_val nd)) /\ size (shape (n_val nd)) <= 2 ^ 2) (nodes (hp s)).
Proof. eexists. split; [lia|]. split; [vm_compute; reflexivity|]. cbn. repeat constructor; cbn; lia. Qed.

(** C86: without checks a program can return where the model panics: a tensor with no elements and dimensions [2; 2^(w-1)]. *)
Lemma c86_wrapping_always_refuted :
  forall w : nat, 2 <= w -> ~ forall (p : list (cmd Z)) (s : state Z), @u_run (wrapping (2 ^ w)) Z ZNum p init_state = Ret s -> run p init_state = Ret s.
Proof.
  intros w Hw H. assert (HM : 2 ^ w = 2 * 2 ^ (w - 1)) by (rewrite <- Nat.pow_succ_r'; f_equal; lia).
  assert (H2 : 2 < 2 ^ w). { assert (2 ^ 2 <= 2 ^ w) by (apply Nat.pow_le_mono_r; lia). change (2 ^ 2) with 4 in H0. lia. }
  set (p := [CNew [] [2; 2 ^ (w - 1)]] : list (cmd Z)).
  assert (E : exists s, @u_run (wrapping (2 ^ w)) Z ZNum p init_state = Ret s).
  { eexists. unfold p, u_run. cbn [foldM u_exec]. unfold u_raw_new, u_product. cbn [foldM]. unfold u_mul, wrapping. cbn [bind]. rewrite (Nat.mod_small (1 * 2)) by lia. rewrite Nat.mul_1_l, <- HM, Nat.mod_same by lia. cbn [bind]. reflexivity. }
  destruct E as [s E]. specialize (H p s E). unfold p, run in H. cbn [foldM exec] in H. unfold op_new, raw_new in H. rewrite product_size in H. cbn [size fold_right] in H.
  rewrite Nat.mul_1_r, <- HM in H. unfold assert in H. destruct (Nat.eqb_spec (2 ^ w) (length (@nil Z))) as [H0 | H0]; [cbn [length] in H0; lia|]. discriminate.
Qed.
