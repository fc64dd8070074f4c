(** * RustMore: sums, views, products and the rules of derivatives, statement by statement *)
From Coq Require String.
Import String.StringSyntax.
From Verif Require Import Base Lists ModelIndex ModelTensor ModelOps ModelJvp ModelGraph ModelUsize ModelRust ModelKernel SpecRust RustFacts.
#[local] Open Scope string_scope.

Section More.
Context {U : usize_ops} {T : Type} {NT : Num T}.
Notation val := (@val T).
Notation fenv := (@fenv T).
Notation store := (@store T).
Variables (N R : nat).

Lemma shape_dec (a b : list nat) : (if list_eq_dec Nat.eq_dec a b then true else false) = shape_eqb a b.
Proof.
  revert b. induction a as [|x a IH]; intros [|y b]; try easy.
  cbn [shape_eqb]. destruct (Nat.eqb_spec x y) as [->|D]; cbn [andb].
  - rewrite <- IH. destruct (list_eq_dec Nat.eq_dec a b) as [->|D]; destruct (list_eq_dec _ _ _) as [Q|Q]; congruence.
  - destruct (list_eq_dec _ _ _) as [Q|Q]; congruence.
Qed.

Definition has_is_scalar (E : fenv) : Prop := forall t : raw T, call E "is_scalar" [VTen (LRaw t)] = Ret (VBool (is_scalar t), VTen (LRaw t)).
Lemma k_is_scalar_ok (E : fenv) (t : raw T) : run_fn E N k_is_scalar [VTen (LRaw t)] = Ret (VBool (is_scalar t), VTen (LRaw t)).
Proof. unfold k_is_scalar, run_fn, is_scalar. step. destruct (length (array t) =? 1); destruct (shape t); step; easy. Qed.

Lemma k_raw_sum_ok (E : fenv) (t : raw T) : has_filler E ->
  run_fn E N k_raw_sum [VTen (LRaw t)]
  = let* s := u_tl_sum (LRaw t) in let* g := u_raw_filler (shape t) n_one in Ret (VTens [s; g], VTen (LRaw t)).
Proof.
  intros HF. unfold k_raw_sum, run_fn, u_tl_sum. hide. step. body F.
  assert (L : forall l v, loop_for (map VElem l) F [("v", VElem v); ("self", VTen (LRaw t))]
    = Ret (Next, [("v", VElem (fold_left n_add l v)); ("self", VTen (LRaw t))])).
  { induction l as [|x l IH]; intros v; [easy|]. cbn [map loop_for fold_left]. unfold F at 1. subst B. step. apply IH. }
  rewrite L. step. rewrite HF. destruct (u_raw_filler (shape t) n_one) as [g|p|]; step; easy.
Qed.

Lemma k_view_sum_ok (E : fenv) (v : view T) : has_element_iterator R E -> rank_ok R (LView v) -> index_fuel (v_shape v) <= N ->
  u_tl_sum (LView v) <> NoFuel ->
  run_fn E N k_view_sum [VTen (LView v)] = let* s := u_tl_sum (LView v) in Ret (VTen (LRaw s), VTen (LView v)).
Proof.
  intros [H1 H2] K HN NF. unfold k_view_sum, run_fn. hide_loop. step. rewrite H1. step. unfold u_tl_sum in *.
  set (st := fun s (a : T) => [("v", VElem a); ("iter", ei_val (LView v) s); ("self", VTen (LView v))] : store).
  rewrite !bind_assoc.
  etransitivity.
  - refine (loop_iter elem_iter T T (u_elem_iter_next (LView v)) (fun acc x => Ret (n_add acc x)) st (denote E N B)
      (fun s _ => length (ei_index s) <= R) _ _ (fun a => Ret (VTen (LRaw (raw_scalar a)), VTen (LView v)))
      _ _ _ (index_fuel (v_shape v)) N _ _ HN _ _).
    + intros s a L. subst B. unfold st. step. rewrite H2 by assumption.
      destruct (u_elem_iter_next (LView v) s) as [[[x|] s']|p|]; cbn [opt_val]; step; easy.
    + intros s a x s' a' L Hn _. eapply elem_next_length; eauto.
    + intros s a. unfold st. step. easy.
    + cbn [elem_iter_new ei_index tl_shape]. rewrite repeat_length. apply K.
    + intros Q. apply NF. now rewrite Q.
  - now destruct (iter_fold _ _ _ _ _).
Qed.

Lemma k_view_new_ok (E : fenv) (t : raw T) o :
  run_fn E N k_view_new [VTen (LRaw t); VRanges (Some o)] = let* v := u_view_new t o in Ret (VTen (LView v), VTen (LRaw t)).
Proof.
  unfold k_view_new, run_fn, u_view_new. hide. step. destruct (length o =? length (shape t)); [|reflexivity]. cbn [assert]. step.
  rewrite zip_val_map. body F. rewrite !bind_assoc.
  set (g := fun '(r, dim) => assert (sr_end r <=? dim) ;; u_sub (sr_end r) (sr_start r)).
  set (st := fun s : list nat => [("shape", VVec s); ("tensor", VTen (LRaw t)); ("offset", VRanges (Some o))] : store).
  assert (L : forall l s, loop_for (map (fun p => VPair (VRange (fst p)) (VNum (snd p))) l) F (st s)
    = let* q := mapM g l in Ret (Next, st (s ++ q))).
  { induction l as [|[r d] l IH]; intros s; [cbn [map loop_for mapM bind]; now rewrite app_nil_r|]. cbn [map loop_for mapM fst snd]. unfold F at 1, g at 1.
    subst B. unfold st in *. step. destruct (sr_end r <=? d); cbn [assert bind]; [|easy]. step.
    destruct (u_sub (sr_end r) (sr_start r)) as [n|p|]; step; [|easy..]. rewrite IH.
    destruct (mapM g l) as [q|p|]; cbn [bind]; [|easy..]. now rewrite <- app_assoc. }
  change [("shape", VVec []); ("tensor", VTen (LRaw t)); ("offset", VRanges (Some o))] with (st []). rewrite L.
  destruct (mapM g (combine o (shape t))) as [q|p|]; cbn [bind]; [|easy..]. unfold st. step. easy.
Qed.

Lemma k_view_reshape_ok (E : fenv) (v : view T) s :
  run_fn E N k_view_reshape [VTen (LView v); VVec s] = let* w := u_view_reshape v s in Ret (VTen (LView w), VTen (LView v)).
Proof.
  unfold k_view_reshape, run_fn, u_view_reshape. step. destruct (u_product (v_shape v)) as [a|p|]; step; [|easy..].
  destruct (u_product s) as [b|p|]; step; [|easy..]. destruct (a =? b); cbn [assert]; step; easy.
Qed.

Lemma k_view_eq_ok (E : fenv) (v : view T) other : has_index_iterator R E -> has_view_get R E -> has_get R E ->
  rank_ok R (LView v) -> rank_ok R other -> index_fuel (v_shape v) <= N -> u_view_eq v other <> NoFuel ->
  run_fn E N k_view_eq [VTen (LView v); VTen other] = let* b := u_view_eq v other in Ret (VBool b, VTen (LView v)).
Proof.
  intros [H1 H2] HV HG Kv Ko HN NF. unfold k_view_eq, run_fn, u_view_eq in *. hide_loop. step.
  change (match other with LRaw t => _ | LView w => _ end) with (field (VTen other) "shape"). rewrite field_shape. step.
  rewrite shape_dec. destruct (shape_eqb (tl_shape other) (v_shape v)); [|reflexivity]. cbn [negb] in *. step. rewrite H1. step.
  set (test := fun idx => let* x := u_view_get v idx in let* y := u_tl_get other idx in
                          Ret (match x, y with Ok a, Ok b => n_eq a b | _, _ => false end)) in *.
  set (st := fun s => [("iter", ii_val s); ("self", VTen (LView v)); ("other", VTen other)] : store).
  assert (L : forall fuel n s, fuel <= n -> length (ii_index s) <= R ->
    match iter_all u_index_iter_next test fuel s with
    | Ret b => exists s', loop_while n (fun _ => Ret true) (denote E N B) (st s) = Ret (if b then Next else Rtn (VBool false), st s')
    | Panic p => loop_while n (fun _ => Ret true) (denote E N B) (st s) = Panic p
    | NoFuel => True
    end).
  { induction fuel as [|fuel IH]; intros n s Ln Ls; [easy|]. destruct n as [|n]; [lia|]. cbn [iter_all loop_while bind].
    subst B. unfold st in IH |- *. step. rewrite H2 by exact Ls. destruct (u_index_iter_next s) as [[[idx|] s']|p|] eqn:En; cbn [opt_val]; step; [| |easy..].
    - unfold test at 1. rewrite HV by apply Kv. assert (OK : forall r, u_view_get v idx = Ret r -> exists x, r = Ok x).
      { unfold u_view_get. intros r. destruct (u_global_index _ _ _) as [[g|e]|p|]; cbn [bind unwrap]; try easy.
        destruct (vindex _ _); cbn [bind]; try easy. intros [= <-]. eauto. }
      destruct (u_view_get v idx) as [r|p|]; step; [|easy..]. destruct (OK r eq_refl) as [x ->]. step. rewrite HG by exact Ko.
      destruct (u_tl_get other idx) as [[y|e]|p|]; step; [| |easy..].
      + destruct (n_eq x y); step; [|eexists; reflexivity]. apply IH; [lia|]. eapply index_next_length; eauto.
      + eexists; reflexivity.
    - eexists; reflexivity. }
  specialize (L (index_fuel (v_shape v)) N (index_iter_new (v_shape v)) HN).
  assert (L0 : length (ii_index (index_iter_new (v_shape v))) <= R) by (cbn [index_iter_new ii_index]; rewrite repeat_length; apply Kv).
  specialize (L L0). change [("iter", ii_val (index_iter_new (v_shape v))); ("self", VTen (LView v)); ("other", VTen other)] with (st (index_iter_new (v_shape v))).
  destruct (iter_all _ _ _ _) as [b|p|]; [destruct L as [s' ->]; destruct b; unfold st; step; easy|rewrite L; easy|easy].
Qed.

Definition has_mul (E : fenv) : Prop := forall (t : raw T) r, rank_ok R (LRaw t) -> rank_ok R r -> index_fuel (shape t) <= N -> u_mul_raw t r <> NoFuel ->
  call E "mul" [VTen (LRaw t); VTen r] = let* x := u_mul_raw t r in Ret (VTen (LRaw x), VTen (LRaw t)).
Definition has_left_scalar (E : fenv) : Prop := forall l x, call E "left_scalar_multiplication" [VTen l; VElem x]
  = let* _ := u_product (tl_shape l) in Ret (VTen (LRaw (left_scalar_multiplication l x)), VTen l).
Definition has_right_scalar (E : fenv) : Prop := forall l x, call E "right_scalar_multiplication" [VTen l; VElem x]
  = let* _ := u_product (tl_shape l) in Ret (VTen (LRaw (right_scalar_multiplication l x)), VTen l).
Definition has_first (E : fenv) : Prop := forall l, rank_ok R l -> call E "get_first_elem" [VTen l] = let* x := u_tl_get_first_elem l in Ret (VElem x, VTen l).
Definition has_ewm (E : fenv) : Prop := forall l r, rank_ok R l -> rank_ok R r -> index_fuel (tl_shape l) <= N -> u_element_wise_multiplication l r <> NoFuel ->
  call E "element_wise_multiplication" [VTen l; VTen r] = let* t := u_element_wise_multiplication l r in Ret (VTen (LRaw t), VTen l).
Lemma k_mul_ok (E : fenv) (t : raw T) r : has_left_scalar E -> has_right_scalar E -> has_first E -> has_ewm E ->
  rank_ok R (LRaw t) -> rank_ok R r -> index_fuel (shape t) <= N -> u_mul_raw t r <> NoFuel ->
  run_fn E N k_mul [VTen (LRaw t); VTen r] = let* x := u_mul_raw t r in Ret (VTen (LRaw x), VTen (LRaw t)).
Proof.
  intros H1 H2 H3 H4 Kt Kr HN NF. unfold k_mul, run_fn, u_mul_raw in *. step. destruct (shape t) as [|d s] eqn:Es.
  - step. destruct (vindex (array t) 0) as [x|p|]; step; [|easy..]. rewrite H1. destruct (u_product (tl_shape r)) as [c|p|]; step; easy.
  - step. change (match r with LRaw t => _ | LView w => _ end) with (field (VTen r) "shape"). rewrite field_shape. step.
    destruct (tl_shape r) as [|d' s'] eqn:Er; step.
    + rewrite H3 by exact Kr. destruct (u_tl_get_first_elem r) as [x|p|]; step; [|easy..]. rewrite H2. cbn [tl_shape]. rewrite Es.
      destruct (u_product (d :: s)) as [c|p|]; step; easy.
    + rewrite H4 by (cbn [tl_shape]; try rewrite Es; assumption). destruct (u_element_wise_multiplication (LRaw t) r) as [x|p|]; step; easy.
Qed.

Definition has_bmm (E : fenv) : Prop := forall l r, rank_ok R l -> rank_ok R r -> (forall t, u_product (bmm_shape l r) = Ret t -> t = product (bmm_shape l r)) ->
  call E "bmm_raw" [VTen l; VTen r] = let* t := u_bmm_raw l r in Ret (VTen (LRaw t), VTen l).
Definition full_ok (l r : raw T) : Prop :=
  length (shape l) <= R /\ length (shape r) <= R /\ index_fuel (shape l) <= N /\ u_jvp_from_full_jacobians l r <> NoFuel /\
  (forall t, u_product (bmm_shape (LRaw l) (LRaw r)) = Ret t -> t = product (bmm_shape (LRaw l) (LRaw r))).
Definition has_full (E : fenv) : Prop := forall l r, full_ok l r ->
  call E "jvp_from_full_jacobians" [VTen (LRaw l); VTen (LRaw r)] = let* t := u_jvp_from_full_jacobians l r in Ret (VTen (LRaw t), VTen (LRaw l)).
Lemma k_full_ok (E : fenv) (l r : raw T) : has_is_scalar E -> has_mul E -> has_bmm E -> full_ok l r ->
  run_fn E N k_jvp_from_full_jacobians [VTen (LRaw l); VTen (LRaw r)] = let* t := u_jvp_from_full_jacobians l r in Ret (VTen (LRaw t), VTen (LRaw l)).
Proof.
  intros H1 H2 H3 (Kl & Kr & HN & NF & HB). unfold k_jvp_from_full_jacobians, run_fn, u_jvp_from_full_jacobians, u_one in *.
  assert (M : u_mul_raw l (LRaw r) <> NoFuel -> call E "mul" [VTen (LRaw l); VTen (LRaw r)] = let* t := u_mul_raw l (LRaw r) in Ret (VTen (LRaw t), VTen (LRaw l)))
    by (intros Q; now rewrite H2 by assumption).
  Ltac fm H1 := repeat (rewrite H1; step).
  step. fm H1. destruct (is_scalar r) eqn:Sr; step; [fm H1; destruct (is_scalar l) eqn:Sl; step; cbn [assert] in *; step|].
  - cbn [bind] in NF. rewrite M by exact NF. destruct (u_mul_raw l (LRaw r)) as [x|p|]; step; easy.
  - cbn [bind] in NF. destruct (u_product (shape l)) as [n|p|]; step; [|easy..]. cbn [bind] in NF. destruct (n =? 1); cbn [assert] in *; step; [|easy].
    cbn [bind] in NF. rewrite M by exact NF. destruct (u_mul_raw l (LRaw r)) as [x|p|]; step; easy.
  - destruct (u_product (shape r)) as [n|p|]; step; [|easy..]. cbn [bind] in NF. destruct (n =? 1); step; fm H1.
    + destruct (is_scalar l) eqn:Sl; step; cbn [assert] in *; step.
      * cbn [bind] in NF. rewrite M by exact NF. destruct (u_mul_raw l (LRaw r)) as [x|p|]; step; easy.
      * cbn [bind] in NF. destruct (u_product (shape l)) as [m|p|]; step; [|easy..]. cbn [bind] in NF. destruct (m =? 1); cbn [assert] in *; step; [|easy].
        cbn [bind] in NF. rewrite M by exact NF. destruct (u_mul_raw l (LRaw r)) as [x|p|]; step; easy.
    + destruct (is_scalar l) eqn:Sl; step; cbn [assert] in *; step; fm H1; rewrite ?Sl; step.
      * cbn [bind] in NF. cbn [assert]. step. rewrite M by exact NF. destruct (u_mul_raw l (LRaw r)) as [x|p|]; step; easy.
      * cbn [bind] in NF. destruct (u_product (shape l)) as [m|p|] eqn:Ep; step; [|easy..]. cbn [bind] in NF. destruct (m =? 1) eqn:Em; step; fm H1; rewrite ?Sl; step; rewrite ?Ep; step; rewrite ?Em; cbn [assert] in *; step.
        -- cbn [bind] in NF. rewrite M by exact NF. destruct (u_mul_raw l (LRaw r)) as [x|p|]; step; easy.
        -- rewrite H3 by assumption. destruct (u_bmm_raw (LRaw l) (LRaw r)) as [x|p|]; step; easy.
Qed.

(** ** The rules of derivatives *)
Lemma ix0 A (a : A) l : vindex (a :: l) 0 = Ret a.
Proof. reflexivity. Qed.
Lemma ix1 A (a b : A) l : vindex (a :: b :: l) 1 = Ret b.
Proof. reflexivity. Qed.
Ltac ix := step; cbn [assert]; repeat (rewrite ?ix0, ?ix1; step).
Lemma k_ones_ok (E : fenv) (ts gs : list (raw T)) : has_filler E ->
  run_fn E N k_ones [VTens ts; VTens gs] = let* l := u_ones ts gs in Ret (VTens l, VTens ts).
Proof.
  intros HF. unfold k_ones, run_fn, u_ones, one_one. step. destruct ts as [|t [|]]; step; [easy| |easy]. cbn [assert]. step.
  destruct gs as [|g [|]]; step; [easy| |easy]. ix.
  destruct (u_product (shape t)) as [a|p|]; step; [|easy..]. ix.
  ix. destruct (u_product (shape g)) as [b|p|]; step; [|easy..]. rewrite HF. destruct (u_raw_filler [b; a] n_one) as [x|p|]; step; easy.
Qed.
Definition has_tanh_derivative (E : fenv) : Prop := forall t : raw T,
  call E "tanh_derivative" [VTen (LRaw t)] = let* d := u_tanh_derivative t in Ret (VTen (LRaw d), VTen (LRaw t)).
Lemma k_tanh_outer_ok (E : fenv) (ts gs : list (raw T)) : has_tanh_derivative E -> has_full E ->
  (forall t g d, one_one ts gs = Ret (t, g) -> u_tanh_derivative t = Ret d -> full_ok g d) ->
  run_fn E N k_tanh_derivative_outer [VTens ts; VTens gs] = let* l := u_jvp KTanh ts gs in Ret (VTens l, VTens ts).
Proof.
  intros HT HF HO. unfold k_tanh_derivative_outer, run_fn, u_jvp, one_one in *. step. destruct ts as [|t [|]]; step; [easy| |easy]. cbn [assert]. step.
  destruct gs as [|g [|]]; step; [easy| |easy]. ix. rewrite HT.
  destruct (u_tanh_derivative t) as [d|p|] eqn:Et; step; [|easy..]. ix. rewrite HF by (eapply HO; eauto).
  destruct (u_jvp_from_full_jacobians g d) as [x|p|]; step; easy.
Qed.
Lemma k_dot_jvp_ok (E : fenv) (ts gs : list (raw T)) : has_full E ->
  (forall l r g, two_one ts gs = Ret (l, r, g) -> full_ok g r /\ full_ok g l) ->
  run_fn E N k_dot_jvp [VTens ts; VTens gs] = let* l := u_jvp KDot ts gs in Ret (VTens l, VTens ts).
Proof.
  intros HF HO. unfold k_dot_jvp, run_fn, u_jvp, two_one in *. step. destruct ts as [|l [|r [|]]]; step; [easy|easy| |easy].
  destruct gs as [|g [|]]; step; [easy| |easy]. ix.
  destruct (HO l r g eq_refl) as [O1 O2]. rewrite HF by exact O1. destruct (u_jvp_from_full_jacobians g r) as [x|p|]; step; [|easy..].
  rewrite HF by exact O2. destruct (u_jvp_from_full_jacobians g l) as [y|p|]; step; easy.
Qed.
Definition unary_ok (deriv : T -> T) (t grad : raw T) : Prop :=
  2 <= R /\ length (shape t) <= R /\ length (shape grad) <= R /\ index_fuel (shape t) <= N /\ index_fuel [1; length (array t)] <= N /\
  u_generic_unary_jvp t grad deriv <> NoFuel.
Definition has_unary_jvp (E : fenv) (deriv : T -> T) : Prop := forall t grad, unary_ok deriv t grad ->
  call E "generic_unary_jvp" [VTen (LRaw t); VTen (LRaw grad)] = let* l := u_generic_unary_jvp t grad deriv in Ret (VTens l, VTen (LRaw t)).
Definition binary_ok (deriv : T -> T -> T) (l r grad : raw T) : Prop :=
  2 <= R /\ length (shape l) <= R /\ length (shape r) <= R /\ length (shape grad) <= R /\ index_fuel (max_shape (shape l) (shape r)) <= N /\
  (forall d, u_product (max_shape (shape l) (shape r)) = Ret d -> index_fuel [1; d] <= N) /\ u_generic_binop_jvp l r grad deriv <> NoFuel.
Definition has_binop_jvp (E : fenv) (deriv : T -> T -> T) : Prop := forall l r grad, binary_ok deriv l r grad ->
  call E "generic_binop_jvp" [VTen (LRaw l); VTen (LRaw r); VTen (LRaw grad)] = let* o := u_generic_binop_jvp l r grad deriv in Ret (VTens o, VTen (LRaw l)).
Lemma k_add_jvp_ok (E : fenv) (ts gs : list (raw T)) deriv : has_binop_jvp E deriv -> (forall l r g, two_one ts gs = Ret (l, r, g) -> binary_ok deriv l r g) ->
  run_fn E N k_add_jvp [VTens ts; VTens gs] = let* o := (let* (l, r, g) := two_one ts gs in u_generic_binop_jvp l r g deriv) in Ret (VTens o, VTens ts).
Proof.
  intros HF HO. unfold k_add_jvp, run_fn, two_one in *. step. destruct ts as [|l [|r [|]]]; step; [easy|easy| |easy]. cbn [assert]. step.
  destruct gs as [|g [|]]; step; [easy| |easy]. ix.
  rewrite HF by (now apply HO). destruct (u_generic_binop_jvp l r g deriv) as [x|p|]; step; easy.
Qed.
Lemma k_relu_jvp_ok (E : fenv) (ts gs : list (raw T)) deriv : has_unary_jvp E deriv -> (forall t g, one_one ts gs = Ret (t, g) -> unary_ok deriv t g) ->
  run_fn E N k_relu_jvp [VTens ts; VTens gs] = let* o := (let* (t, g) := one_one ts gs in u_generic_unary_jvp t g deriv) in Ret (VTens o, VTens ts).
Proof.
  intros HF HO. unfold k_relu_jvp, run_fn, one_one in *. step. destruct ts as [|t [|]]; step; [easy| |easy]. cbn [assert]. step.
  destruct gs as [|g [|]]; step; [easy| |easy]. ix.
  rewrite HF by (now apply HO). destruct (u_generic_unary_jvp t g deriv) as [x|p|]; step; easy.
Qed.
Lemma k_abs_jvp_ok (E : fenv) (ts gs : list (raw T)) deriv : has_unary_jvp E deriv -> (forall t g, one_one ts gs = Ret (t, g) -> length (shape g) = 2 -> unary_ok deriv t g) ->
  run_fn E N k_abs_jvp [VTens ts; VTens gs]
  = let* o := (let* (t, g) := one_one ts gs in assert (length (shape g) =? 2) ;; u_generic_unary_jvp t g deriv) in Ret (VTens o, VTens ts).
Proof.
  intros HF HO. unfold k_abs_jvp, run_fn, one_one in *. step. destruct ts as [|t [|]]; step; [easy| |easy]. cbn [assert]. step.
  destruct gs as [|g [|]]; step; [easy| |easy]. ix.
  destruct (Nat.eqb_spec (length (shape g)) 2) as [Q|Q]; cbn [assert]; step; [|easy]. ix.
  rewrite HF by (now apply HO). destruct (u_generic_unary_jvp t g deriv) as [x|p|]; step; easy.
Qed.
Lemma k_neg_jvp_ok (E : fenv) (ts gs : list (raw T)) deriv : has_unary_jvp E deriv ->
  (forall t g, vindex ts 0 = Ret t -> vindex gs 0 = Ret g -> unary_ok deriv t g) ->
  run_fn E N k_neg_jvp [VTens ts; VTens gs]
  = let* o := (let* t := vindex ts 0 in let* g := vindex gs 0 in u_generic_unary_jvp t g deriv) in Ret (VTens o, VTens ts).
Proof.
  intros HF HO. unfold k_neg_jvp, run_fn. step. destruct (vindex ts 0) as [t|p|]; step; [|easy..]. destruct (vindex gs 0) as [g|p|]; step; [|easy..].
  rewrite HF by (now apply HO). destruct (u_generic_unary_jvp t g deriv) as [x|p|]; step; easy.
Qed.
End More.
