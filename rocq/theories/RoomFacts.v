(** * RoomFacts: whole numbers in floats, with [abs] and [relu] (C69) *)
From Coq Require Import Reals ZArith Lia Lra.
From Flocq Require Import Core BinarySingleNaN.
From Verif Require Import Base ModelIndex ModelTensor ModelOps ModelJvp ModelGraph Spec SpecGraph SpecParam SpecRound SpecError
  Lists TensorFacts GraphFacts FuelFacts ParamFacts RoundFacts ProgFacts ClaimsProg BranchFacts ClaimsParam Instances.
Local Open Scope nat_scope.

(** ** Histories only refer to earlier tensors, in every program *)
Section Back.
Context {T : Type} {NT : Num T}.

Lemma hget_lt (h : heap T) i nd : hget h i = Ret nd -> i < length (nodes h).
Proof. unfold hget, vindex. intros E. destruct (nth_error (nodes h) i) eqn:En; [|discriminate]. apply nth_error_Some. congruence. Qed.
Lemma alloc_back (h : heap T) v fn g : backrefs (nodes h) -> (forall k ins, fn = Some (k, ins) -> Forall (fun i => i < length (nodes h)) ins) ->
  backrefs (nodes (fst (alloc h v fn g))).
Proof.
  intros H F n nd k ins En Ef. cbn [alloc fst nodes] in En.
  destruct (Nat.lt_ge_cases n (length (nodes h))) as [L|L]; [rewrite nth_error_app1 in En by exact L; eauto|].
  rewrite nth_error_app2 in En by exact L. destruct (n - length (nodes h)) as [|m] eqn:D; [|destruct m; discriminate]. injection En as <-. cbn in Ef.
  replace n with (length (nodes h)) by lia. eauto.
Qed.
Ltac back := repeat match goal with
  | E : bind _ _ = Ret _ |- _ => apply bind_Ret_inv in E as (? & ? & E)
  | E : Ret _ = Ret _ |- _ => apply Ret_inj in E; subst
  | E : (let '(_, _) := alloc _ _ _ _ in _) = Ret _ |- _ => cbn [alloc] in E
  | E : hget _ _ = Ret _ |- _ => apply hget_lt in E end.
Lemma op_back (h h' : heap T) i j k r :
  In r [op_add h i j; op_neg h i; op_mul h i j; op_abs h i; op_relu h i; op_tanh h i; op_sum h i; op_bmm h i j; op_dot h i j; op_deep_clone h i; op_grad h i] ->
  r = Ret (h', k) -> backrefs (nodes h) -> backrefs (nodes h').
Proof.
  intros HI E HB. assert (G : forall v fn g, (h', k) = alloc h v fn g -> (forall o ins, fn = Some (o, ins) -> Forall (fun i => i < length (nodes h)) ins) -> backrefs (nodes h')).
  { intros v fn g Ea F. change h' with (fst (h', k)). rewrite Ea. apply alloc_back; assumption. }
  cbn [In] in HI. repeat (destruct HI as [HI|HI]); [.. |contradiction]; subst r; 
    unfold op_add, op_neg, op_mul, op_abs, op_relu, op_tanh, op_sum, op_bmm, op_dot, op_deep_clone, op_grad in E; back;
    match goal with E : alloc h ?v ?fn ?g = (h', k) |- _ => apply (G v fn g); [symmetry; exact E|] end; intros o ins Ef; try discriminate Ef; injection Ef as <- <-; repeat constructor; assumption.
Qed.

Lemma exec_back (s s' : state T) c : exec s c = Ret s' -> backrefs (nodes (hp s)) -> backrefs (nodes (hp s')).
Proof.
  intros E HB.
  assert (O : forall r i j, In r [op_add (hp s) i j; op_neg (hp s) i; op_mul (hp s) i j; op_abs (hp s) i; op_relu (hp s) i; op_tanh (hp s) i; op_sum (hp s) i; op_bmm (hp s) i j; op_dot (hp s) i j; op_deep_clone (hp s) i; op_grad (hp s) i] ->
             push s r = Ret s' -> backrefs (nodes (hp s'))).
  { intros r i j HI Ep. unfold push in Ep. apply bind_Ret_inv in Ep as ([h' k] & E1 & Ep). apply Ret_inj in Ep. subst s'. exact (op_back _ _ _ _ _ _ HI E1 HB). }
  assert (A : forall v fn g, (forall o ins, fn = Some (o, ins) -> Forall (fun i => i < length (nodes (hp s))) ins) -> backrefs (nodes (fst (alloc (hp s) v fn g)))) by (intros; apply alloc_back; assumption).
  assert (L : forall v, backrefs (nodes (fst (alloc (hp s) v None None)))) by (intros; apply A; discriminate).
  destruct c; cbn [exec] in E; cbv zeta in E;
    try (repeat (match type of E with bind _ _ = _ => apply bind_Ret_inv in E as (? & ? & E) end); eapply (O _ _ _); [|exact E]; cbn [In]; tauto).
  - unfold push, op_new in E. back. apply L.
  - unfold push, op_filler in E. back. apply L.
  - unfold push, op_scalar in E. back. apply L.
  - unfold push, op_from in E. back. apply L.
  - apply bind_Ret_inv in E as (i & _ & E). apply bind_Ret_inv in E as (j & _ & E). unfold push, op_sub in E. apply bind_Ret_inv in E as ([h2 k2] & E2 & E). apply Ret_inj in E. subst s'. cbn [hp].
    apply bind_Ret_inv in E2 as ([h1 k1] & E1 & E2). assert (H1 : backrefs (nodes h1)) by (refine (op_back (hp s) h1 j 0 k1 _ _ E1 HB); cbn [In]; tauto).
    refine (op_back h1 h2 i k1 k2 _ _ E2 H1). cbn [In]. tauto.
  - repeat (apply bind_Ret_inv in E as (? & ? & E)). discriminate.
  - unfold push, op_view_to_tensor in E. back. apply L.
  - unfold push, op_view_sum in E. back. apply L.
  - unfold push, op_mul_view in E. back. apply L.
  - apply bind_Ret_inv in E as (i & _ & E). apply bind_Ret_inv in E as (j & _ & E). unfold push, op_bmm_view in E. apply bind_Ret_inv in E as ([h2 k2] & E2 & E). apply Ret_inj in E. subst s'. cbn [hp].
    apply bind_Ret_inv in E2 as (a & Ha & E2). apply hget_lt in Ha. back. change h2 with (fst (h2, k2)). rewrite <- E2. apply alloc_back.
    + cbn [nodes]. apply L.
    + intros op ins Ef. injection Ef as <- <-. cbn [nodes]. rewrite app_length. cbn [length]. repeat constructor; lia.
  - unfold op_update_grad in E. back. exact HB.
  - back. exact HB.
  - apply bind_Ret_inv in E as (i & _ & E). apply bind_Ret_inv in E as (h' & E1 & E). apply Ret_inj in E. subst s'. cbn [hp]. rewrite (backward_nodes _ _ _ E1). exact HB.
  Unshelve. all: exact 0.
Qed.
Lemma run_back (p : list (cmd T)) : forall s s', run p s = Ret s' -> backrefs (nodes (hp s)) -> backrefs (nodes (hp s')).
Proof.
  unfold run. induction p as [|c p IH]; intros s s' E HB; cbn [foldM] in E; [injection E as <-; exact HB|].
  apply bind_Ret_inv in E as (s1 & E1 & E). eapply IH; [exact E|]. eapply exec_back; eauto.
Qed.
Lemma init_back : backrefs (nodes (hp (init_state (T := T)))).
Proof. intros n nd k ins En. destruct n; discriminate. Qed.
Lemma everywhere_signs (Q : T -> Prop) p s : run p init_state = Ret s -> everywhere Q s -> signs_known Q (nodes (hp s)).
Proof.
  intros E [HV _] n nd k ins En Ef _. pose proof (run_back p _ _ E init_back n nd k ins En Ef) as F.
  assert (Hn : n < length (nodes (hp s))) by (apply nth_error_Some; congruence).
  eapply Forall_impl; [|exact F]. cbv beta. intros i Hi. split; [exact Hi|]. destruct (nth_error (nodes (hp s)) i) as [ndi|] eqn:Ei; [|apply nth_error_None in Ei; lia].
  exists ndi. split; [reflexivity|]. apply HV. eapply nth_error_In. exact Ei.
Qed.
End Back.

(** ** Without [tanh], a program does not depend on what [tanh] is *)
Definition with_tanh {T : Type} (N : Num T) (f : T -> T) : Num T :=
  {| n_zero := n_zero (Num := N); n_one := n_one (Num := N); n_add := n_add (Num := N); n_mul := n_mul (Num := N); n_sub := n_sub (Num := N); n_neg := n_neg (Num := N);
     n_lt := n_lt (Num := N); n_ge := n_ge (Num := N); n_eq := n_eq (Num := N); n_abs := n_abs (Num := N); n_tanh := f |}.
Lemma rel_cmd_refl {A : Type} (c : cmd A) : rel_cmd eq c c.
Proof.
  assert (F : forall l : list A, Forall2 eq l l) by (induction l; constructor; auto).
  assert (N : forall n : nest A, rel_nest eq n n).
  { fix IH 1. intros [x|l]; constructor; [reflexivity|]. revert l. fix IH' 1. intros [|n l]; constructor; auto. }
  destruct c; constructor; auto.
Qed.
Lemma without_tanh {T : Type} (N : Num T) f (p : list (cmd T)) : (forall c, In c p -> ~ In KTanh (needs c)) ->
  rel_outcome (rel_state eq) (run (NT := N) p init_state) (run (NT := with_tanh N f) p init_state).
Proof.
  intros HT. apply (parametric (NA := N) (NB := with_tanh N f) eq).
  - constructor; try reflexivity; intros; subst; reflexivity.
  - induction p; constructor; auto using rel_cmd_refl. apply IHp. intros c Hc. apply HT. right. exact Hc.
  - intros c k Hc Hk. destruct k; try exact I; try (intros x y <-; try split; reflexivity). destruct (HT c Hc Hk).
Qed.
