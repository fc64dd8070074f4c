(** * BranchFacts: relations that [abs] and [relu] only respect where the sign is known *)
From Verif Require Import Base ModelIndex ModelTensor ModelOps ModelJvp ModelGraph ModelNN ModelMain Spec SpecGraph SpecParam SpecError
  Lists TensorFacts GraphFacts ParamFacts ClaimsProg.

Lemma F2_in X Y (P : X -> Y -> Prop) l l' : Forall2 P l l' -> Forall2 (fun x y => P x y /\ In y l') l l'.
Proof.
  intros F. assert (G : forall m, incl l' m -> Forall2 (fun x y => P x y /\ In y m) l l'); [|apply G; intros x Hx; exact Hx].
  induction F as [|x y l l' H F IH]; intros m Hm; constructor; [split; [exact H|apply Hm; left; reflexivity]|].
  apply IH. intros z Hz. apply Hm. right. exact Hz.
Qed.

Section Branch.
Context {A B : Type} (R : A -> B -> Prop) (Q : B -> Prop) {NA : Num A} {NB : Num B} (HR : respects_ring R).
Hypothesis (HN : respects_neg R) (HT : respects_tanh R).
Notation RQ := (fun a x => R a x /\ Q x).
Hypothesis HA : forall a x, R a x -> Q x -> R (n_abs a) (n_abs x) /\
  R (if n_ge a n_zero then n_one else n_sub n_zero n_one) (if n_ge x n_zero then n_one else n_sub n_zero n_one).
Hypothesis HL : forall a x, R a x -> Q x -> R (relu_fn a) (relu_fn x) /\
  R (if n_lt a n_zero then n_zero else n_one) (if n_lt x n_zero then n_zero else n_one).
Notation RR := (rel_raw R).
Notation known := (signs_known Q).
Notation HH := (rel_heap R).

(** ** Single operations *)

Lemma b_unary t u op op' : rel_raw RQ t u -> (forall a x, R a x -> Q x -> R (op a) (op' x)) ->
  rel_outcome RR (generic_unary_op (LRaw t) op) (generic_unary_op (LRaw u) op').
Proof.
  intros H Hop. unfold generic_unary_op. cbn [tl_shape]. pose proof H as [Es _]. rewrite Es.
  eapply ro_bind; [apply (p_to_tensor RQ); exact H|]. intros t' u' [E F].
  rewrite E, (F2_length _ _ _ _ _ F). eapply ro_bind; [|intros a b Fa; apply p_new; exact Fa].
  generalize (repeat 0 (length (shape u))) as idx. generalize (shape u) as s. intros s idx.
  assert (F0 : Forall2 R (@nil A) (@nil B)) by constructor. revert F0. generalize (@nil A) as acc, (@nil B) as acc'.
  revert idx. induction (length (array u')) as [|n IH]; intros idx acc acc' F0; cbn [unary_loop]; [exact F0|].
  eapply ro_bind; [apply (p_get_unwrap RQ); exact H|]. intros a x [Hax Hx]. apply ro_same. intros [idx' ?]. apply IH. apply F2_snoc; auto.
Qed.

Lemma b_unary_jvp t u g g' d d' : rel_raw RQ t u -> RR g g' -> (forall a x, R a x -> Q x -> R (d a) (d' x)) ->
  rel_outcome (Forall2 RR) (generic_unary_jvp t g d) (generic_unary_jvp u g' d').
Proof.
  intros Ht Hg Hd. pose proof Ht as [Et Ft]. pose proof Hg as [Eg _]. unfold generic_unary_jvp. rewrite Et, Eg, (F2_length _ _ _ _ _ Ft).
  eapply ro_bind with (P := Forall2 R).
  - generalize (repeat 0 (length (shape u))) as idx. generalize (index_fuel (shape u)) as f. intros f idx.
    assert (F0 : Forall2 R (@nil A) (@nil B)) by constructor. revert F0. generalize (@nil A) as acc, (@nil B) as acc'. revert idx.
    induction f as [|f IH]; intros idx acc acc' F0; cbn [unary_diag_loop]; [exact I|].
    eapply ro_bind; [apply (p_at RQ); exact Ht|]. intros a x [Hax Hx]. rewrite Et. apply ro_same. intros [idx' more].
    destruct more; [apply IH|]; apply F2_snoc; auto.
  - intros a b F. eapply ro_bind; [apply p_new; exact F|]. intros dg dg' Hdg. eapply ro_bind; [apply p_diagonal; [exact HR|exact Hdg|exact Hg]|].
    intros j j' Hj. constructor; [exact Hj|constructor].
Qed.

Lemma with_Q t u : RR t u -> Forall Q (array u) -> rel_raw RQ t u.
Proof. intros [E F] K. split; [exact E|]. revert K. induction F; intros K; [constructor|]. inversion K; subst. constructor; auto. Qed.

Lemma b_jvp k ts us gs hs : Forall2 RR ts us -> Forall2 RR gs hs -> (k = KAbs \/ k = KRelu -> Forall (fun u => Forall Q (array u)) us) ->
  rel_outcome (Forall2 RR) (jvp k ts gs) (jvp k us hs).
Proof.
  intros F G HK. destruct k; try (apply p_jvp; auto; exact I).
  - assert (F' : Forall2 (rel_raw RQ) ts us).
    { specialize (HK (or_introl eq_refl)). revert HK. induction F; intros HK; [constructor|]. inversion HK; subst. constructor; auto using with_Q. }
    cbn [jvp]. unfold abs_jvp. eapply ro_bind with (P := fun a b => rel_raw RQ (fst a) (fst b) /\ RR (snd a) (snd b)).
    + unfold one_one. pose proof (F2_length _ _ _ _ _ F). destruct F' as [|t u ts us Ht [|? ? ? ? ? ?]]; cbn; try reflexivity;
        destruct G as [|g h gs hs Hg [|? ? ? ? ? ?]]; cbn; try reflexivity. split; assumption.
    + intros [t g] [u h] [Ht Hg]. cbn [fst snd] in *. pose proof Hg as [Eg _]. rewrite Eg. same. apply b_unary_jvp; auto. intros a x0 Hax Hx. apply (HA a x0 Hax Hx).
  - assert (F' : Forall2 (rel_raw RQ) ts us).
    { specialize (HK (or_intror eq_refl)). revert HK. induction F; intros HK; [constructor|]. inversion HK; subst. constructor; auto using with_Q. }
    cbn [jvp]. unfold relu_jvp. eapply ro_bind with (P := fun a b => rel_raw RQ (fst a) (fst b) /\ RR (snd a) (snd b)).
    + unfold one_one. destruct F' as [|t u ts us Ht [|? ? ? ? ? ?]]; cbn; try reflexivity;
        destruct G as [|g h gs hs Hg [|? ? ? ? ? ?]]; cbn; try reflexivity. split; assumption.
    + intros [t g] [u h] [Ht Hg]. cbn [fst snd] in *. apply b_unary_jvp; auto. intros a x0 Hax Hx. apply (HL a x0 Hax Hx).
Qed.

(** ** The backward pass *)

Lemma b_compute ns ns' : Forall2 (rel_node R) ns ns' -> known ns' -> forall f k ins outer outer' g g',
  (exists n nd, nth_error ns' n = Some nd /\ n_fn nd = Some (k, ins)) -> Forall2 RR outer outer' -> rel_grads R g g' ->
  rel_outcome (rel_grads R) (compute_jvp f ns k ins outer g) (compute_jvp f ns' k ins outer' g').
Proof.
  intros F HQ. induction f as [|f IH]; intros k ins outer outer' g g' HK Fo Hg; cbn [compute_jvp]; [exact I|].
  assert (F2 : Forall2 (fun n m => rel_node R n m /\ In m ns') ns ns').
  { apply F2_in. exact F. }
  assert (Hin : forall m, mapM (vindex ns') ins = Ret m -> k = KAbs \/ k = KRelu -> Forall (fun u => Forall Q (array u)) (map n_val m)).
  { destruct HK as (n & nd & En & Ef). intros m Em Hk. specialize (HQ n nd k ins En Ef Hk). clear - HQ Em. revert m Em.
    induction HQ as [|i ins (_ & ndi & Ei & Hi) HQ IH]; intros m Em; cbn [mapM] in Em; [apply Ret_inj in Em; subst m; constructor|].
    unfold vindex at 1 in Em. rewrite Ei in Em. cbn [bind] in Em. apply bind_Ret_inv in Em as (l & El & Em). apply Ret_inj in Em. subst m. cbn [map]. constructor; auto. }
  assert (HM : rel_outcome (Forall2 (fun n m => rel_node R n m /\ In m ns')) (mapM (vindex ns) ins) (mapM (vindex ns') ins)).
  { apply ro_mapM_same. intros i. apply F2_vindex. exact F2. }
  destruct (mapM (vindex ns) ins) as [nds|p|] eqn:E1, (mapM (vindex ns') ins) as [nds'|p'|] eqn:E2; cbn [rel_outcome] in HM; try (exfalso; assumption); cbn [bind]; try exact HM.
  specialize (Hin nds' eq_refl).
  eapply ro_bind; [apply b_jvp; [|exact Fo|exact Hin]|].
  - eapply F2_map; [exact HM|]. intros n m [[H _] _]. exact H.
  - intros gs gs' Fg. eapply ro_foldM with (P := rel_grads R)
      (K := fun a b => RR (fst a) (fst b) /\ (fst (snd a) = fst (snd b) /\ (rel_node R (snd (snd a)) (snd (snd b)) /\ In (snd (snd b)) ns'))).
    + apply (F2_combine _ _ _ _ RR (fun a b => fst a = fst b /\ (rel_node R (snd a) (snd b) /\ In (snd b) ns'))); [exact Fg|].
      apply (F2_combine _ _ _ _ eq (fun n m => rel_node R n m /\ In m ns')); [apply F2_refl|exact HM].
    + exact Hg.
    + intros q q' [x [i nd]] [y [j nd']] Hq (Hx & E & (Hv & Ef) & HO'). cbn [fst snd] in *. subst j. pose proof Hx as [_ Fx]. pose proof Hv as [Ev Fv].
      rewrite (F2_length _ _ _ _ _ Fx), (F2_length _ _ _ _ _ Fv), Ev, Ef. same. eapply ro_bind; [apply p_new; exact Fx|]. intros sg sg' Hs.
      eapply ro_bind; [apply p_update; eauto|]. intros q1 q2 Hq1. destruct (n_fn nd') as [[k' ins']|] eqn:En'; [|exact Hq1].
      apply IH; auto. apply In_nth_error in HO' as [n En]. eauto.
Qed.

Lemma b_hget h k i : HH h k -> rel_outcome (rel_node R) (hget h i) (hget k i).
Proof. intros [F _]. unfold hget. apply F2_vindex. exact F. Qed.

Lemma b_backward h k i : HH h k -> known (nodes k) -> rel_outcome HH (backward h i) (backward k i).
Proof.
  intros H HQ. unfold backward. pose proof (b_hget h k i H) as HG. destruct (hget k i) as [nd'|p|] eqn:Eg, (hget h i) as [nd|p'|]; cbn [rel_outcome] in HG; try (exfalso; assumption); cbn [bind]; try exact HG.
  destruct HG as [[Ev Fv] Ef]. rewrite (F2_length _ _ _ _ _ Fv), Ef. same.
  destruct (n_fn nd') as [[k' ins]|] eqn:En; [|exact eq_refl]. cbn [unwrap_opt bind]. destruct H as [Fn Hg]. rewrite (F2_length _ _ _ _ _ Fn).
  eapply ro_bind; [apply b_compute; [exact Fn|exact HQ| | |exact Hg]|].
  - exists i, nd'. split; [|exact En]. unfold hget, vindex in Eg. destruct (nth_error (nodes k) i); [injection Eg as ->; reflexivity|discriminate].
  - constructor; [apply p_scalar, (rr_one R HR)|constructor].
  - intros g g' Hgg. split; [exact Fn|exact Hgg].
Qed.

(** ** Operations that make a tensor *)

Definition bmade (a : heap A * nat) (b : heap B * nat) : Prop := HH (fst a) (fst b) /\ snd a = snd b.
Lemma b_alloc h k t u fn o o' : HH h k -> RR t u -> rel_opt RR o o' -> bmade (alloc h t fn o) (alloc k u fn o').
Proof.
  intros [F Hg] Ht Ho. unfold alloc. rewrite (F2_length _ _ _ _ _ F). split; [|reflexivity]. cbn [fst]. split; cbn [nodes grads].
  - apply Forall2_app; [exact F|]. constructor; [|constructor]. split; [exact Ht|reflexivity].
  - intros i. unfold upd. destruct (i =? _); [exact Ho|apply Hg].
Qed.

Ltac lk := first [exact HR|assumption].
Ltac getnode H := eapply ro_bind; [apply b_hget; exact H|]; intros ? ? [? ?].
Ltac made := apply b_alloc; [assumption|assumption|exact I].

Lemma b_op_neg h k i : HH h k -> rel_outcome bmade (op_neg h i) (op_neg k i).
Proof. intros H. unfold op_neg, neg_raw. getnode H. eapply ro_bind; [apply p_unary; [|exact HN]; assumption|]. intros t u Ht. made. Qed.
Lemma b_op_add h k i j : HH h k -> rel_outcome bmade (op_add h i j) (op_add k i j).
Proof. intros H. unfold op_add. getnode H. getnode H. eapply ro_bind; [apply p_add; lk|]. intros t u Ht. made. Qed.
Lemma b_op_sub h k i j : HH h k -> rel_outcome bmade (op_sub h i j) (op_sub k i j).
Proof.
  intros H. unfold op_sub. eapply ro_bind; [apply b_op_neg; exact H|]. intros [h1 i1] [k1 j1] [Hh Ei].
  cbn [fst snd] in *. subst j1. apply b_op_add. exact Hh.
Qed.
Lemma b_op_tanh h k i : HH h k -> rel_outcome bmade (op_tanh h i) (op_tanh k i).
Proof.
  intros H. unfold op_tanh, tanh_raw. getnode H. eapply ro_bind; [apply p_unary; [|intros a xx Hax; apply (HT a xx Hax)]; assumption|]. intros p q Hpq. made.
Qed.
Lemma b_op_sum h k i : HH h k -> rel_outcome bmade (op_sum h i) (op_sum k i).
Proof.
  intros H. unfold op_sum. eapply ro_bind; [apply b_hget; exact H|]. intros n m [Hv Ef]. eapply ro_bind; [apply p_sum; [exact HR|exact Hv]|]. intros p q Hpq.
  apply b_alloc; [assumption|assumption|]. destruct Hv as [Ev _]. rewrite Ev. apply p_filler. apply (rr_one R HR).
Qed.
Lemma b_op_bmm h k i j : HH h k -> rel_outcome bmade (op_bmm h i j) (op_bmm k i j).
Proof. intros H. unfold op_bmm. getnode H. getnode H. eapply ro_bind; [apply p_bmm; lk|]. intros p q Hpq. made. Qed.
Lemma b_op_new h k a b s : HH h k -> Forall2 R a b -> rel_outcome bmade (op_new h a s) (op_new k b s).
Proof. intros H F. unfold op_new. eapply ro_bind; [apply p_new; eauto|]. intros p q Hpq. made. Qed.

(** [abs] and [relu]: the result's history says what is known about the input *)
Lemma known_input (k : heap B) u op i nd o : signs_known Q (nodes (fst (alloc k u (Some (op, [i])) o))) -> op = KAbs \/ op = KRelu ->
  hget k i = Ret nd -> Forall Q (array (n_val nd)).
Proof.
  intros HQ Ho Eg. unfold alloc in HQ. cbn [fst nodes] in HQ. specialize (HQ (length (nodes k)) (mkNode u (Some (op, [i]))) op [i]).
  rewrite nth_error_app2, Nat.sub_diag in HQ by lia. specialize (HQ eq_refl eq_refl Ho). inversion HQ as [|? ? (_ & ndi & Ei & Hi) _]; subst.
  unfold hget, vindex in Eg. destruct (nth_error (nodes k) i) as [nd'|] eqn:En; [|discriminate]. injection Eg as <-.
  rewrite nth_error_app1 in Ei by (apply nth_error_Some; congruence). congruence.
Qed.

Definition bsim {X Y : Type} (P : X -> Y -> Prop) (m : outcome X) (m' : outcome Y) : Prop := forall y, m' = Ret y -> exists x, m = Ret x /\ P x y.
Lemma bsim_of X Y (P : X -> Y -> Prop) m m' : rel_outcome P m m' -> bsim P m m'.
Proof. intros H y ->. destruct m; cbn in H; try (exfalso; assumption). eauto. Qed.

Lemma b_op_abs h k i : HH h k -> forall y, op_abs k i = Ret y -> known (nodes (fst y)) -> exists x, op_abs h i = Ret x /\ bmade x y.
Proof.
  intros H y E HQ. assert (G : rel_outcome bmade (op_abs h i) (op_abs k i)); [|exact (bsim_of _ _ _ _ _ G y E)].
  unfold op_abs, abs_raw in *. pose proof (b_hget h k i H) as HG. destruct (hget k i) as [nd'|p|] eqn:Eg; [|discriminate E|discriminate E].
  destruct (hget h i) as [nd|p'|]; cbn [rel_outcome] in HG; try (exfalso; assumption); cbn [bind] in *. destruct HG as [Hv _].
  apply bind_Ret_inv in E as (u & Eu & E). apply Ret_inj in E. subst y. pose proof (known_input _ _ _ _ nd' _ HQ (or_introl eq_refl) Eg) as HK.
  eapply ro_bind; [apply b_unary; [apply with_Q; [exact Hv|exact HK]|intros a xx Hax Hx; apply (HA a xx Hax Hx)]|]. intros p q Hpq. made.
Qed.
Lemma b_op_relu h k i : HH h k -> forall y, op_relu k i = Ret y -> known (nodes (fst y)) -> exists x, op_relu h i = Ret x /\ bmade x y.
Proof.
  intros H y E HQ. assert (G : rel_outcome bmade (op_relu h i) (op_relu k i)); [|exact (bsim_of _ _ _ _ _ G y E)].
  unfold op_relu, relu_raw in *. pose proof (b_hget h k i H) as HG. destruct (hget k i) as [nd'|p|] eqn:Eg; [|discriminate E|discriminate E].
  destruct (hget h i) as [nd|p'|]; cbn [rel_outcome] in HG; try (exfalso; assumption); cbn [bind] in *. destruct HG as [Hv _].
  apply bind_Ret_inv in E as (u & Eu & E). apply Ret_inj in E. subst y. pose proof (known_input _ _ _ _ nd' _ HQ (or_intror eq_refl) Eg) as HK.
  eapply ro_bind; [apply b_unary; [apply with_Q; [exact Hv|exact HK]|intros a xx Hax Hx; apply (HL a xx Hax Hx)]|]. intros p q Hpq. made.
Qed.

(** ** Programs *)

Definition bst (s : state A) (t : state B) : Prop := env s = env t /\ HH (hp s) (hp t).

Lemma b_exec s t c d t' : bst s t -> rel_cmd R c d -> exec t d = Ret t' -> known (nodes (hp t')) -> exists s', exec s c = Ret s' /\ bst s' t'.
Proof.
  intros [E H] C ET HQ.
  assert (P : forall m m', rel_outcome bmade m m' -> rel_outcome bst (push s m) (push t m')).
  { intros m m' Hm. unfold push. eapply ro_bind; [exact Hm|]. intros [h i] [k j] [Hh Ei]. cbn [fst snd] in *. subst j. split; cbn [env hp]; [congruence|exact Hh]. }
  assert (PS : forall m m', push t m' = Ret t' -> (forall y, m' = Ret y -> known (nodes (fst y)) -> exists x, m = Ret x /\ bmade x y) -> exists s', push s m = Ret s' /\ bst s' t').
  { intros m m' Em Hm. unfold push in *. apply bind_Ret_inv in Em as ([k j] & -> & Em). apply Ret_inj in Em. subst t'. cbn [hp] in HQ.
    destruct (Hm (k, j) eq_refl HQ) as ([h i] & -> & Hh & Ei). cbn [fst snd bind] in *. subst j. eexists. split; [reflexivity|]. split; cbn [env hp]; [congruence|exact Hh]. }
  destruct C; cbn [exec] in *; rewrite ?E;
    try match goal with
    | |- context [op_abs] => idtac
    | |- context [op_relu] => idtac
    | |- context [backward] => idtac
    | |- exists s', ?m = Ret s' /\ bst s' t' => refine (bsim_of _ _ bst m _ _ t' ET); clear ET
    end; try (same; try same; apply P).
  - apply P. apply b_op_new; assumption.
  - apply P. apply b_alloc; [assumption|apply p_filler; assumption|exact I].
  - apply P. apply b_alloc; [assumption|apply p_scalar; assumption|exact I].
  - apply P. unfold op_from. eapply ro_bind; [apply p_from; eauto|]. intros p q Hpq. made.
  - apply b_op_add. exact H.
  - apply b_op_sub. exact H.
  - apply b_op_neg. exact H.
  - unfold op_mul. getnode H. getnode H. eapply ro_bind; [apply p_mul; lk|]. intros p q Hpq. made.
  - apply bind_Ret_inv in ET as (i & -> & ET). cbn [bind]. apply (PS _ _ ET). intros y Ey Hy. apply (b_op_abs _ _ _ H); assumption.
  - apply bind_Ret_inv in ET as (i & -> & ET). cbn [bind]. apply (PS _ _ ET). intros y Ey Hy. apply (b_op_relu _ _ _ H); assumption.
  - apply b_op_tanh. exact H.
  - apply b_op_sum. exact H.
  - apply b_op_bmm. exact H.
  - unfold op_dot. getnode H. getnode H. eapply ro_bind; [apply p_dot; lk|]. intros p q Hpq. made.
  - exact eq_refl.
  - unfold op_deep_clone, tl_deep_clone. getnode H. eapply ro_bind; [apply (p_to_tensor R (LRaw _) (LRaw _)); assumption|]. intros p q Hpq. made.
  - unfold op_grad. destruct H as [HF Hg]. pose proof (Hg x0) as Hx. destruct (grads (hp s) x0), (grads (hp t) x0); cbn [rel_opt] in Hx; try (exfalso; assumption); [|exact eq_refl].
    cbn [unwrap_opt bind]. apply b_alloc; [split; assumption|assumption|exact I].
  - unfold op_view_to_tensor. getnode H. eapply ro_bind; [apply p_view_new; eauto|]. intros v w Hv.
    eapply ro_bind; [apply (p_to_tensor R (LView v) (LView w)); exact Hv|]. intros p q Hpq. made.
  - unfold op_view_sum. getnode H. eapply ro_bind; [apply p_view_new; eauto|]. intros v w Hv.
    eapply ro_bind; [apply (p_sum R HR (LView v) (LView w)); exact Hv|]. intros p q Hpq. made.
  - unfold op_mul_view. getnode H. getnode H. eapply ro_bind; [apply p_view_new; eauto|]. intros v w Hv.
    eapply ro_bind; [apply (p_mul R HR _ _ (LView v) (LView w)); [assumption|exact Hv]|]. intros p q Hpq. made.
  - unfold op_bmm_view. getnode H. getnode H. eapply ro_bind; [apply p_view_new; eauto|]. intros v w Hv.
    eapply ro_bind; [apply (p_bmm R HR (LRaw _) (LRaw _) (LView v) (LView w)); [assumption|exact Hv]|]. intros p q Hpq.
    eapply ro_bind; [apply (p_to_tensor R (LView v) (LView w)); exact Hv|]. intros p' q' Hpq'.
    assert (M : bmade (alloc (hp s) p' None None) (alloc (hp t) q' None None)) by made.
    destruct (alloc (hp s) p' None None) as [h1 i1], (alloc (hp t) q' None None) as [k1 j1]. destruct M as [M1 M2]. cbn [fst snd] in *. subst j1. made.
  - same. same. unfold op_update_grad. eapply ro_bind with (P := HH); [|intros h1 k1 Hh; split; [reflexivity|exact Hh]].
    getnode H. destruct H as [HF Hg]. eapply ro_bind; [apply p_update; [exact HR|exact Hg|assumption]|]. intros g g' Hgg. split; assumption.
  - same. split; [reflexivity|]. cbn [hp]. unfold zero_grad. destruct H as [HF Hg]. split; cbn [nodes grads]; try assumption.
    intros i. unfold upd. destruct (i =? _); [exact I|apply Hg].
  - apply bind_Ret_inv in ET as (i & -> & ET). cbn [bind]. apply bind_Ret_inv in ET as (k1 & Ek & ET). apply Ret_inj in ET. subst t'. cbn [hp] in HQ.
    rewrite (backward_nodes _ _ _ Ek) in HQ. destruct (bsim_of _ _ _ _ _ (b_backward _ _ i H HQ) k1 Ek) as (h1 & -> & Hh). cbn [bind]. eexists. split; [reflexivity|]. split; [reflexivity|exact Hh].
Qed.

Lemma known_before (k k' : heap B) : extends k k' -> known (nodes k') -> known (nodes k).
Proof.
  intros [ext E] HQ n nd op ins En Ef Ho. assert (Hn : n < length (nodes k)) by (apply nth_error_Some; congruence).
  specialize (HQ n nd op ins). rewrite E, nth_error_app1 in HQ by exact Hn. specialize (HQ En Ef Ho). eapply Forall_impl; [|exact HQ].
  intros i (Hi & ndi & Ei & H). split; [exact Hi|]. exists ndi. split; [|exact H]. rewrite nth_error_app1 in Ei by lia. exact Ei.
Qed.

Lemma b_run p q : Forall2 (rel_cmd R) p q -> forall s t t', bst s t -> run q t = Ret t' -> known (nodes (hp t')) -> exists s', run p s = Ret s' /\ bst s' t'.
Proof.
  intros F. unfold run. induction F as [|c d p q H F IH]; intros s t t' HS E HQ; cbn [foldM] in *; [apply Ret_inj in E; subst t'; eauto|].
  apply bind_Ret_inv in E as (t1 & E1 & E). pose proof (run_extends q t1 t' E) as X.
  destruct (b_exec s t c d t1 HS H E1) as (s1 & -> & H1); [exact (known_before _ _ X HQ)|]. cbn [bind]. apply (IH s1 t1 t'); auto.
Qed.

Lemma branching p q t : Forall2 (rel_cmd R) p q -> run q init_state = Ret t -> known (nodes (hp t)) ->
  exists s, run p init_state = Ret s /\ rel_state R s t.
Proof. intros F E HQ. apply (b_run p q F init_state init_state t); auto. split; [reflexivity|]. split; [constructor|intros i; exact I]. Qed.

(** ** Networks and the training program *)

(** [f'] only adds tensors, and [f] does the same on a related heap as long as all signs are known afterwards. *)
Definition osim (f : heap A -> outcome (heap A * nat)) (f' : heap B -> outcome (heap B * nat)) : Prop :=
  forall k y, f' k = Ret y -> extends k (fst y) /\ (known (nodes (fst y)) -> forall h, HH h k -> exists x, f h = Ret x /\ bmade x y).

Lemma osim_bind f f' g g' : osim f f' -> (forall i, osim (g i) (g' i)) ->
  osim (fun h => let* (h1, i) := f h in g i h1) (fun k => let* (k1, i) := f' k in g' i k1).
Proof.
  intros Hf Hg k y E. apply bind_Ret_inv in E as ([k1 i] & E1 & E). destruct (Hf k _ E1) as [X1 S1]. destruct (Hg i k1 y E) as [X2 S2]. cbn [fst] in *.
  split; [eapply extends_trans; eauto|]. intros HQ h HH0. destruct (S1 (known_before _ _ X2 HQ) h HH0) as ([h1 i1] & -> & H1 & E2). cbn [fst snd bind] in *. subst i1.
  apply (S2 HQ h1 H1).
Qed.

Lemma osim_of f f' : (forall k y, f' k = Ret y -> extends k (fst y)) -> (forall h k, HH h k -> rel_outcome bmade (f h) (f' k)) -> osim f f'.
Proof. intros X H k y E. split; [apply X; exact E|]. intros _ h Hh. exact (bsim_of _ _ _ _ _ (H h k Hh) y E). Qed.

Lemma alloc_extends (k : heap B) t fn o : extends k (fst (alloc k t fn o)).
Proof. eexists. reflexivity. Qed.

Ltac ext := intros ? ? ?E; repeat (apply bind_Ret_inv in E as (? & _ & E)); apply Ret_inj in E; subst; apply alloc_extends.
Lemma o_neg i : osim (fun h => op_neg h i) (fun k => op_neg k i).
Proof. apply osim_of; [unfold op_neg; ext|intros; apply b_op_neg; assumption]. Qed.
Lemma o_add i j : osim (fun h => op_add h i j) (fun k => op_add k i j).
Proof. apply osim_of; [unfold op_add; ext|intros; apply b_op_add; assumption]. Qed.
Lemma o_bmm i j : osim (fun h => op_bmm h i j) (fun k => op_bmm k i j).
Proof. apply osim_of; [unfold op_bmm; ext|intros; apply b_op_bmm; assumption]. Qed.
Lemma o_sum i : osim (fun h => op_sum h i) (fun k => op_sum k i).
Proof. apply osim_of; [unfold op_sum; ext|intros; apply b_op_sum; assumption]. Qed.
Lemma o_tanh i : osim (fun h => op_tanh h i) (fun k => op_tanh k i).
Proof. apply osim_of; [unfold op_tanh; ext|intros; apply b_op_tanh; assumption]. Qed.
Lemma o_new a b s : Forall2 R a b -> osim (fun h => op_new h a s) (fun k => op_new k b s).
Proof. intros F. apply osim_of; [unfold op_new; ext|intros; apply b_op_new; assumption]. Qed.
Lemma o_sub i j : osim (fun h => op_sub h i j) (fun k => op_sub k i j).
Proof. unfold op_sub. apply (osim_bind (fun h => op_neg h j) (fun k => op_neg k j) (fun nj h => op_add h i nj) (fun nj k => op_add k i nj)); [apply o_neg|intros; apply o_add]. Qed.
Lemma o_abs i : osim (fun h => op_abs h i) (fun k => op_abs k i).
Proof. intros k y E. split; [revert k y E; unfold op_abs; ext|]. intros HQ h Hh. apply (b_op_abs h k i); assumption. Qed.
Lemma o_relu i : osim (fun h => op_relu h i) (fun k => op_relu k i).
Proof. intros k y E. split; [revert k y E; unfold op_relu; ext|]. intros HQ h Hh. apply (b_op_relu h k i); assumption. Qed.

Definition bact (f : act A) (g : act B) : Prop := forall i, osim (fun h => f h i) (fun k => g k i).
Definition blinear (l : linear A) (m : linear B) : Prop := weights l = weights m /\ bias l = bias m /\ bact (activation l) (activation m).

Lemma o_linear l m i : blinear l m -> osim (fun h => linear_forward l h i) (fun k => linear_forward m k i).
Proof.
  intros (Ew & Eb & Ha). unfold linear_forward. rewrite Ew, Eb.
  apply (osim_bind (fun h => op_bmm h i (weights m)) (fun k => op_bmm k i (weights m))
    (fun y h => let* (h2, z) := op_add h y (bias m) in activation l h2 z) (fun y h => let* (h2, z) := op_add h y (bias m) in activation m h2 z)); [apply o_bmm|].
  intros y. apply (osim_bind (fun h => op_add h y (bias m)) (fun k => op_add k y (bias m)) (fun z h => activation l h z) (fun z h => activation m h z)); [apply o_add|].
  intros z. apply Ha.
Qed.
Lemma o_mlp l m : Forall2 blinear l m -> forall i, osim (fun h => mlp_forward l h i) (fun k => mlp_forward m k i).
Proof.
  unfold mlp_forward. induction 1 as [|a b l m Hab F IH]; intros i; cbn [foldM].
  - intros k y E. apply Ret_inj in E. subst y. split; [apply extends_refl|]. intros _ h Hh. eexists. split; [reflexivity|]. split; [exact Hh|reflexivity].
  - intros k y E. apply bind_Ret_inv in E as ([k1 i1] & E1 & E). destruct (o_linear a b i Hab k _ E1) as [X1 S1]. destruct (IH i1 k1 y E) as [X2 S2]. cbn [fst] in *.
    split; [eapply extends_trans; eauto|]. intros HQ h Hh. destruct (S1 (known_before _ _ X2 HQ) h Hh) as ([h1 j1] & -> & H1 & E2). cbn [fst snd bind] in *. subst j1. apply (S2 HQ h1 H1).
Qed.

Lemma b_params l m : Forall2 blinear l m -> mlp_params l = mlp_params m.
Proof.
  unfold mlp_params. induction 1 as [|a b l m (Ew & Eb & _) _ IH]; [reflexivity|]. cbn [flat_map]. unfold linear_params at 1 3. rewrite Ew, Eb, IH. reflexivity.
Qed.
Lemma b_update_params l m ps : Forall2 blinear l m -> rel_outcome (Forall2 blinear) (mlp_update_params l ps) (mlp_update_params m ps).
Proof.
  intros F. unfold mlp_update_params. apply F2_rev in F. revert F. generalize (rev l) as rl, (rev m) as rm, (rev ps) as rp.
  assert (F0 : Forall2 blinear [] []) by constructor. revert F0. generalize (@nil (linear A)) as acc, (@nil (linear B)) as acc'.
  intros acc acc' F0 rl rm rp F. revert acc acc' F0 rp. induction F as [|a b rl rm (Ew & Eb & Ha) _ IH]; intros acc acc' F0 rp; cbn [mlp_update_loop]; [exact F0|].
  destruct rp as [|b1 [|w1 rp]]; try exact eq_refl. cbn [linear_update_params vremove vindex nth_error bind firstn skipn app].
  apply IH. constructor; [|exact F0]. split; [reflexivity|split; [reflexivity|exact Ha]].
Qed.

Lemma b_sgd ps : forall st st' h k, RR st st' -> HH h k ->
  rel_outcome (fun a b => HH (fst a) (fst b) /\ snd a = snd b) (sgd_new_params st h ps) (sgd_new_params st' k ps).
Proof.
  intros st st' h k Hs H. unfold sgd_new_params. apply ro_foldM_same; [split; auto|].
  intros [h1 acc] [k1 acc'] i [H1 E1]. cbn [fst snd] in *. subst acc'.
  eapply ro_bind with (P := bmade); [|intros [h2 i2] [k2 j2] [H2 E2]; cbn [fst snd] in *; subst j2; split; [exact H2|reflexivity]].
  unfold sgd_param. pose proof H1 as [_ Hg]. specialize (Hg i). destruct (grads h1 i), (grads k1 i); cbn [rel_opt] in Hg; try (exfalso; assumption); [|exact eq_refl].
  cbn [unwrap_opt bind]. eapply ro_bind; [apply (p_mul R HR _ _ (LRaw _) (LRaw _)); [exact Hs|exact Hg]|]. intros p q Hpq.
  assert (M : bmade (alloc h1 p None None) (alloc k1 q None None)) by made.
  destruct (alloc h1 p None None) as [h2 i2], (alloc k1 q None None) as [k2 j2]. destruct M as [M1 M2]. cbn [fst snd] in *. subst j2.
  eapply ro_bind; [apply b_op_sub; exact M1|]. intros [h3 i3] [k3 j3] [[F3 G3] E3]. cbn [fst snd] in *. subst j3. split; [|reflexivity].
  cbn [fst]. unfold zero_grad. split; cbn [nodes grads]; try assumption. intros j. unfold upd. destruct (j =? i3); [exact I|apply G3].
Qed.
Lemma sgd_extends st ps : forall (k : heap B) r, sgd_new_params st k ps = Ret r -> extends k (fst r).
Proof.
  intros k r. unfold sgd_new_params.
  assert (G : forall acc k, foldM (fun '(h, acc) p => let* (h', new) := sgd_param st h p in Ret (h', acc ++ [new])) ps (k, acc) = Ret r -> extends k (fst r)); [|apply G].
  clear k. induction ps as [|p ps IH]; intros acc k E; cbn [foldM] in E; [apply Ret_inj in E; subst r; apply extends_refl|].
  apply bind_Ret_inv in E as ([k1 acc1] & E1 & E). apply bind_Ret_inv in E1 as ([k2 j] & E2 & E1). apply Ret_inj in E1. injection E1 as <- <-.
  eapply extends_trans; [|apply (IH _ _ E)]. unfold sgd_param in E2. apply bind_Ret_inv in E2 as (g & _ & E2). apply bind_Ret_inv in E2 as (pr & _ & E2).
  cbn [alloc] in E2. apply bind_Ret_inv in E2 as ([k3 j3] & E3 & E2). apply Ret_inj in E2. injection E2 as <- <-. destruct (o_sub p (length (nodes k)) _ _ E3) as [X _].
  eapply extends_trans; [|eapply extends_trans; [exact X|]]; [eexists; reflexivity|]. cbn [fst]. exists []. rewrite app_nil_r. reflexivity.
Qed.

Definition bnet (a : heap A * mlp A) (b : heap B * mlp B) : Prop := HH (fst a) (fst b) /\ Forall2 blinear (snd a) (snd b).

Lemma b_train_step l m st st' k x y r : Forall2 blinear l m -> RR st st' -> train_step m st' k x y = Ret r ->
  extends k (fst r) /\ (exists l', Forall2 blinear l' (snd r)) /\
  (known (nodes (fst r)) -> forall h, HH h k -> exists q, train_step l st h x y = Ret q /\ bnet q r).
Proof.
  intros F Hs E. unfold train_step in *.
  apply bind_Ret_inv in E as ([k1 i1] & E1 & E). destruct (o_mlp l m F x k _ E1) as [X1 S1]. apply bind_Ret_inv in E as ([k2 i2] & E2 & E). destruct (o_sub i1 y k1 _ E2) as [X2 S2].
  apply bind_Ret_inv in E as ([k3 i3] & E3 & E). destruct (o_abs i2 k2 _ E3) as [X3 S3]. apply bind_Ret_inv in E as ([k4 i4] & E4 & E). destruct (o_sum i3 k3 _ E4) as [X4 S4].
  apply bind_Ret_inv in E as (k5 & E5 & E). unfold sgd_step_mlp in *. apply bind_Ret_inv in E as ([k6 ps] & E6 & E). pose proof (sgd_extends _ _ _ _ E6) as X6. apply bind_Ret_inv in E as (m' & E7 & E). apply Ret_inj in E. subst r.
  cbn [fst] in *. assert (X5 : extends k4 k5) by (exists []; rewrite app_nil_r; apply (backward_nodes _ _ _ E5)).
  split; [repeat (eapply extends_trans; [eassumption|]); apply extends_refl|].
  destruct (bsim_of _ _ _ _ _ (b_update_params l m ps F) _ E7) as (l' & EL & F'). split; [exists l'; exact F'|]. intros HQ h Hh.
  pose proof (known_before _ _ X6 HQ) as Q5. pose proof (known_before _ _ X5 Q5) as Q4. pose proof (known_before _ _ X4 Q4) as Q3. pose proof (known_before _ _ X3 Q3) as Q2. pose proof (known_before _ _ X2 Q2) as Q1.
  destruct (S1 Q1 h Hh) as ([h1 j1] & -> & H1 & J1). cbn [fst snd bind] in *. subst j1. destruct (S2 Q2 h1 H1) as ([h2 j2] & -> & H2 & J2). cbn [fst snd bind] in *. subst j2.
  destruct (S3 Q3 h2 H2) as ([h3 j3] & -> & H3 & J3). cbn [fst snd bind] in *. subst j3. destruct (S4 Q4 h3 H3) as ([h4 j4] & -> & H4 & J4). cbn [fst snd bind] in *. subst j4.
  destruct (bsim_of _ _ _ _ _ (b_backward h4 k4 i4 H4 Q4) k5 E5) as (h5 & -> & H5). cbn [bind]. rewrite (b_params _ _ F).
  destruct (bsim_of _ _ _ _ _ (b_sgd (mlp_params m) st st' h5 k5 Hs H5) _ E6) as ([h6 ps'] & -> & H6 & J6). cbn [fst snd bind] in *. subst ps'.
  rewrite EL. cbn [bind]. eexists. split; [reflexivity|]. split; assumption.
Qed.

Lemma b_setup inp hid out one one' w1 w1' b1 b1' w2 w2' b2 b2' w3 w3' b3 b3' input input' :
  R one one' -> Forall2 R w1 w1' -> Forall2 R b1 b1' -> Forall2 R w2 w2' -> Forall2 R b2 b2' -> Forall2 R w3 w3' -> Forall2 R b3 b3' -> Forall2 R input input' ->
  rel_outcome (fun a b => HH (fst (fst (fst a))) (fst (fst (fst b))) /\ Forall2 blinear (snd (fst (fst a))) (snd (fst (fst b))) /\
                          snd (fst a) = snd (fst b) /\ snd a = snd b)
    (main_setup inp hid out one w1 b1 w2 b2 w3 b3 input) (main_setup inp hid out one' w1' b1' w2' b2' w3' b3' input').
Proof.
  intros H1 Fw1 Fb1 Fw2 Fb2 Fw3 Fb3 Fi. unfold main_setup, main_net. set (e := mkHeap [] (fun _ : nat => None : option (raw A))). set (e' := mkHeap [] (fun _ : nat => None : option (raw B))).
    assert (H0 : HH e e') by (split; [constructor|intros i; exact I]).
    eapply ro_bind with (P := bnet).
    + eapply ro_bind; [apply b_op_new; [exact H0|exact Fw1]|]. intros [ha ia] [ka ja] [Ha Ea]. cbn [fst snd] in *. subst ja.
      eapply ro_bind; [apply b_op_new; [exact Ha|exact Fb1]|]. intros [hb ib] [kb jb] [Hb Eb]. cbn [fst snd] in *. subst jb.
      eapply ro_bind; [apply b_op_new; [exact Hb|exact Fw2]|]. intros [hc ic] [kc jc] [Hc Ec]. cbn [fst snd] in *. subst jc.
      eapply ro_bind; [apply b_op_new; [exact Hc|exact Fb2]|]. intros [hd id] [kd jd] [Hd Ed]. cbn [fst snd] in *. subst jd.
      eapply ro_bind; [apply b_op_new; [exact Hd|exact Fw3]|]. intros [he ie] [ke je] [He Ee]. cbn [fst snd] in *. subst je.
      eapply ro_bind; [apply b_op_new; [exact He|exact Fb3]|]. intros [hf jf] [kf jf'] [Hf Ef]. cbn [fst snd] in *. subst jf'.
      split; [exact Hf|]. cbn [snd]. assert (AR : bact op_relu op_relu) by (intros i; apply o_relu). assert (AT : bact op_tanh op_tanh) by (intros i; apply o_tanh).
      constructor; [split; [reflexivity|split; [reflexivity|exact AR]]|]. constructor; [split; [reflexivity|split; [reflexivity|exact AT]]|].
      constructor; [split; [reflexivity|split; [reflexivity|exact AT]]|]. constructor.
    + intros [h l] [k m] [Hh F]. cbn [fst snd] in *. eapply ro_bind; [apply b_op_new; [exact Hh|exact Fi]|]. intros [hx x0] [kx x'] [Hx Ex]. cbn [fst snd] in *. subst x'.
      unfold op_filler. eapply ro_bind with (P := bmade); [apply b_alloc; [exact Hx|apply p_filler; exact H1|exact I]|].
      intros [hy y0] [ky y'] [Hy Ey]. cbn [fst snd] in *. subst y'. cbn. auto.
Qed.

Lemma b_rounds st st' x y : R st st' -> forall n (k : heap B) m r, foldM (fun hm _ => main_round st' x y hm) (repeat tt n) (k, m) = Ret r -> forall h l, Forall2 blinear l m ->
  extends k (fst r) /\ (known (nodes (fst r)) -> HH h k -> exists q, foldM (fun hm _ => main_round st x y hm) (repeat tt n) (h, l) = Ret q /\ bnet q r).
Proof.
  intros Hs. induction n as [|n IH]; intros k m r E h l F; cbn [repeat foldM] in *.
    - apply Ret_inj in E. subst r. split; [apply extends_refl|]. intros _ Hh. eexists. split; [reflexivity|]. split; assumption.
    - apply bind_Ret_inv in E as ([k1 m1] & E1 & E). unfold main_round in E1. apply bind_Ret_inv in E1 as ([k2 m2] & E2 & E1). apply Ret_inj in E1. injection E1 as <- <-.
      destruct (b_train_step l m (raw_scalar st) (raw_scalar st') k x y _ F (p_scalar R _ _ Hs) E2) as (X1 & (l' & F') & S1). cbn [fst snd] in *.
      pose proof (proj1 (IH _ _ _ E h l' F')) as X2. assert (X3 : extends k2 (fst r)) by (destruct X2 as [e X2]; exists e; exact X2).
      split; [eapply extends_trans; eauto|]. intros HQ Hh. destruct (S1 (known_before _ _ X3 HQ) h Hh) as ([h2 l2] & Eq & [F2 G2] & FL). cbn [fst snd] in *.
      assert (EM : main_round st x y (h, l) = Ret (zero_grad (zero_grad h2 y) x, l2)) by (unfold main_round; rewrite Eq; reflexivity). rewrite EM. cbn [bind]. apply (IH _ _ _ E); [exact FL|exact HQ|]. split; cbn [zero_grad nodes grads]; [exact F2|].
      intros i. unfold upd. destruct (i =? x); [exact I|]. destruct (i =? y); [exact I|]. apply G2.
Qed.

Lemma b_main inp hid out rounds one one' st st' w1 w1' b1 b1' w2 w2' b2 b2' w3 w3' b3 b3' input input' r :
  R one one' -> R st st' ->
  Forall2 R w1 w1' -> Forall2 R b1 b1' -> Forall2 R w2 w2' -> Forall2 R b2 b2' -> Forall2 R w3 w3' -> Forall2 R b3 b3' -> Forall2 R input input' ->
  main_program inp hid out rounds one' st' w1' b1' w2' b2' w3' b3' input' = Ret r -> known (nodes (fst r)) ->
  exists q, main_program inp hid out rounds one st w1 b1 w2 b2 w3 b3 input = Ret q /\ bnet q r.
Proof.
  intros H1 Hs Fw1 Fb1 Fw2 Fb2 Fw3 Fb3 Fi E HQ. unfold main_program in *.
  apply bind_Ret_inv in E as ([[[k0 m0] x] y] & E0 & E).
  pose proof (b_setup inp hid out one one' w1 w1' b1 b1' w2 w2' b2 b2' w3 w3' b3 b3' input input' H1 Fw1 Fb1 Fw2 Fb2 Fw3 Fb3 Fi) as S.
  destruct (bsim_of _ _ _ _ _ S _ E0) as ([[[h0 l0] x'] y'] & -> & Hh & F & Ex & Ey). cbn [fst snd bind] in *. subst x' y'. clear E0 S.
  apply (b_rounds st st' x y Hs rounds k0 m0 r E h0 l0 F); assumption.
Qed.

End Branch.
