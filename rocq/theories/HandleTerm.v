(** * HandleTerm: programs on gradient tensors terminate *)
From Verif Require Import Base ModelIndex ModelTensor ModelOps ModelJvp ModelGraph ModelHandle Spec SpecGraph SpecHandle
  Lists IndexFacts TensorFacts FuelFacts HandleFacts HandleProg HandleCycle.

Section Term.
Context {T : Type} {NT : Num T}.
Implicit Types (h : hheap T).

Ltac leaf := apply refers_alloc; intros ? ? EE; inversion EE; subst; repeat constructor; eapply hget_lt; eauto.
Ltac step := repeat (apply refers_bind; intros ? ?).
Ltac rop := intros; first
 [ apply refers_sub | apply refers_bmm_view
 | unfold op_new, op_filler, op_scalar, op_from, op_add, op_neg, op_mul, op_abs, op_relu, op_tanh, op_sum, op_bmm, op_dot, op_dot_method, op_deep_clone,
     op_grad, op_view_to_tensor, op_view_sum, op_mul_view; step; first [leaf | intros ? ? ?; discriminate] ].
Ltac nf := repeat first
  [ apply nf_push
  | apply nf_hget | apply nf_vindex | apply nf_unwrap_opt | apply nf_view_new | apply nf_add | apply nf_unary | apply nf_mul
  | apply nf_dot | apply nf_bmm | apply nf_tl_to_tensor | apply nf_tl_sum | apply nf_update_grad | apply nf_raw_new | apply nf_raw_from
  | discriminate
  | apply nf_bind; [|intros ? ?] ].

Lemma back_app (ns e : list (node T)) : backrefs ns ->
  (forall n nd k ins, length ns <= n -> nth_error (ns ++ e) n = Some nd -> n_fn nd = Some (k, ins) -> Forall (fun j => j < n) ins) -> backrefs (ns ++ e).
Proof.
  intros HB HN n nd k ins En Ef. destruct (Nat.lt_ge_cases n (length ns)) as [L|L]; [|eauto].
  rewrite nth_error_app1 in En by auto. eauto.
Qed.

Lemma forward_back op h h' i : (forall h0 : heap T, refers h0 (op h0)) -> h_forward op h = Ret (h', i) -> backrefs (hnodes h) -> backrefs (hnodes h').
Proof.
  intros R E HB. unfold h_forward in E. apply bind_inv in E as ([v a] & E1 & E). inversion E; subst. destruct (R _ _ _ E1) as ([e X] & L & F). cbn [nodes hnodes] in *.
  rewrite X in *. apply back_app; auto.
Qed.

Lemma alloc_back h v g : backrefs (hnodes h) -> backrefs (hnodes (fst (h_alloc h v None g))).
Proof. intros HB. cbn. apply backrefs_app; auto. discriminate. Qed.

Lemma update_back h h' i j : h_update_grad h i j = Ret h' -> backrefs (hnodes h) -> backrefs (hnodes h').
Proof.
  unfold h_update_grad. destruct (hgrads h i) as [o|]; intros E HB; [|injection E as <-; auto].
  apply bind_inv in E as ([h1 s] & E1 & E). injection E as <-. cbn. eapply forward_back; [|exact E1|exact HB]. rop.
Qed.

Lemma compute_back : forall fu h h' k ins outer, h_compute_jvp fu h k ins outer = Ret h' -> backrefs (hnodes h) -> backrefs (hnodes h').
Proof.
  induction fu as [|fu IH]; intros h h' k ins outer E HB; [discriminate|]. cbn [h_compute_jvp] in E.
  apply bind_inv in E as (nds & _ & E). apply bind_inv in E as (sg & _ & E).
  refine (foldM_inv _ _ (fun h => backrefs (hnodes h)) _ _ _ _ _ HB E). clear - IH. intros h [g [i nd]] h' HB E.
  apply bind_inv in E as (u & _ & E). apply bind_inv in E as (sh & _ & E). cbn [h_alloc] in E. apply bind_inv in E as (h2 & E2 & E).
  apply update_back in E2; [|apply (alloc_back h sh None HB)].
  destruct (n_fn nd) as [[k' ins']|]; [eapply IH; eauto|injection E as <-; auto].
Qed.

Lemma sum_back h h' i s : h_sum h i = Ret (h', s) -> backrefs (hnodes h) -> backrefs (hnodes h').
Proof.
  unfold h_sum. intros E HB. apply bind_inv in E as (nd & _ & E). cbn [h_alloc] in E. apply bind_inv in E as ([h2 s'] & E1 & E). injection E as <- <-. cbn.
  eapply forward_back; [|exact E1|apply (alloc_back h (raw_filler (shape (n_val nd)) n_one) None HB)]. rop.
Qed.

Lemma exec_back (s s' : hstate T) c : h_exec s c = Ret s' -> backrefs (hnodes (hhp s)) -> backrefs (hnodes (hhp s')).
Proof.
  intros E HB.
  destruct c; cbn [h_exec] in E; unfold h_push in E;
    repeat (match type of E with bind (vindex _ _) _ = _ => let a := fresh "a" in let Ea := fresh "Ea" in apply bind_inv in E as (a & Ea & E) end);
    try (match type of E with bind (h_forward ?op _) _ = _ => apply bind_inv in E as ([h i] & E1 & E); injection E as <-; eapply forward_back; [|exact E1|exact HB]; rop end).
  - apply bind_inv in E as ([h i] & E1 & E). injection E as <-. eapply sum_back; eauto.
  - apply bind_inv in E as (g & E1 & E). injection E as <-. auto.
  - apply bind_inv in E as (h & E1 & E). injection E as <-. eapply update_back; eauto.
  - injection E as <-. auto.
  - apply bind_inv in E as (h & E1 & E). injection E as <-. unfold h_backward in E1.
    apply bind_inv in E1 as (nd & _ & E1). apply bind_inv in E1 as (u & _ & E1). apply bind_inv in E1 as ([k ins] & _ & E1). eapply compute_back; eauto.
Qed.

(** ** No fuel is missing *)
Lemma nf_forward op h : (forall h0 : heap T, op h0 <> NoFuel) -> h_forward op h <> NoFuel.
Proof. intros H. apply nf_bind; [apply H|]. intros [? ?] _. discriminate. Qed.

Lemma nf_h_update h i j : h_update_grad h i j <> NoFuel.
Proof. unfold h_update_grad. destruct (hgrads h i); [|discriminate]. apply nf_bind; [|intros [? ?] _; discriminate]. apply nf_forward. intros h0. unfold op_add. nf. Qed.

Lemma nf_h_compute : forall fu h k ins outer n, backrefs (hnodes h) -> Forall (fun i => i < n) ins -> n < fu -> h_compute_jvp fu h k ins outer <> NoFuel.
Proof.
  induction fu as [|fu IH]; intros h k ins outer n HB Hi Hf; [lia|]. cbn [h_compute_jvp].
  apply nf_bind; [apply nf_mapM; intros; apply nf_vindex|]. intros nds En.
  apply nf_bind; [apply nf_jvp|]. intros sg _.
  assert (HIN : forall g i nd, In (g, (i, nd)) (combine sg (combine ins nds)) -> In i ins /\ nth_error (hnodes h) i = Some nd).
  { intros g i nd Hin. apply in_combine_r in Hin. exact (in_inputs (hnodes h) ins nds i nd En Hin). }
  assert (G : forall l h1, (forall g i nd, In (g, (i, nd)) l -> In i ins /\ nth_error (hnodes h) i = Some nd) -> backrefs (hnodes h1) ->
    foldM (fun h '(g, (i, nd)) =>
             assert (length (array g) =? length (array (n_val nd))) ;;
             let* shaped_grad := raw_new (array g) (shape (n_val nd)) in
             let (h1, j) := h_alloc h shaped_grad None None in
             let* h2 := h_update_grad h1 i j in
             match n_fn nd with
             | Some (k', inputs') => h_compute_jvp fu h2 k' inputs' [g]
             | None => Ret h2
             end) l h1 <> NoFuel); [|apply G; auto].
  induction l as [|[g [i nd]] l IHl]; intros h1 HL HB1; cbn [foldM]; [discriminate|]. apply nf_bind.
  - apply nf_bind; [apply nf_assert|]. intros _ _. apply nf_bind; [apply nf_raw_new|]. intros sh _. cbn [h_alloc].
    apply nf_bind; [apply nf_h_update|]. intros h2 E2. apply update_back in E2; [|apply (alloc_back h1 sh None HB1)].
    destruct (n_fn nd) as [[k' ins']|] eqn:Ef; [|discriminate].
    destruct (HL g i nd) as [Hin Hnd]; [left; reflexivity|]. rewrite Forall_forall in Hi. specialize (Hi i Hin).
    apply (IH h2 k' ins' [g] i E2); [exact (HB _ _ _ _ Hnd Ef)|lia].
  - intros h3 E3. apply IHl; [intros; eapply HL; right; eauto|].
    apply bind_inv in E3 as (u & _ & E3). apply bind_inv in E3 as (sh & _ & E3). cbn [h_alloc] in E3. apply bind_inv in E3 as (h2 & E2 & E3).
    apply update_back in E2; [|apply (alloc_back h1 sh None HB1)].
    destruct (n_fn nd) as [[k' ins']|]; [eapply compute_back; eauto|injection E3 as <-; auto].
Qed.

Lemma nf_h_backward h i : backrefs (hnodes h) -> h_backward h i <> NoFuel.
Proof.
  intros HB. unfold h_backward. apply nf_bind; [apply nf_vindex|]. intros nd En. apply nf_bind; [apply nf_assert|]. intros _ _.
  apply nf_bind; [apply nf_unwrap_opt|]. intros [k ins] Ef.
  unfold vindex in En. destruct (nth_error (hnodes h) i) as [nd'|] eqn:En'; [|discriminate]. injection En as <-.
  destruct (n_fn nd') as [[k' ins']|] eqn:Ef'; [|discriminate]. injection Ef as -> ->.
  apply (nf_h_compute _ _ _ _ _ i HB); [exact (HB _ _ _ _ En' Ef')|]. apply Nat.lt_lt_succ_r. apply nth_error_Some. congruence.
Qed.

Lemma nf_h_push (s : hstate T) r : r <> NoFuel -> h_push s r <> NoFuel.
Proof. intros H. apply nf_bind; [exact H|]. intros [h i] _. discriminate. Qed.

Lemma nf_h_exec (s : hstate T) c : backrefs (hnodes (hhp s)) -> h_exec s c <> NoFuel.
Proof.
  intros Hb. destruct c; cbn [h_exec]; repeat (apply nf_bind; [apply nf_vindex|]; intros ? _);
    try (apply nf_h_push; apply nf_forward; intros h0;
      unfold op_new, op_filler, op_scalar, op_from, op_sub, op_add, op_neg, op_mul, op_abs, op_relu, op_tanh, op_sum, op_bmm, op_dot,
      op_dot_method, op_deep_clone, op_grad, op_update_grad, op_view_to_tensor, op_view_sum, op_mul_view, op_bmm_view; nf; fail).
  - (* sub *) apply nf_h_push, nf_forward. intros h0. unfold op_sub. apply nf_bind; [unfold op_neg; nf|]. intros [h' nj] _. unfold op_add. nf.
  - (* sum *) apply nf_h_push. unfold h_sum. apply nf_bind; [apply nf_vindex|]. intros nd _. cbn [h_alloc].
    apply nf_bind; [apply nf_forward; intros h0; unfold op_sum; nf|]. intros [? ?] _. discriminate.
  - (* grad *) apply nf_bind; [apply nf_unwrap_opt|]. discriminate.
  - apply nf_bind; [apply nf_h_update|]. discriminate.
  - discriminate.
  - apply nf_bind; [apply nf_h_backward; auto|]. discriminate.
Qed.

Lemma h_run_nf : forall p (s : hstate T), backrefs (hnodes (hhp s)) -> h_run p s <> NoFuel.
Proof.
  induction p as [|c p IH]; intros s HB; unfold h_run; cbn [foldM]; [discriminate|].
  apply nf_bind; [apply nf_h_exec; auto|]. intros s1 E1. apply IH. eapply exec_back; eauto.
Qed.

End Term.
