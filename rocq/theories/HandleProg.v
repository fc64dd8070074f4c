(** * HandleProg: programs on the heap with gradient tensors *)
From Coq Require Import Relation_Operators Operators_Properties.
From Verif Require Import Base Lists ModelIndex ModelTensor ModelOps ModelJvp ModelGraph ModelHandle Spec SpecDual SpecGraph SpecHandle
  FuelFacts HandleFacts.

Local Arguments Nat.ltb _ _ : simpl never.

Section Prog.
Context {T : Type} {NT : Num T}.
Implicit Types (ns : list (node T)).

Lemma run_rel : forall p m s hs f st, srel m s hs f st -> values_only m p ->
  rel_out (fun s' hs' => exists f' st', srel (fold_left mark p m) s' hs' f' st') (run p s) (h_run p hs).
Proof.
  induction p as [|c p IH]; intros m s hs f st R V; unfold run, h_run; cbn [foldM fold_left].
  - cbn. eauto.
  - destruct V as [V1 V2]. eapply rel_bind; [eapply exec_rel; eauto|]. intros s' hs' _ _ (f' & st' & R'). eapply IH; eauto.
Qed.

Lemma srel_init : srel [] (init_state (T:=T)) h_init (fun i => i) (fun _ => True).
Proof.
  split; cbn; auto; try constructor.
  - split; intros i; try (intros ? E; destruct i; discriminate); try (intros ? ? ? E; destruct i; discriminate). cbn. intros; lia.
  - intros i Hi. cbn in Hi. lia.
Qed.

(** ** Histories refer back, in every program *)

Lemma backrefs_app ns t fn : backrefs ns -> (forall k ins, fn = Some (k, ins) -> Forall (fun i => i < length ns) ins) -> backrefs (ns ++ [mkNode t fn]).
Proof.
  intros H Hn i nd k ins E Ef. destruct (Nat.lt_ge_cases i (length ns)) as [L|L].
  - rewrite nth_error_app1 in E by lia. eapply H; eauto.
  - assert (i = length ns) as -> by (apply nth_lt in E; rewrite app_length in E; cbn in E; lia).
    rewrite nth_error_app2, Nat.sub_diag in E by lia. inversion E; subst. cbn in Ef. eapply Hn; eauto.
Qed.

(** An operation keeps the tensors there are, adds some, and returns one of them. *)
Definition grows (h : heap T) (r : outcome (heap T * nat)) : Prop := forall h' i, r = Ret (h', i) ->
  backrefs (nodes h) -> backrefs (nodes h') /\ (exists e, nodes h' = nodes h ++ e) /\ i < length (nodes h').

Lemma grows_bind A h (m : outcome A) F : (forall a, m = Ret a -> grows h (F a)) -> grows h (let* a := m in F a).
Proof. intros H h' i E. destruct m as [a|p|]; cbn in E; try discriminate. eapply H; eauto. Qed.

Lemma grows_alloc h v fn g : (forall k ins, fn = Some (k, ins) -> Forall (fun i => i < length (nodes h)) ins) -> grows h (Ret (alloc h v fn g)).
Proof.
  intros H h' i E HB. inversion E; subst. cbn. split; [apply backrefs_app; auto|]. split; [eauto|]. rewrite app_length; cbn; lia.
Qed.

Lemma hget_lt (h : heap T) i nd : hget h i = Ret nd -> i < length (nodes h).
Proof. unfold hget, vindex. destruct (nth_error (nodes h) i) eqn:E; [|discriminate]. intros _. eapply nth_lt; eauto. Qed.

Ltac leaf := apply grows_alloc; intros ? ? EE; inversion EE; subst; repeat constructor; eapply hget_lt; eauto.
Ltac step := repeat (apply grows_bind; intros ? ?).

Lemma grows_add h i j : grows h (op_add h i j).
Proof. unfold op_add. step. leaf. Qed.
Lemma grows_neg h i : grows h (op_neg h i).
Proof. unfold op_neg. step. leaf. Qed.

Lemma grows_sub h i j : grows h (op_sub h i j).
Proof.
  unfold op_sub. intros h' a E HB. destruct (op_neg h j) as [[h1 b]|p|] eqn:E1; cbn [bind] in E; try discriminate.
  destruct (grows_neg h j _ _ E1 HB) as (B1 & [e1 X1] & L1). destruct (grows_add h1 i b _ _ E B1) as (B2 & [e2 X2] & L2).
  split; [exact B2|]. split; [|exact L2]. exists (e1 ++ e2). rewrite X2, X1. symmetry; apply app_assoc.
Qed.

Lemma grows_bmm_view h i j o : grows h (op_bmm_view h i j o).
Proof.
  unfold op_bmm_view. step. intros h' r E HB. inversion E; subst. cbn [nodes]. split; [|split].
  - apply backrefs_app; [apply backrefs_app; auto; intros; discriminate|]. intros k ins EE. inversion EE; subst.
    rewrite app_length. cbn. assert (i < length (nodes h)) by (eapply hget_lt; eauto). repeat constructor; lia.
  - rewrite <- app_assoc. eauto.
  - rewrite !app_length. cbn. lia.
Qed.

Ltac op := first
 [ apply grows_sub | apply grows_bmm_view
 | unfold op_new, op_filler, op_scalar, op_from, op_add, op_neg, op_mul, op_abs, op_relu, op_tanh, op_sum, op_bmm, op_dot, op_dot_method, op_deep_clone,
     op_grad, op_view_to_tensor, op_view_sum, op_mul_view; step; first [leaf | intros ? ? ?; discriminate] ].

Lemma push_grows (s s' : state T) r : grows (hp s) r -> push s r = Ret s' -> backrefs (nodes (hp s)) -> backrefs (nodes (hp s')).
Proof. intros G E HB. unfold push in E. destruct r as [[h i]|p|]; cbn in E; try discriminate. inversion E; subst. cbn. eapply G; eauto. Qed.

Lemma bind_inv A B (m : outcome A) (k : A -> outcome B) b : bind m k = Ret b -> exists a, m = Ret a /\ k a = Ret b.
Proof. destruct m; cbn; try discriminate. eauto. Qed.

Lemma exec_backrefs (s s' : state T) c : exec s c = Ret s' -> backrefs (nodes (hp s)) -> backrefs (nodes (hp s')).
Proof.
  intros E HB. destruct c; cbn [exec] in E;
    repeat (match type of E with bind (vindex _ _) _ = _ => let a := fresh "a" in let Ea := fresh "Ea" in apply bind_inv in E as (a & Ea & E) end);
    try (eapply push_grows; [|exact E|exact HB]; op).
  - apply bind_inv in E as (h' & Eh & E). inversion E; subst. cbn. unfold op_update_grad in Eh.
    apply bind_inv in Eh as (g & _ & Eh). apply bind_inv in Eh as (gr & _ & Eh). inversion Eh; subst. exact HB.
  - inversion E; subst. exact HB.
  - apply bind_inv in E as (h' & Eh & E). inversion E; subst. cbn. unfold backward in Eh.
    apply bind_inv in Eh as (g & _ & Eh). apply bind_inv in Eh as (u & _ & Eh). apply bind_inv in Eh as ([k ins] & _ & Eh).
    apply bind_inv in Eh as (gr & _ & Eh). inversion Eh; subst. exact HB.
Qed.

Lemma run_nf : forall p (s : state T), backrefs (nodes (hp s)) -> run p s <> NoFuel.
Proof.
  induction p as [|c p IH]; intros s HB; unfold run; cbn [foldM]; [discriminate|].
  destruct (exec s c) as [s'|q|] eqn:E; cbn [bind]; [|discriminate|].
  - apply IH. eapply exec_backrefs; eauto.
  - intros _. eapply nf_exec; eauto.
Qed.

(** ** Tensors never change *)

Definition hext (h h' : hheap T) : Prop := exists e, hnodes h' = hnodes h ++ e.
Lemma hext_refl h : hext h h.
Proof. exists []. symmetry; apply app_nil_r. Qed.
Lemma hext_trans a b c : hext a b -> hext b c -> hext a c.
Proof. intros [e E] [e' E']. exists (e ++ e'). rewrite E', E. symmetry; apply app_assoc. Qed.

(** The weak form of [grows] *)
Definition appends (h : heap T) (r : outcome (heap T * nat)) : Prop := forall h' i, r = Ret (h', i) -> exists e, nodes h' = nodes h ++ e.

Lemma appends_bind A h (m : outcome A) F : (forall a, m = Ret a -> appends h (F a)) -> appends h (let* a := m in F a).
Proof. intros H h' i E. destruct m as [a|p|]; cbn in E; try discriminate. eapply H; eauto. Qed.
Lemma appends_alloc h v fn g : appends h (Ret (alloc h v fn g)).
Proof. intros h' i E. inversion E; subst. cbn. eauto. Qed.
Ltac astep := repeat (apply appends_bind; intros ? ?); try apply appends_alloc.

Lemma appends_sub h i j : appends h (op_sub h i j).
Proof.
  unfold op_sub. intros h' a E. apply bind_inv in E as ([h1 b] & E1 & E).
  assert (A1 : appends h (op_neg h j)) by (unfold op_neg; astep). assert (A2 : appends h1 (op_add h1 i b)) by (unfold op_add; astep).
  destruct (A1 _ _ E1) as [e1 X1]. destruct (A2 _ _ E) as [e2 X2]. exists (e1 ++ e2). rewrite X2, X1. symmetry; apply app_assoc.
Qed.
Lemma appends_bmm_view h i j o : appends h (op_bmm_view h i j o).
Proof. unfold op_bmm_view. astep. intros h' r E. inversion E; subst. cbn. rewrite <- app_assoc. eauto. Qed.

Lemma forward_hext op (h h' : hheap T) i : (forall h0, appends h0 (op h0)) -> h_forward op h = Ret (h', i) -> hext h h'.
Proof.
  intros A E. unfold h_forward in E. apply bind_inv in E as ([h1 a] & E1 & E). inversion E; subst. destruct (A _ _ _ E1) as [e X]. exists e. exact X.
Qed.

Lemma update_hext (h h' : hheap T) i j : h_update_grad h i j = Ret h' -> hext h h'.
Proof.
  unfold h_update_grad. destruct (hgrads h i) as [o|].
  - intros E. apply bind_inv in E as ([h1 s] & E1 & E). inversion E; subst. apply (forward_hext (fun h => op_add h o j)) in E1; [exact E1|]. intros; unfold op_add; astep.
  - intros E. inversion E; subst. exists []. symmetry; apply app_nil_r.
Qed.

Lemma foldM_inv A B (Q : A -> Prop) (g : A -> B -> outcome A) : forall l a a', (forall a b a', Q a -> g a b = Ret a' -> Q a') -> Q a -> foldM g l a = Ret a' -> Q a'.
Proof.
  induction l as [|b l IH]; intros a a' H HQ; cbn [foldM].
  - intros E; inversion E; subst; auto.
  - intros E. apply bind_inv in E as (a1 & E1 & E). exact (IH a1 a' H (H _ _ _ HQ E1) E).
Qed.

Lemma compute_hext : forall fu (h h' : hheap T) k ins outer, h_compute_jvp fu h k ins outer = Ret h' -> hext h h'.
Proof.
  induction fu as [|fu IH]; intros h h' k ins outer E; cbn [h_compute_jvp] in E; [discriminate|].
  apply bind_inv in E as (nds & _ & E). apply bind_inv in E as (sg & _ & E).
  revert E. apply (foldM_inv _ _ (fun h' => hext h h')); [|apply hext_refl]. intros a [g [i nd]] a' HQ E.
  apply bind_inv in E as (u0 & _ & E). apply bind_inv in E as (sgr & _ & E). cbn [h_alloc] in E.
  apply bind_inv in E as (h2 & E2 & E). apply update_hext in E2.
  assert (hext h h2) by (eapply hext_trans; [exact HQ|]; eapply hext_trans; [|exact E2]; eexists; reflexivity).
  destruct (n_fn nd) as [[k' ins']|]; [|inversion E; subst; auto]. eapply hext_trans; eauto.
Qed.

Lemma sum_hext (h h' : hheap T) i s : h_sum h i = Ret (h', s) -> hext h h'.
Proof.
  unfold h_sum. intros E. apply bind_inv in E as (nd & _ & E). cbn [h_alloc] in E. apply bind_inv in E as ([h2 s2] & E2 & E). inversion E; subst.
  apply (forward_hext (fun h => op_sum h i)) in E2; [|intros; unfold op_sum; astep]. cbn [hnodes] in *. destruct E2 as [e X]. eexists. cbn. rewrite X. cbn. symmetry; apply app_assoc.
Qed.

Ltac aop := intros; first
 [ apply appends_sub | apply appends_bmm_view
 | unfold op_new, op_filler, op_scalar, op_from, op_add, op_neg, op_mul, op_abs, op_relu, op_tanh, op_sum, op_bmm, op_dot, op_dot_method, op_deep_clone,
     op_grad, op_view_to_tensor, op_view_sum, op_mul_view; astep; intros ? ? ?; discriminate ].

Lemma exec_hext (s s' : hstate T) c : h_exec s c = Ret s' -> hext (hhp s) (hhp s') /\ exists e, henv s' = henv s ++ e.
Proof.
  intros E.
  assert (P : forall op h i, (forall h0, appends h0 (op h0)) -> h_forward op (hhp s) = Ret (h, i) -> s' = mkHState h (henv s ++ [i]) ->
    hext (hhp s) (hhp s') /\ exists e, henv s' = henv s ++ e).
  { intros op h i A E1 ->. cbn. split; [eapply forward_hext; eauto|eauto]. }
  destruct c; cbn [h_exec] in E; unfold h_push in E;
    repeat (match type of E with bind (vindex _ _) _ = _ => let a := fresh "a" in let Ea := fresh "Ea" in apply bind_inv in E as (a & Ea & E) end);
    try (match type of E with bind (h_forward ?op _) _ = _ => apply bind_inv in E as ([h i] & E1 & E); injection E as <-; eapply P; [|exact E1|reflexivity]; aop end).
  - apply bind_inv in E as ([h i] & E1 & E). inversion E; subst. cbn. split; [eapply sum_hext; eauto|eauto].
  - apply bind_inv in E as (g & E1 & E). inversion E; subst. cbn. split; [apply hext_refl|eauto].
  - apply bind_inv in E as (h & E1 & E). inversion E; subst. cbn. split; [eapply update_hext; eauto|exists []; symmetry; apply app_nil_r].
  - inversion E; subst. cbn. split; exists []; symmetry; apply app_nil_r.
  - apply bind_inv in E as (h & E1 & E). inversion E; subst. cbn. split; [|exists []; symmetry; apply app_nil_r].
    unfold h_backward in E1. apply bind_inv in E1 as (nd & _ & E1). apply bind_inv in E1 as (u & _ & E1). apply bind_inv in E1 as ([k ins] & _ & E1).
    eapply compute_hext; eauto.
Qed.

Lemma run_hext : forall p (s s' : hstate T), h_run p s = Ret s' -> hext (hhp s) (hhp s') /\ exists e, henv s' = henv s ++ e.
Proof.
  induction p as [|c p IH]; intros s s' E; unfold h_run in E; cbn [foldM] in E.
  - inversion E; subst. split; [apply hext_refl|exists []; symmetry; apply app_nil_r].
  - apply bind_inv in E as (s1 & E1 & E). apply exec_hext in E1 as [X1 [e1 E1]]. apply IH in E as [X2 [e2 E2]].
    split; [eapply hext_trans; eauto|]. exists (e1 ++ e2). rewrite E2, E1. symmetry; apply app_assoc.
Qed.

End Prog.
