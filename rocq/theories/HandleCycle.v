(** * HandleCycle: references between tensors *)
From Coq Require Import Relation_Operators Operators_Properties.
From Verif Require Import Base Lists ModelIndex ModelTensor ModelOps ModelJvp ModelGraph ModelHandle Spec SpecDual SpecGraph SpecHandle
  FuelFacts HandleFacts HandleProg.

Local Arguments Nat.ltb _ _ : simpl never.

Section Cycle.
Context {T : Type} {NT : Num T}.
Implicit Types (h : hheap T).

Definition closed h : Prop := forall a b, points h a b -> b < length (hnodes h).

Lemma points_lt h a b : points h a b -> a < length (hnodes h).
Proof. intros [(nd & k & ins & E & _)|[L _]]; [eapply nth_lt; eauto|exact L]. Qed.

(** ** New tensors *)
Definition newer h h' : Prop := length (hnodes h) <= length (hnodes h') /\
  (forall a b, a < length (hnodes h) -> points h' a b -> points h a b) /\
  (forall a b, length (hnodes h) <= a -> points h' a b -> b < a).

Lemma newer_refl h : newer h h.
Proof. split; [lia|]. split; [auto|]. intros a b L P. apply points_lt in P. lia. Qed.

Lemma newer_trans h1 h2 h3 : newer h1 h2 -> newer h2 h3 -> newer h1 h3.
Proof.
  intros (L1 & A1 & B1) (L2 & A2 & B2). split; [lia|]. split.
  - intros a b La P. apply A1; auto. apply A2; auto. lia.
  - intros a b La P. destruct (Nat.lt_ge_cases a (length (hnodes h2))) as [L|L]; eauto.
Qed.

Lemma newer_closed h h' : closed h -> newer h h' -> closed h'.
Proof.
  intros C (L & A & B) a b P. destruct (Nat.lt_ge_cases a (length (hnodes h))) as [La|La].
  - specialize (C _ _ (A _ _ La P)). lia.
  - specialize (B _ _ La P). apply points_lt in P. lia.
Qed.

Lemma newer_holds h h' a b : closed h -> newer h h' -> holds h' a b -> a < length (hnodes h) -> holds h a b /\ b < length (hnodes h).
Proof.
  intros C (L & A & B) H. apply clos_rt_rt1n in H. induction H as [a|a c b P H IH]; intros La; [split; [apply rt_refl|auto]|].
  apply A in P; auto. destruct (IH (C _ _ P)) as [IH1 IH2]. split; auto. eapply rt_trans; [apply rt_step|]; eauto.
Qed.

Lemma newer_down h h' a b : closed h -> newer h h' -> holds h' a b -> length (hnodes h) <= b -> b <= a.
Proof.
  intros C N H. apply clos_rt_rt1n in H. induction H as [a|a c b P H IH]; intros Lb; [lia|].
  specialize (IH Lb). pose proof N as (L & A & B). destruct (Nat.lt_ge_cases a (length (hnodes h))) as [La|La].
  - apply A in P; auto. apply C in P. lia.
  - apply B in P; auto. lia.
Qed.

Lemma newer_acyclic h h' : closed h -> no_cycles h -> newer h h' -> no_cycles h'.
Proof.
  intros C NC N a b P H. destruct (Nat.lt_ge_cases a (length (hnodes h))) as [La|La].
  - pose proof (proj1 (proj2 N) a b La P) as P0. apply (NC a b P0). eapply newer_holds; eauto.
  - pose proof (proj2 (proj2 N) a b La P). apply newer_down with (h := h) in H; auto. lia.
Qed.

(** ** Setting a cell *)
Definition set_cell h i j : hheap T := mkHH (hnodes h) (upd (hgrads h) i (Some j)).

Lemma set_points h i j a b : points (set_cell h i j) a b -> points h a b \/ (a = i /\ b = j).
Proof.
  intros [P|[L E]]; [left; left; exact P|]. cbn in *. unfold upd in E. destruct (Nat.eqb_spec a i) as [->|]; [right; split; congruence|].
  left; right; auto.
Qed.

Lemma set_holds h i j a b : holds (set_cell h i j) a b -> holds h a b \/ (holds h a i /\ holds h j b).
Proof.
  intros H. apply clos_rt_rt1n in H. induction H as [a|a c b P H IH]; [left; apply rt_refl|].
  apply set_points in P as [P|[-> ->]].
  - destruct IH as [IH|[IH1 IH2]]; [left|right; split; auto]; eapply rt_trans; try (apply rt_step; eassumption); eassumption.
  - right. split; [apply rt_refl|]. destruct IH as [IH|[IH1 IH2]]; auto.
Qed.

Lemma set_acyclic h i j : no_cycles h -> ~ holds h j i -> no_cycles (set_cell h i j).
Proof.
  intros NC NH a b P H. apply set_points in P as [P|[-> ->]]; apply set_holds in H as [H|[H1 H2]]; eauto.
  - apply (NC a b P). eauto.
  - apply NH. eapply rt_trans; [exact H2|]. eapply rt_trans; [apply rt_step; exact P|exact H1].
Qed.

Lemma set_closed h i j : closed h -> j < length (hnodes h) -> closed (set_cell h i j).
Proof. intros C L a b P. apply set_points in P as [P|[-> ->]]; cbn; eauto. Qed.

Lemma clear_points h i a b : points (h_zero_grad h i) a b -> points h a b.
Proof.
  intros [P|[L E]]; [left; exact P|]. cbn in *. unfold upd in E. destruct (Nat.eqb_spec a i); [discriminate|]. right; auto.
Qed.

Lemma clear_acyclic h i : no_cycles h -> no_cycles (h_zero_grad h i).
Proof.
  intros NC a b P H. apply clear_points in P. apply (NC a b P). clear P. apply clos_rt_rt1n in H. induction H as [x|x y z P H IH]; [apply rt_refl|].
  eapply rt_trans; [apply rt_step; eapply clear_points; eauto|auto].
Qed.

(** ** The operations *)

Lemma newer_alloc h v fn g : (forall k ins, fn = Some (k, ins) -> Forall (fun i => i < length (hnodes h)) ins) ->
  (forall j, g = Some j -> j < length (hnodes h)) -> newer h (fst (h_alloc h v fn g)).
Proof.
  intros Hf Hg. split; [cbn; rewrite app_length; lia|]. cbn [h_alloc fst]. split; intros a b La P.
  - destruct P as [(nd & k & ins & E & Ef & Hin)|[L E]]; cbn in *.
    + left. rewrite nth_error_app1 in E by lia. eauto 8.
    + right. split; auto. unfold upd in E. destruct (Nat.eqb_spec a (length (hnodes h))); [lia|auto].
  - pose proof (points_lt _ _ _ P) as Ll. cbn in Ll. rewrite app_length in Ll. cbn in Ll. assert (a = length (hnodes h)) as -> by lia.
    destruct P as [(nd & k & ins & E & Ef & Hin)|[L E]]; cbn in *.
    + rewrite nth_error_app2, Nat.sub_diag in E by lia. inversion E; subst. cbn in Ef. specialize (Hf _ _ Ef). rewrite Forall_forall in Hf. auto.
    + unfold upd in E. rewrite Nat.eqb_refl in E. auto.
Qed.

(** Operations of ModelGraph: new histories refer to earlier tensors. *)
Definition refers (h : heap T) (r : outcome (heap T * nat)) : Prop := forall (h' : heap T) i, r = Ret (h', i) ->
  (exists e, nodes h' = nodes h ++ e) /\ i < length (nodes h') /\
  forall n nd k ins, length (nodes h) <= n -> nth_error (nodes h') n = Some nd -> n_fn nd = Some (k, ins) -> Forall (fun j => j < n) ins.

Lemma refers_bind A (h : heap T) (m : outcome A) F : (forall a, m = Ret a -> refers h (F a)) -> refers h (let* a := m in F a).
Proof. intros H h' i E. destruct m as [a|p|]; cbn in E; try discriminate. eapply H; eauto. Qed.

Lemma refers_alloc (h : heap T) v fn g : (forall k ins, fn = Some (k, ins) -> Forall (fun i => i < length (nodes h)) ins) -> refers h (Ret (alloc h v fn g)).
Proof.
  intros H h' i E. inversion E; subst. cbn. split; [eauto|]. split; [rewrite app_length; cbn; lia|].
  intros n nd k ins L En Ef. assert (n = length (nodes h)) as -> by (apply nth_lt in En; rewrite app_length in En; cbn in En; lia).
  rewrite nth_error_app2, Nat.sub_diag in En by lia. inversion En; subst. eapply H; eauto.
Qed.

Ltac leaf := apply refers_alloc; intros ? ? EE; inversion EE; subst; repeat constructor; eapply hget_lt; eauto.
Ltac step := repeat (apply refers_bind; intros ? ?).

Lemma refers_trans (h h1 h2 : heap T) i j : refers h (Ret (h1, i)) -> refers h1 (Ret (h2, j)) -> refers h (Ret (h2, j)).
Proof.
  intros R1 R2 h' k E. inversion E; subst. destruct (R1 _ _ eq_refl) as ([e1 X1] & L1 & F1). destruct (R2 _ _ eq_refl) as ([e2 X2] & L2 & F2).
  split; [exists (e1 ++ e2); rewrite X2, X1; symmetry; apply app_assoc|]. split; [auto|].
  intros n nd k' ins L En Ef. destruct (Nat.lt_ge_cases n (length (nodes h1))) as [Ln|Ln]; [|eauto].
  rewrite X2, nth_error_app1 in En by lia. eauto.
Qed.

Lemma refers_sub (h : heap T) i j : refers h (op_sub h i j).
Proof.
  unfold op_sub. intros h' a E. apply bind_inv in E as ([h1 b] & E1 & E).
  assert (A1 : refers h (op_neg h j)) by (unfold op_neg; step; leaf). assert (A2 : refers h1 (op_add h1 i b)) by (unfold op_add; step; leaf).
  rewrite E1 in A1. rewrite E in A2. exact (refers_trans _ _ _ _ _ A1 A2 _ _ eq_refl).
Qed.

Lemma refers_bmm_view (h : heap T) i j o : refers h (op_bmm_view h i j o).
Proof.
  unfold op_bmm_view. step. cbn [alloc].
  eapply (refers_trans _ (fst (alloc h a3 None None)) _ (length (nodes h))); [apply (refers_alloc h a3 None None); intros; discriminate|].
  apply (refers_alloc (fst (alloc h a3 None None)) a2 (Some (KBmm, [i; length (nodes h)])) None).
  intros k ins EE. inversion EE; subst. cbn [alloc fst nodes]. rewrite app_length. cbn.
  assert (i < length (nodes h)) by (eapply hget_lt; eauto). repeat constructor; lia.
Qed.

Lemma forward_newer op h h' i : (forall h0 : heap T, refers h0 (op h0)) -> h_forward op h = Ret (h', i) -> newer h h' /\ i < length (hnodes h').
Proof.
  intros R E. unfold h_forward in E. apply bind_inv in E as ([v a] & E1 & E). inversion E; subst. destruct (R _ _ _ E1) as ([e X] & L & F). cbn [nodes] in *.
  split; [|exact L]. split; [cbn; rewrite X, app_length; lia|]. split; intros a b La P.
  - destruct P as [(nd & k & ins & En & Ef & Hin)|[Lh Eg]]; cbn in *.
    + left. rewrite X, nth_error_app1 in En by lia. eauto 8.
    + right. split; auto. destruct (Nat.ltb_spec a (length (hnodes h))); [auto|lia].
  - destruct P as [(nd & k & ins & En & Ef & Hin)|[Lh Eg]]; cbn in *.
    + specialize (F _ _ _ _ La En Ef). rewrite Forall_forall in F. auto.
    + destruct (Nat.ltb_spec a (length (hnodes h))); [lia|discriminate].
Qed.

Lemma sum_newer h h' i s : h_sum h i = Ret (h', s) -> newer h h' /\ s < length (hnodes h').
Proof.
  unfold h_sum. intros E. apply bind_inv in E as (nd & Ei & E).
  set (h1 := fst (h_alloc h (raw_filler (shape (n_val nd)) n_one) None None)).
  change (h_alloc h (raw_filler (shape (n_val nd)) n_one) None None) with (h1, length (hnodes h)) in E. cbn beta iota in E.
  apply bind_inv in E as ([h2 s2] & E2 & E). inversion E; subst. clear E.
  assert (N1 : newer h h1) by (apply newer_alloc; intros; discriminate).
  assert (Es : s = length (hnodes h1)).
  { unfold h_forward, op_sum in E2. apply bind_inv in E2 as ([v b] & E2 & E3). inversion E3; subst.
    apply bind_inv in E2 as (x & _ & E2). apply bind_inv in E2 as (y & _ & E2). inversion E2; subst. reflexivity. }
  assert (Lh1 : length (hnodes h1) = S (length (hnodes h))) by (unfold h1; cbn; rewrite app_length; cbn; lia).
  apply forward_newer in E2; [|intros; unfold op_sum; step; leaf]. destruct E2 as [N2 L2].
  pose proof (newer_trans _ _ _ N1 N2) as (N3 & N4 & N5). split; [|exact L2]. split; [exact N3|]. split; intros a b La P.
  - apply N4; auto. destruct P as [P|[Lp Ep]]; [left; exact P|]. right. split; auto. cbn in Ep. unfold upd in Ep. destruct (Nat.eqb_spec a s); [lia|auto].
  - destruct P as [P|[Lp Ep]]; [apply N5; [auto|left; exact P]|]. cbn in Ep. unfold upd in Ep. destruct (Nat.eqb_spec a s) as [->|].
    + inversion Ep; subst. lia.
    + apply N5; auto. right; auto.
Qed.

Lemma update_acyclic h h' i j : closed h -> no_cycles h -> i < length (hnodes h) -> j < length (hnodes h) -> ~ holds h j i -> h_update_grad h i j = Ret h' ->
  closed h' /\ no_cycles h' /\ length (hnodes h) <= length (hnodes h').
Proof.
  intros C NC Li Lj NH E. unfold h_update_grad in E. destruct (hgrads h i) as [o|] eqn:Eo.
  - apply bind_inv in E as ([h1 s] & E1 & E). inversion E; subst. clear E.
    assert (Ho : points h i o) by (right; auto).
    assert (Es : s = length (hnodes h)).
    { unfold h_forward, op_add in E1. apply bind_inv in E1 as ([v b] & E2 & E3). inversion E3; subst.
      apply bind_inv in E2 as (x & _ & E2). apply bind_inv in E2 as (y & _ & E2). apply bind_inv in E2 as (z & _ & E2). inversion E2; subst. reflexivity. }
    subst s. assert (Hp : forall b, points h1 (length (hnodes h)) b -> b = o \/ b = j).
    { unfold h_forward, op_add in E1. apply bind_inv in E1 as ([v b0] & E2 & E3). inversion E3; subst h1 b0.
      apply bind_inv in E2 as (x & _ & E2). apply bind_inv in E2 as (y & _ & E2). apply bind_inv in E2 as (z & _ & E2). inversion E2; subst v. clear E2 E3.
      intros b [(nd & k & ins & En & Ef & Hin)|[Lp Ep]]; cbn in *.
      - rewrite nth_error_app2, Nat.sub_diag in En by lia. inversion En; subst. cbn in Ef. inversion Ef; subst. destruct Hin as [->|[->|[]]]; auto.
      - rewrite Nat.ltb_irrefl in Ep. discriminate. }
    apply forward_newer in E1; [|intros; unfold op_add; step; leaf]. destruct E1 as [N L].
    pose proof (newer_closed _ _ C N) as C1. pose proof (newer_acyclic _ _ C NC N) as NC1.
    split; [apply set_closed; auto|]. split; [|apply N]. apply set_acyclic; auto.
    intros H. apply clos_rt_rt1n in H. inversion H; subst; [lia|]. apply clos_rt1n_rt in H1.
    pose proof (C _ _ Ho) as Lo. apply Hp in H0 as [->| ->]; apply (newer_holds h h1) in H1; auto; destruct H1 as [H1 _]; auto.
    apply (NC i o Ho H1).
  - inversion E; subst. split; [apply (set_closed h i j); auto|]. split; [apply (set_acyclic h i j); auto|]. cbn; lia.
Qed.

Lemma leaf_alone h v : closed h -> forall b, holds (fst (h_alloc h v None None)) (length (hnodes h)) b -> b = length (hnodes h).
Proof.
  intros C b H. apply clos_rt_rt1n in H. inversion H; subst; auto. exfalso.
  destruct H0 as [(nd & k & ins & En & Ef & Hin)|[Lp Ep]]; cbn in *.
  - rewrite nth_error_app2, Nat.sub_diag in En by lia. inversion En; subst. discriminate.
  - unfold upd in Ep. rewrite Nat.eqb_refl in Ep. discriminate.
Qed.

Lemma foldM_inv_in A B (Q : A -> Prop) (g : A -> B -> outcome A) : forall l a a', (forall a b a', In b l -> Q a -> g a b = Ret a' -> Q a') -> Q a -> foldM g l a = Ret a' -> Q a'.
Proof.
  induction l as [|b l IH]; intros a a' H HQ; cbn [foldM].
  - intros E; inversion E; subst; auto.
  - intros E. apply bind_inv in E as (a1 & E1 & E). apply (IH a1 a'); [|eapply H; eauto; left; auto|exact E].
    intros ? ? ? Hin. apply H. right; auto.
Qed.

Lemma compute_acyclic : forall fu h h' k ins outer, closed h -> no_cycles h -> h_compute_jvp fu h k ins outer = Ret h' ->
  closed h' /\ no_cycles h' /\ length (hnodes h) <= length (hnodes h').
Proof.
  induction fu as [|fu IH]; intros h h' k ins outer C NC E; cbn [h_compute_jvp] in E; [discriminate|].
  apply bind_inv in E as (nds & En & E). apply bind_inv in E as (sg & _ & E).
  revert E. apply (foldM_inv_in _ _ (fun h' => closed h' /\ no_cycles h' /\ length (hnodes h) <= length (hnodes h'))); [|auto].
  intros a [g [i nd]] a' Hin (Ca & NCa & La) E.
  assert (Li : i < length (hnodes a)).
  { apply in_combine_r in Hin. destruct (in_inputs _ _ _ _ _ En Hin) as [_ Hn]. apply nth_lt in Hn. lia. }
  apply bind_inv in E as (u0 & _ & E). apply bind_inv in E as (sgr & _ & E).
  set (h1 := fst (h_alloc a sgr None None)) in *. change (h_alloc a sgr None None) with (h1, length (hnodes a)) in E. cbn beta iota in E.
  apply bind_inv in E as (h2 & E2 & E).
  assert (N1 : newer a h1) by (apply newer_alloc; intros; discriminate).
  assert (L1 : length (hnodes h1) = S (length (hnodes a))) by (unfold h1; cbn; rewrite app_length; cbn; lia).
  apply update_acyclic in E2; [|eapply newer_closed; eauto|eapply newer_acyclic; eauto|lia|lia|].
  - destruct E2 as (C2 & NC2 & L2). destruct (n_fn nd) as [[k' ins']|].
    + apply IH in E; auto. destruct E as (E1 & E2 & E3). repeat split; auto. lia.
    + inversion E; subst. repeat split; auto. lia.
  - intros H. apply (leaf_alone a sgr Ca) in H. lia.
Qed.

Ltac rop := intros; first
 [ apply refers_sub | apply refers_bmm_view
 | unfold op_new, op_filler, op_scalar, op_from, op_add, op_neg, op_mul, op_abs, op_relu, op_tanh, op_sum, op_bmm, op_dot, op_dot_method, op_deep_clone,
     op_grad, op_view_to_tensor, op_view_sum, op_mul_view; step; first [leaf | intros ? ? ?; discriminate] ].

Definition good (s : hstate T) : Prop := closed (hhp s) /\ no_cycles (hhp s) /\ Forall (fun i => i < length (hnodes (hhp s))) (henv s).

Lemma exec_acyclic (s s' : hstate T) c : sets_grad c = false -> good s -> h_exec s c = Ret s' -> good s'.
Proof.
  intros Hc (C & NC & HE) E.
  assert (P0 : forall h i, newer (hhp s) h -> i < length (hnodes h) -> good (mkHState h (henv s ++ [i]))).
  { intros h i N L. split; [|split]; cbn.
    - eapply newer_closed; eauto.
    - eapply newer_acyclic; eauto.
    - apply Forall_app. split; [|repeat constructor; auto]. eapply Forall_impl; [|exact HE]. cbn. intros a Ha. destruct N as [N _]. lia. }
  assert (P : forall op h i, (forall h0 : heap T, refers h0 (op h0)) -> h_forward op (hhp s) = Ret (h, i) -> good (mkHState h (henv s ++ [i]))).
  { intros op h i R E1. apply forward_newer in E1 as [N L]; auto. }
  destruct c; cbn [h_exec] in E; unfold h_push in E; try discriminate;
    repeat (match type of E with bind (vindex _ _) _ = _ => let a := fresh "a" in let Ea := fresh "Ea" in apply bind_inv in E as (a & Ea & E) end);
    try (match type of E with bind (h_forward ?op _) _ = _ => apply bind_inv in E as ([h i] & E1 & E); injection E as <-; eapply P; [|exact E1]; rop end).
  - apply bind_inv in E as ([h i] & E1 & E). injection E as <-. apply sum_newer in E1 as [N L]. auto.
  - apply bind_inv in E as (g & E1 & E). injection E as <-. unfold h_grad in E1. destruct (hgrads (hhp s) a) as [g'|] eqn:Eg; [|discriminate]. inversion E1; subst.
    assert (La : a < length (hnodes (hhp s))).
    { unfold vindex in Ea. destruct (nth_error (henv s) x) eqn:Ex; [|discriminate]. inversion Ea; subst. rewrite Forall_forall in HE. apply HE. eapply nth_error_In; eauto. }
    split; [|split]; cbn; auto. apply Forall_app. split; auto. repeat constructor. apply (C a g). right; auto.
  - injection E as <-. split; [|split]; cbn; auto; [|apply clear_acyclic; auto]. intros b d Pb. apply clear_points in Pb. apply (C _ _ Pb).
  - apply bind_inv in E as (h & E1 & E). injection E as <-. unfold h_backward in E1.
    apply bind_inv in E1 as (nd & _ & E1). apply bind_inv in E1 as (u & _ & E1). apply bind_inv in E1 as ([k ins] & _ & E1).
    apply compute_acyclic in E1; auto. destruct E1 as (E1 & E2 & E3). split; [|split]; cbn; auto.
    eapply Forall_impl; [|exact HE]. cbn. intros; lia.
Qed.

Lemma run_acyclic : forall p (s s' : hstate T), forallb (fun c => negb (sets_grad c)) p = true -> good s -> h_run p s = Ret s' -> good s'.
Proof.
  induction p as [|c p IH]; intros s s' Hp G E; unfold h_run in E; cbn [foldM] in E.
  - inversion E; subst; auto.
  - cbn in Hp. apply andb_prop in Hp as [Hc Hp]. apply bind_inv in E as (s1 & E1 & E). eapply IH; [exact Hp| |exact E].
    eapply exec_acyclic; eauto. destruct (sets_grad c); [discriminate|reflexivity].
Qed.

Lemma good_init : good (h_init (T:=T)).
Proof.
  assert (N : forall a b, ~ points (h_empty (T:=T)) a b).
  { intros a b [(nd & k & ins & E & _)|[L _]]; [destruct a; discriminate|cbn in L; lia]. }
  split; [|split]; cbn; [intros a b P; destruct (N a b P)|intros a b P; destruct (N a b P)|constructor].
Qed.

(** ** Contributions are kept *)

Lemma uses_app (ns : list (node T)) e a b : uses ns a b -> uses (ns ++ e) a b.
Proof.
  intros H. induction H as [a|a k ins i m Ef Hin H IH]; [constructor|]. econstructor; [|exact Hin|exact IH].
  unfold fn_of in *. destruct (nth_error ns a) eqn:E; [|discriminate]. rewrite nth_error_app1; [rewrite E; exact Ef|eapply nth_lt; eauto].
Qed.

Lemma update_keeps h h' i j : h_update_grad h i j = Ret h' -> exists g, hgrads h' i = Some g /\ (exists e, hnodes h' = hnodes h ++ e) /\ uses (hnodes h') g j /\
  match hgrads h i with
  | Some o => uses (hnodes h') g o /\ length (hnodes h') = S (length (hnodes h))
  | None => g = j /\ hnodes h' = hnodes h
  end.
Proof.
  intros E. pose proof E as E0. apply update_hext in E0. unfold h_update_grad in E. destruct (hgrads h i) as [o|].
  - apply bind_inv in E as ([h1 s] & E1 & E). inversion E; subst. cbn [hnodes hgrads] in *. exists s. unfold upd. rewrite Nat.eqb_refl.
    unfold h_forward, op_add in E1. apply bind_inv in E1 as ([v b0] & E2 & E3). inversion E3; subst h1 b0.
    apply bind_inv in E2 as (x & _ & E2). apply bind_inv in E2 as (y & _ & E2). apply bind_inv in E2 as (z & _ & E2). inversion E2; subst v s. clear E2 E3 E.
    cbn [hnodes nodes] in *.
    assert (Ef : fn_of (hnodes h ++ [mkNode z (Some (KAdd, [o; j]))]) (length (hnodes h)) = Some (KAdd, [o; j])).
    { unfold fn_of. rewrite nth_error_app2, Nat.sub_diag by lia. reflexivity. }
    split; [reflexivity|]. split; [eauto|]. split; [|split]; [apply (uses_step _ _ KAdd [o; j] j); [exact Ef|cbn; auto|constructor]|apply (uses_step _ _ KAdd [o; j] o); [exact Ef|cbn; auto|constructor]|rewrite app_length; cbn; lia].
  - inversion E; subst. exists j. cbn. unfold upd. rewrite Nat.eqb_refl. split; [reflexivity|]. split; [exact E0|]. split; [constructor|auto].
Qed.

Lemma uses_trans (ns : list (node T)) a b c : uses ns a b -> uses ns b c -> uses ns a c.
Proof. induction 1; auto. intros. econstructor; eauto. Qed.

Lemma updates_keep i : forall js h h', foldM (fun h j => h_update_grad h i j) js h = Ret h' ->
  (exists e, hnodes h' = hnodes h ++ e) /\
  (forall g o, hgrads h' i = Some g -> hgrads h i = Some o -> uses (hnodes h') g o) /\
  (forall g, hgrads h' i = Some g -> Forall (uses (hnodes h') g) js) /\
  (js <> [] \/ hgrads h i <> None -> exists g, hgrads h' i = Some g) /\
  length (hnodes h) + length js <= length (hnodes h') + match hgrads h i with None => 1 | Some _ => 0 end.
Proof.
  induction js as [|j js IH]; intros h h' E; cbn [foldM] in E.
  - inversion E; subst. split; [exists []; symmetry; apply app_nil_r|]. split; [|split; [|split]].
    + intros g o Eg Eo. assert (g = o) as -> by congruence. constructor.
    + constructor.
    + intros [K|K]; [congruence|]. destruct (hgrads h' i); eauto. congruence.
    + cbn. lia.
  - apply bind_inv in E as (h1 & E1 & E). destruct (update_keeps _ _ _ _ E1) as (g1 & Eg1 & [e1 X1] & U1 & M1).
    destruct (IH _ _ E) as ([e X] & A & B & D & L). split; [exists (e1 ++ e); rewrite X, X1; symmetry; apply app_assoc|].
    destruct (D ltac:(right; congruence)) as [g Eg]. specialize (A g g1 Eg Eg1).
    split; [|split; [|split]].
    + intros g' o Eg' Eo. rewrite Eo in M1. assert (g' = g) as -> by congruence. eapply uses_trans; [exact A|]. rewrite X. apply uses_app. tauto.
    + intros g' Eg'. assert (g' = g) as -> by congruence. constructor; [|auto]. eapply uses_trans; [exact A|]. rewrite X. apply uses_app. exact U1.
    + eauto.
    + rewrite Eg1 in L. cbn [length]. destruct (hgrads h i); destruct M1 as [M1 M2]; [lia|]. rewrite M2 in L. lia.
Qed.

End Cycle.
