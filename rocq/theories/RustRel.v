(** * RustRel: programs of the small language over different kinds of [usize] *)
From Coq Require String.
From Verif Require Import Base ModelIndex ModelTensor ModelUsize ModelRust Lists.

Section Rel.
Variable R : forall A, outcome A -> outcome A -> Prop.
Hypothesis R_refl : forall A (o : outcome A), R A o o.
Hypothesis R_bind : forall A B (m m' : outcome A) (f f' : A -> outcome B), R A m m' -> (forall a, R B (f a) (f' a)) -> R B (bind m f) (bind m' f').
Variables U V : usize_ops.
Hypothesis R_add : forall a b, R nat (@u_add U a b) (@u_add V a b).
Hypothesis R_mul : forall a b, R nat (@u_mul U a b) (@u_mul V a b).
Hypothesis R_sub : forall a b, R nat (@u_sub U a b) (@u_sub V a b).
Hypothesis R_dbg : forall A (m m' : outcome bool) (k : outcome A), R bool m m' ->
  R A (if @u_debug U then let* c := m in (assert c ;; k) else k) (if @u_debug V then let* c := m' in (assert c ;; k) else k).
Context {T : Type} {NT : Num T}.

Definition rel_env (E E' : @fenv T) : Prop := forall f args, R _ (call E f args) (call E' f args).

Ltac rel1 := match goal with
  | |- R _ (bind _ _) (bind _ _) => apply R_bind; [|intros]
  | p : (_ * _)%type |- _ => destruct p; cbv beta iota
  | |- R _ ?x ?y => constr_eq x y; apply R_refl
  | |- R _ (match ?x with _ => _ end) (match ?y with _ => _ end) => constr_eq x y; destruct x
  end.
Ltac rel := repeat (cbv beta zeta; rel1).

Lemma rel_product s : R _ (@u_product U s) (@u_product V s).
Proof.
  unfold u_product. generalize 1. induction s as [|x s IH]; intros n; cbn [foldM]; [apply R_refl|]. apply R_bind; [apply R_mul|]. intros a. apply IH.
Qed.

Section Env.
Variables E E' : @fenv T.
Hypothesis HE : rel_env E E'.

Lemma rel_eval st : forall e, R _ (@eval U T NT E st e) (@eval V T NT E' st e).
Proof.
  fix IH 1. destruct e; cbn [eval]; rel; try (apply IH); try apply R_add; try apply R_mul; try apply R_sub; try apply rel_product; try apply HE.
  - match goal with |- R _ (?f es []) (?g es []) => enough (forall acc, R _ (f es acc) (g es acc)) by auto end.
    induction es as [|e es IHs]; intros acc; rel; [apply IH|apply IHs].
  - induction fs as [|[f e] fs IHs]; rel; [apply IH|apply IHs].
  - induction es as [|e es IHs]; rel; [apply IH|apply IHs].
  - induction es as [|e es IHs]; rel; [apply IH|apply IHs].
Qed.
Lemma rel_items st : forall i, R _ (@items U T NT E st i) (@items V T NT E' st i).
Proof. induction i; cbn [items]; rel; try apply rel_eval; assumption. Qed.
Lemma rel_while test test' body body' : (forall st, R _ (test st) (test' st)) -> (forall st, R _ (body st) (body' st)) ->
  forall N st, R _ (@loop_while T N test body st) (loop_while N test' body' st).
Proof.
  intros Ht Hb. induction N as [|N IH]; intros st; cbn [loop_while]; rel; [apply Ht|apply Hb|]. unfold turn. rel; apply IH.
Qed.
Lemma rel_for body body' : (forall v st, R _ (body v st) (body' v st)) ->
  forall l st, R _ (@loop_for T l body st) (loop_for l body' st).
Proof.
  intros Hb. induction l as [|v l IH]; intros st; cbn [loop_for]; rel; [apply Hb|]. unfold turn. rel; apply IH.
Qed.
Lemma rel_denote N : forall s st, R _ (@denote U T NT E N s st) (@denote V T NT E' N s st).
Proof.
  induction s; intros st; cbn [denote]; rel; try apply rel_eval; try apply rel_items; try (match goal with IH : forall _, _ |- _ => apply IH end).
  - apply rel_while; [|assumption]. intros st'. rel. apply rel_eval.
  - apply rel_while; [|assumption]. intros st'. apply R_refl.
  - apply rel_for. intros v st'. rel. auto.
  - induction es as [|e es IHs]; rel; [apply rel_eval|apply IHs].
  - apply HE.
  - pose proof (R_dbg _ (let* v := @eval U T NT E st e in as_bool v) (let* v := @eval V T NT E' st e in as_bool v) (Ret (@Next T, st))) as H.
    rewrite !bind_assoc in H. apply H. rel. apply rel_eval.
Qed.
Lemma rel_run_fn N f args : R _ (@run_fn U T NT E N f args) (@run_fn V T NT E' N f args).
Proof. unfold run_fn. rel. apply rel_denote. Qed.
End Env.

Lemma rel_link N ds : forall E E', rel_env E E' -> rel_env (@link U T NT N E ds) (@link V T NT N E' ds).
Proof.
  induction ds as [|[x f] ds IH]; intros E E' H; [exact H|]. cbn [link fold_left]. apply IH. intros y args. unfold call, link1. cbn [fst snd].
  destruct (String.eqb y x); [now apply rel_run_fn|apply H].
Qed.
End Rel.
