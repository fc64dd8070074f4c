(** * RustLim: on words that are wide enough a program of the small language does what it does with unbounded numbers *)
From Coq Require String.
From Verif Require Import Base ModelIndex ModelTensor ModelUsize ModelRust Lists.

(** For all words wide enough *)
Definition lim {A} (f : nat -> outcome A) (o : outcome A) : Prop := exists M0, forall M, M0 <= M -> f M = o.
Lemma lim_const A (o : outcome A) : lim (fun _ => o) o.
Proof. exists 0. reflexivity. Qed.
Lemma lim_bind A B (m : nat -> outcome A) m' (f : nat -> A -> outcome B) f' :
  lim m m' -> (forall a, lim (fun M => f M a) (f' a)) -> lim (fun M => bind (m M) (f M)) (bind m' f').
Proof.
  intros (M1 & H) K. destruct m' as [a|p|].
  - destruct (K a) as (M2 & K2). exists (M1 + M2). intros M HM. rewrite H by lia. cbn [bind]. apply K2. lia.
  - exists M1. intros M HM. rewrite H by lia. reflexivity.
  - exists M1. intros M HM. rewrite H by lia. reflexivity.
Qed.
Lemma lim_add a b : lim (fun M => @u_add (checked M) a b) (@u_add unbounded a b).
Proof. exists (S (a + b)). intros M HM. cbn [u_add checked unbounded]. rewrite (proj2 (Nat.ltb_lt _ _)) by lia. reflexivity. Qed.
Lemma lim_mul a b : lim (fun M => @u_mul (checked M) a b) (@u_mul unbounded a b).
Proof. exists (S (a * b)). intros M HM. cbn [u_mul checked unbounded]. rewrite (proj2 (Nat.ltb_lt _ _)) by lia. reflexivity. Qed.
Lemma lim_sub a b : lim (fun M => @u_sub (checked M) a b) (@u_sub unbounded a b).
Proof. exists 0. reflexivity. Qed.
Lemma lim_foldM A B (f : nat -> A -> B -> outcome A) f' l : (forall a b, lim (fun M => f M a b) (f' a b)) -> forall a, lim (fun M => foldM (f M) l a) (foldM f' l a).
Proof. intros H. induction l as [|b l IH]; intros a; cbn [foldM]; [apply lim_const|]. apply (lim_bind _ _ (fun M => f M a b) _ (fun M => foldM (f M) l)); [apply H|exact IH]. Qed.
Lemma lim_product s : lim (fun M => @u_product (checked M) s) (@u_product unbounded s).
Proof. unfold u_product. apply (lim_foldM _ _ (fun M => @u_mul (checked M))). apply lim_mul. Qed.

Ltac lim1 := match goal with
  | |- lim (fun _ => ?x) ?y => constr_eq x y; apply lim_const
  | |- lim (fun M => bind (@?m M) (@?f M)) (bind ?m' ?f') => apply (lim_bind _ _ m m' f f'); cbv beta; [|intros]
  | p : (_ * _)%type |- _ => destruct p; cbv beta iota
  | |- lim (fun M => match ?x with _ => _ end) (match ?y with _ => _ end) => constr_eq x y; destruct x
  end.
Ltac lims := repeat (cbv beta zeta; lim1).

Section Env.
Context {T : Type} {NT : Num T}.
Definition lim_env (E : nat -> @fenv T) (E' : @fenv T) : Prop := forall f args, lim (fun M => call (E M) f args) (call E' f args).
Variables (E : nat -> @fenv T) (E' : @fenv T).
Hypothesis HE : lim_env E E'.

Lemma lim_eval st : forall e, lim (fun M => @eval (checked M) T NT (E M) st e) (@eval unbounded T NT E' st e).
Proof.
  fix IH 1. destruct e; cbn [eval]; lims; try (apply IH); try apply lim_add; try apply lim_mul; try apply lim_sub; try apply lim_product; try apply HE.
  - enough (K : forall acc : list nat, lim (fun M =>
        (fix go (es : list expr) (acc : list nat) {struct es} : outcome val :=
           match es with [] => Ret (VVec acc) | e :: r => let* x := eval (U := checked M) (E M) st e in let* n := as_num x in go r (acc ++ [n]) end) es acc)
        ((fix go (es : list expr) (acc : list nat) {struct es} : outcome val :=
           match es with [] => Ret (VVec acc) | e :: r => let* x := eval (U := unbounded) E' st e in let* n := as_num x in go r (acc ++ [n]) end) es acc))
      by exact (K []).
    induction es as [|e es IHs]; intros acc; lims; [apply IH|apply IHs].
  - induction fs as [|[f e] fs IHs]; lims; [apply IH|apply IHs].
  - induction es as [|e es IHs]; lims; [apply IH|apply IHs].
  - induction es as [|e es IHs]; lims; [apply IH|apply IHs].
Qed.
Lemma lim_items st : forall i, lim (fun M => @items (checked M) T NT (E M) st i) (@items unbounded T NT E' st i).
Proof. induction i; cbn [items]; lims; try apply lim_eval; assumption. Qed.
Lemma lim_while test test' body body' : (forall st, lim (fun M => test M st) (test' st)) -> (forall st, lim (fun M => body M st) (body' st)) ->
  forall N st, lim (fun M => @loop_while T N (test M) (body M) st) (loop_while N test' body' st).
Proof.
  intros Ht Hb. induction N as [|N IH]; intros st; cbn [loop_while]; lims; [apply Ht|apply Hb|]. unfold turn. lims; apply IH.
Qed.
Lemma lim_for body body' : (forall v st, lim (fun M => body M v st) (body' v st)) ->
  forall l st, lim (fun M => @loop_for T l (body M) st) (loop_for l body' st).
Proof.
  intros Hb. induction l as [|v l IH]; intros st; cbn [loop_for]; lims; [apply Hb|]. unfold turn. lims; apply IH.
Qed.
Lemma lim_denote N : forall s st, lim (fun M => @denote (checked M) T NT (E M) N s st) (@denote unbounded T NT E' N s st).
Proof.
  induction s; intros st; cbn [denote u_debug checked unbounded]; lims; try apply lim_eval; try apply lim_items; try (match goal with IH : forall _, _ |- _ => apply IH end).
  - apply (lim_while (fun M st => let* v := eval (U := checked M) (E M) st e in as_bool v) _ (fun M => denote (U := checked M) (E M) N s)); [|assumption]. intros st'. lims. apply lim_eval.
  - apply (lim_while (fun _ _ => Ret true) _ (fun M => denote (U := checked M) (E M) N s)); [|assumption]. intros st'. apply lim_const.
  - apply (lim_for (fun M v st => let* st1 := matches p v st in denote (U := checked M) (E M) N s st1)). intros v st'. lims. auto.
  - induction es as [|e es IHs]; lims; [apply lim_eval|apply IHs].
  - apply HE.
Qed.
Lemma lim_run_fn N f args : lim (fun M => @run_fn (checked M) T NT (E M) N f args) (@run_fn unbounded T NT E' N f args).
Proof. unfold run_fn. lims. apply lim_denote. Qed.
End Env.

Lemma lim_link (T : Type) (NT : Num T) N ds : forall (E : nat -> @fenv T) E', lim_env E E' -> lim_env (fun M => @link (checked M) T NT N (E M) ds) (@link unbounded T NT N E' ds).
Proof.
  induction ds as [|[x f] ds IH]; intros E E' H; [exact H|]. cbn [link fold_left].
  apply (IH (fun M => @link1 (checked M) T NT N (E M) (x, f))). intros y args. unfold call, link1. cbn [fst snd].
  destruct (String.eqb y x); [now apply lim_run_fn|apply H].
Qed.
