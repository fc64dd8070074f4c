(** * RustMono: more turns for the loops change nothing in a program that ends *)
From Coq Require String.
From Verif Require Import Base ModelIndex ModelTensor ModelUsize ModelRust ModelKernel ModelGraph ModelMachine Lists RustRel MachineFacts.

(** Out of turns, or the same *)
Definition less {A} (o o' : outcome A) : Prop := o = NoFuel \/ o = o'.
Lemma less_refl A (o : outcome A) : less o o.
Proof. right. reflexivity. Qed.
Lemma less_bind A B (m m' : outcome A) (f f' : A -> outcome B) : less m m' -> (forall a, less (f a) (f' a)) -> less (bind m f) (bind m' f').
Proof. intros [-> | ->] H; [left; reflexivity|]. destruct m'; [apply H|right; reflexivity..]. Qed.

Ltac rel1 := match goal with
  | |- less (bind _ _) (bind _ _) => apply less_bind; [|intros]
  | p : (_ * _)%type |- _ => destruct p; cbv beta iota
  | |- less ?x ?y => constr_eq x y; apply less_refl
  | |- less (match ?x with _ => _ end) (match ?y with _ => _ end) => constr_eq x y; destruct x
  end.
Ltac rel := repeat (cbv beta zeta; rel1).

Section Mono.
Context {U : usize_ops} {T : Type} {NT : Num T}.
Variables N N' : nat.
Hypothesis HN : N <= N'.
Notation lenv := (rel_env (fun A => @less A) (T := T)).

Section Env.
Variables E E' : @fenv T.
Hypothesis HE : lenv E E'.
Lemma less_eval st e : less (eval E st e) (eval E' st e).
Proof.
  apply (rel_eval (fun A => @less A) less_refl less_bind U U); try (intros; apply less_refl). exact HE.
Qed.
Lemma less_items st i : less (items E st i) (items E' st i).
Proof.
  apply (rel_items (fun A => @less A) less_refl less_bind U U); try (intros; apply less_refl). exact HE.
Qed.
Lemma less_while test test' body body' : (forall st, less (test st) (test' st)) -> (forall st, less (body st) (body' st)) ->
  forall n n' st, n <= n' -> less (@loop_while T n test body st) (loop_while n' test' body' st).
Proof.
  intros Ht Hb. induction n as [|n IH]; intros n' st Hn; [left; reflexivity|]. destruct n' as [|n']; [lia|]. apply le_S_n in Hn.
  cbn [loop_while]. rel; [apply Ht|apply Hb|]. unfold turn. rel; apply IH; exact Hn.
Qed.
Lemma less_denote : forall s st, less (denote E N s st) (denote E' N' s st).
Proof.
  induction s; intros st; cbn [denote]; rel; try apply less_eval; try apply less_items; try (match goal with IH : forall _, _ |- _ => apply IH end).
  - apply less_while; [|assumption|exact HN]. intros st'. rel. apply less_eval.
  - apply less_while; [|assumption|exact HN]. intros st'. apply less_refl.
  - apply (rel_for (fun A => @less A) less_refl less_bind). intros v st'. rel. auto.
  - induction es as [|e es IHs]; rel; [apply less_eval|apply IHs].
  - apply HE.
Qed.
Lemma less_run_fn f args : less (run_fn E N f args) (run_fn E' N' f args).
Proof. unfold run_fn. rel. apply less_denote. Qed.
End Env.
Lemma less_link ds : forall E E', lenv E E' -> lenv (link N E ds) (link N' E' ds).
Proof.
  induction ds as [|[x f] ds IH]; intros E E' H; [exact H|]. cbn [link fold_left]. apply IH. intros y args. unfold call, link1. cbn [fst snd].
  destruct (String.eqb y x); [now apply less_run_fn|apply H].
Qed.
Lemma less_run c f args : less (ModelKernel.run (U := U) (NT := NT) N c f args) (ModelKernel.run N' c f args).
Proof. unfold ModelKernel.run. apply less_link. intros y a. apply less_refl. Qed.
Lemma less_m_run p s : less (m_run (U := U) (NT := NT) N p s) (m_run N' p s).
Proof. apply (ro_run (fun A => @less A) less_refl less_bind U U); [intros b; apply less_refl|exact less_run]. Qed.
End Mono.
