(** * MachineLim: on words that are wide enough whole programs do what they do with unbounded numbers *)
From Coq Require String.
From Verif Require Import Base ModelIndex ModelTensor ModelOps ModelJvp ModelGraph ModelUsize ModelRust ModelKernel ModelMachine Lists RustLim.
Import String.StringSyntax.
Local Open Scope string_scope.

Section Lim.
Context {T : Type} {NT : Num T}.
Variable N : nat.
Lemma lim_run c f args : lim (fun M => @ModelKernel.run (checked M) T NT N c f args) (@ModelKernel.run unbounded T NT N c f args).
Proof. unfold ModelKernel.run. apply (lim_link T NT N kernel (fun _ => closure_env c) (closure_env c)). intros g a. apply lim_const. Qed.

Lemma lim_ten (r : nat -> outcome (val * val)) r' : lim r r' -> lim (fun M => @get_ten T (r M)) (get_ten r').
Proof. intros (M0 & H). exists M0. intros M HM. now rewrite H. Qed.
Lemma lim_view (r : nat -> outcome (val * val)) r' : lim r r' -> lim (fun M => @get_view T (r M)) (get_view r').
Proof. intros (M0 & H). exists M0. intros M HM. now rewrite H. Qed.
Lemma lim_tens (r : nat -> outcome (val * val)) r' : lim r r' -> lim (fun M => @get_tens T (r M)) (get_tens r').
Proof. intros (M0 & H). exists M0. intros M HM. now rewrite H. Qed.
Lemma lim_two (r : nat -> outcome (val * val)) r' : lim r r' -> lim (fun M => @get_two T (r M)) (get_two r').
Proof. intros (M0 & H). exists M0. intros M HM. now rewrite H. Qed.

Lemma li_jvp k ts gs : lim (fun M => @m_jvp (checked M) T NT N k ts gs) (@m_jvp unbounded T NT N k ts gs).
Proof. exact (lim_tens _ _ (lim_run _ _ _)). Qed.
Lemma li_raw_new a s : lim (fun M => @m_raw_new (checked M) T NT N a s) (@m_raw_new unbounded T NT N a s).
Proof. exact (lim_ten _ _ (lim_run _ _ _)). Qed.
Lemma li_raw_filler s x : lim (fun M => @m_raw_filler (checked M) T NT N s x) (@m_raw_filler unbounded T NT N s x).
Proof. exact (lim_ten _ _ (lim_run _ _ _)). Qed.
Lemma li_view_new t o : lim (fun M => @m_view_new (checked M) T NT N t o) (@m_view_new unbounded T NT N t o).
Proof. exact (lim_view _ _ (lim_run _ _ _)). Qed.
Lemma li_to_tensor l : lim (fun M => @m_to_tensor (checked M) T NT N l) (@m_to_tensor unbounded T NT N l).
Proof. exact (lim_ten _ _ (lim_run _ _ _)). Qed.
Lemma li_mul_raw t l : lim (fun M => @m_mul_raw (checked M) T NT N t l) (@m_mul_raw unbounded T NT N t l).
Proof. exact (lim_ten _ _ (lim_run _ _ _)). Qed.
Lemma li_add_raw t l : lim (fun M => @m_add_raw (checked M) T NT N t l) (@m_add_raw unbounded T NT N t l).
Proof. exact (lim_ten _ _ (lim_run _ _ _)). Qed.
Lemma li_view_sum v : lim (fun M => @m_view_sum (checked M) T NT N v) (@m_view_sum unbounded T NT N v).
Proof. exact (lim_ten _ _ (lim_run _ _ _)). Qed.
Lemma li_bmm_raw t l : lim (fun M => @m_bmm_raw (checked M) T NT N t l) (@m_bmm_raw unbounded T NT N t l).
Proof. exact (lim_ten _ _ (lim_run _ _ _)). Qed.
Ltac leaf := match goal with
  | |- lim (fun M => m_jvp _ _ _ _) _ => exact (li_jvp _ _ _)
  | |- lim (fun M => m_raw_new _ _ _) _ => exact (li_raw_new _ _)
  | |- lim (fun M => m_raw_filler _ _ _) _ => exact (li_raw_filler _ _)
  | |- lim (fun M => m_view_new _ _ _) _ => exact (li_view_new _ _)
  | |- lim (fun M => m_to_tensor _ _) _ => exact (li_to_tensor _)
  | |- lim (fun M => m_mul_raw _ _ _) _ => exact (li_mul_raw _ _)
  | |- lim (fun M => m_add_raw _ _ _) _ => exact (li_add_raw _ _)
  | |- lim (fun M => m_view_sum _ _) _ => exact (li_view_sum _)
  | |- lim (fun M => m_bmm_raw _ _ _) _ => exact (li_bmm_raw _ _)
  | |- lim (fun M => get_ten _) _ => exact (lim_ten _ _ (lim_run _ _ _))
  | |- lim (fun M => get_two _) _ => exact (lim_two _ _ (lim_run _ _ _))
  end.
Lemma li_fwd k vs : lim (fun M => @m_fwd (checked M) T NT N k vs) (@m_fwd unbounded T NT N k vs).
Proof. unfold m_fwd. lims; leaf. Qed.
Lemma li_update gr i t : lim (fun M => @m_update_grad (checked M) T NT N gr i t) (@m_update_grad unbounded T NT N gr i t).
Proof. unfold m_update_grad. lims. leaf. Qed.
Lemma li_compute ns : forall f k ins o gr, lim (fun M => @m_compute_jvp (checked M) T NT N f ns k ins o gr) (@m_compute_jvp unbounded T NT N f ns k ins o gr).
Proof.
  induction f as [|f IH]; intros k ins o gr; cbn [m_compute_jvp u_debug checked unbounded]; lims; try leaf.
  match goal with |- lim (fun M => foldM (@?g M) ?l ?a) (foldM ?g' _ _) => apply (lim_foldM _ _ g g' l) end. cbv beta. intros b [g [i nd]]. lims; try leaf.
  - exact (li_update _ _ _).
  - apply IH.
Qed.
Lemma li_backward h i : lim (fun M => @m_backward (checked M) T NT N h i) (@m_backward unbounded T NT N h i).
Proof. unfold m_backward. lims. exact (li_compute _ _ _ _ _ _). Qed.
Lemma li_exec s c : lim (fun M => @m_exec (checked M) T NT N s c) (@m_exec unbounded T NT N s c).
Proof.
  unfold m_exec, push, m_op1, m_op2. destruct c; lims;
    first [leaf | match goal with
      | |- lim (fun M => m_fwd _ _ _) _ => exact (li_fwd _ _)
      | |- lim (fun M => m_update_grad _ _ _ _) _ => exact (li_update _ _ _)
      | |- lim (fun M => m_backward _ _ _) _ => exact (li_backward _ _) end].
Qed.
Lemma li_run p s : lim (fun M => @m_run (checked M) T NT N p s) (@m_run unbounded T NT N p s).
Proof. unfold m_run. apply (lim_foldM _ _ (fun M => @m_exec (checked M) T NT N)). exact li_exec. Qed.
End Lim.
