(** * RealInst: the real numbers as element type *)
From Coq Require Import Reals Lra Ring.
From Verif Require Import Base ModelIndex ModelTensor ModelOps Spec.
Local Open Scope R_scope.

(** [f64] read as exact real arithmetic *)
#[export] Instance RNum : Num R := {
  n_zero := 0; n_one := 1;
  n_add := Rplus; n_mul := Rmult; n_sub := Rminus; n_neg := Ropp;
  n_lt := fun x y => if Rlt_dec x y then true else false;
  n_ge := fun x y => if Rge_dec x y then true else false;
  n_eq := fun x y => if Req_EM_T x y then true else false;
  n_abs := Rabs; n_tanh := tanh
}.

Lemma R_is_ring : is_ring R.
Proof. constructor; cbn; intros; ring. Qed.

(** ** The scalar functions *)

Lemma relu_pos x : 0 < x -> derivable_pt_lim relu_fn x 1.
Proof.
  intros Hx. apply (derivable_pt_lim_locally_ext id relu_fn x 0 (x + 1) 1); [lra| |apply derivable_pt_lim_id].
  intros z Hz. unfold relu_fn, id. cbn. destruct (Rlt_dec z 0); lra.
Qed.
Lemma relu_neg x : x < 0 -> derivable_pt_lim relu_fn x 0.
Proof.
  intros Hx. apply (derivable_pt_lim_locally_ext (fct_cte 0) relu_fn x (x - 1) 0 0); [lra| |apply derivable_pt_lim_const].
  intros z Hz. unfold relu_fn, fct_cte. cbn. destruct (Rlt_dec z 0); lra.
Qed.

Lemma cosh_pos x : 0 < cosh x.
Proof. unfold cosh. pose proof (exp_pos x). pose proof (exp_pos (- x)). lra. Qed.

Lemma tanh_derive x : derivable_pt_lim tanh x (1 - tanh x * tanh x).
Proof.
  pose proof (cosh_pos x) as Hc.
  assert (H : derivable_pt_lim (sinh / cosh)%F x ((cosh x * cosh x - sinh x * sinh x) / Rsqr (cosh x))).
  { apply derivable_pt_lim_div; [apply derivable_pt_lim_sinh|apply derivable_pt_lim_cosh|lra]. }
  replace (1 - tanh x * tanh x) with ((cosh x * cosh x - sinh x * sinh x) / Rsqr (cosh x)).
  - apply (derivable_pt_lim_ext (sinh / cosh)%F); auto.
  - unfold tanh, Rsqr. field. lra.
Qed.
