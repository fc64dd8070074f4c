(** * Instances: element types used in the examples *)
From Coq Require Import ZArith Ring.
From Verif Require Import Base ModelIndex ModelTensor Spec Lists IndexFacts Sums.

(** Integers.  There is no [tanh] on them; the identity stands in for it. *)
#[export] Instance ZNum : Num Z := {
  n_zero := 0%Z; n_one := 1%Z;
  n_add := Z.add; n_mul := Z.mul; n_sub := Z.sub; n_neg := Z.opp;
  n_lt := Z.ltb; n_ge := Z.geb; n_eq := Z.eqb; n_abs := Z.abs; n_tanh := fun x => x
}.

Lemma Z_is_ring : is_ring Z.
Proof. exact Zth. Qed.
