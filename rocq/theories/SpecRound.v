(** * SpecRound: IEEE 754 binary floating point as element type *)
From Coq Require Import Reals ZArith.
From Flocq Require Import Core BinarySingleNaN.
From Verif Require Import Base Spec RealInst.

Section Format.
Context (prec emax : Z) {prec_gt_0 : Prec_gt_0 prec} {prec_lt_emax : Prec_lt_emax prec emax}.

(** The numbers of a binary format with [prec] bits of precision and exponents below [emax]: [f32] is
    [(24, 128)], [f64] is [(53, 1024)].  Operations round to nearest, ties to even, as Rust's do.  There is
    one not-a-number (payloads are not modelled); [tanh], which is not specified by IEEE 754, is a parameter. *)
Definition float : Type := binary_float prec emax.

Definition FloatNum (tanh : float -> float) : Num float := {|
  n_zero := B754_zero false; n_one := Bone;
  n_add := Bplus mode_NE; n_mul := Bmult mode_NE; n_sub := Bminus mode_NE; n_neg := Bopp;
  n_lt := Bltb; n_ge := fun x y => Bleb y x; n_eq := Beqb;
  n_abs := Babs; n_tanh := tanh |}.

(** The relative error of one rounding: half a unit in the last place ... *)
Definition unit_roundoff : R := bpow radix2 (- prec).
(** ... and the absolute one of a product near zero: half the smallest positive number *)
Definition tiny_error : R := / 2 * bpow radix2 (3 - emax - prec).

(** Error factor of [k] roundings *)
Definition growth (k : nat) : R := (1 + unit_roundoff) ^ k - 1.

(** The exact products of pairs *)
Definition products (p : list (float * float)) : list R := map (fun '(x, y) => (B2R x * B2R y)%R) p.

End Format.

Local Open Scope R_scope.
(** Sums of real numbers *)
Definition rsum (l : list R) : R := fold_right Rplus 0 l.
(** Sum of the magnitudes *)
Definition magnitude (l : list R) : R := rsum (map Rabs l).
