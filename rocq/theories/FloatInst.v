(** * FloatInst: 32-bit floats as elements

    [f32] (numeric.rs:35, the type the training test uses: nn/feed_foward.rs:85) through Coq's
    specification of IEEE arithmetic, with rounding to nearest even.  [tanh] is a parameter. *)
From Coq Require Import ZArith SpecFloat.
From Verif Require Import Base.

Definition f32 : Set := spec_float.
Section F32.
Variable tanh : f32 -> f32.
Definition F32Num : Num f32 := {|
  n_zero := S754_zero false;
  n_one := S754_finite false (2 ^ 23) (-23);
  n_add := SFadd 24 128;
  n_mul := SFmul 24 128;
  n_sub := SFsub 24 128;
  n_neg := SFopp;
  n_lt := SFltb;
  n_ge := fun x y => SFleb y x;
  n_eq := SFeqb;
  n_abs := SFabs;
  n_tanh := tanh |}.
End F32.

(** A whole number, rounded *)
Definition f32_of_Z (z : Z) : f32 := binary_normalize 24 128 z 0 false.
