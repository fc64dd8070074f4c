(** * SpecError: running error bounds for whole programs *)
From Coq Require Import Reals ZArith QArith Qreals Qabs.
From Flocq Require Import Core BinarySingleNaN.
From Verif Require Import Base ModelTensor ModelGraph Spec RealInst SpecRound.

Local Open Scope nat_scope.
(** The inputs of every [abs] and [relu], whose formulas ask for a sign, satisfy [Q]. *)
Definition signs_known {B : Type} (Q : B -> Prop) (ns : list (node B)) : Prop :=
  forall n nd k ins, nth_error ns n = Some nd -> n_fn nd = Some (k, ins) -> k = KAbs \/ k = KRelu ->
    Forall (fun i => i < n /\ exists ndi, nth_error ns i = Some ndi /\ Forall Q (array (n_val ndi))) ins.

Local Open Scope R_scope.

(** A real number, a bound on the error with which the float computation knows it, and a bound on the
    magnitude of everything it was computed from *)
Record bounded : Type := mkBounded { val : R; err : R; mag : R }.

Section Running.
Context (prec emax : Z) (tau : R).
Local Notation u := (unit_roundoff prec).
Local Notation eta := (tiny_error prec emax).

(** A result: exact value, error carried over from the operands, error of the rounding, magnitudes of the operands *)
Definition rounded (x carried rounding m : R) : bounded :=
  mkBounded x (carried + rounding) (Rmax m (Rabs x + (carried + rounding))).

(** Error carried over by a product *)
Definition carried_mul (a b : bounded) : R := Rabs (val a) * err b + Rabs (val b) * err a + err a * err b.

(** [+], [*], ... with a bound on the error.  [tau] bounds the error of the float [tanh]. *)
Definition ErrNum : Num bounded := {|
  n_zero := mkBounded 0 0 0; n_one := mkBounded 1 0 1;
  n_add := fun a b => rounded (val a + val b) (err a + err b) (u * (Rabs (val a + val b) + (err a + err b))) (Rmax (mag a) (mag b));
  n_mul := fun a b => rounded (val a * val b) (carried_mul a b) (u * (Rabs (val a * val b) + carried_mul a b) + eta) (Rmax (mag a) (mag b));
  n_sub := fun a b => rounded (val a - val b) (err a + err b) (u * (Rabs (val a - val b) + (err a + err b))) (Rmax (mag a) (mag b));
  n_neg := fun a => mkBounded (- val a) (err a) (mag a);
  n_lt := fun a b => n_lt (val a) (val b); n_ge := fun a b => n_ge (val a) (val b); n_eq := fun a b => n_eq (val a) (val b);
  n_abs := fun a => mkBounded (Rabs (val a)) (err a) (mag a);
  n_tanh := fun a => rounded (tanh (val a)) (err a) tau (mag a) |}.

(** A float that is within the bound, unless something overflowed on the way *)
Definition within (f : float prec emax) (b : bounded) : Prop :=
  mag b < bpow radix2 emax -> is_finite f = true /\ Rabs (B2R f - val b) <= err b.

(** The sign of the float is the sign of the exact value. *)
Definition sign_known (b : bounded) : Prop := mag b < bpow radix2 emax /\ (err b = 0 \/ err b < Rabs (val b)).

(** Input data with a bound on its error, e.g. 0 *)
Definition starts (f : float prec emax) (b : bounded) : Prop :=
  is_finite f = true /\ Rabs (B2R f - val b) <= err b /\ Rabs (val b) + err b <= mag b.

End Running.

(** ** A version that computes

    The same with rational bounds instead of the exact value *)
Local Open Scope Q_scope.
Record ival : Type := mkIval { lo : Q; hi : Q; er : Q; mg : Q }.

Definition qmax (x y : Q) : Q := if Qle_bool x y then y else x.
Definition qmin (x y : Q) : Q := if Qle_bool x y then x else y.
Definition qlt (x y : Q) : bool := negb (Qle_bool y x).
Definition top (l h : Q) : Q := qmax (Qabs l) (Qabs h).

Section Checker.
Context (prec emax : Z) (tau : Q).
Definition qu : Q := / inject_Z (2 ^ prec).
Definition qeta : Q := / inject_Z (2 ^ (emax + prec - 2)).

(** A result: bounds of the exact value, errors, magnitudes of the operands *)
Definition irounded (l h carried rounding m : Q) : ival :=
  mkIval (Qred l) (Qred h) (Qred (carried + rounding)) (Qred (qmax m (top l h + (carried + rounding)))).
Definition icarried (a b : ival) : Q := top (lo a) (hi a) * er b + top (lo b) (hi b) * er a + er a * er b.

Definition IntNum : Num ival := {|
  n_zero := mkIval 0 0 0 0; n_one := mkIval 1 1 0 1;
  n_add := fun a b =>
    let l := lo a + lo b in let h := hi a + hi b in
    irounded l h (er a + er b) (qu * (top l h + (er a + er b))) (qmax (mg a) (mg b));
  n_mul := fun a b =>
    let l := qmin (qmin (lo a * lo b) (lo a * hi b)) (qmin (hi a * lo b) (hi a * hi b)) in
    let h := qmax (qmax (lo a * lo b) (lo a * hi b)) (qmax (hi a * lo b) (hi a * hi b)) in
    irounded l h (icarried a b) (qu * (top l h + icarried a b) + qeta) (qmax (mg a) (mg b));
  n_sub := fun a b =>
    let l := lo a - hi b in let h := hi a - lo b in
    irounded l h (er a + er b) (qu * (top l h + (er a + er b))) (qmax (mg a) (mg b));
  n_neg := fun a => mkIval (- hi a) (- lo a) (er a) (mg a);
  n_lt := fun a b => qlt (hi a) (lo b); n_ge := fun a b => Qle_bool (hi b) (lo a); n_eq := fun a b => false;
  n_abs := fun a => mkIval (qmax 0 (qmax (lo a) (- hi a))) (top (lo a) (hi a)) (er a) (mg a);
  n_tanh := fun a => irounded (- (1)) 1 (er a) tau (mg a) |}.

(** The interval has a sign. *)
Definition signed (a : ival) : bool := qlt (hi a) 0 || Qle_bool 0 (lo a).
(** The sign is the same for all numbers that differ from one in the interval by at most the error. *)
Definition idecided (a : ival) : bool :=
  qlt (mg a) (inject_Z (2 ^ emax)) && signed a && (Qeq_bool (er a) 0 || qlt (er a) (lo a) || qlt (hi a) (- er a)).

(** The bounds hold. *)
Definition enclosed (b : bounded) (a : ival) : Prop :=
  (Q2R (lo a) <= val b <= Q2R (hi a) /\ 0 <= err b <= Q2R (er a) /\ mag b <= Q2R (mg a))%R.

End Checker.
