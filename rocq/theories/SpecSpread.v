(** * SpecSpread: error bounds that do not depend on the order of additions *)
From Coq Require Import Reals ZArith QArith Qreals Qabs Qround.
From Flocq Require Import Core BinarySingleNaN.
From Verif Require Import Base ModelTensor Spec RealInst SpecRound SpecError.
Local Open Scope R_scope.

(** A sum of real numbers: its value, the sum of the magnitudes of the terms, the sum of the errors with which the
    terms are known, the number of additions, and a bound on the magnitude of everything the terms were computed from *)
Record spread : Type := mkSpread { sval : R; total : R; inherited : R; adds : nat; peak : R }.

Section Spread.
Context (prec emax : Z) (tau : R).
Local Notation u := (unit_roundoff prec).
Local Notation eta := (tiny_error prec emax).

(** No partial sum, in whatever order the terms are added up, is larger than this ... *)
Definition reach (b : spread) : R := (1 + u) ^ adds b * (total b + inherited b).
(** ... and no result is further off than this. *)
Definition slack (b : spread) : R := reach b - total b.
Definition fits (b : spread) : Prop := peak b < bpow radix2 emax /\ reach b < bpow radix2 emax.

(** A number that is no sum: its value, its error, what it was computed from *)
Definition single (x e m : R) : spread := mkSpread x (Rabs x) e 0 m.

(** Error carried over by a product *)
Definition carried_product (a b : spread) : R := Rabs (sval a) * slack b + Rabs (sval b) * slack a + slack a * slack b.

(** [+], [*], ... with such bounds.  [tau] bounds the error of the float [tanh]. *)
Definition SpreadNum : Num spread :=
  let add a b := mkSpread (sval a + sval b) (total a + total b) (inherited a + inherited b) (adds a + adds b + 1) (Rmax (peak a) (peak b)) in
  let neg a := mkSpread (- sval a) (total a) (inherited a) (adds a) (peak a) in {|
  n_zero := single 0 0 0; n_one := single 1 0 0;
  n_add := add;
  n_mul := fun a b =>
    single (sval a * sval b) (carried_product a b + (u * (Rabs (sval a * sval b) + carried_product a b) + eta))
      (Rmax (Rmax (peak a) (peak b)) (Rmax (reach a) (reach b)));
  n_sub := fun a b => add a (neg b);
  n_neg := neg;
  n_lt := fun a b => n_lt (sval a) (sval b); n_ge := fun a b => n_ge (sval a) (sval b); n_eq := fun a b => n_eq (sval a) (sval b);
  n_abs := fun a => mkSpread (Rabs (sval a)) (total a) (inherited a) (adds a) (peak a);
  n_tanh := fun a => single (tanh (sval a)) (slack a + tau) (Rmax (peak a) (reach a)) |}.

(** A float that is within the bound, unless something may have overflowed on the way *)
Definition near (f : float prec emax) (b : spread) : Prop := fits b -> is_finite f = true /\ Rabs (B2R f - sval b) <= slack b.

(** The sign of any float within the bound is the sign of the exact value. *)
Definition sign_sure (b : spread) : Prop := fits b /\ (slack b = 0 \/ slack b < Rabs (sval b)).

(** Input data with a bound on its error, e.g. 0 *)
Definition begins (f : float prec emax) (b : spread) : Prop :=
  is_finite f = true /\ Rabs (B2R f - sval b) <= inherited b /\ Rabs (sval b) <= total b.

End Spread.

(** ** A version that computes

    The same with rational bounds, rounded outwards to multiples of 2^-80 *)
Local Close Scope R_scope.
Local Open Scope Q_scope.
Record sival : Type := mkSival { slo : Q; shi : Q; stotal : Q; sinherited : Q; sadds : nat; speak : Q }.

Definition qup (x : Q) : Q := Qceiling (x * inject_Z (2 ^ 80)) # (2 ^ 80).
Definition qdown (x : Q) : Q := - qup (- x).

Section Checker.
Context (prec emax : Z) (tau : Q).

(** At least [(1 + u) ^ n] *)
Fixpoint igrowth (n : nat) : Q := match n with O => 1 | S n => qup ((1 + qu prec) * igrowth n) end.
Definition ireach (a : sival) : Q := qup (igrowth (sadds a) * (stotal a + sinherited a)).
Definition islack (a : sival) : Q := qup ((igrowth (sadds a) - 1) * stotal a + igrowth (sadds a) * sinherited a).
Definition isingle (l h e m : Q) : sival := mkSival (qdown l) (qup h) (qup (top l h)) (qup e) 0 (qup m).
Definition icarried_product (a b : sival) : Q := top (slo a) (shi a) * islack b + top (slo b) (shi b) * islack a + islack a * islack b.

Definition SivalNum : Num sival :=
  let add a b := mkSival (qdown (slo a + slo b)) (qup (shi a + shi b)) (qup (stotal a + stotal b)) (qup (sinherited a + sinherited b)) (sadds a + sadds b + 1) (qmax (speak a) (speak b)) in
  let neg a := mkSival (- shi a) (- slo a) (stotal a) (sinherited a) (sadds a) (speak a) in {|
  n_zero := isingle 0 0 0 0; n_one := isingle 1 1 0 0;
  n_add := add;
  n_mul := fun a b =>
    let l := qmin (qmin (slo a * slo b) (slo a * shi b)) (qmin (shi a * slo b) (shi a * shi b)) in
    let h := qmax (qmax (slo a * slo b) (slo a * shi b)) (qmax (shi a * slo b) (shi a * shi b)) in
    isingle l h (icarried_product a b + (qu prec * (top l h + icarried_product a b) + qeta prec emax)) (qmax (qmax (speak a) (speak b)) (qmax (ireach a) (ireach b)));
  n_sub := fun a b => add a (neg b);
  n_neg := neg;
  n_lt := fun a b => qlt (shi a) (slo b); n_ge := fun a b => Qle_bool (shi b) (slo a); n_eq := fun a b => false;
  n_abs := fun a => mkSival (qmax 0 (qmax (slo a) (- shi a))) (top (slo a) (shi a)) (stotal a) (sinherited a) (sadds a) (speak a);
  n_tanh := fun a => isingle (- (1)) 1 (islack a + tau) (qmax (speak a) (ireach a)) |}.

(** The interval has a sign. *)
Definition ssigned (a : sival) : bool := qlt (shi a) 0 || Qle_bool 0 (slo a).
(** The sign is the same for all numbers that differ from one in the interval by at most the bound. *)
Definition sdecided (a : sival) : bool :=
  qlt (speak a) (inject_Z (2 ^ emax)) && qlt (ireach a) (inject_Z (2 ^ emax)) && ssigned a && (Qeq_bool (islack a) 0 || qlt (islack a) (slo a) || qlt (shi a) (- islack a)).

(** The bounds hold. *)
Definition covers (b : spread) (a : sival) : Prop :=
  (Q2R (slo a) <= sval b <= Q2R (shi a) /\ 0 <= total b <= Q2R (stotal a) /\ 0 <= inherited b <= Q2R (sinherited a) /\ adds b = sadds a /\ peak b <= Q2R (speak a))%R.

End Checker.
