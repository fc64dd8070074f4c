(** * SpecDual: derivatives without limits

    Dual numbers [x + e*dx] with [e*e = 0].  Running an operation on them computes, beside its
    value, its derivative in the direction [dx].  This is the specification the backward rules are
    compared with; GradReal.v relates it to derivatives of real functions. *)
From Verif Require Import Base ModelIndex ModelTensor ModelOps ModelJvp ModelGraph Spec.

Section Dual.
Context {T : Type} {NT : Num T}.

(** Comparisons look at the value; at a kink [abs] has slope 1 and the code's [relu], which is
    [if x < 0 then 0 else x], gets slope 1 by itself. *)
Definition DNum : Num (T * T) := {|
  n_zero := (n_zero, n_zero);
  n_one := (n_one, n_zero);
  n_add := fun a b => (n_add (fst a) (fst b), n_add (snd a) (snd b));
  n_mul := fun a b => (n_mul (fst a) (fst b),
                       n_add (n_mul (fst a) (snd b)) (n_mul (snd a) (fst b)));
  n_sub := fun a b => (n_sub (fst a) (fst b), n_sub (snd a) (snd b));
  n_neg := fun a => (n_neg (fst a), n_neg (snd a));
  n_lt := fun a b => n_lt (fst a) (fst b);
  n_ge := fun a b => n_ge (fst a) (fst b);
  n_eq := fun a b => n_eq (fst a) (fst b);
  n_abs := fun a => (n_abs (fst a), if n_ge (fst a) n_zero then snd a else n_neg (snd a));
  n_tanh := fun a => (n_tanh (fst a),
                      n_mul (n_sub n_one (n_mul (n_tanh (fst a)) (n_tanh (fst a)))) (snd a))
|}.

(** The tensor [x + e*dx] *)
Definition dual (x dx : raw T) : raw (T * T) := mkRaw (combine (array x) (array dx)) (shape x).

(** A tangent for [x]: a tensor of the same shape *)
Definition tangent (x dx : raw T) : Prop := wf dx /\ shape dx = shape x.

(** The operation whose backward rule is called [k] *)
Definition fwd (k : opk) (xs : list (raw T)) : outcome (raw T) :=
  match k, xs with
  | KAdd, [a; b] => add_raw (LRaw a) (LRaw b)
  | KNeg, [a] => neg_raw (LRaw a)
  | KAbs, [a] => abs_raw (LRaw a)
  | KRelu, [a] => relu_raw (LRaw a)
  | KTanh, [a] => tanh_raw (LRaw a)
  | KSum, [a] => tl_sum (LRaw a)
  | KBmm, [a; b] => bmm_raw (LRaw a) (LRaw b)
  | KDot, [a; b] => dot_raw (LRaw a) (LRaw b)
  | _, _ => Panic PAssert
  end.

(** ** Gradient matrices *)

(** An incoming gradient: a matrix with [d0] rows, one column per element of the output; a rank-0
    tensor stands for a 1 by 1 matrix. *)
Definition grad_rows (g : raw T) (d0 N : nat) : Prop :=
  wf g /\ 0 < d0 /\ 0 < N /\ (shape g = [d0; N] \/ (shape g = [] /\ d0 = 1 /\ N = 1)).
Definition gval (g : raw T) (r p : nat) : T :=
  match shape g with [] => tval g [] | _ => tval g [r; p] end.

(** What a backward rule returns: per input a matrix with [d0] rows, one column per element *)
Definition matrices (gs xs : list (raw T)) (d0 : nat) : Prop :=
  Forall2 (fun g x => wf g /\ shape g = [d0; size (shape x)]) gs xs.

(** [sum_p g[r,p] * d[p]]: row [r] of a gradient matrix applied to a flattened tangent *)
Definition row_dot (g : raw T) (r : nat) (d : raw T) : T :=
  sumn (length (array d)) (fun p => n_mul (tval g [r; p]) (nth p (array d) n_zero)).

(** The same for several inputs *)
Definition total (gs : list (raw T)) (r : nat) (ds : list (raw T)) : T :=
  lsum (map (fun '(g, d) => row_dot g r d) (combine gs ds)).

(** ... and for the incoming gradient and the tangent of the output *)
Definition rhs (G : raw T) (r : nat) (d : raw T) : T :=
  sumn (length (array d)) (fun o => n_mul (gval G r o) (nth o (array d) n_zero)).

(** The cases in which the backward rules are exact.  [abs] and [bmm] insist on a matrix, [tanh]
    cannot handle several rows for a one-element input, [sum] ignores the incoming gradient, [bmm]
    shuffles arrays of more than 32 elements, [dot] returns its gradients in another format. *)
Definition vjp_ok (k : opk) (xs : list (raw T)) (G : raw T) (d0 : nat) : Prop :=
  match k with
  | KAdd | KNeg | KRelu => True
  | KAbs => shape G <> []
  | KTanh => d0 = 1 \/ Forall (fun x => size (shape x) <> 1) xs
  | KSum => d0 = 1 /\ gval G 0 0 = n_one
  | KBmm => shape G <> [] /\ Forall (fun x => d0 * size (shape x) <= 32) xs
  | KDot => False
  end.

End Dual.

(** [fwd] at dual numbers *)
Definition fwd_dual {T : Type} {NT : Num T} (k : opk) (xs dxs : list (raw T)) : outcome (raw (T * T)) :=
  @fwd (T * T) DNum k (map (fun '(x, dx) => dual x dx) (combine xs dxs)).
