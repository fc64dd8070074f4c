(** * SpecParam: the same program over two element types *)
From Verif Require Import Base ModelIndex ModelTensor ModelOps ModelJvp ModelGraph.

(** Both return, with related results, or both panic for the same reason. *)
Definition rel_outcome {X Y : Type} (P : X -> Y -> Prop) (m : outcome X) (m' : outcome Y) : Prop :=
  match m, m' with
  | Ret x, Ret y => P x y
  | Panic p, Panic q => p = q
  | NoFuel, NoFuel => True
  | _, _ => False
  end.
Definition rel_opt {X Y : Type} (P : X -> Y -> Prop) (o : option X) (o' : option Y) : Prop :=
  match o, o' with Some x, Some y => P x y | None, None => True | _, _ => False end.

Section Rel.
Context {A B : Type} (R : A -> B -> Prop).

(** The same shape and, place for place, related elements *)
Definition rel_raw (t : raw A) (u : raw B) : Prop := shape t = shape u /\ Forall2 R (array t) (array u).

Definition rel_node (n : node A) (m : node B) : Prop := rel_raw (n_val n) (n_val m) /\ n_fn n = n_fn m.
Definition rel_heap (h : heap A) (k : heap B) : Prop :=
  Forall2 rel_node (nodes h) (nodes k) /\ forall i, rel_opt rel_raw (grads h i) (grads k i).
(** The same variables with the same histories, related values and related gradients *)
Definition rel_state (s : state A) (t : state B) : Prop := env s = env t /\ rel_heap (hp s) (hp t).

Inductive rel_nest : nest A -> nest B -> Prop :=
| rn_leaf x y : R x y -> rel_nest (NLeaf x) (NLeaf y)
| rn_vec l l' : rel_nests l l' -> rel_nest (NVec l) (NVec l')
with rel_nests : list (nest A) -> list (nest B) -> Prop :=
| rns_nil : rel_nests [] []
| rns_cons n m l l' : rel_nest n m -> rel_nests l l' -> rel_nests (n :: l) (m :: l').

(** The same call, on related data *)
Inductive rel_cmd : cmd A -> cmd B -> Prop :=
| rc_new a b s : Forall2 R a b -> rel_cmd (CNew a s) (CNew b s)
| rc_filler s x y : R x y -> rel_cmd (CFiller s x) (CFiller s y)
| rc_scalar x y : R x y -> rel_cmd (CScalar x) (CScalar y)
| rc_from n m : rel_nest n m -> rel_cmd (CFrom n) (CFrom m)
| rc_add x y : rel_cmd (CAdd x y) (CAdd x y)
| rc_sub x y : rel_cmd (CSub x y) (CSub x y)
| rc_neg x : rel_cmd (CNeg x) (CNeg x)
| rc_mul x y : rel_cmd (CMul x y) (CMul x y)
| rc_abs x : rel_cmd (CAbs x) (CAbs x)
| rc_relu x : rel_cmd (CRelu x) (CRelu x)
| rc_tanh x : rel_cmd (CTanh x) (CTanh x)
| rc_sum x : rel_cmd (CSum x) (CSum x)
| rc_bmm x y : rel_cmd (CBmm x y) (CBmm x y)
| rc_dot x y : rel_cmd (CDot x y) (CDot x y)
| rc_dot_method x y : rel_cmd (CDotMethod x y) (CDotMethod x y)
| rc_deep_clone x : rel_cmd (CDeepClone x) (CDeepClone x)
| rc_grad x : rel_cmd (CGrad x) (CGrad x)
| rc_view_to_tensor x o : rel_cmd (CViewToTensor x o) (CViewToTensor x o)
| rc_view_sum x o : rel_cmd (CViewSum x o) (CViewSum x o)
| rc_mul_view x y o : rel_cmd (CMulView x y o) (CMulView x y o)
| rc_bmm_view x y o : rel_cmd (CBmmView x y o) (CBmmView x y o)
| rc_update_grad x y : rel_cmd (CUpdateGrad x y) (CUpdateGrad x y)
| rc_zero_grad x : rel_cmd (CZeroGrad x) (CZeroGrad x)
| rc_backward x : rel_cmd (CBackward x) (CBackward x).

(** ** Relations that the arithmetic respects *)

Context {NA : Num A} {NB : Num B}.

(** [+], [*], 0 and 1, which every element type has *)
Record respects_ring : Prop := {
  rr_zero : R n_zero n_zero;
  rr_one : R n_one n_one;
  rr_add : forall a b x y, R a x -> R b y -> R (n_add a b) (n_add x y);
  rr_mul : forall a b x y, R a x -> R b y -> R (n_mul a b) (n_mul x y) }.
Definition respects_neg : Prop := forall a x, R a x -> R (n_neg a) (n_neg x).
(** A function of one element, and its derivative as the backward rule computes it *)
Definition respects_abs : Prop := forall a x, R a x -> R (n_abs a) (n_abs x) /\
  R (if n_ge a n_zero then n_one else n_sub n_zero n_one) (if n_ge x n_zero then n_one else n_sub n_zero n_one).
Definition respects_relu : Prop := forall a x, R a x -> R (relu_fn a) (relu_fn x) /\
  R (if n_lt a n_zero then n_zero else n_one) (if n_lt x n_zero then n_zero else n_one).
Definition respects_tanh : Prop := forall a x, R a x -> R (n_tanh a) (n_tanh x) /\
  R (n_sub n_one (n_mul (n_tanh a) (n_tanh a))) (n_sub n_one (n_mul (n_tanh x) (n_tanh x))).

(** ... and what is needed of the operation [k] *)
Definition respects (k : opk) : Prop :=
  match k with KNeg => respects_neg | KAbs => respects_abs | KRelu => respects_relu | KTanh => respects_tanh | _ => True end.

End Rel.

(** The operations that a call uses beyond those of [respects_ring] *)
Definition needs {A : Type} (c : cmd A) : list opk :=
  match c with
  | CSub _ _ | CNeg _ => [KNeg]
  | CAbs _ => [KAbs]
  | CRelu _ => [KRelu]
  | CTanh _ => [KTanh]
  | _ => []
  end.

(** ** How large the intermediate results can get *)
From Coq Require Import ZArith.

(** A whole number with a bound on it and on everything it was computed from: sums add the bounds, products
    multiply them (but the bound never shrinks). *)
Definition BoundNum : Num (Z * Z) := {|
  n_zero := (0, 0)%Z; n_one := (1, 1)%Z;
  n_add := fun '(x, b) '(y, c) => (x + y, b + c)%Z;
  n_mul := fun '(x, b) '(y, c) => (x * y, Z.max (b * c) (Z.max b c))%Z;
  n_sub := fun '(x, b) '(y, c) => (x - y, b + c)%Z;
  n_neg := fun '(x, b) => (- x, b)%Z;
  n_lt := fun x y => (fst x <? fst y)%Z; n_ge := fun x y => (fst x >=? fst y)%Z; n_eq := fun x y => (fst x =? fst y)%Z;
  n_abs := fun '(x, b) => (Z.abs x, b);
  n_tanh := fun x => x |}.

(** Every element of every tensor and gradient *)
Definition everywhere {A : Type} (P : A -> Prop) (s : state A) : Prop :=
  (forall nd, In nd (nodes (hp s)) -> Forall P (array (n_val nd))) /\
  (forall i g, grads (hp s) i = Some g -> Forall P (array g)).
