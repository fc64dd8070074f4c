(** * SpecReal: partial derivatives of recorded computations over the reals *)
From Coq Require Import Reals.
From Verif Require Import Base ModelIndex ModelTensor ModelOps ModelJvp ModelGraph Spec SpecDual SpecGraph RealInst.
Local Open Scope R_scope.

(** [x] with [t] added to entry [p] *)
Definition bump (x : raw R) (p : nat) (t : R) : raw R :=
  mkRaw (list_set (array x) p (nth p (array x) 0 + t)) (shape x).

(** No entry of an input of [relu] or [abs] is at the kink, in the computation of [r]. *)
Definition no_kinks (ns : list (node R)) (r : nat) : Prop :=
  forall n k ins i, uses ns r n -> fn_of ns n = Some (k, ins) -> k = KAbs \/ k = KRelu -> In i ins ->
    Forall (fun e => e <> 0) (array (vof ns i)).

(** [d] is the derivative, at 0, of the only element of the [r]-th tensor of [vs t]. *)
Definition has_derivative (vs : R -> list (raw R)) (r : nat) (d : R) : Prop :=
  exists f : R -> R, (forall t, exists s, nth_error (vs t) r = Some (mkRaw [f t] s)) /\ derivable_pt_lim f 0 d.

(** [d] is the partial derivative of one-element tensor [r] with respect to entry [p] of tensor
    [l], in the computation recorded in [ns]. *)
Definition partial_derivative (ns : list (node R)) (r l p : nat) (d : R) : Prop :=
  exists vs : R -> list (raw R),
    (forall t, reeval ns l (bump (vof ns l) p t) = Ret (vs t)) /\ has_derivative vs r d.

(** [d] is the derivative, at 0, of the only element of variable [y] after running program [p t]. *)
Definition program_derivative (p : R -> list (cmd R)) (y : nat) (d : R) : Prop :=
  exists f : R -> R,
    (forall t, exists s sh, run (p t) init_state = Ret s /\ var_value s y = Ret (mkRaw [f t] sh)) /\
    derivable_pt_lim f 0 d.

(** An entry of the gradient of variable [x], zero if it has none *)
Definition grad_entry (s : state R) (x q : nat) : R :=
  match var_grad s x with Some g => nth q (array g) 0 | None => 0 end.

(** Leaves, [+], [-], [neg], [relu], [tanh], [abs], [bmm] *)
Definition graph_cmd (c : cmd R) : bool :=
  match c with CSum _ | CDot _ _ => false | _ => differentiable c end.

(** [bmm] was only used on tensors of at most 32 entries. *)
Definition small_bmm (ns : list (node R)) : Prop :=
  forall n ins, fn_of ns n = Some (KBmm, ins) -> Forall (fun i => (size (shape (vof ns i)) <= 32)%nat) ins.
