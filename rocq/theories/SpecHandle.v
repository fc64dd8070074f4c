(** * SpecHandle: programs that use gradients as values only *)
From Coq Require Import Relation_Operators.
From Verif Require Import Base ModelIndex ModelTensor ModelOps ModelJvp ModelGraph ModelHandle SpecGraph.

(** Both computations end alike; [R] relates the results.  Nothing is said if the first runs out of fuel
    (C41: it never does). *)
Definition rel_out {A B : Type} (R : A -> B -> Prop) (x : outcome A) (y : outcome B) : Prop :=
  match x with Ret a => exists b, y = Ret b /\ R a b | Panic p => y = Panic p | NoFuel => True end.

(** A history with renamed tensors *)
Definition hist (f : nat -> nat) (fn : option (opk * list nat)) : option (opk * list nat) :=
  match fn with Some (k, ins) => Some (k, map f ins) | None => None end.

(** ** Programs that use gradient tensors as values

    [grad()] returns the stored tensor, which has a history and a cell of its own.  Variables bound to
    such a tensor, or computed from one by an operation that records a history, are marked [true]. *)
Section Values.
Context {T : Type}.

(** The operands an operation records *)
Definition recorded_ops (c : cmd T) : list nat :=
  match c with
  | CAdd x y | CSub x y | CBmm x y | CDot x y => [x; y]
  | CNeg x | CAbs x | CRelu x | CTanh x | CSum x | CBmmView x _ _ => [x]
  | _ => []
  end.

(** The operand whose history or cell is used *)
Definition cell_ops (c : cmd T) : list nat :=
  match c with CGrad x | CUpdateGrad x _ | CZeroGrad x | CBackward x => [x] | _ => [] end.

Definition marked (m : list bool) (x : nat) : bool := nth x m false.

Definition mark (m : list bool) (c : cmd T) : list bool :=
  match c with
  | CUpdateGrad _ _ | CZeroGrad _ | CBackward _ => m
  | CGrad _ => m ++ [true]
  | _ => m ++ [existsb (marked m) (recorded_ops c)]
  end.

(** No [grad], [update_grad], [zero_grad] or [backward] on a marked variable *)
Fixpoint values_only (m : list bool) (p : list (cmd T)) : Prop :=
  match p with
  | [] => True
  | c :: p' => existsb (marked m) (cell_ops c) = false /\ values_only (mark m c) p'
  end.

Definition marks (p : list (cmd T)) : list bool := fold_left mark p [].

End Values.

(** ** What a tensor keeps alive *)
Section Memory.
Context {T : Type}.

(** Tensor [a] holds a reference to [b]: through its history or in its gradient cell *)
Definition points (h : hheap T) (a b : nat) : Prop :=
  (exists nd k ins, nth_error (hnodes h) a = Some nd /\ n_fn nd = Some (k, ins) /\ In b ins) \/
  (a < length (hnodes h) /\ hgrads h a = Some b).

Definition holds (h : hheap T) : nat -> nat -> Prop := clos_refl_trans nat (points h).

(** Reference counting frees everything that is no longer used only if there is no cycle. *)
Definition no_cycles (h : hheap T) : Prop := forall a b, points h a b -> ~ holds h b a.

Definition sets_grad (c : cmd T) : bool := match c with CUpdateGrad _ _ => true | _ => false end.

End Memory.
