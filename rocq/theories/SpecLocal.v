(** * SpecLocal: what a tensor was computed from, in two heaps *)
From Verif Require Import Base ModelIndex ModelTensor ModelOps ModelJvp ModelGraph Spec SpecGraph.

Section SpecLocal.
Context {T : Type} {NT : Num T}.

(** A node under other names of its inputs *)
Definition renamed (f : nat -> nat) (nd : node T) : node T :=
  mkNode (n_val nd) (match n_fn nd with Some (k, ins) => Some (k, map f ins) | None => None end).

(** What [r] was computed from in heap [h] is, under the names [f], also in heap [h'], with the same gradients so far. *)
Record same_history (f : nat -> nat) (h h' : heap T) (r : nat) : Prop := {
  sh_nodes : forall n nd, uses (nodes h) r n -> nth_error (nodes h) n = Some nd -> nth_error (nodes h') (f n) = Some (renamed f nd);
  sh_names : forall n m, uses (nodes h) r n -> uses (nodes h) r m -> f n = f m -> n = m;
  sh_grads : forall n, uses (nodes h) r n -> grads h' (f n) = grads h n
}.

(** The same panic, or the same gradients for what [r] was computed from *)
Definition same_gradients (f : nat -> nat) (h : heap T) (r : nat) (o o' : outcome (heap T)) : Prop :=
  match o, o' with
  | Ret h1, Ret h2 => forall n, uses (nodes h) r n -> grads h2 (f n) = grads h1 n
  | Panic p, Panic q => p = q
  | _, _ => False
  end.

(** No tensor [r] was computed from is empty; [bmm] was only used on matrices there. *)
Definition nonempty_above (ns : list (node T)) (r : nat) : Prop := forall n, uses ns r n -> positive (shape (vof ns n)).
Definition matrices_above (ns : list (node T)) (r : nat) : Prop := forall n ins, uses ns r n -> fn_of ns n = Some (KBmm, ins) ->
  Forall (fun i => length (shape (vof ns i)) = 2) ins.
End SpecLocal.
