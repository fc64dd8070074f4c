(** * SpecCost: paths through a history *)
From Verif Require Import Base ModelIndex ModelTensor ModelOps ModelJvp ModelGraph ModelCost Spec SpecDual SpecGraph.

Section SpecCost.
Context {T : Type}.

(** [walk ns n l m]: taking at each tensor the input number given by [l], one comes from [n] to [m]. *)
Inductive walk (ns : list (node T)) : nat -> list nat -> nat -> Prop :=
| walk_nil n : walk ns n [] n
| walk_cons n k ins p i l m : fn_of ns n = Some (k, ins) -> nth_error ins p = Some i -> walk ns i l m -> walk ns n (p :: l) m.

(** [L] lists the paths from [n] with at least one step. *)
Definition paths_from (ns : list (node T)) (n : nat) (L : list (list nat)) : Prop :=
  NoDup L /\ forall l, In l L <-> l <> [] /\ exists m, walk ns n l m.

(** No tensor is used twice *)
Definition used_once (ns : list (node T)) : Prop := forall a b ka kb ia ib p q i,
  fn_of ns a = Some (ka, ia) -> fn_of ns b = Some (kb, ib) -> nth_error ia p = Some i -> nth_error ib q = Some i -> a = b /\ p = q.

(** The length of the longest of some lists *)
Definition longest (L : list (list nat)) : nat := fold_right (fun l n => Nat.max (length l) n) 0 L.

End SpecCost.

(** The program that makes a tensor and doubles it [n] times: [x + x], then that plus itself, ... *)
Definition doubling {T : Type} (x : T) (n : nat) : list (cmd T) := CNew [x] [1] :: map (fun i => CAdd i i) (seq 0 n).
