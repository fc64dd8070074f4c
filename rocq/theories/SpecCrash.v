(** * SpecCrash: programs that go on after a panic *)
From Verif Require Import Base ModelIndex ModelTensor ModelOps ModelJvp ModelGraph ModelCrash Spec SpecDual SpecGraph.

Section SpecCrash.
Context {T : Type} {NT : Num T}.

(** States a program made of [ok] calls can reach when it catches panics *)
Inductive reach_guarded (ok : cmd T -> Prop) : state T -> Prop :=
| rg_init : reach_guarded ok init_state
| rg_step s c : reach_guarded ok s -> ok c ->
    (forall x y o, c = CMulView x y o -> exists v, var_value s x = Ret v /\ shape v <> []) ->
    reach_guarded ok (fst (exec_left s c)).

(** [zero_grad] on all tensors in [ws] *)
Definition zero_all (ws : list nat) (h : heap T) : heap T := fold_left zero_grad ws h.

(** The same tensors with the same gradients *)
Definition same_heap (h h' : heap T) : Prop := nodes h = nodes h' /\ forall j, grads h j = grads h' j.

End SpecCrash.
