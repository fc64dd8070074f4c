(** * ModelCost: how much [backward] does

    [compute_jvp] and [backward] of ModelGraph with two counters: how often [update_grad] is called, and how deep the
    calls of [compute_jvp] nest, which is what they need of the stack. *)
From Verif Require Import Base ModelIndex ModelTensor ModelOps ModelJvp ModelGraph.

Section Cost.
Context {T : Type} {NT : Num T}.

(** How often autograd/jvp.rs:45 is reached, and how deep the calls of line 47 nest *)
Record work : Type := mkWork { w_updates : nat; w_depth : nat }.

(** [Derivative::compute_jvp]: autograd/jvp.rs:30-51, called at depth [d] *)
Fixpoint compute_jvp_work (fuel d : nat) (ns : list (node T)) (k : opk) (inputs : list nat)
    (outer : list (raw T)) (st : (nat -> option (raw T)) * work) : outcome ((nat -> option (raw T)) * work) :=
  match fuel with
  | O => NoFuel
  | S f =>
    let* ins := mapM (vindex ns) inputs in
    let* self_grads := jvp k (map n_val ins) outer in
    foldM (fun '(gr, w) '(g, (i, nd)) =>
             assert (length (array g) =? length (array (n_val nd))) ;;
             let* shaped_grad := raw_new (array g) (shape (n_val nd)) in
             let* gr' := update_grad gr i shaped_grad in
             let st' := (gr', mkWork (S (w_updates w)) (w_depth w)) in
             match n_fn nd with
             | Some (k', inputs') => compute_jvp_work f (S d) ns k' inputs' [g] st'
             | None => Ret st'
             end)
          (combine self_grads (combine inputs ins)) (fst st, mkWork (w_updates (snd st)) (Nat.max d (w_depth (snd st))))
  end.

(** [RcTensor::backward]: rc_tensor.rs:50-60 *)
Definition backward_work (h : heap T) (i : nat) : outcome (heap T * work) :=
  let* nd := hget h i in
  assert (length (array (n_val nd)) =? 1) ;;
  let* (k, inputs) := unwrap_opt (n_fn nd) in
  let* (gr, w) := compute_jvp_work (S (length (nodes h))) 1 (nodes h) k inputs [raw_scalar n_one] (grads h, mkWork 0 0) in
  Ret (mkHeap (nodes h) gr, w).

End Cost.
