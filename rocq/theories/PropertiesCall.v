(** * PropertiesCall: the theorems of ClaimsCall.v, restated (generated by tools/genprops.py) *)
From Coq Require Import ZArith.
From Verif Require Import Base ModelIndex ModelTensor ModelOps ModelJvp ModelGraph Spec SpecGraph Lists
  IndexFacts TensorFacts OpsFacts FuelFacts ClaimsOps GraphFacts Instances.
From Verif Require Import ClaimsCall.


(** C20: [&x - &y] on tensors with a history succeeds if the shapes broadcast; the new tensor holds x + (-y), element by element. *)
Theorem C20_call_sub :
  forall (T : Type) (NT : Num T) (s : state T) (x y : nat) (a b : raw T) (sh : list nat),
    var_value s x = Ret a -> var_value s y = Ret b ->
    wf a -> wf b -> positive (shape a) -> positive (shape b) -> bcast (shape a) (shape b) sh ->
    exists s' t, exec s (CSub x y) = Ret s' /\ var_value s' (length (env s)) = Ret t /\ shape t = sh /\
      forall i, in_range sh i ->
        exists u v, raw_get a (clamp (shape a) i) = Ret (Ok u) /\ raw_get b (clamp (shape b) i) = Ret (Ok v) /\
                    raw_get t i = Ret (Ok (n_add u (n_neg v))).
Proof. exact c20_call_sub. Qed.
Print Assumptions C20_call_sub.
Example C20_call_sub_ex : exists s s', run (T := Z) [CNew [1; 2; 3; 4]%Z [2; 2]; CNew [10; 20]%Z [1; 2]] init_state = Ret s /\
  exec s (CSub 0 1) = Ret s' /\ var_value s' 2 = Ret (mkRaw [-9; -18; -7; -16]%Z [2; 2]).
Proof. exact c20_call_sub_ex. Qed.

(** C55: [x.grad()] gives a tensor that holds x's gradient as it is at the call, and has no history; without a gradient it panics. *)
Theorem C55_call_grad :
  forall (T : Type) (NT : Num T) (s : state T) (x i : nat), nth_error (env s) x = Some i ->
    match grads (hp s) i with
    | Some g => exists s' nd, exec s (CGrad x) = Ret s' /\ var_value s' (length (env s)) = Ret g /\
                  nodes (hp s') = nodes (hp s) ++ [nd] /\ n_fn nd = None
    | None => exec s (CGrad x) = Panic PUnwrap
    end.
Proof. exact c55_call_grad. Qed.
Print Assumptions C55_call_grad.
Example C55_call_grad_ex : exists s, run (T := Z) [CNew [1; 2; 3]%Z [3]; CSum 0; CBackward 1] init_state = Ret s /\ nth_error (env s) 0 = Some 0 /\
  grads (hp s) 0 = Some (mkRaw [1; 1; 1]%Z [3]).
Proof. exact c55_call_grad_ex. Qed.

