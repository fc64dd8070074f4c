(** * PropertiesShape: the theorems of ClaimsShape.v, restated (generated by tools/genprops.py) *)
From Coq Require Import ZArith.
From Verif Require Import Base ModelIndex ModelTensor ModelOps ModelJvp ModelGraph Spec SpecGraph SpecShape
  Lists IndexFacts TensorFacts OpsFacts FuelFacts GraphFacts HandleProg ApiFacts Instances ClaimsTensor ClaimsOps ClaimsMat.
From Verif Require Import ClaimsShape.


(** C76: a program of calls that compute tensors runs without a panic exactly if its shapes follow the rules, and then its
    tensors have the shapes the rules say ... *)
Theorem C76_shapes_decide :
  forall (T : Type) (NT : Num T) (p : list (cmd T)), Forall tame p ->
    (forall G, prog_shaped [] p G -> exists s, run p init_state = Ret s /\ var_shapes s = map Ret G) /\
    (forall s, run p init_state = Ret s -> exists G, prog_shaped [] p G /\ var_shapes s = map Ret G) /\
    ((forall G, ~ prog_shaped [] p G) -> exists e, run p init_state = Panic e).
Proof. exact c76_shapes_decide. Qed.
Print Assumptions C76_shapes_decide.
Example C76_shapes_decide_ex :
  let p : list (cmd Z) := [CNew [1; 2; 3; 4; 5; 6]%Z [3; 2]; CNew [1; 1]%Z [2; 1]; CBmm 0 1; CFiller [1; 4] 1%Z; CAdd 2 3; CViewToTensor 4 [mkSR 1 3; mkSR 0 2]; CSum 5] in
  Forall tame p /\ prog_shaped [] p [[3; 2]; [2; 1]; [3; 1]; [1; 4]; [3; 4]; [2; 2]; []] /\
  run [CNew [1; 2; 3; 4; 5; 6]%Z [3; 2]; CBmm 0 0] init_state = Panic PAssert.
Proof. exact c76_shapes_decide_ex. Qed.

(** ... the rules leave no choice, and the data do not occur in them: whether and with what shapes a program runs depends on
    its calls and shapes only. *)
Theorem C76_shapes_unique :
  forall (T : Type) (NT : Num T) (p : list (cmd T)) (G G' : list (list nat)), Forall tame p -> prog_shaped [] p G -> prog_shaped [] p G' -> G = G'.
Proof. exact c76_shapes_unique. Qed.
Print Assumptions C76_shapes_unique.
Example C76_shapes_unique_ex : prog_shaped (T := Z) [] [CScalar 2%Z; CScalar 3%Z; CMul 0 1] [[]; []; []].
Proof. exact c76_shapes_unique_ex. Qed.

