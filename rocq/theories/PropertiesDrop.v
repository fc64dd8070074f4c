(** * PropertiesDrop: the theorems of ClaimsDrop.v, restated (generated by tools/genprops.py) *)
From Coq Require Import ZArith Relation_Operators Operators_Properties.
From Verif Require Import Base ModelIndex ModelTensor ModelOps ModelJvp ModelGraph ModelHandle ModelDrop Instances
  SpecGraph SpecHandle SpecDrop HandleCycle DropFacts.
From Verif Require Import ClaimsDrop.


(** C70: at every point of every program, the strong count of every tensor is the number of references
    to it that exist: from variables in scope and from tensors that have not been destroyed. *)
Theorem C70_counts :
  forall (T : Type) (NT : Num T) (p : list (dcmd T)) (s : dstate T), in_scope 0 [] p -> d_run p d_init = Ret s ->
  forall i, d_cnt s i = references s i.
Proof. exact c70_counts. Qed.
Print Assumptions C70_counts.
Example C70_counts_ex :
  in_scope 0 [] sample /\ exists s, d_run sample d_init = Ret s /\ cnts s = [2; 2; 1; 2; 1; 1; 1; 1; 0; 3; 1; 1] /\
    map (references s) (seq 0 12) = [2; 2; 1; 2; 1; 1; 1; 1; 0; 3; 1; 1].
Proof. exact c70_counts_ex. Qed.

(** C70: nothing in use is destroyed: what a variable in scope refers to is alive, and so is everything
    that a tensor alive refers to in its history and its gradient cell. *)
Theorem C70_nothing_dangles :
  forall (T : Type) (NT : Num T) (p : list (dcmd T)) (s : dstate T), in_scope 0 [] p -> d_run p d_init = Ret s ->
  (forall i, held s i -> alive s i) /\ (forall a b, alive s a -> points (hhp (d_h s)) a b -> alive s b).
Proof. exact c70_nothing_dangles. Qed.
Print Assumptions C70_nothing_dangles.
Example C70_nothing_dangles_ex :
  in_scope 0 [] sample /\ exists s, d_run sample d_init = Ret s /\ held s 11 /\ points (hhp (d_h s)) 11 1 /\ alive s 1 /\ ~ held s 1.
Proof. exact c70_nothing_dangles_ex. Qed.

(** C70: destroying tensors changes no result: the program computes what it would compute if nothing
    were ever destroyed, and it ends in the same panic or in none; dropping itself never fails. *)
Theorem C70_results :
  forall (T : Type) (NT : Num T) (p : list (dcmd T)), in_scope 0 [] p ->
  match kept_all p with
  | Ret hs => exists s, d_run p d_init = Ret s /\ d_h s = hs
  | Panic e => d_run p d_init = Panic e
  | NoFuel => False
  end.
Proof. exact c70_results. Qed.
Print Assumptions C70_results.
Example C70_results_ex :
  in_scope 0 [] (sample ++ [DDrop 0; DDrop 3; DCall (CGrad 4); DCall (CAdd 7 8)]) /\
  exists s, d_run (sample ++ [DDrop 0; DDrop 3; DCall (CGrad 4); DCall (CAdd 7 8)]) d_init = Ret s /\ hvar_value (d_h s) 9 = Ret (mkRaw [4%Z] [1]).
Proof. exact c70_results_ex. Qed.

(** C71: in a program that does not call [update_grad] itself, a tensor is alive exactly if a variable in
    scope leads to it through histories and gradient cells. *)
Theorem C71_exact :
  forall (T : Type) (NT : Num T) (p : list (dcmd T)) (s : dstate T), in_scope 0 [] p -> no_update p -> d_run p d_init = Ret s ->
  forall i, alive s i <-> exists v, held s v /\ holds (hhp (d_h s)) v i.
Proof. exact c71_exact. Qed.
Print Assumptions C71_exact.
Example C71_exact_ex :
  in_scope 0 [] sample /\ no_update sample /\ exists s, d_run sample d_init = Ret s /\ alive s 1 /\ ~ alive s 8.
Proof. exact c71_exact_ex. Qed.

(** C71: ... and when all its variables have ended, everything has been destroyed. *)
Theorem C71_nothing_left :
  forall (T : Type) (NT : Num T) (p : list (dcmd T)) (s : dstate T), in_scope 0 [] p -> no_update p -> d_run p d_init = Ret s -> ended s ->
  forall i, d_cnt s i = 0.
Proof. exact c71_nothing_left. Qed.
Print Assumptions C71_nothing_left.
Example C71_nothing_left_ex :
  let p := sample ++ map DDrop [0; 3; 4; 5; 7] in
  in_scope 0 [] p /\ no_update p /\ exists s, d_run p d_init = Ret s /\ ended s /\ cnts s = repeat 0 12.
Proof. exact c71_nothing_left_ex. Qed.

(** C71: with [update_grad] too, whatever is alive is reached from a variable in scope or from a cycle. *)
Theorem C71_why_alive :
  forall (T : Type) (NT : Num T) (p : list (dcmd T)) (s : dstate T), in_scope 0 [] p -> d_run p d_init = Ret s ->
  forall i, alive s i -> exists j, (held s j \/ on_cycle s j) /\ holds (hhp (d_h s)) j i.
Proof. exact c71_why_alive. Qed.
Print Assumptions C71_why_alive.
Example C71_why_alive_ex :
  let p : list (dcmd Z) := [DCall (CNew [3%Z] [1]); DCall (CNeg 0); DCall (CUpdateGrad 0 1); DDrop 0; DDrop 1] in
  in_scope 0 [] p /\ exists s, d_run p d_init = Ret s /\ alive s 0 /\ alive s 1 /\ on_cycle s 1.
Proof. exact c71_why_alive_ex. Qed.

(** C71 in general is false: a tensor given to its own [update_grad] (or to that of one of its
    operands) is never destroyed. *)
Theorem C71_nothing_left_refuted :
  ~ (forall (T : Type) (NT : Num T) (p : list (dcmd T)) (s : dstate T), in_scope 0 [] p -> d_run p d_init = Ret s -> ended s -> forall i, d_cnt s i = 0).
Proof. exact c71_nothing_left_refuted. Qed.
Print Assumptions C71_nothing_left_refuted.
Example C71_nothing_left_refuted_ex :
  let p : list (dcmd Z) := [DCall (CNew [3%Z] [1]); DCall (CNeg 0); DCall (CUpdateGrad 0 1); DDrop 0; DDrop 1] in
  in_scope 0 [] p /\ exists s, d_run p d_init = Ret s /\ ended s /\ cnts s = [1; 1].
Proof. exact c71_nothing_left_refuted_ex. Qed.

(** C72: drops are nested at most as deep as there are tensors. *)
Theorem C72_bound :
  forall (T : Type) (NT : Num T) (p : list (dcmd T)) (s : dstate T), in_scope 0 [] p -> d_run p d_init = Ret s ->
  d_depth s <= length (hnodes (hhp (d_h s))).
Proof. exact c72_bound. Qed.
Print Assumptions C72_bound.
Example C72_bound_ex :
  let p := sample ++ map DDrop [0; 3; 4; 5; 7] in in_scope 0 [] p /\ exists s, d_run p d_init = Ret s /\ d_depth s = 4.
Proof. exact c72_bound_ex. Qed.

(** C72: a tensor computed in [n] steps, each from the last, is destroyed in drops nested [n + 1] deep,
    even if no other variable is left; each of them occupies the stack. *)
Theorem C72_chain :
  forall (T : Type) (NT : Num T) (x : T) (n : nat),
  let p := DCall (CNew [x] [1]) :: flat_map (fun k => [DCall (CNeg k); DDrop k]) (seq 0 n) ++ [DDrop n] in
  in_scope 0 [] p /\ no_update p /\ exists s, d_run p d_init = Ret s /\ ended s /\ d_depth s = S n /\ forall i, d_cnt s i = 0.
Proof. exact c72_chain. Qed.
Print Assumptions C72_chain.
Example C72_chain_ex :
  exists s, d_run (DCall (CNew [3%Z] [1]) :: flat_map (fun k => [DCall (CNeg k); DDrop k]) (seq 0 5) ++ [DDrop 5]) d_init = Ret s /\ d_depth s = 6.
Proof. exact c72_chain_ex. Qed.

(** C72 with a bound that does not depend on the program is false. *)
Theorem C72_constant_refuted :
  ~ exists B, forall (T : Type) (NT : Num T) (p : list (dcmd T)) (s : dstate T), in_scope 0 [] p -> no_update p -> d_run p d_init = Ret s -> d_depth s <= B.
Proof. exact c72_constant_refuted. Qed.
Print Assumptions C72_constant_refuted.
Example C72_constant_refuted_ex :
  exists s, d_run (DCall (CNew [3%Z] [1]) :: flat_map (fun k => [DCall (CNeg k); DDrop k]) (seq 0 9) ++ [DDrop 9]) d_init = Ret s /\ d_depth s = 10 /\
    length (filter (fun v => negb (same_cell v None)) (d_vars s)) = 0.
Proof. exact c72_constant_refuted_ex. Qed.

