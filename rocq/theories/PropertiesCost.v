(** * PropertiesCost: the theorems of ClaimsCost.v, restated (generated by tools/genprops.py) *)
From Coq Require Import ZArith.
From Verif Require Import Base ModelIndex ModelTensor ModelOps ModelJvp ModelGraph ModelCost Spec SpecDual SpecGraph SpecNN SpecCost
  Lists FuelFacts GraphFacts ProgFacts ClaimsProg SimFacts CostFacts Instances.
From Verif Require Import ClaimsCost.


(** C64: the counters are only watching *)
Theorem C64_counters_watch :
  forall (T : Type) (NT : Num T) (h : heap T) (r : nat), (let* (h', _) := backward_work h r in Ret h') = backward h r.
Proof. exact c64_counters_watch. Qed.
Print Assumptions C64_counters_watch.
Example C64_counters_watch_ex : x_work [CNew [1; 2]%Z [2]; CAdd 0 0; CTanh 1; CAdd 1 2; CSum 3] 4 = Some (mkWork 8 4).
Proof. exact c64_counters_watch_ex. Qed.

(** C64: [update_grad] is called once for every path from the tensor [backward] is called on into its history *)
Theorem C64_updates_are_paths :
  forall (T : Type) (NT : Num T) (s : state T) (r : nat) (h' : heap T), reach any s -> backward (hp s) r = Ret h' ->
    exists L w, paths_from (nodes (hp s)) r L /\ backward_work (hp s) r = Ret (h', w) /\ w_updates w = length L.
Proof. exact c64_updates_are_paths. Qed.
Print Assumptions C64_updates_are_paths.
Example C64_updates_are_paths_ex : exists (s : state Z), run [CNew [3]%Z [1]; CAdd 0 0; CNeg 1; CAdd 1 2] init_state = Ret s /\
  paths_from (nodes (hp s)) 3 [[0]; [0; 0]; [0; 1]; [1]; [1; 0]; [1; 0; 0]; [1; 0; 1]] /\
  x_work [CNew [3]%Z [1]; CAdd 0 0; CNeg 1; CAdd 1 2] 3 = Some (mkWork 7 3).
Proof. exact c64_updates_are_paths_ex. Qed.

(** C64 is false: no multiple of the number of tensors bounds the number of updates, *)
Theorem C64_linear_work_refuted :
  ~ exists c, forall (T : Type) (NT : Num T) (s : state T) (r : nat) (h' : heap T) (w : work),
      reach tidy s -> backward_work (hp s) r = Ret (h', w) -> w_updates w <= c * length (nodes (hp s)).
Proof. exact c64_linear_work_refuted. Qed.
Print Assumptions C64_linear_work_refuted.
Example C64_linear_work_refuted_ex : x_work (doubling 1%Z 10) 10 = Some (mkWork 2046 10).
Proof. exact c64_linear_work_refuted_ex. Qed.

(** C64: and it can be exponential: a tensor doubled [n] times needs [2^(n+1) - 2] updates, *)
Theorem C64_doubling :
  forall (T : Type) (NT : Num T) (x : T) (n : nat), 0 < n ->
    exists s h' w, run (doubling x n) init_state = Ret s /\ length (nodes (hp s)) = S n /\
      backward_work (hp s) n = Ret (h', w) /\ w_updates w + 2 = 2 ^ (n + 1).
Proof. exact c64_doubling. Qed.
Print Assumptions C64_doubling.
Example C64_doubling_ex : doubling 5%Z 3 = [CNew [5]%Z [1]; CAdd 0 0; CAdd 1 1; CAdd 2 2] /\ x_work (doubling 5%Z 3) 3 = Some (mkWork 14 3).
Proof. exact c64_doubling_ex. Qed.

(** C64: which is the worst there is. *)
Theorem C64_upper_bound :
  forall (T : Type) (NT : Num T) (s : state T) (r : nat) (h' : heap T) (w : work), reach any s ->
    backward_work (hp s) r = Ret (h', w) -> w_updates w + 2 <= 2 ^ (r + 1).
Proof. exact c64_upper_bound. Qed.
Print Assumptions C64_upper_bound.
Example C64_upper_bound_ex : x_work [CNew [1; 2]%Z [2]; CNew [3; 4]%Z [2]; CAdd 0 1; CAdd 2 1; CSum 3] 4 = Some (mkWork 5 3).
Proof. exact c64_upper_bound_ex. Qed.

(** C64: It holds for histories in which no tensor is used twice: at most one update per earlier tensor. *)
Theorem C64_used_once :
  forall (T : Type) (NT : Num T) (s : state T) (r : nat) (h' : heap T) (w : work), reach any s -> used_once (nodes (hp s)) ->
    backward_work (hp s) r = Ret (h', w) -> w_updates w <= r /\ r < length (nodes (hp s)).
Proof. exact c64_used_once. Qed.
Print Assumptions C64_used_once.
Example C64_used_once_ex : exists (s : state Z), run [CNew [1; 2]%Z [2]; CNew [3; 4]%Z [2]; CAdd 0 1; CTanh 2; CSum 3] init_state = Ret s /\
  used_once (nodes (hp s)) /\ x_work [CNew [1; 2]%Z [2]; CNew [3; 4]%Z [2]; CAdd 0 1; CTanh 2; CSum 3] 4 = Some (mkWork 4 3).
Proof. exact c64_used_once_ex. Qed.

(** C65 is false: how deep the calls of [compute_jvp] nest is not bounded, *)
Theorem C65_bounded_depth_refuted :
  ~ exists d, forall (T : Type) (NT : Num T) (s : state T) (r : nat) (h' : heap T) (w : work),
      reach tidy s -> backward_work (hp s) r = Ret (h', w) -> w_depth w <= d.
Proof. exact c65_bounded_depth_refuted. Qed.
Print Assumptions C65_bounded_depth_refuted.
Example C65_bounded_depth_refuted_ex : x_work [CNew [1]%Z [1]; CNeg 0; CNeg 1; CTanh 2; CRelu 3; CNeg 4] 5 = Some (mkWork 5 5).
Proof. exact c65_bounded_depth_refuted_ex. Qed.

(** C65: it is the length of the longest path into the history, at most the number of earlier tensors and of updates. *)
Theorem C65_depth_is_longest_path :
  forall (T : Type) (NT : Num T) (s : state T) (r : nat) (h' : heap T) (w : work), reach any s -> backward_work (hp s) r = Ret (h', w) ->
    (exists l m, walk (nodes (hp s)) r l m /\ length l = w_depth w) /\
    (forall l m, walk (nodes (hp s)) r l m -> length l <= w_depth w) /\
    w_depth w <= r /\ 1 <= w_depth w <= w_updates w.
Proof. exact c65_depth_is_longest_path. Qed.
Print Assumptions C65_depth_is_longest_path.
Example C65_depth_is_longest_path_ex : exists (s : state Z), run [CNew [1; 2]%Z [2]; CNew [3; 4]%Z [2]; CNeg 0; CNeg 2; CAdd 1 3; CSum 4] init_state = Ret s /\
  walk (nodes (hp s)) 5 [0; 1; 0; 0] 0 /\ x_work [CNew [1; 2]%Z [2]; CNew [3; 4]%Z [2]; CNeg 0; CNeg 2; CAdd 1 3; CSum 4] 5 = Some (mkWork 5 4).
Proof. exact c65_depth_is_longest_path_ex. Qed.

(** C65: Since trained parameters keep their history, each round of training makes it deeper. *)
Theorem C65_training_deepens :
  forall (T : Type) (NT : Num T) (h h' : heap T) (k p r loss : nat) (w : work), heap_inv h -> chain (nodes h) k p r -> uses (nodes h) loss r ->
    backward_work h loss = Ret (h', w) -> k <= w_depth w.
Proof. exact c65_training_deepens. Qed.
Print Assumptions C65_training_deepens.
Example C65_training_deepens_ex : exists (s : state Z), run [CNew [1]%Z [1]; CNew [5]%Z [1]; CAdd 0 1; CAdd 2 1; CAdd 3 1; CTanh 4] init_state = Ret s /\
  chain (nodes (hp s)) 3 0 4 /\ uses (nodes (hp s)) 5 4 /\
  x_work [CNew [1]%Z [1]; CNew [5]%Z [1]; CAdd 0 1; CAdd 2 1; CAdd 3 1; CTanh 4] 5 = Some (mkWork 7 4).
Proof. exact c65_training_deepens_ex. Qed.

