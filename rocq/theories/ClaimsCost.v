(** * ClaimsCost: the cost of [backward] (C64, C65) *)
From Coq Require Import ZArith.
From Verif Require Import Base ModelIndex ModelTensor ModelOps ModelJvp ModelGraph ModelCost Spec SpecDual SpecGraph SpecNN SpecCost
  Lists FuelFacts GraphFacts ProgFacts ClaimsProg SimFacts CostFacts Instances.

(** What [backward] on variable [r] costs after a program; for the examples *)
Definition x_work (p : list (cmd Z)) (r : nat) : option work :=
  match run p init_state with Ret s => match backward_work (hp s) r with Ret (_, w) => Some w | _ => None end | _ => None end.

(** ** C64 *)

(** C64: the counters are only watching *)
Lemma c64_counters_watch :
  forall (T : Type) (NT : Num T) (h : heap T) (r : nat), (let* (h', _) := backward_work h r in Ret h') = backward h r.
Proof. intros T NT h r. apply backward_work_agrees. Qed.
Example c64_counters_watch_ex : x_work [CNew [1; 2]%Z [2]; CAdd 0 0; CTanh 1; CAdd 1 2; CSum 3] 4 = Some (mkWork 8 4).
Proof. vm_compute. reflexivity. Qed.

(** C64: [update_grad] is called once for every path from the tensor [backward] is called on into its history *)
Lemma c64_updates_are_paths :
  forall (T : Type) (NT : Num T) (s : state T) (r : nat) (h' : heap T), reach any s -> backward (hp s) r = Ret h' ->
    exists L w, paths_from (nodes (hp s)) r L /\ backward_work (hp s) r = Ret (h', w) /\ w_updates w = length L.
Proof.
  intros T NT s r h' R E. rewrite <- backward_work_agrees in E. destruct (backward_work (hp s) r) as [[h w]| |] eqn:Ew; cbn [bind] in E; try discriminate.
  injection E as ->. destruct (reach_inv _ _ R) as [[HR _] _]. destruct (backward_work_count _ _ _ _ HR Ew) as (L & HL & Hw).
  exists L, w. split; [exact HL|]. split; [reflexivity|]. rewrite Hw. reflexivity.
Qed.
Example c64_updates_are_paths_ex : exists (s : state Z), run [CNew [3]%Z [1]; CAdd 0 0; CNeg 1; CAdd 1 2] init_state = Ret s /\
  paths_from (nodes (hp s)) 3 [[0]; [0; 0]; [0; 1]; [1]; [1; 0]; [1; 0; 0]; [1; 0; 1]] /\
  x_work [CNew [3]%Z [1]; CAdd 0 0; CNeg 1; CAdd 1 2] 3 = Some (mkWork 7 3).
Proof.
  eexists. split; [vm_compute; reflexivity|]. split; [|vm_compute; reflexivity].
  change [[0]; [0; 0]; [0; 1]; [1]; [1; 0]; [1; 0; 0]; [1; 0; 1]] with (npaths (nodes (hp (mkState (mkHeap (T := Z)
    [mkNode (mkRaw [3]%Z [1]) None; mkNode (mkRaw [6]%Z [1]) (Some (KAdd, [0; 0])); mkNode (mkRaw [-6]%Z [1]) (Some (KNeg, [1]));
     mkNode (mkRaw [0]%Z [1]) (Some (KAdd, [1; 2]))] (fun _ => None)) []))) 4 3).
  apply npaths_paths; [|lia]. intros n nd k ins E Ef.
  destruct n as [|[|[|[|n]]]]; cbn in E; [| | | |destruct n; discriminate E]; injection E as <-; cbn in Ef; try discriminate Ef; injection Ef as <- <-; repeat constructor; lia.
Qed.

(** C64 is false: no multiple of the number of tensors bounds the number of updates, *)
Lemma c64_linear_work_refuted :
  ~ exists c, forall (T : Type) (NT : Num T) (s : state T) (r : nat) (h' : heap T) (w : work),
      reach tidy s -> backward_work (hp s) r = Ret (h', w) -> w_updates w <= c * length (nodes (hp s)).
Proof.
  intros [c H]. set (n := 2 * c + 4). destruct (doubling_runs 1%Z n) as (s & E & D). destruct (doubling_backward 1%Z n s) as [h' Eb]; [lia|exact E|exact D|].
  rewrite <- backward_work_agrees in Eb. destruct (backward_work (hp s) n) as [[h w]| |] eqn:Ew; cbn [bind] in Eb; try discriminate.
  pose proof (doubling_reach 1%Z n s E) as R. specialize (H Z _ s n h w R Ew).
  destruct (reach_inv _ _ R) as [[HR _] _]. apply (backward_work_npaths _ _ _ _ HR) in Ew as [_ ->]. cbn [w_updates] in H.
  destruct (doubled_paths n s D (S (length (nodes (hp s)))) n) as [Q _]; [destruct D as (_ & -> & _); lia|lia|].
  destruct D as (_ & HL & _). rewrite HL in H at 2.
  assert (G : c * S n + 2 < 2 ^ S n); [|lia]. clear. unfold n. clear n. induction c as [|c IH]; [cbn; lia|].
  replace (S (2 * S c + 4)) with (S (S (S (2 * c + 4)))) by lia.
  remember (2 * c + 4) as n eqn:En. cbn [Nat.pow] in *. nia.
Qed.
Example c64_linear_work_refuted_ex : x_work (doubling 1%Z 10) 10 = Some (mkWork 2046 10).
Proof. vm_compute. reflexivity. Qed.

(** C64: and it can be exponential: a tensor doubled [n] times needs [2^(n+1) - 2] updates, *)
Lemma c64_doubling :
  forall (T : Type) (NT : Num T) (x : T) (n : nat), 0 < n ->
    exists s h' w, run (doubling x n) init_state = Ret s /\ length (nodes (hp s)) = S n /\
      backward_work (hp s) n = Ret (h', w) /\ w_updates w + 2 = 2 ^ (n + 1).
Proof.
  intros T NT x n Hn. destruct (doubling_runs x n) as (s & E & D). destruct (doubling_backward x n s Hn E D) as [h' Eb].
  rewrite <- backward_work_agrees in Eb. destruct (backward_work (hp s) n) as [[h w]| |] eqn:Ew; cbn [bind] in Eb; try discriminate.
  exists s, h, w. split; [exact E|]. split; [apply D|]. split; [exact Ew|].
  destruct (reach_inv _ _ (doubling_reach x n s E)) as [[HR _] _]. apply (backward_work_npaths _ _ _ _ HR) in Ew as [_ ->]. cbn [w_updates].
  rewrite Nat.add_1_r. apply (doubled_paths n s D); [destruct D as (_ & -> & _); lia|lia].
Qed.
Example c64_doubling_ex : doubling 5%Z 3 = [CNew [5]%Z [1]; CAdd 0 0; CAdd 1 1; CAdd 2 2] /\ x_work (doubling 5%Z 3) 3 = Some (mkWork 14 3).
Proof. split; vm_compute; reflexivity. Qed.

(** C64: which is the worst there is. *)
Lemma c64_upper_bound :
  forall (T : Type) (NT : Num T) (s : state T) (r : nat) (h' : heap T) (w : work), reach any s ->
    backward_work (hp s) r = Ret (h', w) -> w_updates w + 2 <= 2 ^ (r + 1).
Proof.
  intros T NT s r h' w R E. destruct (reach_inv _ _ R) as [[HR _] _]. apply (backward_work_npaths _ _ _ _ HR) in E as [_ ->]. cbn [w_updates].
  rewrite Nat.add_1_r. apply npaths_bound. exact HR.
Qed.
Example c64_upper_bound_ex : x_work [CNew [1; 2]%Z [2]; CNew [3; 4]%Z [2]; CAdd 0 1; CAdd 2 1; CSum 3] 4 = Some (mkWork 5 3).
Proof. vm_compute. reflexivity. Qed.

(** C64: It holds for histories in which no tensor is used twice: at most one update per earlier tensor. *)
Lemma c64_used_once :
  forall (T : Type) (NT : Num T) (s : state T) (r : nat) (h' : heap T) (w : work), reach any s -> used_once (nodes (hp s)) ->
    backward_work (hp s) r = Ret (h', w) -> w_updates w <= r /\ r < length (nodes (hp s)).
Proof.
  intros T NT s r h' w R U E. destruct (reach_inv _ _ R) as [[HR _] _]. split; [|apply (backward_work_npaths _ _ _ _ HR E)].
  destruct (backward_work_count _ _ _ _ HR E) as (L & HL & ->). cbn [w_updates].
  eapply paths_once; eauto. apply recorded_backrefs. exact HR.
Qed.
Example c64_used_once_ex : exists (s : state Z), run [CNew [1; 2]%Z [2]; CNew [3; 4]%Z [2]; CAdd 0 1; CTanh 2; CSum 3] init_state = Ret s /\
  used_once (nodes (hp s)) /\ x_work [CNew [1; 2]%Z [2]; CNew [3; 4]%Z [2]; CAdd 0 1; CTanh 2; CSum 3] 4 = Some (mkWork 4 3).
Proof.
  eexists. split; [vm_compute; reflexivity|]. split; [|vm_compute; reflexivity].
  intros a b ka kb ia ib p q i Ea Eb Ep Eq. unfold fn_of in Ea, Eb.
  destruct a as [|[|[|[|[|a]]]]]; cbn in Ea; try discriminate Ea; [| | |destruct a; discriminate Ea]; injection Ea as <- <-;
  destruct b as [|[|[|[|[|b]]]]]; cbn in Eb; try discriminate Eb; try (destruct b; discriminate Eb); injection Eb as <- <-;
  destruct p as [|[|p]]; cbn in Ep; try discriminate Ep; try (destruct p; discriminate Ep); injection Ep as <-;
  destruct q as [|[|q]]; cbn in Eq; try discriminate Eq; try (destruct q; discriminate Eq); try (split; reflexivity).
Qed.

(** ** C65 *)

(** C65 is false: how deep the calls of [compute_jvp] nest is not bounded, *)
Lemma c65_bounded_depth_refuted :
  ~ exists d, forall (T : Type) (NT : Num T) (s : state T) (r : nat) (h' : heap T) (w : work),
      reach tidy s -> backward_work (hp s) r = Ret (h', w) -> w_depth w <= d.
Proof.
  intros [d H]. destruct (doubling_runs 1%Z (S d)) as (s & E & D). destruct (doubling_backward 1%Z (S d) s) as [h' Eb]; [lia|exact E|exact D|].
  rewrite <- backward_work_agrees in Eb. destruct (backward_work (hp s) (S d)) as [[h w]| |] eqn:Ew; cbn [bind] in Eb; try discriminate.
  pose proof (doubling_reach 1%Z (S d) s E) as R. specialize (H Z _ s (S d) h w R Ew).
  destruct (reach_inv _ _ R) as [[HR _] _]. apply (backward_work_npaths _ _ _ _ HR) in Ew as [_ ->]. cbn [w_depth] in H.
  destruct (doubled_paths (S d) s D (S (length (nodes (hp s)))) (S d)) as [_ Q]; [destruct D as (_ & -> & _); lia|lia|]. lia.
Qed.
Example c65_bounded_depth_refuted_ex : x_work [CNew [1]%Z [1]; CNeg 0; CNeg 1; CTanh 2; CRelu 3; CNeg 4] 5 = Some (mkWork 5 5).
Proof. vm_compute. reflexivity. Qed.

(** C65: it is the length of the longest path into the history, at most the number of earlier tensors and of updates. *)
Lemma c65_depth_is_longest_path :
  forall (T : Type) (NT : Num T) (s : state T) (r : nat) (h' : heap T) (w : work), reach any s -> backward_work (hp s) r = Ret (h', w) ->
    (exists l m, walk (nodes (hp s)) r l m /\ length l = w_depth w) /\
    (forall l m, walk (nodes (hp s)) r l m -> length l <= w_depth w) /\
    w_depth w <= r /\ 1 <= w_depth w <= w_updates w.
Proof.
  intros T NT s r h' w R E. destruct (reach_inv _ _ R) as [[HR _] _]. pose proof (recorded_backrefs _ HR) as B.
  destruct (backward_work_count _ _ _ _ HR E) as (L & HL & ->). cbn [w_depth w_updates].
  assert (N : L <> []).
  { pose proof (backward_work_npaths _ _ _ _ HR E) as [Hr _]. unfold backward_work in E.
    apply bind_Ret_inv in E as (nd & En & E). apply bind_Ret_inv in E as (u & _ & E).
    destruct (n_fn nd) as [[k ins]|] eqn:Ef; [|discriminate]. unfold hget, vindex in En. destruct (nth_error (nodes (hp s)) r) as [nd'|] eqn:Er; [|discriminate]. injection En as ->.
    pose proof (npaths_some (nodes (hp s)) (length (nodes (hp s))) r k ins HR ltac:(unfold fn_of; rewrite Er; exact Ef)) as L1.
    pose proof (npaths_in (nodes (hp s)) B (S (length (nodes (hp s)))) r ltac:(lia)) as HI.
    destruct (npaths (nodes (hp s)) (S (length (nodes (hp s)))) r) as [|a M]; [cbn in L1; lia|].
    assert (Ha : In a L) by (apply HL, HI; cbn; auto). intros ->. destruct Ha. }
  destruct (longest_has L N) as (l & Hl & El). split; [|split; [|split; [|split]]].
  - apply HL in Hl as (_ & m & W). exists l, m. auto.
  - intros l' m W. destruct l' as [|p l']; [cbn; lia|]. apply longest_in. apply HL. split; [discriminate|eauto].
  - eapply paths_longest; eauto.
  - rewrite <- El. apply HL in Hl as [Hl _]. destruct l; [tauto|cbn; lia].
  - eapply paths_longest_le; eauto.
Qed.
Example c65_depth_is_longest_path_ex : exists (s : state Z), run [CNew [1; 2]%Z [2]; CNew [3; 4]%Z [2]; CNeg 0; CNeg 2; CAdd 1 3; CSum 4] init_state = Ret s /\
  walk (nodes (hp s)) 5 [0; 1; 0; 0] 0 /\ x_work [CNew [1; 2]%Z [2]; CNew [3; 4]%Z [2]; CNeg 0; CNeg 2; CAdd 1 3; CSum 4] 5 = Some (mkWork 5 4).
Proof.
  eexists. split; [vm_compute; reflexivity|]. split; [|vm_compute; reflexivity]. repeat (eapply walk_cons; [reflexivity|reflexivity|]). constructor.
Qed.

(** C65: Since trained parameters keep their history, each round of training makes it deeper. *)
Lemma c65_training_deepens :
  forall (T : Type) (NT : Num T) (h h' : heap T) (k p r loss : nat) (w : work), heap_inv h -> chain (nodes h) k p r -> uses (nodes h) loss r ->
    backward_work h loss = Ret (h', w) -> k <= w_depth w.
Proof.
  intros T NT h h' k p r loss w [HR _] C U E. destruct (backward_work_count _ _ _ _ HR E) as (L & HL & ->). cbn [w_depth].
  eapply chain_depth; eauto.
Qed.
Example c65_training_deepens_ex : exists (s : state Z), run [CNew [1]%Z [1]; CNew [5]%Z [1]; CAdd 0 1; CAdd 2 1; CAdd 3 1; CTanh 4] init_state = Ret s /\
  chain (nodes (hp s)) 3 0 4 /\ uses (nodes (hp s)) 5 4 /\
  x_work [CNew [1]%Z [1]; CNew [5]%Z [1]; CAdd 0 1; CAdd 2 1; CAdd 3 1; CTanh 4] 5 = Some (mkWork 7 4).
Proof.
  eexists. split; [vm_compute; reflexivity|]. split; [|split; [|vm_compute; reflexivity]].
  - repeat (eapply ch_more; [|idtac|eapply uses_step; [reflexivity|left; reflexivity|apply uses_refl]]); [apply ch_zero|cbn; lia..].
  - eapply uses_step; [reflexivity|left; reflexivity|apply uses_refl].
Qed.
