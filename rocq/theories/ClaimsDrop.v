(** * ClaimsDrop: reference counts, destruction of tensors (C70-C72) *)
From Coq Require Import ZArith Relation_Operators Operators_Properties.
From Verif Require Import Base ModelIndex ModelTensor ModelOps ModelJvp ModelGraph ModelHandle ModelDrop Instances
  SpecGraph SpecHandle SpecDrop HandleCycle DropFacts.

(** x := 3; w := 2; p := x + w; y := -p; p ends; l := y.sum(); l.backward(); g := w.grad(); w' := w - g; w ends;
    w'' := w'.clone(); w' ends; x.zero_grad(). *)
Definition sample : list (dcmd Z) :=
  [DCall (CNew [3%Z] [1]); DCall (CNew [2%Z] [1]); DCall (CAdd 0 1); DCall (CNeg 2); DDrop 2; DCall (CSum 3); DCall (CBackward 4);
   DCall (CGrad 1); DCall (CSub 1 5); DDrop 1; DClone 6; DDrop 6; DCall (CZeroGrad 0)].

Definition cnts (s : dstate Z) : list nat := map (d_cnt s) (seq 0 (length (hnodes (hhp (d_h s))))).

Ltac scope := cbn; repeat match goal with |- _ /\ _ => split | |- forall _, _ => intro | |- _ -> _ => intro end;
  repeat match goal with H : _ \/ _ |- _ => destruct H | H : False |- _ => destruct H end; subst; try lia; try exact I.

(** ** C70 *)

(** C70: at every point of every program, the strong count of every tensor is the number of references
    to it that exist: from variables in scope and from tensors that have not been destroyed. *)
Lemma c70_counts :
  forall (T : Type) (NT : Num T) (p : list (dcmd T)) (s : dstate T), in_scope 0 [] p -> d_run p d_init = Ret s ->
  forall i, d_cnt s i = references s i.
Proof. intros T NT p s HP E. destruct (run_rightly p s HP E) as [_ [gone HS]]. eapply rightly_counts; eauto. Qed.
Example c70_counts_ex :
  in_scope 0 [] sample /\ exists s, d_run sample d_init = Ret s /\ cnts s = [2; 2; 1; 2; 1; 1; 1; 1; 0; 3; 1; 1] /\
    map (references s) (seq 0 12) = [2; 2; 1; 2; 1; 1; 1; 1; 0; 3; 1; 1].
Proof. split; [scope|]. eexists. split; [vm_compute; reflexivity|]. split; vm_compute; reflexivity. Qed.

(** C70: nothing in use is destroyed: what a variable in scope refers to is alive, and so is everything
    that a tensor alive refers to in its history and its gradient cell. *)
Lemma c70_nothing_dangles :
  forall (T : Type) (NT : Num T) (p : list (dcmd T)) (s : dstate T), in_scope 0 [] p -> d_run p d_init = Ret s ->
  (forall i, held s i -> alive s i) /\ (forall a b, alive s a -> points (hhp (d_h s)) a b -> alive s b).
Proof. intros T NT p s HP E. destruct (run_rightly p s HP E) as [_ [gone HS]]. eapply rightly_safe; eauto. Qed.
Example c70_nothing_dangles_ex :
  in_scope 0 [] sample /\ exists s, d_run sample d_init = Ret s /\ held s 11 /\ points (hhp (d_h s)) 11 1 /\ alive s 1 /\ ~ held s 1.
Proof.
  split; [scope|]. eexists. split; [vm_compute; reflexivity|]. split; [vm_compute; tauto|]. split; [|split; [vm_compute; repeat constructor|]].
  - left. do 3 eexists. split; [reflexivity|]. split; [reflexivity|]. cbn; auto.
  - vm_compute. intros H. repeat (destruct H as [H|H]; [discriminate H|]). exact H.
Qed.

(** C70: destroying tensors changes no result: the program computes what it would compute if nothing
    were ever destroyed, and it ends in the same panic or in none; dropping itself never fails. *)
Lemma c70_results :
  forall (T : Type) (NT : Num T) (p : list (dcmd T)), in_scope 0 [] p ->
  match kept_all p with
  | Ret hs => exists s, d_run p d_init = Ret s /\ d_h s = hs
  | Panic e => d_run p d_init = Panic e
  | NoFuel => False
  end.
Proof.
  intros T NT p HP. pose proof (run_keep p HP) as H. destruct (kept_all p); auto. destruct H as (s & E & Es & _). eauto.
Qed.
Example c70_results_ex :
  in_scope 0 [] (sample ++ [DDrop 0; DDrop 3; DCall (CGrad 4); DCall (CAdd 7 8)]) /\
  exists s, d_run (sample ++ [DDrop 0; DDrop 3; DCall (CGrad 4); DCall (CAdd 7 8)]) d_init = Ret s /\ hvar_value (d_h s) 9 = Ret (mkRaw [4%Z] [1]).
Proof. split; [scope|]. eexists. split; vm_compute; reflexivity. Qed.

(** ** C71 *)

(** C71: in a program that does not call [update_grad] itself, a tensor is alive exactly if a variable in
    scope leads to it through histories and gradient cells. *)
Lemma c71_exact :
  forall (T : Type) (NT : Num T) (p : list (dcmd T)) (s : dstate T), in_scope 0 [] p -> no_update p -> d_run p d_init = Ret s ->
  forall i, alive s i <-> exists v, held s v /\ holds (hhp (d_h s)) v i.
Proof.
  intros T NT p s HP HU E i. destruct (run_rightly p s HP E) as [EK [gone HS]].
  assert (G : good (d_h s)) by (eapply (keep_good p h_init); [exact HU|apply good_init|exact EK]). destruct G as (_ & NC & _). split.
  - intros Hi. destruct (rightly_why s gone HS (length (hnodes (hhp (d_h s)))) [] i) as (j & [Hj|(k & Hp & Hk)] & Hh); eauto; [lia|constructor; auto; constructor|].
    destruct (NC _ _ Hp Hk).
  - intros (v & Hv & Hh). eapply alive_holds; eauto. apply (proj1 (rightly_safe s gone HS)), Hv.
Qed.
Example c71_exact_ex :
  in_scope 0 [] sample /\ no_update sample /\ exists s, d_run sample d_init = Ret s /\ alive s 1 /\ ~ alive s 8.
Proof. split; [scope|]. split; [repeat constructor|]. eexists. split; [vm_compute; reflexivity|]. split; vm_compute; lia. Qed.

(** C71: ... and when all its variables have ended, everything has been destroyed. *)
Lemma c71_nothing_left :
  forall (T : Type) (NT : Num T) (p : list (dcmd T)) (s : dstate T), in_scope 0 [] p -> no_update p -> d_run p d_init = Ret s -> ended s ->
  forall i, d_cnt s i = 0.
Proof.
  intros T NT p s HP HU E En i. destruct (Nat.eq_0_gt_0_cases (d_cnt s i)) as [Z|Z]; auto.
  destruct (proj1 (c71_exact T NT p s HP HU E i) Z) as (v & Hv & _). unfold held, ended in *. rewrite Forall_forall in En. apply En in Hv. discriminate.
Qed.
Example c71_nothing_left_ex :
  let p := sample ++ map DDrop [0; 3; 4; 5; 7] in
  in_scope 0 [] p /\ no_update p /\ exists s, d_run p d_init = Ret s /\ ended s /\ cnts s = repeat 0 12.
Proof. cbv zeta. split; [scope|]. split; [repeat constructor|]. eexists. split; [vm_compute; reflexivity|]. split; [repeat constructor|vm_compute; reflexivity]. Qed.

(** C71: with [update_grad] too, whatever is alive is reached from a variable in scope or from a cycle. *)
Lemma c71_why_alive :
  forall (T : Type) (NT : Num T) (p : list (dcmd T)) (s : dstate T), in_scope 0 [] p -> d_run p d_init = Ret s ->
  forall i, alive s i -> exists j, (held s j \/ on_cycle s j) /\ holds (hhp (d_h s)) j i.
Proof.
  intros T NT p s HP E i Hi. destruct (run_rightly p s HP E) as [_ [gone HS]].
  apply (rightly_why s gone HS (length (hnodes (hhp (d_h s)))) [] i); auto; [lia|constructor; auto; constructor].
Qed.
Example c71_why_alive_ex :
  let p : list (dcmd Z) := [DCall (CNew [3%Z] [1]); DCall (CNeg 0); DCall (CUpdateGrad 0 1); DDrop 0; DDrop 1] in
  in_scope 0 [] p /\ exists s, d_run p d_init = Ret s /\ alive s 0 /\ alive s 1 /\ on_cycle s 1.
Proof.
  cbv zeta. split; [scope|]. eexists. split; [vm_compute; reflexivity|]. split; [vm_compute; repeat constructor|]. split; [vm_compute; repeat constructor|].
  exists 0. split; [left; do 3 eexists; split; [reflexivity|]; split; [reflexivity|]; cbn; auto|]. apply rt_step. right. split; [cbn; lia|reflexivity].
Qed.

(** C71 in general is false: a tensor given to its own [update_grad] (or to that of one of its
    operands) is never destroyed. *)
Lemma c71_nothing_left_refuted :
  ~ (forall (T : Type) (NT : Num T) (p : list (dcmd T)) (s : dstate T), in_scope 0 [] p -> d_run p d_init = Ret s -> ended s -> forall i, d_cnt s i = 0).
Proof.
  intros H. set (p := [DCall (CNew [3%Z] [1]); DCall (CUpdateGrad 0 0); DDrop 0] : list (dcmd Z)).
  assert (E : exists s, d_run p d_init = Ret s /\ ended s /\ d_cnt s 0 = 1) by (eexists; split; [vm_compute; reflexivity|]; split; [repeat constructor|vm_compute; reflexivity]).
  destruct E as (s & E & En & E1). specialize (H Z _ p s ltac:(unfold p; scope) E En 0). congruence.
Qed.
Example c71_nothing_left_refuted_ex :
  let p : list (dcmd Z) := [DCall (CNew [3%Z] [1]); DCall (CNeg 0); DCall (CUpdateGrad 0 1); DDrop 0; DDrop 1] in
  in_scope 0 [] p /\ exists s, d_run p d_init = Ret s /\ ended s /\ cnts s = [1; 1].
Proof. cbv zeta. split; [scope|]. eexists. split; [vm_compute; reflexivity|]. split; [repeat constructor|vm_compute; reflexivity]. Qed.

(** ** C72 *)

(** C72: drops are nested at most as deep as there are tensors. *)
Lemma c72_bound :
  forall (T : Type) (NT : Num T) (p : list (dcmd T)) (s : dstate T), in_scope 0 [] p -> d_run p d_init = Ret s ->
  d_depth s <= length (hnodes (hhp (d_h s))).
Proof. intros T NT p s HP E. destruct (run_rightly p s HP E) as [_ [gone HS]]. apply HS. Qed.
Example c72_bound_ex :
  let p := sample ++ map DDrop [0; 3; 4; 5; 7] in in_scope 0 [] p /\ exists s, d_run p d_init = Ret s /\ d_depth s = 4.
Proof. cbv zeta. split; [scope|]. eexists. split; vm_compute; reflexivity. Qed.

(** C72: a tensor computed in [n] steps, each from the last, is destroyed in drops nested [n + 1] deep,
    even if no other variable is left; each of them occupies the stack. *)
Lemma c72_chain :
  forall (T : Type) (NT : Num T) (x : T) (n : nat),
  let p := DCall (CNew [x] [1]) :: flat_map (fun k => [DCall (CNeg k); DDrop k]) (seq 0 n) ++ [DDrop n] in
  in_scope 0 [] p /\ no_update p /\ exists s, d_run p d_init = Ret s /\ ended s /\ d_depth s = S n /\ forall i, d_cnt s i = 0.
Proof.
  intros T NT x n p. change p with (chain x n ++ [DDrop n]). split; [|split].
  - apply scope_app; [apply chain_scope|]. rewrite chain_counts, chain_gone. cbn. split; [|exact I]. split; [lia|]. rewrite <- in_rev, in_seq. lia.
  - apply Forall_app. split; [apply chain_no_update|repeat constructor].
  - destruct (chain_depth x n) as (s & E & En & D & C & _). eauto 8.
Qed.
Example c72_chain_ex :
  exists s, d_run (DCall (CNew [3%Z] [1]) :: flat_map (fun k => [DCall (CNeg k); DDrop k]) (seq 0 5) ++ [DDrop 5]) d_init = Ret s /\ d_depth s = 6.
Proof. eexists. split; vm_compute; reflexivity. Qed.

(** C72 with a bound that does not depend on the program is false. *)
Lemma c72_constant_refuted :
  ~ exists B, forall (T : Type) (NT : Num T) (p : list (dcmd T)) (s : dstate T), in_scope 0 [] p -> no_update p -> d_run p d_init = Ret s -> d_depth s <= B.
Proof.
  intros [B H]. destruct (c72_chain Z _ 1%Z B) as (SC & NU & s & E & _ & D & _). specialize (H Z _ _ s SC NU E). rewrite D in H. exact (Nat.nle_succ_diag_l B H).
Qed.
Example c72_constant_refuted_ex :
  exists s, d_run (DCall (CNew [3%Z] [1]) :: flat_map (fun k => [DCall (CNeg k); DDrop k]) (seq 0 9) ++ [DDrop 9]) d_init = Ret s /\ d_depth s = 10 /\
    length (filter (fun v => negb (same_cell v None)) (d_vars s)) = 0.
Proof. eexists. split; [vm_compute; reflexivity|]. split; vm_compute; reflexivity. Qed.
