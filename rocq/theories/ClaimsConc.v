(** * ClaimsConc: threads that share tensors *)
From Coq Require Import ZArith.
From Verif Require Import Base ModelIndex ModelTensor ModelOps ModelJvp ModelGraph ModelConc Spec SpecGraph SpecConc
  Lists FuelFacts GraphFacts ProgFacts ConcFacts Instances ClaimsProg.

(** ** C74 *)

(** C74: whatever the scheduler does, a thread that uses gradient cells nobody else changes ends as it would alone: with
    the same result or panic, the same gradients read, and the same gradients left in its cells. *)
Lemma c74_independent :
  forall (T : Type) (NT : Num T) (pref : bool) (codes : list (list (instr T))) (cells : nat -> option (raw T)) (sched : list nat) (st : conc T)
         (t : nat) (c : list (instr T)) (th : thread T) (e : option panic),
    conc_run pref (conc_start codes cells) sched = Some st -> on_its_own codes t ->
    nth_error codes t = Some c -> nth_error (c_threads st) t = Some th -> ended_as th e ->
    exists left, alone c cells [] = (left, t_seen th, e) /\ forall i, uses_cell c i -> c_cells st i = left i.
Proof. intros T NT pref codes cells sched st t c th e. apply run_alone. Qed.
(* the other thread reads cell 0, zeroes cell 1 and dies in between; thread 0 works on cell 0 *)
Lemma c74_cells_example :
  let g := mkRaw [7%Z] [1] in on_its_own [[IUpdate 0 g; IUpdate 0 g; IGet 0]; [IGet 0; IZero 1; IGet 1; IUpdate 1 g]] 0.
Proof.
  intros g c u c' i E1 E2 N (x & Hx & Ax) (y & Hy & Ay). destruct u as [|[|[|u]]]; try discriminate; [congruence|]. injection E1 as <-. injection E2 as <-.
  assert (i = 0) as -> by (cbn in Hx; repeat (destruct Hx as [<- | Hx]; [cbn in Ax; congruence|]); destruct Hx).
  cbn in Hy. repeat (destruct Hy as [<- | Hy]; [destruct Ay as [Ay|[h Ay]]; discriminate|]). destruct Hy.
Qed.
Example c74_independent_ex :
  let g := mkRaw [7%Z] [1] in
  let codes := [[IUpdate 0 g; IUpdate 0 g; IGet 0]; [IGet 0; IZero 1; IGet 1; IUpdate 1 g]] in
  on_its_own codes 0 /\
  exists st, conc_run true (conc_start codes (fun i => if i =? 1 then Some g else None)) [0; 0; 0; 0; 0; 1; 1; 1; 1; 1; 1; 0; 0; 1; 0; 0; 0] = Some st /\ all_ended st /\
    c_cells st 0 = Some (mkRaw [14%Z] [1]) /\ map t_seen (c_threads st) = [[mkRaw [14%Z] [1]]; [mkRaw [7%Z] [1]]].
Proof.
  cbv zeta. split; [apply c74_cells_example|].
  eexists. split; [vm_compute; reflexivity|]. split; [|split; vm_compute; reflexivity]. repeat constructor; eexists; reflexivity.
Qed.

(** At every moment, what the other threads can read in its cells is what it has left there after some number of whole
    calls: they never see the effect of half a call, nor cells of different ages. *)
Lemma c74_snapshot :
  forall (T : Type) (NT : Num T) (pref : bool) (codes : list (list (instr T))) (cells : nat -> option (raw T)) (sched : list nat) (st : conc T)
         (t : nat) (c : list (instr T)),
    conc_run pref (conc_start codes cells) sched = Some st -> on_its_own codes t -> nth_error codes t = Some c ->
    exists finished rest left seen, c = finished ++ rest /\ alone finished cells [] = (left, seen, None) /\ forall i, uses_cell c i -> c_cells st i = left i.
Proof. intros T NT pref codes cells sched st t c. apply run_prefix. Qed.
Example c74_snapshot_ex :
  let g := mkRaw [7%Z] [1] in
  let codes := [[IUpdate 0 g; IUpdate 0 g; IGet 0]; [IGet 0; IZero 1; IGet 1; IUpdate 1 g]] in
  on_its_own codes 0 /\
  exists st, conc_run true (conc_start codes (fun _ => None)) [0; 0; 0; 0; 0; 1] = Some st /\ c_cells st 0 = Some g.
Proof. cbv zeta. split; [apply c74_cells_example|]. eexists. split; vm_compute; reflexivity. Qed.

(** In particular, threads that run [backward] on the roots of graphs that have no tensor in common leave the gradients
    that the same calls leave when they are made one after the other, in every interleaving. *)
Lemma c74_backward :
  forall (T : Type) (NT : Num T) (s : state T) (rs : list nat) (pref : bool) (sched : list nat) (st : conc T),
    reach any s -> separate (nodes (hp s)) rs ->
    conc_run pref (conc_start (map (fun r => code (nodes (hp s)) [TBackward r]) rs) (grads (hp s))) sched = Some st -> all_ended st ->
    match foldM backward rs (hp s) with
    | Ret h => all_succeeded st /\ forall i, c_cells st i = grads h i
    | Panic p => exists th, In th (c_threads st) /\ ended_as th (Some p)
    | NoFuel => False
    end.
Proof.
  intros T NT s rs pref sched st R HS HR HE. assert (HB : backrefs (nodes (hp s))) by (apply recorded_backrefs; apply (reach_inv _ _ R)).
  destruct (hp s) as [ns gr]. cbn [nodes grads] in *. eapply run_backward; eauto.
Qed.
Example c74_backward_ex :
  exists s : state Z, run [CNew [5]%Z [1]; CNew [3]%Z [1]; CAdd 0 0; CAdd 1 1] init_state = Ret s /\ separate (nodes (hp s)) [2; 3] /\
    exists st, conc_run false (conc_start (map (fun r => code (nodes (hp s)) [TBackward r]) [2; 3]) (grads (hp s))) [0; 1; 1; 0; 0; 1; 1; 0; 0; 0; 0; 0; 1; 1; 1; 1] = Some st /\
      all_succeeded st /\ c_cells st 0 = Some (mkRaw [2]%Z [1]) /\ c_cells st 1 = Some (mkRaw [2]%Z [1]).
Proof.
  eexists. split; [vm_compute; reflexivity|]. split.
  - assert (U : forall n i, uses (nodes (hp (mkState (mkHeap [mkNode (mkRaw [5%Z] [1]) None; mkNode (mkRaw [3%Z] [1]) None; mkNode (mkRaw [10%Z] [1]) (Some (KAdd, [0; 0]));
        mkNode (mkRaw [6%Z] [1]) (Some (KAdd, [1; 1]))] (fun _ => None)) []))) n i -> (n = 0 -> i = 0) /\ (n = 1 -> i = 1) /\ (n = 2 -> i = 2 \/ i = 0) /\ (n = 3 -> i = 3 \/ i = 1)).
    { intros n i U. induction U as [|n k ins j m E Hj U IH]; [lia|]. unfold fn_of in E. cbn [nodes hp] in E.
      destruct n as [|[|[|[|n]]]]; cbn in E; try discriminate; [| |destruct n; discriminate]; injection E as <- <-; destruct Hj as [<- | [<- | []]]; lia. }
    intros t u r r' i E1 E2 N U1 U2. destruct t as [|[|[|t]]], u as [|[|[|u]]]; try discriminate; try congruence; injection E1 as <-; injection E2 as <-;
      apply U in U1; apply U in U2; lia.
  - eexists. split; [vm_compute; reflexivity|]. split; [repeat constructor|]. split; vm_compute; reflexivity.
Qed.

(** Without separation this fails: [update_grad] reads the gradient, lets go of the lock and takes it again to write, so
    that of two updates made at the same time one can be lost.  Two threads differentiate two losses that share a
    parameter; both end without a panic and the gradient of the parameter is 1 instead of 2. *)
Lemma c74_shared_refuted :
  exists (s : state Z) (w r r' : nat) (h : heap Z) (sched : list nat),
    reach any s /\ backward (hp s) r = Ret h /\
    (exists h', backward h r' = Ret h' /\ grads h' w = Some (mkRaw [2%Z] [1])) /\
    forall pref, exists st,
      conc_run pref (conc_start [code (nodes (hp s)) [TBackward r]; code (nodes (hp s)) [TBackward r']] (grads (hp s))) sched = Some st /\
      all_succeeded st /\ c_cells st w = Some (mkRaw [1%Z] [1]).
Proof.
  destruct (run (T := Z) [CNew [5]%Z [1]; CNew [3]%Z [1]; CNew [4]%Z [1]; CAdd 0 1; CAdd 0 2] init_state) as [s| |] eqn:E; [|vm_compute in E; discriminate|vm_compute in E; discriminate].
  assert (R : reach any s).
  { eapply run_reach; [apply reach_init| | |exact E]; repeat constructor; intros; discriminate. }
  exists s, 0, 3, 4. vm_compute in E. injection E as <-. eexists.
  exists [0; 1; 0; 1; 0; 0; 1; 1; 0; 0; 0; 0; 1; 1; 1; 1]. split; [exact R|]. split; [vm_compute; reflexivity|]. split; [eexists; split; vm_compute; reflexivity|].
  intros [|]; (eexists; split; [vm_compute; reflexivity|]; split; [repeat constructor|vm_compute; reflexivity]).
Qed.

(** Nor can a thread rely on the gradient it has just computed, if another one calls [zero_grad]. *)
Lemma c74_zeroed_refuted :
  exists (s : state Z) (w r : nat) (sched : list nat),
    reach any s /\ snd (alone (code (nodes (hp s)) [TBackward r; TGrad w]) (grads (hp s)) []) = None /\
    forall pref, exists st th,
      conc_run pref (conc_start [code (nodes (hp s)) [TBackward r; TGrad w]; code (nodes (hp s)) [TZeroGrad w]] (grads (hp s))) sched = Some st /\
      all_ended st /\ nth_error (c_threads st) 0 = Some th /\ ended_as th (Some PUnwrap).
Proof.
  destruct (run (T := Z) [CNew [5]%Z [1]; CNew [3]%Z [1]; CAdd 0 1] init_state) as [s| |] eqn:E; [|vm_compute in E; discriminate|vm_compute in E; discriminate].
  assert (R : reach any s).
  { eapply run_reach; [apply reach_init| | |exact E]; repeat constructor; intros; discriminate. }
  exists s, 0, 2. vm_compute in E. injection E as <-.
  exists [0; 0; 0; 0; 0; 0; 0; 0; 1; 1; 1; 0; 0]. split; [exact R|]. split; [vm_compute; reflexivity|].
  intros [|]; (do 2 eexists; split; [vm_compute; reflexivity|]; split; [repeat constructor; eexists; reflexivity|]; split; reflexivity).
Qed.

(** What can be relied on: as long as nobody zeroes it, a shared gradient is its old value plus some of the gradients
    that were to be added, each at most once, and not none of them if there were any. *)
Lemma c74_some_are_kept :
  forall (T : Type) (NT : Num T) (pref : bool) (codes : list (list (instr T))) (cells : nat -> option (raw T)) (sched : list nat) (st : conc T) (i : nat),
    conc_run pref (conc_start codes cells) sched = Some st -> (forall c, In c codes -> ~ In (IZero i) c) ->
    exists chosen gs, NoDup chosen /\ Forall2 (contributes codes i) chosen gs /\ foldM added gs (cells i) = Ret (c_cells st i) /\
      (all_succeeded st -> chosen = [] -> forall tp g, ~ contributes codes i tp g).
Proof. intros T NT pref codes cells sched st i. apply run_kept. Qed.
Example c74_some_are_kept_ex :
  let codes := [[IUpdate 0 (mkRaw [1%Z] [1])]; [IUpdate 0 (mkRaw [2%Z] [1])]; [IUpdate 0 (mkRaw [4%Z] [1])]] in
  exists st, conc_run true (conc_start codes (fun _ => None)) [0; 1; 0; 0; 1; 0] = None /\
    conc_run true (conc_start codes (fun _ => None)) [0; 1; 0; 1; 1; 1; 0; 0; 2; 2; 2; 2] = Some st /\ all_succeeded st /\ c_cells st 0 = Some (mkRaw [5%Z] [1]).
Proof. cbv zeta. eexists. split; [vm_compute; reflexivity|]. split; [vm_compute; reflexivity|]. split; [repeat constructor|vm_compute; reflexivity]. Qed.

(** ** C75 *)

(** C75: as long as some thread has not ended, some thread can go on: no set of threads that use the gradients of the same
    tensors can block each other, whether or not the locks let new readers pass a waiting writer ... *)
Lemma c75_no_deadlock :
  forall (T : Type) (NT : Num T) (pref : bool) (codes : list (list (instr T))) (cells : nat -> option (raw T)) (sched : list nat) (st : conc T),
    conc_run pref (conc_start codes cells) sched = Some st -> ~ all_ended st -> exists t st', advance pref st t = Some st'.
Proof. intros T NT pref codes cells sched st _. apply progress. Qed.
(* thread 0 waits for the write lock that thread 1 keeps from it; thread 1 goes on *)
Example c75_no_deadlock_ex :
  let g := mkRaw [1%Z] [1] in
  exists st, conc_run true (conc_start [[IUpdate 0 g]; [IUpdate 0 g]; [IGet 0]] (fun _ => None)) [0; 1; 0] = Some st /\ ~ all_ended st /\
    advance true st 0 = None /\ advance true st 1 <> None /\ advance true st 2 = None.
Proof.
  cbv zeta. eexists. split; [vm_compute; reflexivity|]. split; [|split; [reflexivity|split; [vm_compute; discriminate|reflexivity]]].
  intros H. inversion H as [|? ? [e He] _]. exact He.
Qed.

(** ... every run is over after at most four steps per call, and whatever happened before, the threads can all be
    brought to their ends. *)
Lemma c75_bounded :
  forall (T : Type) (NT : Num T) (pref : bool) (codes : list (list (instr T))) (cells : nat -> option (raw T)) (sched : list nat) (st : conc T),
    conc_run pref (conc_start codes cells) sched = Some st ->
    length sched <= 4 * length (concat codes) /\
    exists more st', conc_run pref (conc_start codes cells) (sched ++ more) = Some st' /\ all_ended st'.
Proof.
  intros T NT pref codes cells sched st R. split.
  - pose proof (run_bound _ _ _ _ R) as B. rewrite start_total in B. lia.
  - destruct (run_completes pref (total st) st (le_n _)) as (l & st' & R' & HE). exists l, st'. rewrite (run_app _ _ _ _ _ R). auto.
Qed.
Example c75_bounded_ex :
  let g := mkRaw [1%Z] [1] in
  exists st, conc_run false (conc_start [[IUpdate 0 g; IUpdate 1 g]] (fun _ => Some g)) [0; 0; 0; 0; 0; 0; 0; 0] = Some st /\ all_ended st /\ length [0; 0; 0; 0; 0; 0; 0; 0] = 4 * 2.
Proof. cbv zeta. eexists. split; [vm_compute; reflexivity|]. split; [|reflexivity]. repeat constructor. eexists. reflexivity. Qed.

(** While a thread writes to a cell, no other one reads it or writes to it. *)
Lemma c75_exclusive :
  forall (T : Type) (NT : Num T) (pref : bool) (codes : list (list (instr T))) (cells : nat -> option (raw T)) (sched : list nat) (st : conc T)
         (i t u : nat) (th th' : thread T),
    conc_run pref (conc_start codes cells) sched = Some st ->
    nth_error (c_threads st) t = Some th -> nth_error (c_threads st) u = Some th' -> t <> u ->
    writes_now i th = true -> reads_now i th' = false /\ writes_now i th' = false.
Proof. intros T NT pref codes cells sched st i t u th th' R. apply (run_exclusive _ _ _ _ _ R). Qed.
Example c75_exclusive_ex :
  let g := mkRaw [1%Z] [1] in
  exists st, conc_run false (conc_start [[IZero 0]; [IUpdate 0 g]] (fun _ => Some g)) [0; 0] = Some st /\
    map (writes_now 0) (c_threads st) = [true; false] /\ advance false st 1 = None.
Proof. cbv zeta. eexists. split; [vm_compute; reflexivity|]. split; reflexivity. Qed.
