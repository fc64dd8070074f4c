(** * PropertiesConc: the theorems of ClaimsConc.v, restated (generated by tools/genprops.py) *)
From Coq Require Import ZArith.
From Verif Require Import Base ModelIndex ModelTensor ModelOps ModelJvp ModelGraph ModelConc Spec SpecGraph SpecConc
  Lists FuelFacts GraphFacts ProgFacts ConcFacts Instances ClaimsProg.
From Verif Require Import ClaimsConc.


(** C74: whatever the scheduler does, a thread that uses gradient cells nobody else changes ends as it would alone: with
    the same result or panic, the same gradients read, and the same gradients left in its cells. *)
Theorem C74_independent :
  forall (T : Type) (NT : Num T) (pref : bool) (codes : list (list (instr T))) (cells : nat -> option (raw T)) (sched : list nat) (st : conc T)
         (t : nat) (c : list (instr T)) (th : thread T) (e : option panic),
    conc_run pref (conc_start codes cells) sched = Some st -> on_its_own codes t ->
    nth_error codes t = Some c -> nth_error (c_threads st) t = Some th -> ended_as th e ->
    exists left, alone c cells [] = (left, t_seen th, e) /\ forall i, uses_cell c i -> c_cells st i = left i.
Proof. exact c74_independent. Qed.
Print Assumptions C74_independent.
Theorem C74_cells_example :
  let g := mkRaw [7%Z] [1] in on_its_own [[IUpdate 0 g; IUpdate 0 g; IGet 0]; [IGet 0; IZero 1; IGet 1; IUpdate 1 g]] 0.
Proof. exact c74_cells_example. Qed.
Print Assumptions C74_cells_example.
Example C74_independent_ex :
  let g := mkRaw [7%Z] [1] in
  let codes := [[IUpdate 0 g; IUpdate 0 g; IGet 0]; [IGet 0; IZero 1; IGet 1; IUpdate 1 g]] in
  on_its_own codes 0 /\
  exists st, conc_run true (conc_start codes (fun i => if i =? 1 then Some g else None)) [0; 0; 0; 0; 0; 1; 1; 1; 1; 1; 1; 0; 0; 1; 0; 0; 0] = Some st /\ all_ended st /\
    c_cells st 0 = Some (mkRaw [14%Z] [1]) /\ map t_seen (c_threads st) = [[mkRaw [14%Z] [1]]; [mkRaw [7%Z] [1]]].
Proof. exact c74_independent_ex. Qed.

(** At every moment, what the other threads can read in its cells is what it has left there after some number of whole
    calls: they never see the effect of half a call, nor cells of different ages. *)
Theorem C74_snapshot :
  forall (T : Type) (NT : Num T) (pref : bool) (codes : list (list (instr T))) (cells : nat -> option (raw T)) (sched : list nat) (st : conc T)
         (t : nat) (c : list (instr T)),
    conc_run pref (conc_start codes cells) sched = Some st -> on_its_own codes t -> nth_error codes t = Some c ->
    exists finished rest left seen, c = finished ++ rest /\ alone finished cells [] = (left, seen, None) /\ forall i, uses_cell c i -> c_cells st i = left i.
Proof. exact c74_snapshot. Qed.
Print Assumptions C74_snapshot.
Example C74_snapshot_ex :
  let g := mkRaw [7%Z] [1] in
  let codes := [[IUpdate 0 g; IUpdate 0 g; IGet 0]; [IGet 0; IZero 1; IGet 1; IUpdate 1 g]] in
  on_its_own codes 0 /\
  exists st, conc_run true (conc_start codes (fun _ => None)) [0; 0; 0; 0; 0; 1] = Some st /\ c_cells st 0 = Some g.
Proof. exact c74_snapshot_ex. Qed.

(** In particular, threads that run [backward] on the roots of graphs that have no tensor in common leave the gradients
    that the same calls leave when they are made one after the other, in every interleaving. *)
Theorem C74_backward :
  forall (T : Type) (NT : Num T) (s : state T) (rs : list nat) (pref : bool) (sched : list nat) (st : conc T),
    reach any s -> separate (nodes (hp s)) rs ->
    conc_run pref (conc_start (map (fun r => code (nodes (hp s)) [TBackward r]) rs) (grads (hp s))) sched = Some st -> all_ended st ->
    match foldM backward rs (hp s) with
    | Ret h => all_succeeded st /\ forall i, c_cells st i = grads h i
    | Panic p => exists th, In th (c_threads st) /\ ended_as th (Some p)
    | NoFuel => False
    end.
Proof. exact c74_backward. Qed.
Print Assumptions C74_backward.
Example C74_backward_ex :
  exists s : state Z, run [CNew [5]%Z [1]; CNew [3]%Z [1]; CAdd 0 0; CAdd 1 1] init_state = Ret s /\ separate (nodes (hp s)) [2; 3] /\
    exists st, conc_run false (conc_start (map (fun r => code (nodes (hp s)) [TBackward r]) [2; 3]) (grads (hp s))) [0; 1; 1; 0; 0; 1; 1; 0; 0; 0; 0; 0; 1; 1; 1; 1] = Some st /\
      all_succeeded st /\ c_cells st 0 = Some (mkRaw [2]%Z [1]) /\ c_cells st 1 = Some (mkRaw [2]%Z [1]).
Proof. exact c74_backward_ex. Qed.

(** Without separation this fails: [update_grad] reads the gradient, lets go of the lock and takes it again to write, so
    that of two updates made at the same time one can be lost.  Two threads differentiate two losses that share a
    parameter; both end without a panic and the gradient of the parameter is 1 instead of 2. *)
Theorem C74_shared_refuted :
  exists (s : state Z) (w r r' : nat) (h : heap Z) (sched : list nat),
    reach any s /\ backward (hp s) r = Ret h /\
    (exists h', backward h r' = Ret h' /\ grads h' w = Some (mkRaw [2%Z] [1])) /\
    forall pref, exists st,
      conc_run pref (conc_start [code (nodes (hp s)) [TBackward r]; code (nodes (hp s)) [TBackward r']] (grads (hp s))) sched = Some st /\
      all_succeeded st /\ c_cells st w = Some (mkRaw [1%Z] [1]).
Proof. exact c74_shared_refuted. Qed.
Print Assumptions C74_shared_refuted.
(** Nor can a thread rely on the gradient it has just computed, if another one calls [zero_grad]. *)
Theorem C74_zeroed_refuted :
  exists (s : state Z) (w r : nat) (sched : list nat),
    reach any s /\ snd (alone (code (nodes (hp s)) [TBackward r; TGrad w]) (grads (hp s)) []) = None /\
    forall pref, exists st th,
      conc_run pref (conc_start [code (nodes (hp s)) [TBackward r; TGrad w]; code (nodes (hp s)) [TZeroGrad w]] (grads (hp s))) sched = Some st /\
      all_ended st /\ nth_error (c_threads st) 0 = Some th /\ ended_as th (Some PUnwrap).
Proof. exact c74_zeroed_refuted. Qed.
Print Assumptions C74_zeroed_refuted.
(** What can be relied on: as long as nobody zeroes it, a shared gradient is its old value plus some of the gradients
    that were to be added, each at most once, and not none of them if there were any. *)
Theorem C74_some_are_kept :
  forall (T : Type) (NT : Num T) (pref : bool) (codes : list (list (instr T))) (cells : nat -> option (raw T)) (sched : list nat) (st : conc T) (i : nat),
    conc_run pref (conc_start codes cells) sched = Some st -> (forall c, In c codes -> ~ In (IZero i) c) ->
    exists chosen gs, NoDup chosen /\ Forall2 (contributes codes i) chosen gs /\ foldM added gs (cells i) = Ret (c_cells st i) /\
      (all_succeeded st -> chosen = [] -> forall tp g, ~ contributes codes i tp g).
Proof. exact c74_some_are_kept. Qed.
Print Assumptions C74_some_are_kept.
Example C74_some_are_kept_ex :
  let codes := [[IUpdate 0 (mkRaw [1%Z] [1])]; [IUpdate 0 (mkRaw [2%Z] [1])]; [IUpdate 0 (mkRaw [4%Z] [1])]] in
  exists st, conc_run true (conc_start codes (fun _ => None)) [0; 1; 0; 0; 1; 0] = None /\
    conc_run true (conc_start codes (fun _ => None)) [0; 1; 0; 1; 1; 1; 0; 0; 2; 2; 2; 2] = Some st /\ all_succeeded st /\ c_cells st 0 = Some (mkRaw [5%Z] [1]).
Proof. exact c74_some_are_kept_ex. Qed.

(** C75: as long as some thread has not ended, some thread can go on: no set of threads that use the gradients of the same
    tensors can block each other, whether or not the locks let new readers pass a waiting writer ... *)
Theorem C75_no_deadlock :
  forall (T : Type) (NT : Num T) (pref : bool) (codes : list (list (instr T))) (cells : nat -> option (raw T)) (sched : list nat) (st : conc T),
    conc_run pref (conc_start codes cells) sched = Some st -> ~ all_ended st -> exists t st', advance pref st t = Some st'.
Proof. exact c75_no_deadlock. Qed.
Print Assumptions C75_no_deadlock.
Example C75_no_deadlock_ex :
  let g := mkRaw [1%Z] [1] in
  exists st, conc_run true (conc_start [[IUpdate 0 g]; [IUpdate 0 g]; [IGet 0]] (fun _ => None)) [0; 1; 0] = Some st /\ ~ all_ended st /\
    advance true st 0 = None /\ advance true st 1 <> None /\ advance true st 2 = None.
Proof. exact c75_no_deadlock_ex. Qed.

(** ... every run is over after at most four steps per call, and whatever happened before, the threads can all be
    brought to their ends. *)
Theorem C75_bounded :
  forall (T : Type) (NT : Num T) (pref : bool) (codes : list (list (instr T))) (cells : nat -> option (raw T)) (sched : list nat) (st : conc T),
    conc_run pref (conc_start codes cells) sched = Some st ->
    length sched <= 4 * length (concat codes) /\
    exists more st', conc_run pref (conc_start codes cells) (sched ++ more) = Some st' /\ all_ended st'.
Proof. exact c75_bounded. Qed.
Print Assumptions C75_bounded.
Example C75_bounded_ex :
  let g := mkRaw [1%Z] [1] in
  exists st, conc_run false (conc_start [[IUpdate 0 g; IUpdate 1 g]] (fun _ => Some g)) [0; 0; 0; 0; 0; 0; 0; 0] = Some st /\ all_ended st /\ length [0; 0; 0; 0; 0; 0; 0; 0] = 4 * 2.
Proof. exact c75_bounded_ex. Qed.

(** While a thread writes to a cell, no other one reads it or writes to it. *)
Theorem C75_exclusive :
  forall (T : Type) (NT : Num T) (pref : bool) (codes : list (list (instr T))) (cells : nat -> option (raw T)) (sched : list nat) (st : conc T)
         (i t u : nat) (th th' : thread T),
    conc_run pref (conc_start codes cells) sched = Some st ->
    nth_error (c_threads st) t = Some th -> nth_error (c_threads st) u = Some th' -> t <> u ->
    writes_now i th = true -> reads_now i th' = false /\ writes_now i th' = false.
Proof. exact c75_exclusive. Qed.
Print Assumptions C75_exclusive.
Example C75_exclusive_ex :
  let g := mkRaw [1%Z] [1] in
  exists st, conc_run false (conc_start [[IZero 0]; [IUpdate 0 g]] (fun _ => Some g)) [0; 0] = Some st /\
    map (writes_now 0) (c_threads st) = [true; false] /\ advance false st 1 = None.
Proof. exact c75_exclusive_ex. Qed.

