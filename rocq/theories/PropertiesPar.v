(** * PropertiesPar: the theorems of ClaimsPar.v, restated (generated by tools/genprops.py) *)
From Coq Require Import Permutation ZArith SpecFloat.
From Verif Require Import Base ModelIndex ModelTensor ModelOps ModelJvp ModelPar Spec SpecPar Lists IndexFacts FuelFacts Instances TensorFacts OpsFacts JvpFacts ParFacts ChanFacts ChanLive ChanBmm ChanOne ChanExec UpdFacts FloatInst.
From Verif Require Import ClaimsPar.


(** C26: however the element tasks of each row are interleaved, [bmm] gives the result of running them in
    sequence, for any element type - no law of arithmetic is used. *)
Theorem C26_schedule_independent :
  forall (T : Type) (NT : Num T) (left right : tlike T) (row : nat -> list nat -> outcome (list T)),
    (forall n li, row_runs left right li (nth 0 (tl_shape right) 0) (nth 1 (tl_shape right) 0) (row n li)) ->
    agree (bmm_raw left right) (bmm_raw_with row left right).
Proof. exact c26_schedule_independent. Qed.
Print Assumptions C26_schedule_independent.
Example C26_schedule_independent_ex : exists row : nat -> list nat -> outcome (list Z),
  (forall n li, row_runs ma mb li (nth 0 (tl_shape mb) 0) (nth 1 (tl_shape mb) 0) (row n li)) /\
  bmm_raw_with row ma mb = Ret (mkRaw [19; 22; 43; 50]%Z [2; 2]).
Proof. exact c26_schedule_independent_ex. Qed.

(** C26: the rows end: every run can be completed, and no run goes on for ever. *)
Theorem C26_rows_end :
  forall (T : Type) (NT : Num T) (left right : tlike T) (li : list nat) (kdim m : nat) (st : row_state T),
    star (row_step left right li kdim) (row_init m) st ->
    (exists st', star (row_step left right li kdim) st st' /\ r_todo st' = [] /\ r_live st' = []) /\
    Acc (fun b a => row_step left right li kdim a b) st.
Proof. exact c26_rows_end. Qed.
Print Assumptions C26_rows_end.
Example C26_rows_end_ex : exists st : row_state Z, star (row_step ma mb [1; 2] 2) (row_init 2) st /\ r_todo st = [1] /\ map c_next (r_live st) = [1].
Proof. exact c26_rows_end_ex. Qed.

(** C26: no slot is written twice, and when no task panics every slot is written. *)
Theorem C26_written_once :
  forall (T : Type) (NT : Num T) (left right : tlike T) (li : list nat) (kdim m : nat) (st : row_state T),
    star (row_step left right li kdim) (row_init m) st ->
    NoDup (r_log st) /\ (r_todo st = [] -> r_live st = [] -> r_bad st = None -> Permutation (r_log st) (seq 0 m)).
Proof. exact c26_written_once. Qed.
Print Assumptions C26_written_once.
Example C26_written_once_ex : exists st : row_state Z, star (row_step ma mb [1; 2] 2) (row_init 2) st /\ r_todo st = [] /\ r_live st = [] /\
  r_bad st = None /\ r_log st = [1; 0] /\ r_out st = [43; 50]%Z.
Proof. exact c26_written_once_ex. Qed.

(** C43: whatever the number of workers, the order in which jobs start and the interleaving, when addition
    is commutative and associative the scope ends with the gradients of the sequential reading. *)
Theorem C43_schedule_independent :
  forall (T : Type) (NT : Num T) (a b jac : raw T) (n kk m d0 workers : nat) (fifo : bool) (st0 : machine T) (shapes : list nat * list nat) (st : machine T),
    (forall x y : T, n_add x y = n_add y x) -> (forall x y z : T, n_add (n_add x y) z = n_add x (n_add y z)) ->
    bmm_inputs a b jac n kk m d0 -> bmm_jvp_start [a; b] [jac] = Ret (st0, shapes) ->
    par_run workers fifo (Some st0) (Some st) -> finished st ->
    bmm_jvp_finish shapes st = bmm_jvp [a; b] [jac].
Proof. exact c43_schedule_independent. Qed.
Print Assumptions C43_schedule_independent.
Example C43_schedule_independent_ex : exists st,
  bmm_jvp_start [pa; pb] [pj] = Ret (p_start, ([1; 2], [1; 1])) /\ par_run 2 true (Some p_start) (Some st) /\ finished st /\
  bmm_jvp_finish ([1; 2], [1; 1]) st = Ret [mkRaw [5; 50]%Z [1; 2]; mkRaw [32]%Z [1; 1]].
Proof. exact c43_schedule_independent_ex. Qed.

(** C43: no job panics: no send meets a dropped receiver, no message is applied out of bounds.  Nothing
    is asked of the arithmetic. *)
Theorem C43_no_job_panics :
  forall (T : Type) (NT : Num T) (a b jac : raw T) (n kk m d0 workers : nat) (fifo : bool) (st0 : machine T) (shapes : list nat * list nat),
    bmm_inputs a b jac n kk m d0 -> bmm_jvp_start [a; b] [jac] = Ret (st0, shapes) ->
    ~ par_run workers fifo (Some st0) None.
Proof. exact c43_no_job_panics. Qed.
Print Assumptions C43_no_job_panics.
Example C43_no_job_panics_ex : exists st, par_run 2 true (Some p_start) (Some st) /\ length (m_running st) = 2 /\ queued (m_chan st SRight) = [(0, 30%Z)].
Proof. exact c43_no_job_panics_ex. Qed.

(** C43: for any arithmetic, at the end each message has been applied exactly once, in some order: nothing
    is lost, nothing duplicated. *)
Theorem C43_each_message_once :
  forall (T : Type) (NT : Num T) (a b jac : raw T) (n kk m d0 workers : nat) (fifo : bool) (st0 : machine T) (shapes : list nat * list nat) (st : machine T) (s : side),
    bmm_inputs a b jac n kk m d0 -> bmm_jvp_start [a; b] [jac] = Ret (st0, shapes) ->
    par_run workers fifo (Some st0) (Some st) -> finished st ->
    exists order, Permutation order (unsent st0 s) /\ foldM deliver order (m_segs st0 s) = Ret (m_segs st s).
Proof. exact c43_each_message_once. Qed.
Print Assumptions C43_each_message_once.
Example C43_each_message_once_ex : unsent p_start SLeft = [(0, 5%Z); (1, 50%Z)] /\ unsent p_start SRight = [(0, 2%Z); (0, 30%Z)] /\
  foldM deliver [(0, 30%Z); (0, 2%Z)] (m_segs p_start SRight) = Ret [[32%Z]].
Proof. exact c43_each_message_once_ex. Qed.

Theorem C44_deterministic_refuted :
  ~ (forall (tanh : f32 -> f32) (a b jac : raw f32) (n kk m d0 workers : nat) (st0 : machine f32) (shapes : list nat * list nat) (st st' : machine f32),
       let NT := F32Num tanh in
       bmm_inputs a b jac n kk m d0 -> bmm_jvp_start [a; b] [jac] = Ret (st0, shapes) ->
       par_run workers true (Some st0) (Some st) -> finished st -> par_run workers true (Some st0) (Some st') -> finished st' ->
       bmm_jvp_finish shapes st = bmm_jvp_finish shapes st').
Proof. exact c44_deterministic_refuted. Qed.
Print Assumptions C44_deterministic_refuted.
Example C44_deterministic_refuted_ex : exists st st', let NT := F32Num (fun x => x) in
  par_run 2 true (Some (f_start (fun x => x))) (Some st) /\ finished st /\ par_run 2 true (Some (f_start (fun x => x))) (Some st') /\ finished st' /\
  bmm_jvp_finish ([1; 3], [1; 1]) st <> bmm_jvp_finish ([1; 3], [1; 1]) st'.
Proof. exact c44_deterministic_refuted_ex. Qed.

(** C44: what does hold, for any arithmetic - floats included: with a pool of one worker and jobs started
    in order, every run gives the gradients of the sequential reading. *)
Theorem C44_one_worker :
  forall (T : Type) (NT : Num T) (a b jac : raw T) (n kk m d0 : nat) (st0 : machine T) (shapes : list nat * list nat) (st : machine T),
    bmm_inputs a b jac n kk m d0 -> bmm_jvp_start [a; b] [jac] = Ret (st0, shapes) ->
    par_run 1 true (Some st0) (Some st) -> finished st ->
    bmm_jvp_finish shapes st = bmm_jvp [a; b] [jac].
Proof. exact c44_one_worker. Qed.
Print Assumptions C44_one_worker.
Example C44_one_worker_ex : exists st, let NT := F32Num (fun x => x) in
  par_run 1 true (Some (f_start (fun x => x))) (Some st) /\ finished st /\
  bmm_jvp_finish ([1; 3], [1; 1]) st = Ret [mkRaw [f32_of_Z 1; f32_of_Z 1; f32_of_Z 1] [1; 3]; mkRaw [f32_of_Z 0] [1; 1]].
Proof. exact c44_one_worker_ex. Qed.

(** C45 (a): when jobs of the calling thread start in the order in which they were spawned, the scope
    always ends, with any number of workers, even one. *)
Theorem C45_in_order_ends :
  forall (T : Type) (NT : Num T) (a b jac : raw T) (n kk m d0 workers : nat) (st0 : machine T) (shapes : list nat * list nat),
    bmm_inputs a b jac n kk m d0 -> bmm_jvp_start [a; b] [jac] = Ret (st0, shapes) -> 1 <= workers ->
    always_ends workers true st0.
Proof. exact c45_in_order_ends. Qed.
Print Assumptions C45_in_order_ends.
Example C45_in_order_ends_ex : exists st, let NT := F32Num (fun x => x) in
  par_run 1 true (Some (f_start (fun x => x))) (Some st) /\ m_injected st = [] /\ length (m_local st) = 1 /\ m_running st = [JRecv SRight 0].
Proof. exact c45_in_order_ends_ex. Qed.

(** C45: no run goes on for ever, from any state, in any order. *)
Theorem C45_runs_are_finite :
  forall (T : Type) (NT : Num T) (workers : nat) (fifo : bool) (c : config T), Acc (fun c2 c1 => par_step workers fifo c1 c2) c.
Proof. exact c45_runs_are_finite. Qed.
Print Assumptions C45_runs_are_finite.
Example C45_runs_are_finite_ex : exists c, par_step 2 true (Some p_start) c.
Proof. exact c45_runs_are_finite_ex. Qed.

(** C45 (b), refuted: when the pool may start the jobs in another order (a calling thread that itself
    belongs to the pool takes its newest job first), one worker can end up waiting for ever. *)
Theorem C45_any_order_refuted :
  ~ (forall (T : Type) (NT : Num T) (a b jac : raw T) (n kk m d0 workers : nat) (st0 : machine T) (shapes : list nat * list nat),
       bmm_inputs a b jac n kk m d0 -> bmm_jvp_start [a; b] [jac] = Ret (st0, shapes) -> 1 <= workers ->
       always_ends workers false st0).
Proof. exact c45_any_order_refuted. Qed.
Print Assumptions C45_any_order_refuted.
Example C45_any_order_refuted_ex : exists st, par_run 1 false (Some p_start) (Some st) /\ ~ finished st /\
  m_running st = [JRecv SRight 0] /\ length (m_injected st) = 3.
Proof. exact c45_any_order_refuted_ex. Qed.

(** C45 (b): the exact bound.  In any order the scope ends whenever there are more workers than pieces of
    32 entries of the two gradients; with as many workers as pieces, or fewer, a deadlock can be
    reached. *)
Theorem C45_any_order_bound :
  forall (T : Type) (NT : Num T) (a b jac : raw T) (n kk m d0 workers : nat) (st0 : machine T) (shapes : list nat * list nat),
    bmm_inputs a b jac n kk m d0 -> bmm_jvp_start [a; b] [jac] = Ret (st0, shapes) -> 1 <= workers ->
    let receivers := pieces (d0 * (n * kk)) + pieces (d0 * (kk * m)) in
    (receivers < workers -> always_ends workers false st0) /\
    (workers <= receivers -> exists st, par_run workers false (Some st0) (Some st) /\ deadlocked workers false st).
Proof. exact c45_any_order_bound. Qed.
Print Assumptions C45_any_order_bound.
Example C45_any_order_bound_ex : pieces (1 * (2 * 1)) + pieces (1 * (1 * 1)) = 2 /\ pieces (1 * (8 * 20)) + pieces (1 * (20 * 4)) = 8.
Proof. exact c45_any_order_bound_ex. Qed.

Theorem C46_no_lost_update_refuted :
  ~ (forall (gs : list (raw Z)) (s : list nat) (cell : option (raw Z)) (ts : list (updater Z)),
       positive s -> Forall (fun g => wf g /\ shape g = s) gs -> gs <> [] ->
       star update_step (Some (None, map UReady gs)) (Some (cell, ts)) -> Forall (fun u => u = UDone) ts ->
       exists t, cell = Some t /\ shape t = s /\ forall p, p < size s -> nth p (array t) 0%Z = total gs p).
Proof. exact c46_no_lost_update_refuted. Qed.
Print Assumptions C46_no_lost_update_refuted.
Example C46_no_lost_update_refuted_ex : star update_step (Some (None, map UReady [one; one])) (Some (Some one, [UDone; UDone])) /\ total [one; one] 0 = 2%Z.
Proof. exact c46_no_lost_update_refuted_ex. Qed.

(** C46: what can happen in general: the gradient is at any time the old one with some of the
    contributions added, each at most once; once a thread is done, at least one of them. *)
Theorem C46_some_are_kept :
  forall (T : Type) (NT : Num T) (cell0 : option (raw T)) (gs : list (raw T)) (cell : option (raw T)) (ts : list (updater T)),
    star update_step (Some (cell0, map UReady gs)) (Some (cell, ts)) ->
    exists used, NoDup used /\ (forall i, In i used -> i < length gs) /\ (In UDone ts -> used <> []) /\
      foldM add_alone (map (fun i => nth i gs (mkRaw [] [])) used) cell0 = Ret cell.
Proof. exact c46_some_are_kept. Qed.
Print Assumptions C46_some_are_kept.
Example C46_some_are_kept_ex : foldM add_alone (map (fun i => nth i [one; one] (mkRaw [] [])) [1]) None = Ret (Some one).
Proof. exact c46_some_are_kept_ex. Qed.

(** C46: what holds if never two threads are between read and write: the gradient is the sum of all
    contributions. *)
Theorem C46_one_at_a_time :
  forall (T : Type) (NT : Num T) (gs : list (raw T)) (s : list nat) (cell : option (raw T)) (ts : list (updater T)),
    is_ring T -> positive s -> Forall (fun g => wf g /\ shape g = s) gs -> gs <> [] ->
    star serial_step (Some (None, map UReady gs)) (Some (cell, ts)) -> Forall (fun u => u = UDone) ts ->
    exists t, cell = Some t /\ shape t = s /\ forall p, p < size s -> nth p (array t) n_zero = total gs p.
Proof. exact c46_one_at_a_time. Qed.
Print Assumptions C46_one_at_a_time.
Example C46_one_at_a_time_ex : exists cell, star serial_step (Some (None, map UReady [one; one])) (Some (cell, [UDone; UDone])) /\ cell = Some (mkRaw [2]%Z [1]).
Proof. exact c46_one_at_a_time_ex. Qed.

