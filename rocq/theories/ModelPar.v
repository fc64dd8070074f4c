(** * ModelPar: the concurrent parts - tasks of [bmm_raw], writers and receivers of [bmm_jvp],
    [update_grad] from several threads

    Machines with a step relation; a run is any sequence of steps, so all interleavings are covered.
    Rayon is modelled by what its documentation guarantees: a spawned job runs once, on some worker; the
    scope ends when all its jobs have ended, and then passes on the first panic.  Crossbeam's unbounded
    channels are queues. *)
From Verif Require Import Base ModelIndex ModelTensor ModelOps ModelJvp.

Section Par.
Context {T : Type} {NT : Num T}.

(** ** [bmm_raw]: functional/misc.rs:75-123 *)

(** One iteration of the loop of a task, lines 101-108: element [k] of the product for column [j]:
    functional/misc.rs:101-108 *)
Definition cell_step (left right : tlike T) (left_index : list nat) (j : nat) (val : T) (k : nat) : outcome T :=
  let* right_index2 := vset (tl_shape right) 1 j in
  let* li := vset left_index (length left_index - 1) k in
  let* ri := vset right_index2 0 k in
  let* x := tl_get_unwrap left li in
  let* y := tl_get_unwrap right ri in
  Ret (n_add val (n_mul x y)).

(** A task that is running or waiting to run: its column, the next [k], the value so far: functional/misc.rs:97-111 *)
Record cell : Type := mkCell { c_col : nat; c_next : nat; c_val : T }.

(** The scope of one row (lines 87-120): columns not spawned yet, live tasks, the row's slots, the first
    panic, and - not in the program - the columns written so far. (functional/misc.rs:87-120) *)
Record row_state : Type := mkRow { r_todo : list nat; r_live : list cell; r_out : list T; r_bad : option panic; r_log : list nat }.

(** The scope (functional/misc.rs:87-120) passes on the panic it stored first. *)
Definition first_panic (b : option panic) (p : panic) : option panic := match b with None => Some p | Some q => Some q end.

(** [kdim] is [right_shape[0]].  Lines 112-118: with [kdim = 0] the closure runs at once on the spawning
    thread.  Any live task may make the next step, whatever the number of workers. (functional/misc.rs:87-120) *)
Inductive row_step (left right : tlike T) (left_index : list nat) (kdim : nat) : row_state -> row_state -> Prop :=
| row_spawn j todo live out bad log : 0 < kdim ->
    row_step left right left_index kdim (mkRow (j :: todo) live out bad log) (mkRow todo (live ++ [mkCell j 0 n_zero]) out bad log)
| row_inline j todo live out bad log : kdim = 0 ->
    row_step left right left_index kdim (mkRow (j :: todo) live out bad log) (mkRow todo live (list_set out j n_zero) bad (log ++ [j]))
| row_iterate j k val v pre post todo out bad log : k < kdim -> cell_step left right left_index j val k = Ret v ->
    row_step left right left_index kdim (mkRow todo (pre ++ mkCell j k val :: post) out bad log) (mkRow todo (pre ++ mkCell j (S k) v :: post) out bad log)
| row_panic j k val p pre post todo out bad log : k < kdim -> cell_step left right left_index j val k = Panic p ->
    row_step left right left_index kdim (mkRow todo (pre ++ mkCell j k val :: post) out bad log) (mkRow todo (pre ++ post) out (first_panic bad p) log)
| row_write j val pre post todo out bad log :
    row_step left right left_index kdim (mkRow todo (pre ++ mkCell j kdim val :: post) out bad log) (mkRow todo (pre ++ post) (list_set out j val) bad (log ++ [j])).

(** The row's slots are zero before (line 69). (functional/misc.rs:69) *)
Definition row_init (m : nat) : row_state := mkRow (seq 0 m) [] (repeat n_zero m) None [].

(** Runs: any number of steps of the scopes of functional/misc.rs:87-120, 258-326 *)
Inductive star {S : Type} (step : S -> S -> Prop) : S -> S -> Prop :=
| star_refl s : star step s s
| star_step s t u : star step s t -> step t u -> star step s u.

(** The scope ends when everything is spawned and no task is left. (functional/misc.rs:87-120) *)
Definition row_result (st : row_state) : outcome (list T) :=
  match r_bad st with None => Ret (r_out st) | Some p => Panic p end.
(** What some run of the scope of functional/misc.rs:87-120 can leave *)
Definition row_runs (left right : tlike T) (left_index : list nat) (kdim m : nat) (o : outcome (list T)) : Prop :=
  exists st, star (row_step left right left_index kdim) (row_init m) st /\ r_todo st = [] /\ r_live st = [] /\ o = row_result st.

(** [bmm_rows] of ModelOps with a parameter for how row number [n] is computed: functional/misc.rs:75-123 *)
Definition bmm_rows_with (row : nat -> list nat -> outcome (list T)) (left : tlike T) (b n m : nat) : outcome (list T) :=
  let rank := length (tl_shape left) in
  let* res :=
    foldM (fun '(arr, left_index) batch_idx =>
      let* left_index := if rank =? 3 then vset left_index 0 batch_idx else Ret left_index in
      foldM (fun '(arr, left_index) i =>
        let* left_index := vset left_index (rank - 2) i in
        let* r := row (batch_idx * n + i) left_index in
        Ret (arr ++ r, left_index))
        (seq 0 n) (arr, left_index))
      (seq 0 b) ([], tl_shape left) in
  Ret (fst res).

(** [bmm_raw]: functional/misc.rs:46-139, with that parameter *)
Definition bmm_raw_with (row : nat -> list nat -> outcome (list T)) (left right : tlike T) : outcome (raw T) :=
  let ls := tl_shape left in
  let rs := tl_shape right in
  assert (2 <=? length ls) ;;
  assert (length rs =? 2) ;;
  let* linner := vindex ls (length ls - 1) in
  let* rinner := vindex rs (length rs - 2) in
  assert (linner =? rinner) ;;
  let* l0 := vindex ls 0 in
  let* l1 := vindex ls 1 in
  let* r1 := vindex rs 1 in
  let new_shape := if length ls =? 2 then [1; l0; r1] else [l0; l1; r1] in
  let* arr := (if length ls =? 2 then bmm_rows_with row left 1 l0 r1
               else bmm_rows_with row left l0 l1 r1) in
  if length ls =? 2 then Ret (mkRaw arr (skipn 1 new_shape))
  else Ret (mkRaw arr new_shape).

(** ** [bmm_jvp]: functional/misc.rs:141-331 *)

(** The two arrays (and the two [SplitArrayWriter]s): functional/misc.rs:244, 253, 259-260 *)
Inductive side : Set := SLeft | SRight.
(** What a channel carries: functional/misc.rs:146-147 *)
Definition msg : Type := nat * T.

(** A job: a writer with the messages it has still to send (lines 272-318: computing a message reads
    only data that does not change, so that the messages can be given beforehand); the job of
    [start_then_join] (lines 184-199), which has started the receivers below [next]; the receiver of
    one segment (lines 190-197). (functional/misc.rs:184-199, 272-318) *)
Inductive job : Type :=
| JWrite (ms : list (side * msg))
| JStart (s : side) (next : nat)
| JRecv (s : side) (c : nat).

(** What the closure of [in_place_scope] does, lines 258-326, on the calling thread: spawn the writers;
    for each side drop its senders (line 183) and spawn the starting job (line 184). (functional/misc.rs:258-326) *)
Inductive action : Type := AWrite (ms : list (side * msg)) | ADrop (s : side) | AStart (s : side).

(** [m_chan s]: the channels of side [s]; [None] once the receiver is dropped.  [m_held s]: the writer
    object still holds its senders.  [m_injected]: jobs spawned by the calling thread and not started;
    [m_local]: those spawned by workers. (functional/misc.rs:141-148, 258-326) *)
Record machine : Type := mkMachine {
  m_main : list action; m_injected : list job; m_local : list job; m_running : list job;
  m_chan : side -> list (option (list msg)); m_segs : side -> list (list T); m_held : side -> bool }.

(** The two writers of functional/misc.rs:259-260 are distinct. *)
Definition side_eqb (a b : side) : bool := match a, b with SLeft, SLeft | SRight, SRight => true | _, _ => false end.
(** A change on one side (functional/misc.rs:259-260) *)
Definition upd_side {A : Type} (f : side -> A) (s : side) (x : A) : side -> A := fun s' => if side_eqb s s' then x else f s'.

(** The job is one of functional/misc.rs:272-318. *)
Definition is_writer (j : job) : bool := match j with JWrite _ => true | _ => false end.

(** A sender of side [s] is alive: every writer job, started or not, owns one of each side
    (lines 266-267), until it ends. (functional/misc.rs:146, 170, 183) *)
Definition alive (st : machine) (s : side) : bool := m_held st s || existsb is_writer (m_injected st ++ m_running st).

(** [None] is a panic of some job. (functional/misc.rs:258-326) *)
Definition config : Type := option machine.

(** Steps.  [workers]: size of the pool; a job keeps its worker until it ends, also while it waits
    for a message.  [fifo]: jobs of the calling thread start in the order in which they were spawned
    (rayon's injector queue is first-in first-out; jobs spawned by workers go to local queues and may
    start in any order). (functional/misc.rs:167-200, 258-326) *)
Inductive par_step (workers : nat) (fifo : bool) : config -> config -> Prop :=
| p_spawn ms main inj loc run ch sg hd :
    par_step workers fifo (Some (mkMachine (AWrite ms :: main) inj loc run ch sg hd)) (Some (mkMachine main (inj ++ [JWrite ms]) loc run ch sg hd))
| p_drop s main inj loc run ch sg hd :
    par_step workers fifo (Some (mkMachine (ADrop s :: main) inj loc run ch sg hd)) (Some (mkMachine main inj loc run ch sg (upd_side hd s false)))
| p_start s main inj loc run ch sg hd :
    par_step workers fifo (Some (mkMachine (AStart s :: main) inj loc run ch sg hd)) (Some (mkMachine main (inj ++ [JStart s 0]) loc run ch sg hd))
| p_begin j pre post main loc run ch sg hd : length run < workers -> (fifo = true -> pre = []) ->
    par_step workers fifo (Some (mkMachine main (pre ++ j :: post) loc run ch sg hd)) (Some (mkMachine main (pre ++ post) loc (run ++ [j]) ch sg hd))
| p_begin_local j pre post main inj run ch sg hd : length run < workers ->
    par_step workers fifo (Some (mkMachine main inj (pre ++ j :: post) run ch sg hd)) (Some (mkMachine main inj (pre ++ post) (run ++ [j]) ch sg hd))
| p_send s m ms c q pre post main inj loc ch sg hd :
    writer_channel (length (ch s)) (fst m) = Ret c -> nth_error (ch s) c = Some (Some q) ->
    par_step workers fifo (Some (mkMachine main inj loc (pre ++ JWrite ((s, m) :: ms) :: post) ch sg hd))
      (Some (mkMachine main inj loc (pre ++ JWrite ms :: post) (upd_side ch s (list_set (ch s) c (Some (q ++ [m])))) sg hd))
| p_send_fails s m ms pre post main inj loc ch sg hd :
    (forall c q, writer_channel (length (ch s)) (fst m) = Ret c -> nth_error (ch s) c <> Some (Some q)) ->
    par_step workers fifo (Some (mkMachine main inj loc (pre ++ JWrite ((s, m) :: ms) :: post) ch sg hd)) None
| p_written pre post main inj loc ch sg hd :
    par_step workers fifo (Some (mkMachine main inj loc (pre ++ JWrite [] :: post) ch sg hd)) (Some (mkMachine main inj loc (pre ++ post) ch sg hd))
| p_start_one s next pre post main inj loc ch sg hd : next < length (sg s) ->
    par_step workers fifo (Some (mkMachine main inj loc (pre ++ JStart s next :: post) ch sg hd))
      (Some (mkMachine main inj (loc ++ [JRecv s next]) (pre ++ JStart s (S next) :: post) ch sg hd))
| p_started s next pre post main inj loc ch sg hd : length (sg s) <= next ->
    par_step workers fifo (Some (mkMachine main inj loc (pre ++ JStart s next :: post) ch sg hd)) (Some (mkMachine main inj loc (pre ++ post) ch sg hd))
| p_recv s c m q slice slice' pre post main inj loc ch sg hd :
    nth_error (ch s) c = Some (Some (m :: q)) -> nth_error (sg s) c = Some slice -> receive c slice m = Ret slice' ->
    par_step workers fifo (Some (mkMachine main inj loc (pre ++ JRecv s c :: post) ch sg hd))
      (Some (mkMachine main inj loc (pre ++ JRecv s c :: post) (upd_side ch s (list_set (ch s) c (Some q))) (upd_side sg s (list_set (sg s) c slice')) hd))
| p_recv_fails s c m q slice p pre post main inj loc ch sg hd :
    nth_error (ch s) c = Some (Some (m :: q)) -> nth_error (sg s) c = Some slice -> receive c slice m = Panic p ->
    par_step workers fifo (Some (mkMachine main inj loc (pre ++ JRecv s c :: post) ch sg hd)) None
| p_received s c pre post main inj loc ch sg hd :
    nth_error (ch s) c = Some (Some []) -> alive (mkMachine main inj loc (pre ++ JRecv s c :: post) ch sg hd) s = false ->
    par_step workers fifo (Some (mkMachine main inj loc (pre ++ JRecv s c :: post) ch sg hd))
      (Some (mkMachine main inj loc (pre ++ post) (upd_side ch s (list_set (ch s) c None)) sg hd)).

(** The messages of a writer: left, then right, for every row of the gradient: functional/misc.rs:287-317 *)
Definition writer_msgs (t : list (msg * msg)) : list (side * msg) :=
  flat_map (fun '(l, r) => [(SLeft, l); (SRight, r)]) t.

(** The machine when the scope is entered for the given writers and arrays:
    functional/misc.rs:258-262 *)
Definition par_init (tasks : list (list (msg * msg))) (arr : side -> list T) : machine :=
  mkMachine (map (fun t => AWrite (writer_msgs t)) tasks ++ [ADrop SRight; AStart SRight; ADrop SLeft; AStart SLeft])
    [] [] [] (fun s => repeat (Some []) (length (split_new (arr s)))) (fun s => split_new (arr s)) (fun _ => true).

(** The scope has ended. (functional/misc.rs:326) *)
Definition finished (st : machine) : Prop := m_main st = [] /\ m_injected st = [] /\ m_local st = [] /\ m_running st = [].

(** Runs of the scope of functional/misc.rs:258-326 *)
Definition par_run (workers : nat) (fifo : bool) : config -> config -> Prop := star (par_step workers fifo).

(** [bmm_jvp] up to the scope, functional/misc.rs:211-256, with the messages that its writers will send
    (lines 263-318); the machine at the start and the two shapes of the result. *)
Definition bmm_jvp_start (tensors grads : list (raw T)) : outcome (machine * (list nat * list nat)) :=
  let* (a, b, jac) := two_one tensors grads in
  let* a1 := vindex (shape a) 1 in
  let* b0 := vindex (shape b) 0 in
  assert (a1 =? b0) ;;
  let* a0 := vindex (shape a) 0 in
  let* b1 := vindex (shape b) 1 in
  let out_shape := [a0; b1] in
  let left_jac_shape := [a0 * b1; a0 * a1] in
  let* j0 := vindex (shape jac) 0 in
  let left_out_shape := [j0; a0 * a1] in
  let right_out_shape := [j0; b0 * b1] in
  let* tasks := mapM (fun '(i, k, j) =>
                        bmm_task a b jac out_shape left_jac_shape left_out_shape right_out_shape
                          i k j) (ikj a0 a1 b1) in
  Ret (par_init tasks (fun s => match s with
                                | SLeft => repeat n_zero (j0 * (a0 * a1))
                                | SRight => repeat n_zero (j0 * (b0 * b1)) end),
       (left_out_shape, right_out_shape)).

(** [bmm_jvp] after the scope: functional/misc.rs:326-331 *)
Definition bmm_jvp_finish (shapes : list nat * list nat) (st : machine) : outcome (list (raw T)) :=
  let* l := raw_new (split_join (m_segs st SLeft)) (fst shapes) in
  let* r := raw_new (split_join (m_segs st SRight)) (snd shapes) in
  Ret [l; r].

(** ** [update_grad] from several threads: raw_tensor.rs:307-313.  The read lock is released before the
    write lock is taken: two steps. *)
Inductive updater : Type :=
| UReady (g : raw T)
| UComputed (new : raw T)
| UDone.

(** Gradient cell and threads; [None] after a panic of an addition.  A thread that calls [update_grad]
    several times is covered by giving it several entries: an entry may start at any time. (raw_tensor.rs:307-313) *)
Inductive update_step : option (option (raw T) * list updater) -> option (option (raw T) * list updater) -> Prop :=
| u_read cell g new pre post :
    match cell with None => Ret g | Some other => add_raw (LRaw other) (LRaw g) end = Ret new ->
    update_step (Some (cell, pre ++ UReady g :: post)) (Some (cell, pre ++ UComputed new :: post))
| u_panic cell g p pre post :
    match cell with None => Ret g | Some other => add_raw (LRaw other) (LRaw g) end = Panic p ->
    update_step (Some (cell, pre ++ UReady g :: post)) None
| u_write cell new pre post :
    update_step (Some (cell, pre ++ UComputed new :: post)) (Some (Some new, pre ++ UDone :: post)).

End Par.
Arguments cell T : clear implicits.
Arguments row_state T : clear implicits.
Arguments job T : clear implicits.
Arguments action T : clear implicits.
Arguments machine T : clear implicits.
Arguments config T : clear implicits.
Arguments updater T : clear implicits.
Arguments msg T : clear implicits.
