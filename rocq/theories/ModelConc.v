(** * ModelConc: several threads that use the same tensors

    [RcTensor] is an [Arc] (rc_tensor.rs:28) and the gradient cell of a [RawTensor] is an [RwLock]
    (raw_tensor.rs:47), so that threads may share tensors.  Values and histories never change once a
    tensor exists; what threads do to each other goes through the gradient cells.  Here threads call
    [backward], [update_grad], [zero_grad] and [grad] on the tensors of a heap they share.  Forward
    operations take no lock (they read [array], [shape]) and only preset the cell of a tensor that no
    other thread has yet; they are left out.

    A step is one operation on a lock or one computation while a lock is held.  Locks are as in [std]: many
    readers or one writer; whether a new reader has to wait behind a waiting writer is left open ([pref]).
    A lock is poisoned if a thread panics while it writes; the only thing done under a write guard is
    to store a value computed before (raw_tensor.rs:304, 312), so that this does not happen. *)
From Verif Require Import Base ModelIndex ModelTensor ModelOps ModelJvp ModelGraph.

Section Conc.
Context {T : Type} {NT : Num T}.

(** What a thread does to the cells: [update_grad] (raw_tensor.rs:307-313) on tensor [i] with gradient [g],
    [zero_grad] (raw_tensor.rs:303-305), [grad] (rc_tensor.rs:123-133), or a panic in a computation between. *)
Inductive instr : Type :=
| IUpdate (i : nat) (g : raw T)
| IZero (i : nat)
| IGet (i : nat)
| IStop (p : panic).

(** *** [backward] as the list of its updates *)

(** The updates made before [o] ends, and how it ends; [k] is what follows.
    (the sequencing of statements in autograd/jvp.rs:30-51 and rc_tensor.rs:50-60) *)
Definition then_calls {A : Type} (o : outcome A) (k : A -> list (nat * raw T) * outcome unit) : list (nat * raw T) * outcome unit :=
  match o with Ret a => k a | Panic p => ([], Panic p) | NoFuel => ([], NoFuel) end.

(** A [for] loop: autograd/jvp.rs:37-50 *)
Fixpoint each_calls {B : Type} (f : B -> list (nat * raw T) * outcome unit) (l : list B) : list (nat * raw T) * outcome unit :=
  match l with
  | [] => ([], Ret tt)
  | b :: l' => let (us, st) := f b in
    match st with
    | Ret _ => let (vs, st') := each_calls f l' in (us ++ vs, st')
    | _ => (us, st)
    end
  end.

(** [Derivative::compute_jvp]: autograd/jvp.rs:30-51, as in ModelGraph, with the calls of [update_grad] listed
    instead of made.  It reads no gradient cell, so that the list does not depend on them. *)
Fixpoint compute_jvp_calls (fuel : nat) (ns : list (node T)) (k : opk) (inputs : list nat) (outer : list (raw T))
  : list (nat * raw T) * outcome unit :=
  match fuel with
  | O => ([], NoFuel)
  | S f =>
    then_calls (mapM (vindex ns) inputs) (fun ins =>
    then_calls (jvp k (map n_val ins) outer) (fun self_grads =>
    each_calls (fun '(g, (i, nd)) =>
                  then_calls (assert (length (array g) =? length (array (n_val nd)))) (fun _ =>
                  then_calls (raw_new (array g) (shape (n_val nd))) (fun shaped_grad =>
                  let (us, st) := match n_fn nd with
                                  | Some (k', inputs') => compute_jvp_calls f ns k' inputs' [g]
                                  | None => ([], Ret tt)
                                  end in
                  ((i, shaped_grad) :: us, st))))
               (combine self_grads (combine inputs ins))))
  end.

(** [RcTensor::backward]: rc_tensor.rs:50-60 *)
Definition backward_calls (ns : list (node T)) (i : nat) : list (nat * raw T) * outcome unit :=
  then_calls (vindex ns i) (fun nd =>
  then_calls (assert (length (array (n_val nd)) =? 1)) (fun _ =>
  then_calls (unwrap_opt (n_fn nd)) (fun '(k, inputs) =>
  compute_jvp_calls (S (length ns)) ns k inputs [raw_scalar n_one]))).

(** The calls a thread makes: rc_tensor.rs:50-60, 154-158, 160-163, 123-133 *)
Inductive tcall : Type := TBackward (i : nat) | TUpdateGrad (i : nat) (g : raw T) | TZeroGrad (i : nat) | TGrad (i : nat).

Definition code1 (ns : list (node T)) (c : tcall) : list instr :=
  match c with
  | TBackward r =>
    let (us, st) := backward_calls ns r in
    map (fun '(i, g) => IUpdate i g) us ++ match st with Ret _ => [] | Panic p => [IStop p] | NoFuel => [IStop PTodo] end
  | TUpdateGrad i g => [IUpdate i g]
  | TZeroGrad i => [IZero i]
  | TGrad i => [IGet i]
  end.
(** The calls of a thread one after the other: rc_tensor.rs:50-60, 123-133, 154-163 *)
Definition code (ns : list (node T)) (l : list tcall) : list instr := flat_map (code1 ns) l.

(** *** Threads *)

(** Where a thread is: between calls; in [update_grad] with the read guard (raw_tensor.rs:308-311), which lives to
    the end of the [let]; with the new value, waiting for the write lock (312; [zero_grad] 304 begins here);
    with the write guard; in [grad] with the read guard (rc_tensor.rs:127); panicked, all guards gone. *)
Inductive phase : Type :=
| PIdle
| PRead (i : nat) (g : raw T)
| PWait (i : nat) (new : option (raw T))
| PWrite (i : nat) (new : option (raw T))
| PPeek (i : nat)
| PDead (p : panic).

(** A thread: what it has still to do, where it is, and the gradients it has got from [grad] (rc_tensor.rs:131) *)
Record thread : Type := mkTh { t_code : list instr; t_phase : phase; t_seen : list (raw T) }.

(** The gradient cells (raw_tensor.rs:47) and the threads *)
Record conc : Type := mkC { c_cells : nat -> option (raw T); c_threads : list thread }.

(** Who holds or waits for the lock of cell [i] (raw_tensor.rs:47) *)
Definition reads_now (i : nat) (t : thread) : bool := match t_phase t with PRead j _ | PPeek j => i =? j | _ => false end.
Definition writes_now (i : nat) (t : thread) : bool := match t_phase t with PWrite j _ => i =? j | _ => false end.
Definition waits_now (i : nat) (t : thread) : bool := match t_phase t with PWait j _ => i =? j | _ => false end.

(** [read()] succeeds at raw_tensor.rs:308, rc_tensor.rs:127 *)
Definition may_read (pref : bool) (st : conc) (i : nat) : bool :=
  negb (existsb (writes_now i) (c_threads st)) && negb (pref && existsb (waits_now i) (c_threads st)).
(** [write()] succeeds at raw_tensor.rs:304, 312 *)
Definition may_write (st : conc) (i : nat) : bool :=
  negb (existsb (writes_now i) (c_threads st)) && negb (existsb (reads_now i) (c_threads st)).

(** The new gradient, raw_tensor.rs:308-311 *)
Definition new_grad (cell : option (raw T)) (g : raw T) : outcome (option (raw T)) :=
  match cell with
  | None => Ret (Some g)
  | Some other_grad => let* s := add_raw (LRaw other_grad) (LRaw g) in Ret (Some s)
  end.

(** The next step of thread [t], [None] if it has to wait or has ended: raw_tensor.rs:303-313, rc_tensor.rs:123-133 *)
Definition advance (pref : bool) (st : conc) (t : nat) : option conc :=
  match nth_error (c_threads st) t with
  | None => None
  | Some (mkTh c ph seen) =>
    let cells := c_cells st in
    let goto c' ph' seen' := Some (mkC cells (list_set (c_threads st) t (mkTh c' ph' seen'))) in
    match ph, c with
    | PIdle, [] => None
    | PIdle, IUpdate i g :: c' => if may_read pref st i then goto c' (PRead i g) seen else None
    | PIdle, IZero i :: c' => goto c' (PWait i None) seen
    | PIdle, IGet i :: c' => if may_read pref st i then goto c' (PPeek i) seen else None
    | PIdle, IStop p :: c' => goto c' (PDead p) seen
    | PRead i g, _ =>
      match new_grad (cells i) g with
      | Ret new => goto c (PWait i new) seen
      | Panic p => goto c (PDead p) seen
      | NoFuel => None
      end
    | PWait i new, _ => if may_write st i then goto c (PWrite i new) seen else None
    | PWrite i new, _ => Some (mkC (upd cells i new) (list_set (c_threads st) t (mkTh c PIdle seen)))
    | PPeek i, _ =>
      match cells i with
      | Some g => goto c PIdle (seen ++ [g])
      | None => goto c (PDead PUnwrap) seen
      end
    | PDead _, _ => None
    end
  end.

(** The threads with their code, before they start (rc_tensor.rs:28: shared tensors) *)
Definition conc_start (codes : list (list instr)) (cells : nat -> option (raw T)) : conc :=
  mkC cells (map (fun c => mkTh c PIdle []) codes).

(** Runs: the scheduler picks any thread that can go on; the list tells which.
    The tensors may be shared between threads because of the [Arc] of rc_tensor.rs:28 and the [RwLock] of raw_tensor.rs:47. *)
Fixpoint conc_run (pref : bool) (st : conc) (schedule : list nat) : option conc :=
  match schedule with
  | [] => Some st
  | t :: rest => match advance pref st t with Some st' => conc_run pref st' rest | None => None end
  end.

End Conc.
Arguments instr T : clear implicits.
Arguments tcall T : clear implicits.
Arguments phase T : clear implicits.
Arguments thread T : clear implicits.
Arguments conc T : clear implicits.
