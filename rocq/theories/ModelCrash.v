(** * ModelCrash: what a panic leaves behind

    A panic unwinds; a caller may catch it ([std::panic::catch_unwind], or another thread that shares the tensors
    goes on).  The only cells that can be changed are gradient cells, and only [update_grad] and [zero_grad] write
    them.  Here the calls return, besides how they ended, the gradient cells at that moment. *)
From Verif Require Import Base ModelIndex ModelTensor ModelOps ModelJvp ModelGraph.

Section Crash.
Context {T : Type} {NT : Num T}.

(** The gradient cells: raw_tensor.rs:47 *)
Definition cells : Type := nat -> option (raw T).

(** Go on with the value of [o], or stop with the cells as they are:
    a panic in autograd/jvp.rs:30-51 or rc_tensor.rs:50-60 *)
Definition go {A : Type} (gr : cells) (o : outcome A) (k : A -> cells * outcome unit) : cells * outcome unit :=
  match o with Ret a => k a | Panic p => (gr, Panic p) | NoFuel => (gr, NoFuel) end.

(** A [for] loop that a panic leaves: autograd/jvp.rs:37-50 *)
Fixpoint go_each {B : Type} (f : cells -> B -> cells * outcome unit) (l : list B) (gr : cells) : cells * outcome unit :=
  match l with
  | [] => (gr, Ret tt)
  | b :: l' => let (gr', st) := f gr b in go gr' st (fun _ => go_each f l' gr')
  end.

(** [Derivative::compute_jvp]: autograd/jvp.rs:30-51, as in ModelGraph.  [update_grad] (raw_tensor.rs:307-313)
    computes the new gradient before it writes, under the read lock, so that when this panics the cell keeps its
    old content and is not poisoned ([RwLock] is poisoned only by writers). *)
Fixpoint compute_jvp_left (fuel : nat) (ns : list (node T)) (k : opk) (inputs : list nat)
    (outer : list (raw T)) (gr : cells) : cells * outcome unit :=
  match fuel with
  | O => (gr, NoFuel)
  | S f =>
    go gr (mapM (vindex ns) inputs) (fun ins =>
    go gr (jvp k (map n_val ins) outer) (fun self_grads =>
    go_each (fun gr '(g, (i, nd)) =>
               go gr (assert (length (array g) =? length (array (n_val nd)))) (fun _ =>
               go gr (raw_new (array g) (shape (n_val nd))) (fun shaped_grad =>
               go gr (update_grad gr i shaped_grad) (fun gr' =>
               match n_fn nd with
               | Some (k', inputs') => compute_jvp_left f ns k' inputs' [g] gr'
               | None => (gr', Ret tt)
               end))))
            (combine self_grads (combine inputs ins)) gr))
  end.

(** [RcTensor::backward]: rc_tensor.rs:50-60 *)
Definition backward_left (h : heap T) (i : nat) : heap T * outcome unit :=
  let (gr, st) :=
    go (grads h) (hget h i) (fun nd =>
    go (grads h) (assert (length (array (n_val nd)) =? 1)) (fun _ =>
    go (grads h) (unwrap_opt (n_fn nd)) (fun '(k, inputs) =>
    compute_jvp_left (S (length (nodes h))) (nodes h) k inputs [raw_scalar n_one] (grads h)))) in
  (mkHeap (nodes h) gr, st).

(** One call of a program that catches panics.  Every call but [backward] changes a gradient cell, if at all, in its
    last step ([update_grad] raw_tensor.rs:312, [zero_grad] raw_tensor.rs:304, [sum] presets the cell of a tensor
    nobody else has yet); tensors made before the panic (the negation of [sub], rc_tensor.rs:298-327) are dropped. *)
Definition exec_left (s : state T) (c : cmd T) : state T * outcome unit :=
  match c with
  | CBackward x =>
    match vindex (env s) x with
    | Ret i => let (h, st) := backward_left (hp s) i in (mkState h (env s), st)
    | Panic p => (s, Panic p)
    | NoFuel => (s, NoFuel)
    end
  | _ =>
    match exec s c with
    | Ret s' => (s', Ret tt)
    | Panic p => (s, Panic p)
    | NoFuel => (s, NoFuel)
    end
  end.

(** A program in which every call is guarded: after a panic it goes on with the next call.
    (the calls of ModelGraph, rc_tensor.rs:45-373) *)
Definition run_guarded (p : list (cmd T)) (s : state T) : state T := fold_left (fun s c => fst (exec_left s c)) p s.

End Crash.
