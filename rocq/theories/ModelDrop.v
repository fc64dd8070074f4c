(** * ModelDrop: reference counts, and what dropping a tensor does

    [RcTensor<T>] is an [Arc<RawTensor<T>>] (rc_tensor.rs:28).  A [RawTensor] owns references to other
    tensors in its gradient cell (raw_tensor.rs:47) and in the inputs of its history (raw_tensor.rs:48,
    autograd/jvp.rs:7).  There is no [Drop] of the library's own: dropping is what Rust generates.

    Programs are those of ModelHandle together with [clone] and the end of a variable's life. *)
From Verif Require Import Base ModelIndex ModelTensor ModelOps ModelJvp ModelGraph ModelHandle.

(** The content of a cell as a list of references: raw_tensor.rs:47 *)
Definition cell (o : option nat) : list nat := match o with Some j => [j] | None => [] end.

Section Drop.
Context {T : Type} {NT : Num T}.

(** The inputs a tensor's history owns: autograd/jvp.rs:7, raw_tensor.rs:48 *)
Definition owned_inputs (h : hheap T) (i : nat) : list nat :=
  match nth_error (hnodes h) i with
  | Some nd => match n_fn nd with Some (_, ins) => ins | None => [] end
  | None => []
  end.

(** The references a tensor owns, in the order in which the fields are dropped, which is the order of
    their declaration: raw_tensor.rs:45-48 *)
Definition owned (h : hheap T) (i : nat) : list nat := cell (hgrads h i) ++ owned_inputs h i.

(** Dropping one reference to tensor [i] (rc_tensor.rs:28: the drop of an [Arc]): the count goes down by
    one; at zero the tensor is destroyed and every reference it owns is dropped, each within this drop.
    [cnt] are the strong counts (0: destroyed), [d] is the number of drops running, [m] the largest such
    number so far.  Simplification: the memory of the elements is not modelled. *)
Fixpoint release (fuel d : nat) (h : hheap T) (st : (nat -> nat) * nat) (i : nat) : outcome ((nat -> nat) * nat) :=
  match fuel with
  | O => NoFuel
  | S f =>
    let (cnt, m) := st in
    if cnt i =? 1
    then foldM (release f (S d) h) (owned h i) (upd cnt i 0, Nat.max m d)
    else Ret (upd cnt i (cnt i - 1), Nat.max m d)
  end.

(** References dropped one after the other, none within another: the end of a block (rc_tensor.rs:28). *)
Definition release_all (h : hheap T) (st : (nat -> nat) * nat) (l : list nat) : outcome ((nat -> nat) * nat) :=
  foldM (release (S (length (hnodes h))) 1 h) l st.

(** The state of a program: tensors and variables ([d_h]), the strong counts, the variables still in
    scope and what they refer to, and the deepest nesting of drops so far.  rc_tensor.rs:28 *)
Record dstate : Type := mkD { d_h : hstate T; d_cnt : nat -> nat; d_vars : list (option nat); d_depth : nat }.
(** Before the program: no tensors, no variables (rc_tensor.rs:28) *)
Definition d_init : dstate := mkD h_init (fun _ => 0) [] 0.

(** A statement: a call of ModelHandle; [x.clone()], derived (rc_tensor.rs:27), which copies the
    reference; or the end of variable [x] (scope exit, [drop(x)], shadowed variables live on). *)
Inductive dcmd : Type := DCall (c : cmd T) | DClone (x : nat) | DDrop (x : nat).

(** How often [i] occurs in [l]: a count of references (rc_tensor.rs:28) *)
Definition occ (l : list nat) (i : nat) : nat := count_occ Nat.eq_dec l i.

(** Whether a gradient cell (raw_tensor.rs:47) still refers to the same tensor *)
Definition same_cell (a b : option nat) : bool :=
  match a, b with Some i, Some j => i =? j | None, None => true | _, _ => false end.

(** A call.  The function itself is that of ModelHandle.  New references: those owned by the tensors
    made by the call, one to every such tensor by the local variable or temporary that first holds it
    (e.g. [shaped_grad], autograd/jvp.rs:44; the negation within [sub]), what was stored in gradient
    cells (raw_tensor.rs:312) and the result.  References dropped before the call returns: what the
    changed cells held before (raw_tensor.rs:312, 315: the assignment drops the old content), and those
    temporaries.
    Simplifications: the drops are made at the end of the call; the tensors that the rules of
    autograd/functional.rs compute and drop again are not recorded. *)
Definition d_call (s : dstate) (c : cmd T) : outcome dstate :=
  let* hs := h_exec (d_h s) c in
  let h := hhp (d_h s) in
  let h' := hhp hs in
  let n := length (hnodes h) in
  let made := seq n (length (hnodes h') - n) in
  let results := skipn (length (henv (d_h s))) (henv hs) in
  let changed i := negb (same_cell (hgrads h i) (hgrads h' i)) in
  let gained := made ++ flat_map (owned h') made ++ results
    ++ flat_map (fun i => if changed i then cell (hgrads h' i) else []) (seq 0 n) in
  let lost := flat_map (fun i => if changed i then cell (hgrads h i) else []) (seq 0 n) ++ made in
  let* (cnt, m) := release_all h' (fun i => d_cnt s i + occ gained i, d_depth s) lost in
  Ret (mkD hs cnt (d_vars s ++ map Some results) m).

(** One statement: calls as above, [clone] and the end of a variable of rc_tensor.rs:27-28 *)
Definition d_exec (s : dstate) (c : dcmd) : outcome dstate :=
  match c with
  | DCall c => d_call s c
  | DClone x => (* [Arc::clone]: rc_tensor.rs:27-28 *)
    let* i := vindex (henv (d_h s)) x in
    Ret (mkD (mkHState (hhp (d_h s)) (henv (d_h s) ++ [i])) (upd (d_cnt s) i (S (d_cnt s i))) (d_vars s ++ [Some i]) (d_depth s))
  | DDrop x =>
    match nth_error (d_vars s) x with
    | Some (Some i) =>
      let* (cnt, m) := release_all (hhp (d_h s)) (d_cnt s, d_depth s) [i] in
      Ret (mkD (d_h s) cnt (list_set (d_vars s) x None) m)
    | _ => Ret s  (* out of scope already: the borrow checker refuses this *)
    end
  end.

(** A program: its statements in order, up to the first panic (rc_tensor.rs:28 throughout) *)
Definition d_run (p : list dcmd) (s : dstate) : outcome dstate := foldM d_exec p s.

End Drop.
Arguments dstate T : clear implicits.
Arguments dcmd T : clear implicits.
