(** * SpecPar: vocabulary for concurrent runs *)
From Coq Require Import Permutation.
From Verif Require Import Base ModelIndex ModelTensor ModelOps ModelJvp ModelPar Spec.

(** The second outcome is as the first: the same result, or also a panic (perhaps another one, when
    several tasks panic). *)
Definition agree {A : Type} (o o' : outcome A) : Prop :=
  match o with Ret a => o' = Ret a | Panic _ => exists p, o' = Panic p | NoFuel => False end.

(** Two matrices of matching sizes and [d0] rows of gradient for their product *)
Definition bmm_inputs {T : Type} (a b jac : raw T) (n kk m d0 : nat) : Prop :=
  wf a /\ wf b /\ wf jac /\ shape a = [n; kk] /\ shape b = [kk; m] /\ shape jac = [d0; n * m] /\
  0 < n /\ 0 < kk /\ 0 < m /\ 0 < d0.

(** Number of pieces of 32 entries *)
Definition pieces (len : nat) : nat := (len + 31) / 32.

(** A run from [st] can always be continued to the end of the scope. *)
Definition always_ends {T : Type} {NT : Num T} (workers : nat) (fifo : bool) (st0 : machine T) : Prop :=
  forall c, par_run workers fifo (Some st0) c -> exists st, par_run workers fifo c (Some st) /\ finished st.

(** Nothing can happen, yet the scope has not ended. *)
Definition deadlocked {T : Type} {NT : Num T} (workers : nat) (fifo : bool) (st : machine T) : Prop :=
  ~ finished st /\ forall c, ~ par_step workers fifo (Some st) c.

(** One thread adding its contribution with nobody else around *)
Definition add_alone {T : Type} {NT : Num T} (cell : option (raw T)) (g : raw T) : outcome (option (raw T)) :=
  match cell with None => Ret (Some g) | Some other => let* new := add_raw (LRaw other) (LRaw g) in Ret (Some new) end.

(** At most one thread is between its read and its write. *)
Definition one_inside {T : Type} (s : option (option (raw T) * list (updater T))) : Prop :=
  match s with
  | Some (_, ts) => length (filter (fun u => match u with UComputed _ => true | _ => false end) ts) <= 1
  | None => True
  end.
Definition serial_step {T : Type} {NT : Num T} s s' : Prop := @update_step T NT s s' /\ one_inside s'.

(** The sum of the contributions at position [p] *)
Definition total {T : Type} {NT : Num T} (gs : list (raw T)) (p : nat) : T :=
  fold_left n_add (map (fun g => nth p (array g) n_zero) gs) n_zero.

(** The messages for side [s] among those that the calling thread has still to hand out *)
Definition unsent {T : Type} (st : machine T) (s : side) : list (nat * T) :=
  flat_map (fun a => match a with AWrite ms => map snd (filter (fun p => side_eqb s (fst p)) ms) | _ => [] end) (m_main st).
