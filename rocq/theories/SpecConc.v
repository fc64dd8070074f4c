(** * SpecConc: vocabulary for threads that share tensors *)
From Verif Require Import Base ModelIndex ModelTensor ModelOps ModelJvp ModelGraph ModelConc SpecGraph.

Section SpecConc.
Context {T : Type} {NT : Num T}.

(** The cell that an instruction is about *)
Definition about (x : instr T) : option nat :=
  match x with IUpdate i _ | IZero i | IGet i => Some i | IStop _ => None end.
Definition uses_cell (c : list (instr T)) (i : nat) : Prop := exists x, In x c /\ about x = Some i.

(** What a thread does with nobody else around: the cells it leaves, the gradients it has read, and the panic it ended
    in, if any *)
Fixpoint alone (c : list (instr T)) (cells : nat -> option (raw T)) (seen : list (raw T))
  : (nat -> option (raw T)) * list (raw T) * option panic :=
  match c with
  | [] => (cells, seen, None)
  | IUpdate i g :: c' =>
    match cells i with
    | None => alone c' (upd cells i (Some g)) seen
    | Some old =>
      match add_raw (LRaw old) (LRaw g) with
      | Ret sum => alone c' (upd cells i (Some sum)) seen
      | Panic p => (cells, seen, Some p)
      | NoFuel => (cells, seen, None)
      end
    end
  | IZero i :: c' => alone c' (upd cells i None) seen
  | IGet i :: c' => match cells i with Some g => alone c' cells (seen ++ [g]) | None => (cells, seen, Some PUnwrap) end
  | IStop p :: _ => (cells, seen, Some p)
  end.

(** The thread has ended, normally or in a panic. *)
Definition ended_as (th : thread T) (e : option panic) : Prop :=
  match t_phase th, t_code th with
  | PIdle, [] => e = None
  | PDead p, _ => e = Some p
  | _, _ => False
  end.
Definition all_ended (st : conc T) : Prop := Forall (fun th => exists e, ended_as th e) (c_threads st).
Definition all_succeeded (st : conc T) : Prop := Forall (fun th => ended_as th None) (c_threads st).

Definition writes_cell (c : list (instr T)) (i : nat) : Prop := exists x, In x c /\ (x = IZero i \/ exists g, x = IUpdate i g).

(** No other thread changes a cell that thread [t] uses. *)
Definition on_its_own (codes : list (list (instr T))) (t : nat) : Prop :=
  forall c u c' i, nth_error codes t = Some c -> nth_error codes u = Some c' -> u <> t -> uses_cell c i -> ~ writes_cell c' i.

(** No tensor belongs to the histories of two of the roots. *)
Definition separate (ns : list (node T)) (rs : list nat) : Prop :=
  forall t u r r' i, nth_error rs t = Some r -> nth_error rs u = Some r' -> t <> u -> uses ns r i -> ~ uses ns r' i.

(** The gradient that instruction [p] of thread [t] adds to cell [i] *)
Definition contributes (codes : list (list (instr T))) (i : nat) (tp : nat * nat) (g : raw T) : Prop :=
  exists c, nth_error codes (fst tp) = Some c /\ nth_error c (snd tp) = Some (IUpdate i g).

(** Adding up, one after the other *)
Definition added (cell : option (raw T)) (g : raw T) : outcome (option (raw T)) :=
  match cell with None => Ret (Some g) | Some old => let* sum := add_raw (LRaw old) (LRaw g) in Ret (Some sum) end.

End SpecConc.
