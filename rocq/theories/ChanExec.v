(** * ChanExec: running the machine of [bmm_jvp] by a given schedule, for the examples *)
From Coq Require Import Permutation.
From Verif Require Import Base ModelIndex ModelTensor ModelOps ModelJvp ModelPar Spec SpecPar Lists ParFacts.

Section Exec.
Context {T : Type} {NT : Num T}.
Variables (workers : nat) (fifo : bool).

(** Next action of the calling thread; begin a job; begin a job of a worker; a step of a running job *)
Inductive choice := CMain | CBegin (i : nat) | CLocal (i : nat) | CRun (i : nat).

Definition do_choice (st : machine T) (c : choice) : option (machine T) :=
  let 'mkMachine main inj loc run ch sg hd := st in
  match c with
  | CMain =>
    match main with
    | [] => None
    | AWrite ms :: main => Some (mkMachine main (inj ++ [JWrite ms]) loc run ch sg hd)
    | ADrop s :: main => Some (mkMachine main inj loc run ch sg (upd_side hd s false))
    | AStart s :: main => Some (mkMachine main (inj ++ [JStart s 0]) loc run ch sg hd)
    end
  | CBegin i =>
    match nth_error inj i with
    | Some j => if (length run <? workers) && (negb fifo || (i =? 0))
                then Some (mkMachine main (firstn i inj ++ skipn (S i) inj) loc (run ++ [j]) ch sg hd) else None
    | None => None
    end
  | CLocal i =>
    match nth_error loc i with
    | Some j => if length run <? workers then Some (mkMachine main inj (firstn i loc ++ skipn (S i) loc) (run ++ [j]) ch sg hd) else None
    | None => None
    end
  | CRun i =>
    let pre := firstn i run in
    let post := skipn (S i) run in
    match nth_error run i with
    | Some (JWrite []) => Some (mkMachine main inj loc (pre ++ post) ch sg hd)
    | Some (JWrite ((s, m) :: ms)) =>
      match writer_channel (length (ch s)) (fst m) with
      | Ret c => match nth_error (ch s) c with
                 | Some (Some q) => Some (mkMachine main inj loc (pre ++ JWrite ms :: post) (upd_side ch s (list_set (ch s) c (Some (q ++ [m])))) sg hd)
                 | _ => None
                 end
      | _ => None
      end
    | Some (JStart s next) =>
      if next <? length (sg s) then Some (mkMachine main inj (loc ++ [JRecv s next]) (pre ++ JStart s (S next) :: post) ch sg hd)
      else Some (mkMachine main inj loc (pre ++ post) ch sg hd)
    | Some (JRecv s c) =>
      match nth_error (ch s) c, nth_error (sg s) c with
      | Some (Some (m :: q)), Some slice =>
        match receive c slice m with
        | Ret slice' => Some (mkMachine main inj loc (pre ++ JRecv s c :: post) (upd_side ch s (list_set (ch s) c (Some q))) (upd_side sg s (list_set (sg s) c slice')) hd)
        | _ => None
        end
      | Some (Some []), _ => if alive st s then None else Some (mkMachine main inj loc (pre ++ post) (upd_side ch s (list_set (ch s) c None)) sg hd)
      | _, _ => None
      end
    | None => None
    end
  end.

Lemma split_at A (l : list A) i x : nth_error l i = Some x -> l = firstn i l ++ x :: skipn (S i) l.
Proof.
  revert l. induction i as [|i IH]; intros [|y l] E; try discriminate E.
  - injection E as ->. reflexivity.
  - cbn in *. f_equal. apply IH. exact E.
Qed.

Lemma do_choice_step st c st' : do_choice st c = Some st' -> par_step workers fifo (Some st) (Some st').
Proof.
  destruct st as [main inj loc run ch sg hd]. destruct c as [|i|i|i]; cbn [do_choice].
  - destruct main as [|[ms|s|s] main]; intros E; inversion E; constructor.
  - destruct (nth_error inj i) as [j|] eqn:E; [|discriminate]. destruct (length run <? workers) eqn:E1; [|discriminate]. cbn [andb].
    destruct (negb fifo || (i =? 0)) eqn:E2; [|discriminate]. intros X. inversion X.
    rewrite (split_at _ _ _ _ E) at 1. apply p_begin; [apply Nat.ltb_lt; exact E1|]. intros ->. cbn in E2. apply Nat.eqb_eq in E2. subst i. reflexivity.
  - destruct (nth_error loc i) as [j|] eqn:E; [|discriminate]. destruct (length run <? workers) eqn:E1; [|discriminate]. intros X. inversion X.
    rewrite (split_at _ _ _ _ E) at 1. apply p_begin_local. apply Nat.ltb_lt; exact E1.
  - destruct (nth_error run i) as [j|] eqn:E; [|discriminate]. destruct j as [[|[s m] ms]|s next|s c].
    + intros X. inversion X. rewrite (split_at _ _ _ _ E) at 1. apply p_written.
    + destruct (writer_channel (length (ch s)) (fst m)) as [c|p|] eqn:E1; try discriminate. destruct (nth_error (ch s) c) as [[q|]|] eqn:E2; try discriminate.
      intros X. inversion X. rewrite (split_at _ _ _ _ E) at 1. apply p_send; assumption.
    + destruct (Nat.ltb_spec next (length (sg s))); intros X; inversion X; rewrite (split_at _ _ _ _ E) at 1; [apply p_start_one; assumption|eapply p_started; eassumption].
    + destruct (nth_error (ch s) c) as [[[|m q]|]|] eqn:E1; try discriminate.
      * destruct (alive _ s) eqn:EA; [discriminate|]. intros X. inversion X. rewrite (split_at _ _ _ _ E) in EA. rewrite (split_at _ _ _ _ E) at 1. apply p_received; assumption.
      * destruct (nth_error (sg s) c) as [slice|] eqn:E2; [|discriminate]. destruct (receive c slice m) as [slice'|p|] eqn:E3; try discriminate.
        intros X. inversion X. rewrite (split_at _ _ _ _ E) at 1. eapply p_recv; eassumption.
Qed.

Fixpoint schedule (st : machine T) (l : list choice) : option (machine T) :=
  match l with [] => Some st | c :: l => match do_choice st c with Some st' => schedule st' l | None => None end end.

Lemma schedule_run l : forall st st', schedule st l = Some st' -> par_run workers fifo (Some st) (Some st').
Proof.
  induction l as [|c l IH]; intros st st' E; cbn in E.
  - injection E as ->. apply star_refl.
  - destruct (do_choice st c) as [st1|] eqn:E1; [|discriminate]. eapply star_first; [eapply do_choice_step; eauto|]. apply IH. exact E.
Qed.
End Exec.

(** [n] times the same choice *)
Definition times (n : nat) (c : choice) : list choice := repeat c n.
