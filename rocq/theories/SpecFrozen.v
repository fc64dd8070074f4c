(** * SpecFrozen: a computation with the branches of [abs] and [relu] kept

    At a kink of [abs] or [relu] there is no derivative.  What [backward] computes there is the
    derivative of another function: the one in which every [abs] and [relu] goes on using, for each
    entry, the branch it took at the point where [backward] was called. *)
From Coq Require Import Reals.
From Verif Require Import Base ModelIndex ModelTensor ModelOps ModelJvp ModelGraph Spec SpecDual SpecGraph RealInst SpecReal.
Local Open Scope R_scope.

(** The branch of the absolute value taken at [x0], applied to [x] *)
Definition abs_branch (x0 x : R) : R := if Rge_dec x0 0 then x else - x.
(** The branch of [if x < 0 then 0 else x] taken at [x0] *)
Definition relu_branch (x0 x : R) : R := if Rlt_dec x0 0 then 0 else x.

(** Operation [k] on [xs], with the branches taken at [xs0] *)
Definition frozen (k : opk) (xs0 xs : list (raw R)) : outcome (raw R) :=
  match k, xs0, xs with
  | KAbs, [a0], [a] => Ret (mkRaw (map (fun '(x0, x) => abs_branch x0 x) (combine (array a0) (array a))) (shape a))
  | KRelu, [a0], [a] => Ret (mkRaw (map (fun '(x0, x) => relu_branch x0 x) (combine (array a0) (array a))) (shape a))
  | _, _, _ => fwd k xs
  end.

(** The computation recorded in [ns] again, with tensor [l] replaced by [x] and all branches as recorded *)
Definition refreeze (ns : list (node R)) (l : nat) (x : raw R) : outcome (list (raw R)) :=
  foldM (fun vs nd =>
           if (length vs =? l)%nat then Ret (vs ++ [x])
           else match n_fn nd with
                | None => Ret (vs ++ [n_val nd])
                | Some (k, ins) =>
                  let* xs := mapM (vindex vs) ins in let* y := frozen k (map (vof ns) ins) xs in Ret (vs ++ [y])
                end) ns [].

(** [d] is the derivative of one-element tensor [r] in entry [p] of tensor [l], branches kept. *)
Definition frozen_derivative (ns : list (node R)) (r l p : nat) (d : R) : Prop :=
  exists vs : R -> list (raw R),
    (forall t, refreeze ns l (bump (vof ns l) p t) = Ret (vs t)) /\ has_derivative vs r d.
