(** * SpecGraph: what the recorded history of tensors means

    [ns] is the list of all tensors made so far, in order of creation. *)
From Verif Require Import Base ModelIndex ModelTensor ModelOps ModelJvp ModelGraph Spec SpecDual.

Section SpecGraph.
Context {T : Type} {NT : Num T}.
Implicit Types ns : list (node T).

(** Value and history of tensor [i] *)
Definition vof ns (i : nat) : raw T :=
  match nth_error ns i with Some nd => n_val nd | None => raw_scalar n_zero end.
Definition fn_of ns (i : nat) : option (opk * list nat) :=
  match nth_error ns i with Some nd => n_fn nd | None => None end.

(** Every tensor is well formed; one with a history is the value of the recorded operation on the
    recorded, earlier, inputs. *)
Definition recorded ns : Prop := forall n nd, nth_error ns n = Some nd ->
  wf (n_val nd) /\
  forall k ins, n_fn nd = Some (k, ins) ->
    Forall (fun i => i < n) ins /\ fwd k (map (vof ns) ins) = Ret (n_val nd).

(** [uses ns n m]: [n] is [m] or was computed from it. *)
Inductive uses ns : nat -> nat -> Prop :=
| uses_refl n : uses ns n n
| uses_step n k ins i m : fn_of ns n = Some (k, ins) -> In i ins -> uses ns i m -> uses ns n m.

(** No tensor has a zero dimension and [bmm] was only used on matrices. *)
Definition nonempty ns : Prop := forall n, n < length ns -> positive (shape (vof ns n)).
Definition matrices_only ns : Prop := forall n ins, fn_of ns n = Some (KBmm, ins) ->
  Forall (fun i => length (shape (vof ns i)) = 2) ins.

(** ** Graphs for which the backward rules are exact *)

(** Computed from leaves without [sum] and [dot], and [bmm] only on small matrices *)
Inductive plain ns : nat -> Prop :=
| plain_leaf n : n < length ns -> fn_of ns n = None -> plain ns n
| plain_op n k ins : n < length ns -> fn_of ns n = Some (k, ins) -> k <> KSum -> k <> KDot ->
    (k = KBmm -> Forall (fun i => size (shape (vof ns i)) <= 32) ins) ->
    (forall i, In i ins -> plain ns i) -> plain ns n.

(** ... or a sum of such a tensor, or one-element sums of those *)
Inductive top ns : nat -> Prop :=
| top_plain n : plain ns n -> top ns n
| top_sum n i : n < length ns -> fn_of ns n = Some (KSum, [i]) -> plain ns i -> top ns n
| top_add n i j : n < length ns -> fn_of ns n = Some (KAdd, [i; j]) -> size (shape (vof ns n)) = 1 ->
    top ns i -> top ns j -> top ns n.

Definition row_or_leaf ns (i : nat) : Prop :=
  fn_of ns i = None \/ (plain ns i /\ exists N, shape (vof ns i) = [1; N]).

(** Roots that [backward] handles *)
Definition root_ok ns (n : nat) : Prop :=
  size (shape (vof ns n)) = 1 /\
  exists k ins, fn_of ns n = Some (k, ins) /\
    match k with
    | KAbs | KBmm => False
    | KDot => Forall (row_or_leaf ns) ins
    | _ => top ns n
    end.

(** ** Graphs on which [backward] goes through *)
Definition no_dot ns (n : nat) : Prop := forall m ins, uses ns n m -> fn_of ns m <> Some (KDot, ins).

(** Roots [backward] accepts; [dot] only at the root. *)
Definition accepts ns (r : nat) : Prop :=
  exists k ins, fn_of ns r = Some (k, ins) /\
    match k with
    | KAbs | KBmm => False
    | KDot => Forall (fun i => fn_of ns i = None \/ (no_dot ns i /\ exists N, shape (vof ns i) = [1; N])) ins
    | _ => no_dot ns r
    end.

(** Computed with [+], [-], [neg], [relu], [tanh] only *)
Definition elementwise ns (r : nat) : Prop := forall m k ins, uses ns r m -> fn_of ns m = Some (k, ins) ->
  k = KAdd \/ k = KNeg \/ k = KRelu \/ k = KTanh.

(** ** Evaluating the recorded computation again with tensor [l] replaced by [x] *)
Definition reeval ns (l : nat) (x : raw T) : outcome (list (raw T)) :=
  foldM (fun vs nd =>
           if length vs =? l then Ret (vs ++ [x])
           else match n_fn nd with
                | None => Ret (vs ++ [n_val nd])
                | Some (k, ins) =>
                  let* xs := mapM (vindex vs) ins in let* y := fwd k xs in Ret (vs ++ [y])
                end) ns [].

(** Where [SplitArrayWriter] stores the entry with index [q] of an array of [len] entries: segments of 32
    are cut from the end of the array but addressed from its beginning. *)
Definition place (len q : nat) : nat := (len - 32 * (q / 32 + 1)) + q mod 32.

(** The entry of a gradient; a missing gradient counts as zero. *)
Definition gentry (gr : nat -> option (raw T)) (n p : nat) : T :=
  match gr n with None => n_zero | Some g => nth p (array g) n_zero end.

(** ** Heaps *)

(** What holds of every heap a program can reach *)
Definition grads_wf (h : heap T) : Prop := forall i g, grads h i = Some g -> wf g /\ i < length (nodes h).
Definition heap_inv (h : heap T) : Prop := recorded (nodes h) /\ grads_wf h.

(** [h'] has the tensors of [h] and possibly more. *)
Definition extends (h h' : heap T) : Prop := exists ext, nodes h' = nodes h ++ ext.
(** ... and the same gradients for the old ones *)
Definition grads_kept (h h' : heap T) : Prop := forall i, i < length (nodes h) -> grads h' i = grads h i.

End SpecGraph.

(** ** Programs *)
Section SpecProg.
Context {T : Type} {NT : Num T}.

(** States a program made of [ok] calls can reach.  Left out: [&x * &view] with [x] of rank 0,
    which makes a tensor whose element count is not the product of its shape (C40). *)
Inductive reach (ok : cmd T -> Prop) : state T -> Prop :=
| reach_init : reach ok init_state
| reach_step s c s' : reach ok s -> ok c -> exec s c = Ret s' ->
    (forall x y o, c = CMulView x y o -> exists v, var_value s x = Ret v /\ shape v <> []) -> reach ok s'.

(** [backward] called [k] times *)
Fixpoint times (k : nat) (h : heap T) (r : nat) : outcome (heap T) :=
  match k with O => Ret h | S k' => let* h' := backward h r in times k' h' r end.

Definition any (c : cmd T) : Prop := True.
(** The user does not call [update_grad]; only [backward] does. *)
Definition tidy (c : cmd T) : Prop := forall x y, c <> CUpdateGrad x y.

(** Calls that only build new tensors *)
Definition forward (c : cmd T) : bool :=
  match c with CUpdateGrad _ _ | CZeroGrad _ | CBackward _ => false | _ => true end.

(** Calls that make leaves, and differentiable operations with a history *)
Definition differentiable (c : cmd T) : bool :=
  match c with
  | CNew _ _ | CFiller _ _ | CScalar _ | CFrom _
  | CAdd _ _ | CSub _ _ | CNeg _ | CAbs _ | CRelu _ | CTanh _ | CBmm _ _ | CSum _ | CDot _ _ => true
  | _ => false
  end.

(** The variables a call mentions *)
Definition operands (c : cmd T) : list nat :=
  match c with
  | CNew _ _ | CFiller _ _ | CScalar _ | CFrom _ => []
  | CNeg x | CAbs x | CRelu x | CTanh x | CSum x | CDeepClone x | CGrad x | CViewToTensor x _ | CViewSum x _
  | CZeroGrad x | CBackward x => [x]
  | CAdd x y | CSub x y | CMul x y | CBmm x y | CDot x y | CDotMethod x y | CMulView x y _ | CBmmView x y _
  | CUpdateGrad x y => [x; y]
  end.

End SpecProg.
