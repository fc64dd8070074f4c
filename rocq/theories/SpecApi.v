(** * SpecApi: programs over the whole public interface *)
From Verif Require Import Base ModelIndex ModelTensor ModelOps ModelJvp ModelGraph ModelApi Spec SpecDual SpecGraph.

Section SpecApi.
Context {T : Type} {NT : Num T}.

(** States a program can reach by calls that [ok] allows *)
Inductive a_reach (ok : astate T -> call T -> Prop) : astate T -> Prop :=
| ar_init : a_reach ok a_init
| ar_step a c a' : a_reach ok a -> ok a c -> a_exec a c = Some (Ret a') -> a_reach ok a'.

Definition any_call (a : astate T) (c : call T) : Prop := True.

Definition is_view (a : astate T) (x : nat) : Prop := exists i s o, nth_error (aenv a) x = Some (VView i s o).

(** Left out: [RawTensor::default()], and scaling a view, directly or by [x * view] with [x] of rank 0. *)
Definition careful (a : astate T) (c : call T) : Prop :=
  match c with
  | ARawDefault => False
  | ALeftScalar x _ | ARightScalar x _ => ~ is_view a x
  | AMul x y => is_view a y -> forall v l, nth_error (aenv a) x = Some v -> as_like (ahp a) v = Ret l -> tl_shape l <> []
  | _ => True
  end.

(** ... and no [update_grad] by the program itself *)
Definition careful_tidy (a : astate T) (c : call T) : Prop := careful a c /\ forall x y, c <> AUpdateGrad x y.

(** The calls that change gradients of existing tensors *)
Definition changes_grads (c : call T) : bool :=
  match c with AUpdateGrad _ _ | AZeroGrad _ | ABackward _ => true | _ => false end.

(** The tensor behind a value *)
Definition tensor_of (v : val) : nat := match v with VRc i | VRaw i | VView i _ _ => i end.

(** Histories point backwards: each tensor was computed from earlier ones. *)
Definition history_back (h : heap T) : Prop := forall n nd k ins,
  nth_error (nodes h) n = Some nd -> n_fn nd = Some (k, ins) -> Forall (fun i => i < n) ins.

(** [a] holds the program state [s] of ModelGraph: the same heap, and its variables, [at_ x] being the
    position of variable [x]. *)
Definition holds (a : astate T) (s : state T) (at_ : list nat) : Prop :=
  ahp a = hp s /\ length at_ = length (env s) /\
  forall x i, nth_error (env s) x = Some i -> exists p, nth_error at_ x = Some p /\ nth_error (aenv a) p = Some (VRc i).

(** [ns2] is the history [ns1] with some tensors occurring several times: [f n] is the tensor that [n]
    is an occurrence of, with the same value, computed by the same operation from the same inputs. *)
Definition unshares (f : nat -> nat) (ns2 ns1 : list (node T)) : Prop := forall n nd, nth_error ns2 n = Some nd ->
  exists nd1, nth_error ns1 (f n) = Some nd1 /\ n_val nd1 = n_val nd /\
    n_fn nd1 = match n_fn nd with Some (k, ins) => Some (k, map f ins) | None => None end.
(** The occurrences of tensor [n] *)
Definition occurrences (f : nat -> nat) (ns2 : list (node T)) (n : nat) : list nat :=
  filter (fun m => f m =? n) (seq 0 (length ns2)).

(** The calls that record how their result was computed: arithmetic on [RcTensor]s, except [*] *)
Definition tracked (a : astate T) (c : call T) : Prop :=
  let rc x := exists i, nth_error (aenv a) x = Some (VRc i) in
  match c with
  | AAdd x _ | ASub x _ | ANeg x | ABmm x _ | ABmmRc x _ | AFnDot x _ | ASum x | ARelu x | ATanh x | AAbs x => rc x
  | _ => False
  end.
(** The calls whose result is, or is a copy of, or is a view of, the tensor behind an operand *)
Definition passes_on (a : astate T) (c : call T) : option val :=
  match c with
  | ADeref x | AClone x | ATensor x | ASlice x _ | AReshape x _ => nth_error (aenv a) x
  | AToTensor x => match nth_error (aenv a) x with Some (VView _ _ _) => None | r => r end
  | _ => None
  end.

(** ** What the calls compute

    Whether an operand is an [RcTensor], a [RawTensor] or a view, and what its history and its gradient
    are, makes no difference: the value of the result is a function of the values of the operands. *)

Definition api_operands (c : call T) : list nat :=
  match c with
  | ARc _ | ARawNew _ _ | ARawFiller _ _ | ARawScalar _ | ARawFrom _ | ARawDefault => []
  | ADeref x | AClone x | AToTensor x | ATensor x | ADeepClone x | ASlice x _ | AReshape x _ | ASum x | AFnUnary x _
  | ARelu x | ATanh x | AAbs x | ANeg x | ALeftScalar x _ | ARightScalar x _ | AGrad x | AZeroGrad x | ABackward x => [x]
  | ABmm x y | ABmmRc x y | ADotMethod x y | AFnDot x y | AFnDotNoDerivative x y | AFnProduct x y | AAdd x y | ASub x y | AMul x y
  | AUpdateGrad x y => [x; y]
  end.

Definition tensor_value (m : outcome (raw T)) : option (outcome (tlike T)) := Some (let* r := m in Ret (LRaw r)).
Definition view_value (m : outcome (view T)) : option (outcome (tlike T)) := Some (let* v := m in Ret (LView v)).
Definition behind (l : tlike T) : raw T := match l with LRaw r => r | LView v => v_tensor v end.

(** [None]: not such a function ([grad] api_reads a cell, [dot] of [RcTensor]s and views is [todo!()]), or no
    such call *)
Definition api_means (c : call T) (ls : list (tlike T)) : option (outcome (tlike T)) :=
  match c, ls with
  | ARc (CNew a s), [] | ARawNew a s, [] => tensor_value (raw_new a s)
  | ARc (CFiller s x), [] | ARawFiller s x, [] => tensor_value (Ret (mkRaw (repeat x (size s)) s))
  | ARc (CScalar x), [] | ARawScalar x, [] => tensor_value (Ret (mkRaw [x] []))
  | ARc (CFrom n), [] | ARawFrom n, [] => tensor_value (raw_from n)
  | ARawDefault, [] => tensor_value (Ret (mkRaw [] []))
  | ADeref _, [l] | AClone _, [l] => Some (Ret l)
  | AToTensor _, [l] => tensor_value (tl_to_tensor l)
  | ATensor _, [l] => tensor_value (Ret (behind l))
  | ADeepClone _, [l] => tensor_value (tl_deep_clone l)
  | ASlice _ o, [l] => view_value (view_new (behind l) o)
  | AReshape _ s, [LView v] => view_value (view_reshape v s)
  | ASum _, [l] => tensor_value (tl_sum l)
  | ABmm _ _, [l; r] | ABmmRc _ _, [l; r] => tensor_value (bmm_raw l r)
  | AFnDot _ _, [l; r] | AFnDotNoDerivative _ _, [l; r] => tensor_value (dot_raw l r)
  | AFnProduct _ _, [l; r] => tensor_value (element_wise_multiplication l r)
  | AFnUnary _ f, [l] => tensor_value (generic_unary_op l f)
  | ARelu _, [l] => tensor_value (generic_unary_op l relu_fn)
  | ATanh _, [l] => tensor_value (generic_unary_op l n_tanh)
  | AAbs _, [l] => tensor_value (generic_unary_op l n_abs)
  | AAdd _ _, [l; r] => tensor_value (add_raw l r)
  | ASub _ _, [l; r] => tensor_value (let* n := generic_unary_op r n_neg in add_raw l (LRaw n))
  | ANeg _, [l] => tensor_value (generic_unary_op l n_neg)
  | AMul _ _, [LRaw b; r] => tensor_value (mul_raw b r)
  | ALeftScalar _ x, [l] => tensor_value (Ret (mkRaw (map (fun e => n_mul x e) (array (behind l))) (tl_shape l)))
  | ARightScalar _ x, [l] => tensor_value (Ret (mkRaw (map (fun e => n_mul e x) (array (behind l))) (tl_shape l)))
  | _, _ => None
  end.

(** The values of the operands *)
Definition api_reads (a : astate T) (c : call T) (ls : list (tlike T)) : Prop :=
  Forall2 (fun x l => exists v, nth_error (aenv a) x = Some v /\ as_like (ahp a) v = Ret l) (api_operands c) ls.

End SpecApi.
