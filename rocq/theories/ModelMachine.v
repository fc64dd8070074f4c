(** * ModelMachine: API calls carried out by the program of ModelKernel.v

    ModelGraph.v and ModelUsize.v carry out the calls of a program with functional transcriptions of the crate's loops.  Here
    everything that calculates - every forward operation, every rule of a derivative, the sums of gradients, views - is done by
    running the statements of ModelKernel.v; what remains outside is the graph: which tensors exist, who their inputs are, and the
    recursion over inputs (autograd/jvp.rs:30-51).  [N]: the most turns a [while] or [loop] may take. *)
From Coq Require String.
Import String.StringSyntax.
From Verif Require Import Base ModelIndex ModelTensor ModelOps ModelJvp ModelGraph ModelUsize ModelRust ModelKernel.
#[local] Open Scope string_scope.

Section Machine.
Context {U : usize_ops} {T : Type} {NT : Num T}.
Variable N : nat.

(** What a call returns: [RawTensor] (raw_tensor.rs:38), [TensorView] (tensor_view.rs:20), [Vec<RcTensor>] (autograd/jvp.rs:10) *)
Definition get_ten (r : outcome (@val T * @val T)) : outcome (raw T) := let* (v, _) := r in match v with VTen (LRaw t) => Ret t | _ => NoFuel end.
Definition get_view (r : outcome (@val T * @val T)) : outcome (view T) := let* (v, _) := r in match v with VTen (LView w) => Ret w | _ => NoFuel end.
Definition get_tens (r : outcome (@val T * @val T)) : outcome (list (raw T)) := let* (v, _) := r in match v with VTens l => Ret l | _ => NoFuel end.
(** raw_tensor.rs:318-329: the scalar and its gradient *)
Definition get_two (r : outcome (@val T * @val T)) : outcome (raw T * raw T) := let* l := get_tens r in match l with [a; b] => Ret (a, b) | _ => NoFuel end.

(** The closures an operation passes: rc_tensor.rs:339, element_wise_ops.rs:28, 43, 60-66, 198, 290, 344-349, 357, raw_tensor.rs:271 *)
Definition op_closures (k : opk) : @closures T := mkClosures
  (match k with KNeg => n_neg | KAbs => n_abs | KRelu => relu_fn | _ => n_tanh end)
  n_add
  (match k with
   | KNeg => fun _ => n_neg n_one
   | KAbs => fun t => if n_ge t n_zero then n_one else n_sub n_zero n_one
   | _ => fun t => if n_lt t n_zero then n_zero else n_one end)
  (fun _ _ => n_one).
(** The rule an operation leaves in its result: rc_tensor.rs:185, 221, 270, 338, element_wise_ops.rs:32, 46, 330, functional/misc.rs:393 *)
Definition op_rule (k : opk) : string :=
  match k with
  | KAdd => "add_jvp" | KNeg => "neg_jvp" | KAbs => "abs_jvp" | KRelu => "relu_jvp" | KTanh => "tanh_derivative_outer"
  | KSum => "ones" | KBmm => "bmm_jvp" | KDot => "dot_jvp"
  end.
(** A call of the program *)
Definition go (f : string) (args : list val) : outcome (val * val) := ModelKernel.run N (op_closures KAdd) f args.

(** The rule applied: autograd/jvp.rs:34 *)
Definition m_jvp (k : opk) (tensors outer : list (raw T)) : outcome (list (raw T)) :=
  get_tens (ModelKernel.run N (op_closures k) (op_rule k) [VTens tensors; VTens outer]).
(** [RawTensor::new], [new_with_filler], [TensorView::new], [to_tensor], [Mul], [add_raw], [TensorView::sum]: raw_tensor.rs:186-203,
    154-176, tensor_view.rs:47-64, 112-118, raw_tensor.rs:402-410, element_wise_ops.rs:281-290, tensor_view.rs:120-125 *)
Definition m_raw_new (a : list T) (s : list nat) : outcome (raw T) := get_ten (go "RawTensor::new" [VArr a; VVec s]).
Definition m_raw_filler (s : list nat) (x : T) : outcome (raw T) := get_ten (go "RawTensor::new_with_filler" [VVec s; VElem x]).
Definition m_view_new (t : raw T) (o : list slice_range) : outcome (view T) := get_view (go "TensorView::new" [VTen (LRaw t); VRanges (Some o)]).
Definition m_to_tensor (l : tlike T) : outcome (raw T) := get_ten (go "to_tensor" [VTen l]).
Definition m_mul_raw (t : raw T) (r : tlike T) : outcome (raw T) := get_ten (go "mul" [VTen (LRaw t); VTen r]).
Definition m_add_raw (a b : tlike T) : outcome (raw T) := get_ten (go "generic_binop_raw" [VTen a; VTen b]).
Definition m_view_sum (v : view T) : outcome (raw T) := get_ten (go "TensorView::sum" [VTen (LView v)]).
Definition m_bmm_raw (a b : tlike T) : outcome (raw T) := get_ten (go "bmm_raw" [VTen a; VTen b]).
(** The forward operations: rc_tensor.rs:206-225, 260-296, 329-345, element_wise_ops.rs:23-70, 323-334, functional/misc.rs:386-398 *)
Definition m_fwd (k : opk) (vs : list (raw T)) : outcome (raw T) :=
  match k, vs with
  | KAdd, [a; b] => m_add_raw (LRaw a) (LRaw b)
  | (KNeg | KAbs | KRelu | KTanh), [a] => get_ten (ModelKernel.run N (op_closures k) "generic_unary_op" [VTen (LRaw a)])
  | KBmm, [a; b] => m_bmm_raw (LRaw a) (LRaw b)
  | KDot, [a; b] => get_ten (go "dot_raw" [VTen (LRaw a); VTen (LRaw b)])
  | _, _ => Panic PAssert
  end.

(** [update_grad]: raw_tensor.rs:307-313, rc_tensor.rs:154-158 *)
Definition m_update_grad (gr : nat -> option (raw T)) (i : nat) (g : raw T) : outcome (nat -> option (raw T)) :=
  match gr i with
  | None => Ret (upd gr i (Some g))
  | Some other_grad => let* s := m_add_raw (LRaw other_grad) (LRaw g) in Ret (upd gr i (Some s))
  end.
(** [Derivative::compute_jvp]: autograd/jvp.rs:30-51; line 41 is a [debug_assert_eq!] *)
Fixpoint m_compute_jvp (fuel : nat) (ns : list (node T)) (k : opk) (inputs : list nat)
    (outer : list (raw T)) (gr : nat -> option (raw T)) : outcome (nat -> option (raw T)) :=
  match fuel with
  | O => NoFuel
  | S f =>
    let* ins := mapM (vindex ns) inputs in
    let* self_grads := m_jvp k (map n_val ins) outer in
    foldM (fun gr '(g, (i, nd)) =>
             let* _ := (if u_debug then assert (length (array g) =? length (array (n_val nd))) else Ret tt) in
             let* shaped_grad := m_raw_new (array g) (shape (n_val nd)) in
             let* gr' := m_update_grad gr i shaped_grad in
             match n_fn nd with
             | Some (k', inputs') => m_compute_jvp f ns k' inputs' [g] gr'
             | None => Ret gr'
             end)
          (combine self_grads (combine inputs ins)) gr
  end.
(** [RcTensor::backward]: rc_tensor.rs:50-60 *)
Definition m_backward (h : heap T) (i : nat) : outcome (heap T) :=
  let* nd := hget h i in
  assert (length (array (n_val nd)) =? 1) ;;
  let* (k, inputs) := unwrap_opt (n_fn nd) in
  let* gr := m_compute_jvp (S (length (nodes h))) (nodes h) k inputs [raw_scalar n_one] (grads h) in
  Ret (mkHeap (nodes h) gr).
(** One operand (lines as for [m_fwd]) *)
Definition m_op1 (k : opk) (h : heap T) (i : nat) : outcome (heap T * nat) :=
  let* a := hget h i in
  let* t := m_fwd k [n_val a] in
  Ret (alloc h t (Some (k, [i])) None).
(** Two operands (lines as for [m_fwd]) *)
Definition m_op2 (k : opk) (h : heap T) (i j : nat) : outcome (heap T * nat) :=
  let* a := hget h i in
  let* b := hget h j in
  let* t := m_fwd k [n_val a; n_val b] in
  Ret (alloc h t (Some (k, [i; j])) None).

(** One call: rc_tensor.rs:45-373, tensor_view.rs:112-125, tensor_like.rs:58-63 (the calls of [exec] in ModelGraph.v) *)
Definition m_exec (s : state T) (c : cmd T) : outcome (state T) :=
  let h := hp s in
  let v := vindex (env s) in
  match c with
  | CNew a sh => push s (let* t := m_raw_new a sh in Ret (alloc h t None None))
  | CFiller sh x => push s (let* t := m_raw_filler sh x in Ret (alloc h t None None))
  | CScalar x => push s (op_scalar h x)
  | CFrom n => push s (op_from h n)
  | CAdd x y => let* i := v x in let* j := v y in push s (m_op2 KAdd h i j)
  | CSub x y => let* i := v x in let* j := v y in push s (let* (h', nj) := m_op1 KNeg h j in m_op2 KAdd h' i nj)
  | CNeg x => let* i := v x in push s (m_op1 KNeg h i)
  | CMul x y => let* i := v x in let* j := v y in
    push s (let* a := hget h i in let* b := hget h j in
            let* t := m_mul_raw (n_val a) (LRaw (n_val b)) in Ret (alloc h t None None))
  | CAbs x => let* i := v x in push s (m_op1 KAbs h i)
  | CRelu x => let* i := v x in push s (m_op1 KRelu h i)
  | CTanh x => let* i := v x in push s (m_op1 KTanh h i)
  | CSum x => let* i := v x in
    push s (let* a := hget h i in
            let* (t, g) := get_two (go "RawTensor::sum" [VTen (LRaw (n_val a))]) in
            Ret (alloc h t (Some (KSum, [i])) (Some g)))
  | CBmm x y => let* i := v x in let* j := v y in push s (m_op2 KBmm h i j)
  | CDot x y => let* i := v x in let* j := v y in push s (m_op2 KDot h i j)
  | CDotMethod x y => let* i := v x in let* j := v y in push s (op_dot_method h i j)
  | CDeepClone x => let* i := v x in push s (op_deep_clone h i)
  | CGrad x => let* i := v x in push s (op_grad h i)
  | CViewToTensor x o => let* i := v x in
    push s (let* a := hget h i in let* w := m_view_new (n_val a) o in
            let* t := m_to_tensor (LView w) in Ret (alloc h t None None))
  | CViewSum x o => let* i := v x in
    push s (let* a := hget h i in let* w := m_view_new (n_val a) o in
            let* t := m_view_sum w in Ret (alloc h t None None))
  | CMulView x y o => let* i := v x in let* j := v y in
    push s (let* a := hget h i in let* b := hget h j in let* w := m_view_new (n_val b) o in
            let* t := m_mul_raw (n_val a) (LView w) in Ret (alloc h t None None))
  | CBmmView x y o => let* i := v x in let* j := v y in
    push s (let* a := hget h i in let* b := hget h j in let* w := m_view_new (n_val b) o in
            let* t := m_bmm_raw (LRaw (n_val a)) (LView w) in
            let* r := m_to_tensor (LView w) in
            let (h1, ir) := alloc h r None None in
            Ret (alloc h1 t (Some (KBmm, [i; ir])) None))
  | CUpdateGrad x y =>
    let* i := v x in let* j := v y in
    let* g := hget h j in
    let* gr := m_update_grad (grads h) i (n_val g) in
    Ret (mkState (mkHeap (nodes h) gr) (env s))
  | CZeroGrad x => let* i := v x in Ret (mkState (zero_grad h i) (env s))
  | CBackward x =>
    let* i := v x in let* h' := m_backward h i in Ret (mkState h' (env s))
  end.
(** Calls one after the other: rc_tensor.rs:45-373 *)
Definition m_run (p : list (cmd T)) (s : state T) : outcome (state T) := foldM m_exec p s.
End Machine.
