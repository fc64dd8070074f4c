(** * ModelKernel: the loops of the crate, statement by statement

    The functions of utils.rs, raw_tensor.rs, tensor_like.rs, element_wise_ops.rs and functional/misc.rs that calculate, written in
    the language of ModelRust.v as they stand in the source.  What is written differently:
    - [x op= e] is [x = x op e]; the capacity of a [Vec::with_capacity] is only evaluated where it can overflow;
    - [for x in iterator] over an [IndexIterator] or [ElementIterator] is the [loop] around [next] it stands for;
    - a mutable borrow of a field ([&mut self.index]) is a copy out and a copy back;
    - a [&mut] parameter comes first;
    - [if let Err(e) = r { panic!() }] is [r.unwrap()]; texts of messages are left out;
    - the tasks of a [rayon] scope run one after the other, where they are spawned (that their order does not matter is
      the subject of ConcFacts.v);
    - the methods of a trait choose the implementation by [EIsView]. *)
From Coq Require String.
Import String.StringSyntax.
From Verif Require Import Base ModelIndex ModelTensor ModelUsize ModelRust.
#[local] Open Scope string_scope.
#[local] Coercion EVar : string >-> expr.
#[local] Coercion ENum : nat >-> expr.
#[local] Coercion PVar : string >-> pat.

(** ** utils.rs *)

(** [reset_trailing_indices]: utils.rs:118-122 ([iter_mut().skip(position + 1)] as positions) *)
Definition k_reset_trailing_indices : func := mkFn ["index"; "position"] (block [
  SFor "i" (IRange (EAdd "position" 1) (ELen "index")) (block [ SSetAt "index" "i" 0 ]) ]).

(** [increment_index]: utils.rs:101-116 *)
Definition k_increment_index : func := mkFn ["index"; "shape"] (block [
  SLet "carry" 1;
  SFor "i" (IRev (IRange 0 (ELen "index"))) (block [
    SLet "v" (EAt "index" "i");
    SLet "dim" (EAt "shape" "i");
    SWhile (EAnd (ELt "v" (ESub "dim" 1)) (ELt 0 "carry")) (block [
      SSetAt "index" "i" (EAdd "v" 1);
      SSet "carry" (ESub "carry" 1) ]);
    SIf (EEq "carry" 0) (block [
      SCall "_" "reset_trailing_indices" "index" [EVar "i"];
      SReturn (EBool true) ]) SSkip ]);
  SReturn (EBool false) ]).

(** [tensor_index_inplace]: utils.rs:135-158 *)
Definition k_tensor_index_inplace : func := mkFn ["index"; "global_index"; "shape"] (block [
  SSet "index" (EVec []);
  SFor PWild (IRange 0 (ELen "shape")) (block [ SPush "index" 0 ]);
  SLet "global_index" "global_index";
  SFor (PPair "idx" "dim") (IRev (IEnum (IElems "shape"))) (block [
    SSetAt "index" "idx" (ERem "global_index" "dim");
    SSet "global_index" (EDiv "global_index" "dim") ]);
  SIf (ELt 0 "global_index") (SReturn (EErr ErrBig)) (SReturn (EOk EUninit)) ]).

(** [tensor_index]: utils.rs:124-133 *)
Definition k_tensor_index : func := mkFn ["global_index"; "shape"] (block [
  SLet "index" (EVec []);
  SCall "r" "tensor_index_inplace" "index" [EVar "global_index"; EVar "shape"];
  SMatch "r" "_" (SReturn (EOk "index")) "e" (SReturn "e") ]).

(** [global_index]: utils.rs:177-247 *)
Definition k_global_index : func := mkFn ["index"; "shape"; "offset"] (block [
  SIf (ELt (ELen "index") (ELen "shape")) (block [
    SFor "dim" (IElems (EUpto "shape" (ESub (ELen "shape") (ELen "index")))) (block [
      SIf (ELt 1 "dim") (SReturn (EErr ErrShort)) SSkip ]) ]) SSkip;
  SLet "global_idx" 0;
  SLet "multiplier" 1;
  SFor (PPair "i" (PPair "dim" "idx_dim")) (IEnum (IZip (IRev (IElems "shape")) (IRev (IElems "index")))) (block [
    SLet "i" (ESub (ESub (ELen "shape") "i") 1);
    SLet "shaped_dim" EUninit;
    SLet "shifted_idx" EUninit;
    SIf (EEq "dim" 1) SContinue SSkip;
    SIfSome "range_vec" "offset" (block [
      SSet "shaped_dim" (ESub (EField (EAt "range_vec" "i") "end") (EField (EAt "range_vec" "i") "start"));
      SSet "shifted_idx" (EAdd (EField (EAt "range_vec" "i") "start") "idx_dim") ])
      (block [
      SSet "shaped_dim" "dim";
      SSet "shifted_idx" "idx_dim" ]);
    SIf (ELe "shaped_dim" "idx_dim") (SReturn (EErr ErrView)) SSkip;
    SIf (ELe "dim" "shifted_idx") (SReturn (EErr ErrDim)) SSkip;
    SSet "global_idx" (EAdd "global_idx" (EMul "shifted_idx" "multiplier"));
    SSet "multiplier" (EMul "multiplier" "dim") ]);
  SReturn (EOk "global_idx") ]).

(** [IndexIterator::new], [next]: utils.rs:77-83, 88-97 *)
Definition k_index_iterator_new : func := mkFn ["dimensions"] (block [
  SReturn (ERec [("index", EFill 0 (ELen "dimensions")); ("dimensions", EVar "dimensions"); ("first", EBool true)]) ]).
(** utils.rs:88-97 *)
Definition k_index_iterator_next : func := mkFn ["self"] (block [
  SIf (EField "self" "first") (block [
    SSetField "self" "first" (EBool false);
    SReturn (ESome (EField "self" "index")) ]) SSkip;
  SLet "index" (EField "self" "index");
  SCall "more" "increment_index" "index" [EField "self" "dimensions"];
  SSetField "self" "index" "index";
  SIf "more" (block [ SReturn (ESome (EField "self" "index")) ]) SSkip;
  SReturn ENone ]).

(** [ElementIterator::new], [next]: utils.rs:23-29, 39-51 *)
Definition k_element_iterator_new : func := mkFn ["tensor_like"] (block [
  SReturn (ERec [("index", EFill 0 (ELen (EField "tensor_like" "shape"))); ("tensor_like", EVar "tensor_like"); ("first", EBool true)]) ]).
(** utils.rs:39-51 *)
Definition k_element_iterator_next : func := mkFn ["self"] (block [
  SIf (EField "self" "first") (block [
    SSetField "self" "first" (EBool false);
    SLet "elem" (EUnwrap (ECall "get" [EField "self" "tensor_like"; EField "self" "index"]));
    SReturn (ESome "elem") ]) SSkip;
  SLet "index" (EField "self" "index");
  SCall "more" "increment_index" "index" [EField (EField "self" "tensor_like") "shape"];
  SSetField "self" "index" "index";
  SIf "more" (block [
    SLet "elem" (EUnwrap (ECall "get" [EField "self" "tensor_like"; EField "self" "index"]));
    SReturn (ESome "elem") ]) SSkip;
  SReturn ENone ]).

(** ** raw_tensor.rs, tensor_view.rs, tensor_like.rs *)

(** [new_empty]: raw_tensor.rs:140-151 *)
Definition k_new_empty : func := mkFn ["shape"] (block [
  SLet "total" 1;
  SFor "dim" (IElems "shape") (block [ SSet "total" (EMul "total" "dim") ]);
  SReturn (ERaw (EFill EZero 0) "shape") ]).
(** [new_with_filler]: raw_tensor.rs:154-176 *)
Definition k_new_with_filler : func := mkFn ["shape"; "filler"] (block [
  SIf (EEq (ELen "shape") 0) (block [ SReturn (ERaw (EFill "filler" 1) "shape") ]) SSkip;
  SLet "total" 1;
  SFor "dim" (IElems "shape") (block [ SSet "total" (EMul "total" "dim") ]);
  SLet "tensor" (ERaw (EFill EZero 0) "shape");
  SFor PWild (IRange 0 "total") (block [ SPush "tensor" "filler" ]);
  SReturn "tensor" ]).
(** [new]: raw_tensor.rs:186-203 *)
Definition k_new : func := mkFn ["array"; "shape"] (block [
  SLet "len" 1;
  SFor "dim" (IElems "shape") (block [ SSet "len" (EMul "len" "dim") ]);
  SAssert (EEq "len" (ELen "array"));
  SReturn (ERaw "array" "shape") ]).
(** [set]: raw_tensor.rs:210-218, 132-138 *)
Definition k_set : func := mkFn ["self"; "index"; "value"] (block [
  SMatch (ECall "global_index" [EVar "index"; EField "self" "shape"; ENone])
    "global_idx" (block [ SSetAt "self" "global_idx" "value"; SReturn (EOk EUninit) ])
    "e" (SReturn "e") ]).
(** [RawTensor::get]: raw_tensor.rs:232-240 *)
Definition k_raw_get : func := mkFn ["self"; "index"] (block [
  SMatch (ECall "global_index" [EVar "index"; EField "self" "shape"; ENone])
    "global_idx" (SReturn (EOk (EAt (EField "self" "array") "global_idx")))
    "e" (SReturn "e") ]).
(** [TensorView::get]: tensor_view.rs:127-133 *)
Definition k_view_get : func := mkFn ["self"; "index"] (block [
  SLet "idx" (EUnwrap (ECall "global_index" [EVar "index"; EField (EField "self" "tensor") "shape"; EField "self" "offset"]));
  SReturn (EOk (EAt (EField (EField "self" "tensor") "array") "idx")) ]).
(** [get] of the trait: tensor_like.rs:34; raw_tensor.rs:345-347, rc_tensor.rs:177-179, tensor_view.rs:127-133 *)
Definition k_get : func := mkFn ["self"; "index"] (block [
  SIf (EIsView "self") (SReturn (ECall "TensorView::get" [EVar "self"; EVar "index"]))
                       (SReturn (ECall "RawTensor::get" [EVar "self"; EVar "index"])) ]).
(** [Index]: raw_tensor.rs:254-263 *)
Definition k_index : func := mkFn ["self"; "index"] (block [
  SReturn (EUnwrap (ECall "RawTensor::get" [EVar "self"; EVar "index"])) ]).
(** [get_first_elem]: tensor_like.rs:37-40 *)
Definition k_get_first_elem : func := mkFn ["self"] (block [
  SLet "shape" (EFill 0 (ELen (EField "self" "shape")));
  SReturn (EUnwrap (ECall "get" [EVar "self"; EVar "shape"])) ]).
(** [tensor]: raw_tensor.rs:335-337, tensor_view.rs:107-110 *)
Definition k_tensor : func := mkFn ["self"] (block [
  SIf (EIsView "self") (SReturn (EField "self" "tensor")) (SReturn "self") ]).
(** [to_tensor]: raw_tensor.rs:339-341, tensor_view.rs:112-118 *)
Definition k_to_tensor : func := mkFn ["self"] (block [
  SIf (ENot (EIsView "self")) (SReturn "self") SSkip;
  SLet "_" (EProduct (EField "self" "shape"));
  SLet "array" (EFill EZero 0);
  SLet "iter" (ECall "ElementIterator::new" [EVar "self"]);
  SLoop (block [
    SCall "next" "ElementIterator::next" "iter" [];
    SIfSome "elem" "next" (block [ SPush "array" "elem" ]) SBreak ]);
  SReturn (ECall "RawTensor::new" [EVar "array"; EField "self" "shape"]) ]).
(** [left_scalar_multiplication], [right_scalar_multiplication]: tensor_like.rs:67-81 *)
Definition k_left_scalar_multiplication : func := mkFn ["self"; "scalar"] (block [
  SLet "result" (ECall "RawTensor::new_empty" [EField "self" "shape"]);
  SFor "elem" (IElems (EField (ECall "tensor" [EVar "self"]) "array")) (block [ SPush "result" (ETimes "scalar" "elem") ]);
  SReturn "result" ]).
(** tensor_like.rs:75-81 *)
Definition k_right_scalar_multiplication : func := mkFn ["self"; "scalar"] (block [
  SLet "result" (ECall "RawTensor::new_empty" [EField "self" "shape"]);
  SFor "elem" (IElems (EField (ECall "tensor" [EVar "self"]) "array")) (block [ SPush "result" (ETimes "elem" "scalar") ]);
  SReturn "result" ]).
(** [same_shape]: tensor_like.rs:115-121 *)
Definition k_same_shape : func := mkFn ["self"; "other"] (block [
  SReturn (EEq (EField "self" "shape") (EField "other" "shape")) ]).
(** [broadcastable]: tensor_like.rs:125-141 *)
Definition k_broadcastable : func := mkFn ["self"; "new_shape"] (block [
  SFor (PPair "d1" "d2") (IZip (IRev (IElems (EField "self" "shape"))) (IRev (IElems "new_shape"))) (block [
    SIf (ENot (EEq "d1" "d2")) (block [
      SIf (EOr (EEq "d1" 1) (EEq "d2" 1)) (block [ SContinue ]) SSkip;
      SReturn (EBool false) ]) SSkip ]);
  SReturn (EBool true) ]).

(** ** functional/element_wise_ops.rs *)

(** [max_shape]: element_wise_ops.rs:261-279 *)
Definition k_max_shape : func := mkFn ["left_shape"; "right_shape"] (block [
  SLet "max_shape" (EVec []);
  SFor (PPair "l" "r") (IRev (IZipLongest (IRev (IElems "left_shape")) (IRev (IElems "right_shape")))) (block [
    SLet "dim" EUninit;
    SIfSome "l" "l" (SIfSome "r" "r" (SSet "dim" (EMax "l" "r")) (SSet "dim" "l"))
                    (SIfSome "r" "r" (SSet "dim" "r") SSkip);
    SPush "max_shape" "dim" ]);
  SReturn "max_shape" ]).
(** [generic_binop_raw]: element_wise_ops.rs:292-324; the closure is the function ["op"] *)
Definition k_generic_binop_raw : func := mkFn ["left"; "right"] (block [
  SAssert (ECall "broadcastable" [EVar "left"; EField "right" "shape"]);
  SLet "_length" (EMax (ELen (EField "right" "shape")) (ELen (EField "left" "shape")));
  SLet "max_shape" (ECall "max_shape" [EField "left" "shape"; EField "right" "shape"]);
  SLet "index_iter" (ECall "IndexIterator::new" [EVar "max_shape"]);
  SLet "result" (ECall "RawTensor::new_with_filler" [EVar "max_shape"; EZero]);
  SLoop (block [
    SCall "next" "IndexIterator::next" "index_iter" [];
    SIfSome "idx" "next" (block [
      SLet "l" (EUnwrap (ECall "get" [EVar "left"; EVar "idx"]));
      SLet "r" (EUnwrap (ECall "get" [EVar "right"; EVar "idx"]));
      SLet "v" (ECall "op" [EVar "l"; EVar "r"]);
      SCall "e" "set" "result" [EVar "idx"; EVar "v"];
      SLet "_" (EUnwrap "e") ]) SBreak ]);
  SReturn "result" ]).
(** [generic_unary_op]: element_wise_ops.rs:396-414; the closure is the function ["op"] *)
Definition k_generic_unary_op : func := mkFn ["tensor_like"] (block [
  SLet "tensor" (ECall "to_tensor" [EVar "tensor_like"]);
  SLet "shape" (EField "tensor_like" "shape");
  SLet "length" (ELen (EField "tensor" "array"));
  SLet "array" (EFill EZero 0);
  SLet "idx" (EFill 0 (ELen "shape"));
  SFor PWild (IRange 0 "length") (block [
    SLet "elem" (EUnwrap (ECall "get" [EVar "tensor_like"; EVar "idx"]));
    SLet "v" (ECall "op" [EVar "elem"]);
    SPush "array" "v";
    SCall "_" "increment_index" "idx" [EVar "shape"] ]);
  SReturn (ECall "RawTensor::new" [EVar "array"; EField "tensor" "shape"]) ]).
(** [jvp_from_diagonal_broadcast]: element_wise_ops.rs:130-189 *)
Definition k_jvp_from_diagonal_broadcast : func := mkFn ["diagonal"; "jvp_shape"; "broadcast_shape"; "input_shape"; "grad"] (block [
  SDebugAssert (ELe (ELen (EField "grad" "shape")) 2);
  SLet "dim_0" EUninit;
  SIf (ELe (ELen (EField "grad" "shape")) 1) (SSet "dim_0" 1) (SSet "dim_0" (EAt (EField "grad" "shape") 0));
  SLet "js" EUninit;
  SIfSome "v" "jvp_shape" (SSet "js" "v") (SSet "js" (EVec [EVar "dim_0"; ELen (EField "diagonal" "array")]));
  SLet "jvp_shape" "js";
  SAssert (EEq "dim_0" (EAt "jvp_shape" 0));
  SLet "array" (EFill EZero (EMul (EAt "jvp_shape" 0) (EAt "jvp_shape" 1)));
  SLet "idx" (EFill 0 (ELen (EField "diagonal" "shape")));
  SLet "orig_idx" (EFill 0 (ELen "broadcast_shape"));
  SLoop (block [
    SLet "jac_idx1" (EUnwrap (ECall "global_index" [EVar "idx"; EField "diagonal" "shape"; ENone]));
    SFor "jac_idx0" (IRange 0 "dim_0") (block [
      SLet "output_idx" (EUnwrap (ECall "global_index" [EVar "orig_idx"; EVar "input_shape"; ENone]));
      SLet "output_jac_idx" (EUnwrap (ECall "global_index" [EVec [EVar "jac_idx0"; EVar "output_idx"]; EVar "jvp_shape"; ENone]));
      SLet "grad_val" (ECall "index" [EVar "grad"; EVec [EVar "jac_idx0"; EVar "jac_idx1"]]);
      SLet "diag_val" (ECall "index" [EVar "diagonal"; EVar "idx"]);
      SSetAt "array" "output_jac_idx" (EPlus (EAt "array" "output_jac_idx") (ETimes "diag_val" "grad_val")) ]);
    SCall "more" "increment_index" "idx" [EField "diagonal" "shape"];
    SIf (ENot "more") (block [ SBreak ]) SSkip;
    SCall "ok" "increment_index" "orig_idx" [EVar "broadcast_shape"];
    SAssert "ok" ]);
  SLet "raw_left_grad" (ECall "RawTensor::new" [EVar "array"; EVar "jvp_shape"]);
  SReturn "raw_left_grad" ]).
(** [generic_unary_jvp]: element_wise_ops.rs:360-394; the closure is the function ["op_derivative"] *)
Definition k_generic_unary_jvp : func := mkFn ["tensor"; "grad"] (block [
  SLet "diag_length" (ELen (EField "tensor" "array"));
  SLet "diag_shape" (EVec [ENum 1; EVar "diag_length"]);
  SLet "dim_0" EUninit;
  SIf (EEq (ELen (EField "grad" "shape")) 0) (SSet "dim_0" 1) (SSet "dim_0" (EAt (EField "grad" "shape") 0));
  SLet "jvp_shape" (EVec [EVar "dim_0"; EVar "diag_length"]);
  SLet "array" (EFill EZero 0);
  SLet "idx" (EFill 0 (ELen (EField "tensor" "shape")));
  SLoop (block [
    SLet "v" (EUnwrap (ECall "RawTensor::get" [EVar "tensor"; EVar "idx"]));
    SLet "d" (ECall "op_derivative" [EVar "v"]);
    SPush "array" "d";
    SCall "more" "increment_index" "idx" [EField "tensor" "shape"];
    SIf (ENot "more") (block [ SBreak ]) SSkip ]);
  SLet "diag" (ECall "RawTensor::new" [EVar "array"; EVar "diag_shape"]);
  SReturn (ETens [ECall "jvp_from_diagonal_broadcast"
    [EVar "diag"; ESome "jvp_shape"; EField "tensor" "shape"; EField "tensor" "shape"; EVar "grad"]]) ]).
(** [generic_binop_jvp]: element_wise_ops.rs:201-259; the closure is the function ["op_derivative"].  The [debug_assert_eq!]
    of line 242 compares what [RawTensor::new] has just compared. *)
Definition k_generic_binop_jvp : func := mkFn ["left"; "right"; "grad"] (block [
  SLet "broadcast_shape" (ECall "max_shape" [EField "left" "shape"; EField "right" "shape"]);
  SLet "diag_length" (EProduct "broadcast_shape");
  SLet "diag_shape" (EVec [ENum 1; EVar "diag_length"]);
  SIf (ELe 2 (ELen (EField "grad" "shape"))) (block [
    SAssert (EEq (EAt (EField "grad" "shape") 1) "diag_length") ]) SSkip;
  SLet "dim_0" EUninit;
  SIf (EEq (ELen (EField "grad" "shape")) 0) (SSet "dim_0" 1) (SSet "dim_0" (EAt (EField "grad" "shape") 0));
  SLet "right_jvp_shape" (EVec [EVar "dim_0"; ELen (EField "right" "array")]);
  SLet "left_jvp_shape" (EVec [EVar "dim_0"; ELen (EField "left" "array")]);
  SLet "array" (EFill EZero 0);
  SLet "idx" (EFill 0 (ELen "broadcast_shape"));
  SLoop (block [
    SLet "l" (EUnwrap (ECall "RawTensor::get" [EVar "left"; EVar "idx"]));
    SLet "r" (EUnwrap (ECall "RawTensor::get" [EVar "right"; EVar "idx"]));
    SPush "array" (ECall "op_derivative" [EVar "l"; EVar "r"]);
    SCall "more" "increment_index" "idx" [EVar "broadcast_shape"];
    SIf (ENot "more") (block [ SBreak ]) SSkip ]);
  SLet "diag" (ECall "RawTensor::new" [EVar "array"; EVar "diag_shape"]);
  SDebugAssert (EEq (ELen (EField "diag" "array")) (EProduct "diag_shape"));
  SLet "left_jvp" (ECall "jvp_from_diagonal_broadcast"
    [EVar "diag"; ESome "left_jvp_shape"; EVar "broadcast_shape"; EField "left" "shape"; EVar "grad"]);
  SLet "right_jvp" (ECall "jvp_from_diagonal_broadcast"
    [EVar "diag"; ESome "right_jvp_shape"; EVar "broadcast_shape"; EField "right" "shape"; EVar "grad"]);
  SReturn (ETens [EVar "left_jvp"; EVar "right_jvp"]) ]).
(** [tanh_derivative] for a full Jacobian, as it is called (line 78): element_wise_ops.rs:84-110 *)
Definition k_tanh_derivative : func := mkFn ["tensor"] (block [
  SLet "length" (EProduct (EField "tensor" "shape"));
  SLet "_" (EMul "length" "length");
  SLet "array" (EFill EZero 0);
  SFor "i" (IRange 0 "length") (block [
    SFor "j" (IRange 0 "length") (block [
      SLet "v" EUninit;
      SIf (EEq "i" "j")
        (block [ SLet "t" (ETanh (EAt (EField "tensor" "array") "i")); SSet "v" (EMinus EOne (ETimes "t" "t")) ])
        (SSet "v" EZero);
      SPush "array" "v" ]) ]);
  SReturn (ECall "RawTensor::new" [EVar "array"; EVec [EVar "length"; EVar "length"]]) ]).

(** ** functional/misc.rs *)

(** [dot_raw]: functional/misc.rs:23-43 *)
Definition k_dot_raw : func := mkFn ["left"; "right"] (block [
  SAssert (ECall "same_shape" [EVar "left"; EVar "right"]);
  SLet "result" EZero;
  SFor "i" (IRange 0 (ELen (EField (ECall "tensor" [EVar "left"]) "array"))) (block [
    SSet "result" (EPlus "result" (ETimes (EAt (EField (ECall "tensor" [EVar "left"]) "array") "i")
                                          (EAt (EField (ECall "tensor" [EVar "right"]) "array") "i"))) ]);
  SReturn (ERaw (EFill "result" 1) (EVec [ENum 1])) ]).
(** [element_wise_multiplication]: functional/misc.rs:333-349; [zip] asks the left iterator first *)
Definition k_element_wise_multiplication : func := mkFn ["left"; "right"] (block [
  SLet "left_shape_vec" (EField "left" "shape");
  SAssert (ECall "same_shape" [EVar "left"; EVar "right"]);
  SLet "array" (EFill EZero 0);
  SLet "li" (ECall "ElementIterator::new" [EVar "left"]);
  SLet "ri" (ECall "ElementIterator::new" [EVar "right"]);
  SLoop (block [
    SCall "x" "ElementIterator::next" "li" [];
    SIfSome "x" "x" (block [
      SCall "y" "ElementIterator::next" "ri" [];
      SIfSome "y" "y" (block [ SPush "array" (ETimes "x" "y") ]) SBreak ]) SBreak ]);
  SReturn (ECall "RawTensor::new" [EVar "array"; EVar "left_shape_vec"]) ]).
(** [bmm_raw]: functional/misc.rs:46-139 *)
Definition k_bmm_raw : func := mkFn ["left"; "right"] (block [
  SAssert (ELe 2 (ELen (EField "left" "shape")));
  SAssert (EEq (ELen (EField "right" "shape")) 2);
  SAssert (EEq (EAt (EField "left" "shape") (ESub (ELen (EField "left" "shape")) 1))
               (EAt (EField "right" "shape") (ESub (ELen (EField "right" "shape")) 2)));
  SLet "new_shape" EUninit;
  SIf (EEq (ELen (EField "left" "shape")) 2)
    (SSet "new_shape" (EVec [ENum 1; EAt (EField "left" "shape") 0; EAt (EField "right" "shape") 1]))
    (SSet "new_shape" (EVec [EAt (EField "left" "shape") 0; EAt (EField "left" "shape") 1; EAt (EField "right" "shape") 1]));
  SLet "result_array" (EFill EZero (EProduct "new_shape"));
  SLet "left_index" (EField "left" "shape");
  SLet "left_index_len" (ELen "left_index");
  SLet "right_index" (EField "right" "shape");
  SLet "right_shape" (EField "right" "shape");
  SLet "remaining_slice" (ESlice "result_array");
  SFor "batch_idx" (IRange 0 (EAt "new_shape" 0)) (block [
    SIf (EEq (ELen (EField "left" "shape")) 3) (block [ SSetAt "left_index" 0 "batch_idx" ]) SSkip;
    SFor "i" (IRange 0 (EAt "new_shape" 1)) (block [
      SLet "slice" EUninit;
      SSplit "slice" "remaining_slice" "remaining_slice" (EAt "new_shape" 2);
      SAssert (EEq (ELen "slice") (EAt "new_shape" 2));
      SSetAt "left_index" (ESub "left_index_len" 2) "i";
      SFor "j" (IRange 0 (EAt "new_shape" 2)) (block [
        SLet "slot" EUninit;
        SSplit "slot" "slice" "slice" 1;
        SLet "right_index2" "right_index";
        SLet "left_index2" "left_index";
        SSetAt "right_index2" 1 "j";
        SLet "val" EZero;
        SFor "k" (IRange 0 (EAt "right_shape" 0)) (block [
          SSetAt "left_index2" (ESub "left_index_len" 1) "k";
          SSetAt "right_index2" 0 "k";
          SSet "val" (EPlus "val" (ETimes (EUnwrap (ECall "get" [EVar "left"; EVar "left_index2"]))
                                          (EUnwrap (ECall "get" [EVar "right"; EVar "right_index2"])))) ]);
        SSetSlice "result_array" "slot" 0 "val" ]) ]) ]);
  SIf (EEq (ELen (EField "left" "shape")) 2)
    (SReturn (ERaw "result_array" (EFrom "new_shape" 1)))
    (SReturn (ERaw "result_array" "new_shape")) ]).

(** [SplitArrayWriter::new]: functional/misc.rs:151-165; [channels] are both [senders] and [receivers] *)
Definition k_split_array_writer_new : func := mkFn ["slice"] (block [
  SLet "bit_width" 5;
  SLet "width" (EShl 1 "bit_width");
  SLet "splits" (EDiv (ELen "slice") "width");
  SLet "segments" (EParts "slice" "width");
  SLet "channels" (EChans (ELen "segments"));
  SReturn (ERec [("segments", EVar "segments"); ("bit_width", EVar "bit_width"); ("width", EVar "width"); ("splits", EVar "splits");
                 ("channels", EVar "channels")]) ]).
(** The closure [get_writer] returns, with its captured [senders] and [bit_width]: functional/misc.rs:173-176 *)
Definition k_writer : func := mkFn ["senders"; "bit_width"; "global_idx"; "val"] (block [
  SLet "sender_idx" (EShr "global_idx" "bit_width");
  SSend "senders" "sender_idx" "global_idx" "val";
  SReturn (EOk EUninit) ]).
(** [start_then_join], the receivers one after the other; [array] is what the segments are parts of: functional/misc.rs:179-200 *)
Definition k_start_then_join : func := mkFn ["array"; "segments"; "receivers"; "width"] (block [
  SFor (PPair (PVar "slice_idx") (PPair (PVar "slice") (PVar "rx"))) (IEnum (IZip (IElems "segments") (IElems "receivers"))) (block [
    SFor (PPair (PVar "global_idx") (PVar "value")) (IElems "rx") (block [
      SLet "local_idx" (ESub "global_idx" (EMul "slice_idx" "width"));
      SAssert (ELt "local_idx" (ELen "slice"));
      SSetSlice "array" "slice" "local_idx" (EPlus (ESliceAt "array" "slice" "local_idx") "value") ]) ]) ]).
(** [bmm_jvp]: functional/misc.rs:211-331.  A spawned task (lines 272-319) runs where it is spawned: one schedule of the many; the
    channels hold what the tasks have sent until the receivers run (lines 325-326). *)
Definition k_bmm_jvp : func := mkFn ["inputs"; "jacobians"] (block [
  SAssert (EAnd (EEq (ELen "inputs") 2) (EEq (ELen "jacobians") 1));
  SAssert (EEq (EAt (EField (EAt "inputs" 0) "shape") 1) (EAt (EField (EAt "inputs" 1) "shape") 0));
  SLet "bmm_output_shape" (EVec [EAt (EField (EAt "inputs" 0) "shape") 0; EAt (EField (EAt "inputs" 1) "shape") 1]);
  SLet "left_jacobian_shape" (EVec [
    EMul (EAt "bmm_output_shape" 0) (EAt "bmm_output_shape" 1);
    EMul (EAt (EField (EAt "inputs" 0) "shape") 0) (EAt (EField (EAt "inputs" 0) "shape") 1)]);
  SLet "left_output_shape" (EVec [EAt (EField (EAt "jacobians" 0) "shape") 0; EAt "left_jacobian_shape" 1]);
  SLet "left_length" (EMul (EAt "left_output_shape" 0) (EAt "left_output_shape" 1));
  SLet "left_array" (EFill EZero "left_length");
  SLet "right_jacobian_shape" (EVec [
    EMul (EAt "bmm_output_shape" 0) (EAt "bmm_output_shape" 1);
    EMul (EAt (EField (EAt "inputs" 1) "shape") 0) (EAt (EField (EAt "inputs" 1) "shape") 1)]);
  SLet "right_output_shape" (EVec [EAt (EField (EAt "jacobians" 0) "shape") 0; EAt "right_jacobian_shape" 1]);
  SLet "right_length" (EMul (EAt "right_output_shape" 0) (EAt "right_output_shape" 1));
  SLet "right_array" (EFill EZero "right_length");
  SLet "left_split_writer" (ECall "SplitArrayWriter::new" [ESlice "left_array"]);
  SLet "right_split_writer" (ECall "SplitArrayWriter::new" [ESlice "right_array"]);
  SLet "left_senders" (EField "left_split_writer" "channels");
  SLet "right_senders" (EField "right_split_writer" "channels");
  SFor "i" (IRange 0 (EAt (EField (EAt "inputs" 0) "shape") 0)) (block [
    SFor "k" (IRange 0 (EAt (EField (EAt "inputs" 0) "shape") 1)) (block [
      SFor "j" (IRange 0 (EAt (EField (EAt "inputs" 1) "shape") 1)) (block [
        SLet "self_jac_idx0" (EUnwrap (ECall "global_index" [EVec [EVar "i"; EVar "j"]; EVar "bmm_output_shape"; ENone]));
        SLet "left_jac_idx1" (EUnwrap (ECall "global_index" [EVec [EVar "i"; EVar "k"]; EField (EAt "inputs" 0) "shape"; ENone]));
        SLet "right_jac_idx1" (EUnwrap (ECall "global_index" [EVec [EVar "k"; EVar "j"]; EField (EAt "inputs" 1) "shape"; ENone]));
        SAssert (ELt "self_jac_idx0" (EAt "left_jacobian_shape" 0));
        SAssert (ELt "self_jac_idx0" (EAt (EField (EAt "jacobians" 0) "shape") 1));
        SAssert (ELt "left_jac_idx1" (EAt "left_jacobian_shape" 1));
        SFor "input_jac_idx" (IRange 0 (EAt (EField (EAt "jacobians" 0) "shape") 0)) (block [
          SLet "tmp_left" EUninit;
          SMatch (ECall "global_index" [EVec [EVar "input_jac_idx"; EVar "left_jac_idx1"]; EVar "left_output_shape"; ENone])
            "t" (SSet "tmp_left" "t") "e" SPanic;
          SLet "left_val" (ETimes (ECall "index" [EAt "jacobians" 0; EVec [EVar "input_jac_idx"; EVar "self_jac_idx0"]])
                                  (ECall "index" [EAt "inputs" 1; EVec [EVar "k"; EVar "j"]]));
          SCall "sent" "left_writer" "left_senders" [EField "left_split_writer" "bit_width"; EVar "tmp_left"; EVar "left_val"];
          SLet "_" (EUnwrap "sent");
          SLet "tmp_right" EUninit;
          SMatch (ECall "global_index" [EVec [EVar "input_jac_idx"; EVar "right_jac_idx1"]; EVar "right_output_shape"; ENone])
            "t" (SSet "tmp_right" "t") "e" SPanic;
          SLet "right_val" (ETimes (ECall "index" [EAt "jacobians" 0; EVec [EVar "input_jac_idx"; EVar "self_jac_idx0"]])
                                   (ECall "index" [EAt "inputs" 0; EVec [EVar "i"; EVar "k"]]));
          SCall "sent" "right_writer" "right_senders" [EField "right_split_writer" "bit_width"; EVar "tmp_right"; EVar "right_val"];
          SLet "_" (EUnwrap "sent") ]) ]) ]) ]);
  SCall "_" "start_then_join" "right_array"
    [EField "right_split_writer" "segments"; EVar "right_senders"; EField "right_split_writer" "width"];
  SCall "_" "start_then_join" "left_array"
    [EField "left_split_writer" "segments"; EVar "left_senders"; EField "left_split_writer" "width"];
  SReturn (ETens [ECall "RawTensor::new" [EVar "left_array"; EVar "left_output_shape"];
                  ECall "RawTensor::new" [EVar "right_array"; EVar "right_output_shape"]]) ]).

(** ** Sums, views, products, and the rules of derivatives *)

(** [is_scalar]: raw_tensor.rs:128-130, rc_tensor.rs:61-63 *)
Definition k_is_scalar : func := mkFn ["self"] (block [
  SReturn (EAnd (EEq (ELen (EField "self" "array")) 1) (EEq (ELen (EField "self" "shape")) 0)) ]).
(** [RawTensor::sum]: raw_tensor.rs:318-329; [fold] as the loop it is.  The scalar, and the tensor that [update_grad] stores in it *)
Definition k_raw_sum : func := mkFn ["self"] (block [
  SLet "v" EZero;
  SFor "x" (IElems (EField "self" "array")) (block [ SSet "v" (EPlus "v" "x") ]);
  SLet "scalar" (ERaw (EFill "v" 1) (EVec []));
  SReturn (ETens [EVar "scalar"; ECall "RawTensor::new_with_filler" [EField "self" "shape"; EOne]]) ]).
(** [TensorView::sum]: tensor_view.rs:120-125 *)
Definition k_view_sum : func := mkFn ["self"] (block [
  SLet "iter" (ECall "ElementIterator::new" [EVar "self"]);
  SLet "v" EZero;
  SLoop (block [
    SCall "next" "ElementIterator::next" "iter" [];
    SIfSome "x" "next" (block [ SSet "v" (EPlus "v" "x") ]) SBreak ]);
  SReturn (ERaw (EFill "v" 1) (EVec [])) ]).
(** [TensorView::new]: tensor_view.rs:47-64 *)
Definition k_view_new : func := mkFn ["tensor"; "offset"] (block [
  SAssert (EEq (ELen "offset") (ELen (EField "tensor" "shape")));
  SLet "shape" (EVec []);
  SFor (PPair "slice_range" "tensor_dim") (IZip (IElems "offset") (IElems (EField "tensor" "shape"))) (block [
    SAssert (ELe (EField "slice_range" "end") "tensor_dim");
    SPush "shape" (ESub (EField "slice_range" "end") (EField "slice_range" "start")) ]);
  SReturn (EView "tensor" "shape" "offset") ]).
(** [TensorView::reshape]: tensor_view.rs:66-79 *)
Definition k_view_reshape : func := mkFn ["self"; "shape"] (block [
  SAssert (EEq (EProduct (EField "self" "shape")) (EProduct "shape"));
  SReturn (EView (EField "self" "tensor") "shape" (EField "self" "offset")) ]).
(** [eq] of views: tensor_view.rs:164-176, tensor_like.rs:143-145 *)
Definition k_view_eq : func := mkFn ["self"; "other"] (block [
  SIf (ENot (EEq (EField "other" "shape") (EField "self" "shape"))) (block [ SReturn (EBool false) ]) SSkip;
  SLet "iter" (ECall "IndexIterator::new" [EField "self" "shape"]);
  SLoop (block [
    SCall "next" "IndexIterator::next" "iter" [];
    SIfSome "idx" "next" (block [
      SIf (ENot (EEq (ECall "TensorView::get" [EVar "self"; EVar "idx"]) (ECall "get" [EVar "other"; EVar "idx"])))
        (block [ SReturn (EBool false) ]) SSkip ]) SBreak ]);
  SReturn (EBool true) ]).
(** [Mul]: raw_tensor.rs:402-410 *)
Definition k_mul : func := mkFn ["self"; "right"] (block [
  SIf (EEq (ELen (EField "self" "shape")) 0) (block [
    SReturn (ECall "left_scalar_multiplication" [EVar "right"; EAt (EField "self" "array") 0]) ]) SSkip;
  SIf (EEq (ELen (EField "right" "shape")) 0) (block [
    SReturn (ECall "right_scalar_multiplication" [EVar "self"; ECall "get_first_elem" [EVar "right"]]) ]) SSkip;
  SReturn (ECall "element_wise_multiplication" [EVar "self"; EVar "right"]) ]).
(** [jvp_from_full_jacobians]: autograd/jvp.rs:56-70 *)
Definition k_jvp_from_full_jacobians : func := mkFn ["left"; "right"] (block [
  SIf (EOr (ECall "is_scalar" [EVar "right"])
      (EOr (EEq (EProduct (EField "right" "shape")) 1)
      (EOr (ECall "is_scalar" [EVar "left"])
           (EEq (EProduct (EField "left" "shape")) 1))))
    (block [
      SAssert (EOr (ECall "is_scalar" [EVar "left"]) (EEq (EProduct (EField "left" "shape")) 1));
      SReturn (ECall "mul" [EVar "left"; EVar "right"]) ])
    (block [ SReturn (ECall "bmm_raw" [EVar "left"; EVar "right"]) ]) ]).
(** [ones]: autograd/jvp.rs:72-79 *)
Definition k_ones : func := mkFn ["tensors"; "grads"] (block [
  SAssert (EEq (ELen "tensors") 1);
  SAssert (EEq (ELen "grads") 1);
  SLet "length_1" (EProduct (EField (EAt "tensors" 0) "shape"));
  SLet "length_2" (EProduct (EField (EAt "grads" 0) "shape"));
  SLet "raw_tensor" (ECall "RawTensor::new_with_filler" [EVec [EVar "length_2"; EVar "length_1"]; EOne]);
  SReturn (ETens [EVar "raw_tensor"]) ]).
(** [tanh_derivative_outer]: element_wise_ops.rs:72-81 *)
Definition k_tanh_derivative_outer : func := mkFn ["tensors"; "grads"] (block [
  SAssert (EEq (ELen "tensors") 1);
  SAssert (EEq (ELen "grads") 1);
  SLet "jacobian" (ECall "tanh_derivative" [EAt "tensors" 0]);
  SLet "new_grad" (ECall "jvp_from_full_jacobians" [EAt "grads" 0; EVar "jacobian"]);
  SReturn (ETens [EVar "new_grad"]) ]).
(** [dot_jvp]: functional/misc.rs:362-374 *)
Definition k_dot_jvp : func := mkFn ["inputs"; "jacobians"] (block [
  SAssert (EAnd (EEq (ELen "inputs") 2) (EEq (ELen "jacobians") 1));
  SLet "left" (EAt "inputs" 0);
  SLet "right" (EAt "inputs" 1);
  SLet "jacobian" (EAt "jacobians" 0);
  SLet "left_jvp" (ECall "jvp_from_full_jacobians" [EVar "jacobian"; EVar "right"]);
  SLet "right_jvp" (ECall "jvp_from_full_jacobians" [EVar "jacobian"; EVar "left"]);
  SReturn (ETens [EVar "left_jvp"; EVar "right_jvp"]) ]).
(** [add_jvp]: element_wise_ops.rs:191-199.  The closure it passes is the program's [op_derivative]; so too in the next three. *)
Definition k_add_jvp : func := mkFn ["tensors"; "grads"] (block [
  SAssert (EEq (ELen "tensors") 2);
  SAssert (EEq (ELen "grads") 1);
  SLet "left" (EAt "tensors" 0);
  SLet "right" (EAt "tensors" 1);
  SLet "grad" (EAt "grads" 0);
  SReturn (ECall "generic_binop_jvp" [EVar "left"; EVar "right"; EVar "grad"]) ]).
(** The closure in [relu]: element_wise_ops.rs:46-66 *)
Definition k_relu_jvp : func := mkFn ["tensors"; "grads"] (block [
  SAssert (EEq (ELen "tensors") 1);
  SAssert (EEq (ELen "grads") 1);
  SReturn (ECall "generic_unary_jvp" [EAt "tensors" 0; EAt "grads" 0]) ]).
(** [abs_jvp]: element_wise_ops.rs:336-350 *)
Definition k_abs_jvp : func := mkFn ["tensors"; "grads"] (block [
  SAssert (EEq (ELen "tensors") 1);
  SAssert (EEq (ELen "grads") 1);
  SAssert (EEq (ELen (EField (EAt "grads" 0) "shape")) 2);
  SReturn (ECall "generic_unary_jvp" [EAt "tensors" 0; EAt "grads" 0]) ]).
(** The closure in [neg]: rc_tensor.rs:338-340 *)
Definition k_neg_jvp : func := mkFn ["tensors"; "grads"] (block [
  SReturn (ECall "generic_unary_jvp" [EAt "tensors" 0; EAt "grads" 0]) ]).

(** ** The program *)
Section Kernel.
Context {U : usize_ops} {T : Type} {NT : Num T}.
(** The closures the generic functions are called with: element_wise_ops.rs:295, 363, 205, 396 *)
Record closures : Type := mkClosures { c_op1 : T -> T; c_op2 : T -> T -> T; c_deriv1 : T -> T; c_deriv2 : T -> T -> T }.
Definition closure_env (c : closures) : fenv := fun f =>
  if String.eqb f "op" then
    Some (fun args => match args with
                      | [VElem x] => Ret (VElem (c_op1 c x), VElem x)
                      | [VElem x; VElem y] => Ret (VElem (c_op2 c x y), VElem x)
                      | _ => stuck end)
  else if String.eqb f "op_derivative" then
    Some (fun args => match args with
                      | [VElem x] => Ret (VElem (c_deriv1 c x), VElem x)
                      | [VElem x; VElem y] => Ret (VElem (c_deriv2 c x y), VElem x)
                      | _ => stuck end)
  else None.
(** utils.rs, raw_tensor.rs, tensor_view.rs, tensor_like.rs, functional/element_wise_ops.rs, functional/misc.rs, autograd/jvp.rs: callees first *)
Definition kernel : list (string * func) :=
  [ ("reset_trailing_indices", k_reset_trailing_indices);
    ("increment_index", k_increment_index);
    ("tensor_index_inplace", k_tensor_index_inplace);
    ("tensor_index", k_tensor_index);
    ("global_index", k_global_index);
    ("RawTensor::new_empty", k_new_empty);
    ("RawTensor::new_with_filler", k_new_with_filler);
    ("RawTensor::new", k_new);
    ("set", k_set);
    ("RawTensor::get", k_raw_get);
    ("TensorView::get", k_view_get);
    ("get", k_get);
    ("index", k_index);
    ("get_first_elem", k_get_first_elem);
    ("tensor", k_tensor);
    ("IndexIterator::new", k_index_iterator_new);
    ("IndexIterator::next", k_index_iterator_next);
    ("ElementIterator::new", k_element_iterator_new);
    ("ElementIterator::next", k_element_iterator_next);
    ("to_tensor", k_to_tensor);
    ("left_scalar_multiplication", k_left_scalar_multiplication);
    ("right_scalar_multiplication", k_right_scalar_multiplication);
    ("same_shape", k_same_shape);
    ("broadcastable", k_broadcastable);
    ("max_shape", k_max_shape);
    ("generic_binop_raw", k_generic_binop_raw);
    ("generic_unary_op", k_generic_unary_op);
    ("jvp_from_diagonal_broadcast", k_jvp_from_diagonal_broadcast);
    ("generic_unary_jvp", k_generic_unary_jvp);
    ("generic_binop_jvp", k_generic_binop_jvp);
    ("tanh_derivative", k_tanh_derivative);
    ("dot_raw", k_dot_raw);
    ("element_wise_multiplication", k_element_wise_multiplication);
    ("bmm_raw", k_bmm_raw);
    ("SplitArrayWriter::new", k_split_array_writer_new);
    ("left_writer", k_writer);
    ("right_writer", k_writer);
    ("start_then_join", k_start_then_join);
    ("bmm_jvp", k_bmm_jvp);
    ("is_scalar", k_is_scalar);
    ("RawTensor::sum", k_raw_sum);
    ("TensorView::sum", k_view_sum);
    ("TensorView::new", k_view_new);
    ("reshape", k_view_reshape);
    ("eq", k_view_eq);
    ("mul", k_mul);
    ("jvp_from_full_jacobians", k_jvp_from_full_jacobians);
    ("ones", k_ones);
    ("tanh_derivative_outer", k_tanh_derivative_outer);
    ("dot_jvp", k_dot_jvp);
    ("add_jvp", k_add_jvp);
    ("relu_jvp", k_relu_jvp);
    ("abs_jvp", k_abs_jvp);
    ("neg_jvp", k_neg_jvp) ].
(** A call of a function of the program, loops limited to [N] turns *)
Definition run (N : nat) (c : closures) (f : string) (args : list val) : outcome (val * val) :=
  call (link N (closure_env c) kernel) f args.
End Kernel.
