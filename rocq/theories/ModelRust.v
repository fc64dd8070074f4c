(** * ModelRust: a small language with Rust's statements

    The other Model files are functional transcriptions of the crate's loops.  Here is a language in which the loops can be
    written down as they stand in the source - mutable variables, shadowing, [for], [while], [loop], [break], [continue],
    [return], [?: if let], calls with [&mut] - with its meaning.  ModelKernel.v writes the crate's loops in it; RustFacts.v
    proves that they compute the functional transcriptions.

    Not in the language: borrowing (the borrow checker has accepted the source), moves, destructors.  A value passed by
    reference is copied in, and for [&mut] copied out.  Ill-typed programs and loops longer than the budget [N] end in
    [NoFuel]; the theorems exclude both.  (The constructs used in: src/tensor/utils.rs, raw_tensor.rs, tensor_like.rs,
    functional/element_wise_ops.rs, functional/misc.rs) *)
From Coq Require String.
Import String.StringSyntax.
From Verif Require Import Base ModelIndex ModelTensor ModelUsize.
#[local] Open Scope string_scope.
Notation string := String.string.

Section Lang.
Context {U : usize_ops} {T : Type} {NT : Num T}.

(** ** Values *)
(** [usize], [bool], [Vec<usize>], [T], [Vec<T>], a tensor or view, [Option<&Vec<SliceRange>>], [SliceRange], pairs of a pattern,
    [Result], [Option], [Vec<RcTensor<T>>], a part of a [Vec<T>] ([&mut [T]], functional/misc.rs:75, 81), and structs (utils.rs:7-15,
    70-74).  For [SplitArrayWriter] (functional/misc.rs:141-149): the messages waiting in a channel, channels, parts of a [Vec<T>] *)
Inductive val : Type :=
| VUnit | VNum (n : nat) | VBool (b : bool) | VVec (v : list nat)
| VElem (x : T) | VArr (a : list T) | VTen (l : tlike T)
| VRanges (o : option (list slice_range)) | VRange (r : slice_range)
| VPair (a b : val)
| VOk (v : val) | VErr (e : gerr)
| VSome (v : val) | VNone
| VTens (l : list (raw T))
| VSlice (off len : nat)
| VMsgs (l : list (nat * T)) | VChans (l : list (list (nat * T))) | VParts (l : list (nat * nat))
| VRec (fields : list (string * val)).

(** Ill-typed programs: rustc has accepted the source, so none of ModelKernel.v is *)
Definition stuck {A : Type} : outcome A := NoFuel.
(** A value at a type: [usize] (utils.rs:101), [bool] (utils.rs:101), [T] (raw_tensor.rs:38) *)
Definition as_num (v : val) : outcome nat := match v with VNum n => Ret n | _ => stuck end.
Definition as_bool (v : val) : outcome bool := match v with VBool b => Ret b | _ => stuck end.
Definition as_elem (v : val) : outcome T := match v with VElem x => Ret x | _ => stuck end.

(** ** Variables: the innermost declaration first (shadowing: utils.rs:146, 199) *)
Definition store : Type := list (string * val).
(** The innermost declaration of a name (utils.rs:199 shadows the [i] of line 197) *)
Fixpoint lookup (st : store) (x : string) : outcome val :=
  match st with [] => stuck | (y, v) :: r => if String.eqb x y then Ret v else lookup r x end.
(** [x = v] (utils.rs:244, 245) *)
Fixpoint assign (st : store) (x : string) (v : val) : outcome store :=
  match st with
  | [] => stuck
  | (y, w) :: r => if String.eqb x y then Ret ((y, v) :: r) else let* r' := assign r x v in Ret ((y, w) :: r')
  end.
(** The end of a block: declarations made inside it are gone (utils.rs:199-202 in the loop 197-245) *)
Definition leave (outer inner : store) : store := skipn (length inner - length outer) inner.

(** ** Expressions (utils.rs:101-247, element_wise_ops.rs:84-408, functional/misc.rs:46-139) *)
Inductive expr : Type :=
| ENum (n : nat) | EBool (b : bool) | EUninit | EVar (x : string)
| EAdd (a b : expr) | ESub (a b : expr) | EMul (a b : expr) | ERem (a b : expr) | EDiv (a b : expr)
| EMax (a b : expr)
| ELt (a b : expr) | ELe (a b : expr) | EEq (a b : expr) | EAnd (a b : expr) | EOr (a b : expr) | ENot (a : expr)
| EAt (v i : expr)                         (* v[i] *)
| ELen (v : expr)                          (* v.len() *)
| EUpto (v i : expr)                       (* &v[..i] *)
| EFrom (v i : expr)                       (* &v[i..] *)
| EVec (es : list expr)                    (* vec![a, b] *)
| EFill (x n : expr)                       (* vec![x; n] *)
| EZero | EOne                             (* T::zero(), T::one() *)
| EPlus (a b : expr) | ETimes (a b : expr) | EMinus (a b : expr) | ETanh (a : expr)  (* of T *)
| EField (e : expr) (f : string)
| EOk (e : expr) | EErr (k : gerr) | EUnwrap (e : expr)
| ESome (e : expr) | ENone
| EIsView (e : expr)                       (* which implementation of the trait (tensor_like.rs) *)
| EProduct (e : expr)                      (* e.iter().product::<usize>() *)
| ERaw (a s : expr)                        (* RawTensor { array: a, shape: s, .. } *)
| EView (t s o : expr)                     (* TensorView { tensor: t, view: View { shape: s, offset: o } } *)
| ERec (fs : list (string * expr))         (* Struct { f: e, .. } *)
| ETens (es : list expr)                   (* vec![t, u] of tensors *)
| ESlice (e : expr)                        (* &mut e[..] *)
| EShr (a b : expr) | EShl (a b : expr)    (* a >> b, a << b *)
| EParts (s w : expr)                      (* s.rchunks_mut(w).collect() *)
| EChans (n : expr)                        (* n channels: repeat_with(unbounded).take(n) *)
| ESliceAt (a s i : expr)                  (* s[i] where s is a part of a *)
| ECall (f : string) (es : list expr).     (* f(a, b), a.f(b) *)

(** Functions by name: result, and the last value of the first parameter (which utils.rs:101 and 118 change) *)
Definition fenv : Type := string -> option (list val -> outcome (val * val)).
Definition call (E : fenv) (f : string) (args : list val) : outcome (val * val) :=
  match E f with Some g => g args | None => stuck end.

(** Field access: [range.start], [tensor.shape], [tensor.array], struct fields (raw_tensor.rs:18-44) *)
Definition field (v : val) (f : string) : outcome val :=
  match v with
  | VRange r => if String.eqb f "start" then Ret (VNum (sr_start r)) else if String.eqb f "end" then Ret (VNum (sr_end r)) else stuck
  | VTen (LRaw t) =>
    if String.eqb f "array" then Ret (VArr (array t)) else if String.eqb f "shape" then Ret (VVec (shape t)) else stuck
  | VTen (LView w) =>
    if String.eqb f "shape" then Ret (VVec (v_shape w))
    else if String.eqb f "offset" then Ret (VRanges (Some (v_offset w)))
    else if String.eqb f "tensor" then Ret (VTen (LRaw (v_tensor w))) else stuck
  | VRec fs => lookup fs f
  | _ => stuck
  end.

(** [rchunks_mut]: places and lengths of the parts of width [w], the last one first (functional/misc.rs:155) *)
Fixpoint parts_aux (fuel w off len : nat) : list (nat * nat) :=
  match fuel with
  | O => []
  | S f => match len with O => [] | _ => (off + (len - w), len - (len - w)) :: parts_aux f w off (len - w) end
  end.
Definition rparts (w off len : nat) : list (nat * nat) := parts_aux len w off len.

(** The value of an expression; operands from left to right (e.g. utils.rs:106, 147-148, 244) *)
Section Eval.
Variable E : fenv.
Variable st : store.
Fixpoint eval (e : expr) : outcome val :=
  let num2 (f : nat -> nat -> outcome val) a b :=
    let* x := eval a in let* x := as_num x in let* y := eval b in let* y := as_num y in f x y in
  match e with
  | ENum n => Ret (VNum n) | EBool b => Ret (VBool b) | EUninit => Ret VUnit
  | EVar x => lookup st x
  | EAdd a b => num2 (fun x y => let* z := u_add x y in Ret (VNum z)) a b
  | ESub a b => num2 (fun x y => let* z := u_sub x y in Ret (VNum z)) a b
  | EMul a b => num2 (fun x y => let* z := u_mul x y in Ret (VNum z)) a b
  | ERem a b => num2 (fun x y => if y =? 0 then Panic PArith else Ret (VNum (x mod y))) a b
  | EDiv a b => num2 (fun x y => if y =? 0 then Panic PArith else Ret (VNum (x / y))) a b
  | EMax a b => num2 (fun x y => Ret (VNum (Nat.max x y))) a b
  | ELt a b => num2 (fun x y => Ret (VBool (x <? y))) a b
  | ELe a b => num2 (fun x y => Ret (VBool (x <=? y))) a b
  | EEq a b =>
    let* x := eval a in let* y := eval b in
    match x, y with
    | VNum m, VNum n => Ret (VBool (m =? n))
    | VVec v, VVec w => Ret (VBool (if list_eq_dec Nat.eq_dec v w then true else false))
    | VOk (VElem a), VOk (VElem b) => Ret (VBool (n_eq a b))
    | VOk (VElem _), VErr _ => Ret (VBool false)
    | _, _ => stuck
    end
  | EAnd a b => let* x := eval a in let* x := as_bool x in if x then eval b else Ret (VBool false)
  | EOr a b => let* x := eval a in let* x := as_bool x in if x then Ret (VBool true) else eval b
  | ENot a => let* x := eval a in let* x := as_bool x in Ret (VBool (negb x))
  | EAt v i =>
    let* c := eval v in let* n := eval i in let* n := as_num n in
    match c with
    | VVec v => let* x := vindex v n in Ret (VNum x)
    | VArr a => let* x := vindex a n in Ret (VElem x)
    | VRanges (Some o) => let* x := vindex o n in Ret (VRange x)
    | VTens l => let* x := vindex l n in Ret (VTen (LRaw x))
    | _ => stuck
    end
  | ELen v =>
    let* c := eval v in
    match c with
    | VVec v => Ret (VNum (length v)) | VArr a => Ret (VNum (length a)) | VSlice _ n => Ret (VNum n)
    | VTens l => Ret (VNum (length l)) | VParts l => Ret (VNum (length l)) | VRanges (Some o) => Ret (VNum (length o)) | _ => stuck end
  | EUpto v i =>
    let* c := eval v in let* n := eval i in let* n := as_num n in
    match c with VVec v => if n <=? length v then Ret (VVec (firstn n v)) else Panic PIndex | _ => stuck end
  | EFrom v i =>
    let* c := eval v in let* n := eval i in let* n := as_num n in
    match c with VVec v => if n <=? length v then Ret (VVec (skipn n v)) else Panic PIndex | _ => stuck end
  | EVec es =>
    (fix go es (acc : list nat) : outcome val :=
       match es with
       | [] => Ret (VVec acc)
       | e :: r => let* x := eval e in let* n := as_num x in go r (acc ++ [n])
       end) es []
  | EFill x n =>
    let* x := eval x in let* n := eval n in let* n := as_num n in
    match x with VNum m => Ret (VVec (repeat m n)) | VElem y => Ret (VArr (repeat y n)) | _ => stuck end
  | EZero => Ret (VElem n_zero) | EOne => Ret (VElem n_one)
  | EPlus a b => let* x := eval a in let* x := as_elem x in let* y := eval b in let* y := as_elem y in Ret (VElem (n_add x y))
  | ETimes a b => let* x := eval a in let* x := as_elem x in let* y := eval b in let* y := as_elem y in Ret (VElem (n_mul x y))
  | EMinus a b => let* x := eval a in let* x := as_elem x in let* y := eval b in let* y := as_elem y in Ret (VElem (n_sub x y))
  | ETanh a => let* x := eval a in let* x := as_elem x in Ret (VElem (n_tanh x))
  | EField e f => let* v := eval e in field v f
  | EOk e => let* v := eval e in Ret (VOk v)
  | EErr k => Ret (VErr k)
  | EUnwrap e =>
    let* v := eval e in
    match v with VOk x => Ret x | VErr _ => Panic PUnwrap | VSome x => Ret x | VNone => Panic PUnwrap | _ => stuck end
  | ESome e => let* v := eval e in Ret (VSome v)
  | ENone => Ret VNone
  | EIsView e => let* v := eval e in match v with VTen (LView _) => Ret (VBool true) | VTen (LRaw _) => Ret (VBool false) | _ => stuck end
  | EProduct e => let* v := eval e in match v with VVec w => let* n := u_product w in Ret (VNum n) | _ => stuck end
  | ERaw a s =>
    let* a := eval a in let* s := eval s in
    match a, s with VArr a, VVec s => Ret (VTen (LRaw (mkRaw a s))) | _, _ => stuck end
  | EView t s o =>
    let* t := eval t in let* s := eval s in let* o := eval o in
    match t, s, o with VTen (LRaw t), VVec s, VRanges (Some o) => Ret (VTen (LView (mkView t s o))) | _, _, _ => stuck end
  | ERec fs =>
    let* l := (fix go fs : outcome (list (string * val)) :=
                 match fs with [] => Ret [] | (f, e) :: r => let* v := eval e in let* l := go r in Ret ((f, v) :: l) end) fs in
    Ret (VRec l)
  | ETens es =>
    let* l := (fix go es : outcome (list (raw T)) :=
                 match es with
                 | [] => Ret []
                 | e :: r => let* v := eval e in match v with VTen (LRaw t) => let* l := go r in Ret (t :: l) | _ => stuck end
                 end) es in
    Ret (VTens l)
  | ESlice e => let* v := eval e in match v with VArr a => Ret (VSlice 0 (length a)) | _ => stuck end
  | EShr a b => num2 (fun x y => Ret (VNum (Nat.shiftr x y))) a b
  | EShl a b => num2 (fun x y => Ret (VNum (Nat.shiftl x y))) a b
  | EParts s w =>
    let* v := eval s in let* n := eval w in let* n := as_num n in
    match v with VSlice off len => if n =? 0 then Panic PAssert else Ret (VParts (rparts n off len)) | _ => stuck end
  | EChans n => let* n := eval n in let* n := as_num n in Ret (VChans (repeat [] n))
  | ESliceAt a s i =>
    let* c := eval a in let* v := eval s in let* n := eval i in let* n := as_num n in
    match c, v with
    | VArr a, VSlice off len => if n <? len then let* x := vindex a (off + n) in Ret (VElem x) else Panic PIndex
    | _, _ => stuck
    end
  | ECall f es =>
    let* args := (fix go es : outcome (list val) :=
                    match es with [] => Ret [] | e :: r => let* v := eval e in let* l := go r in Ret (v :: l) end) es in
    let* r := call E f args in Ret (fst r)
  end.

(** ** Iterators: the items a [for] runs through (utils.rs:103, 147, 185, 197; functional/element_wise_ops.rs:268) *)
Inductive iter : Type :=
| IRange (lo hi : expr)                    (* lo..hi *)
| IElems (e : expr)                        (* v.iter(), for Vec<usize>, Vec<T>, channels and parts; rx.iter() for a channel *)
| IRev (i : iter) | IZip (i j : iter) | IEnum (i : iter)
| IZipLongest (i j : iter).                (* itertools: Both is (Some, Some), Left is (Some, None), Right is (None, Some) *)
(** What [zip] and [enumerate] yield (utils.rs:197) *)
Fixpoint zip_val (a b : list val) : list val :=
  match a, b with x :: a', y :: b' => VPair x y :: zip_val a' b' | _, _ => [] end.
(** What [zip_longest] of itertools yields (element_wise_ops.rs:268) *)
Fixpoint zip_longest_val (a b : list val) : list val :=
  match a, b with
  | x :: a', y :: b' => VPair (VSome x) (VSome y) :: zip_longest_val a' b'
  | x :: a', [] => VPair (VSome x) VNone :: zip_longest_val a' []
  | [], _ => map (fun y => VPair VNone (VSome y)) b
  end.
(** [enumerate] (utils.rs:147, 197) *)
Definition enum_val (l : list val) : list val := zip_val (map VNum (seq 0 (length l))) l.
(** The items in order (utils.rs:103: [(0..n).rev()]) *)
Fixpoint items (i : iter) : outcome (list val) :=
  match i with
  | IRange lo hi =>
    let* a := eval lo in let* a := as_num a in let* b := eval hi in let* b := as_num b in Ret (map VNum (seq a (b - a)))
  | IElems e =>
    let* c := eval e in
    match c with
    | VVec v => Ret (map VNum v) | VArr a => Ret (map VElem a) | VRanges (Some o) => Ret (map VRange o)
    | VMsgs l => Ret (map (fun m => VPair (VNum (fst m)) (VElem (snd m))) l)
    | VChans l => Ret (map VMsgs l) | VParts l => Ret (map (fun p => VSlice (fst p) (snd p)) l) | _ => stuck end
  | IRev i => let* l := items i in Ret (rev l)
  | IZip i j => let* l := items i in let* m := items j in Ret (zip_val l m)
  | IEnum i => let* l := items i in Ret (enum_val l)
  | IZipLongest i j => let* l := items i in let* m := items j in Ret (zip_longest_val l m)
  end.
End Eval.

(** ** Statements: patterns (utils.rs:197), statements (utils.rs:101-247, functional/misc.rs:46-139) *)
Inductive pat : Type := PVar (x : string) | PWild | PPair (p q : pat).
Inductive stmt : Type :=
| SSkip | SSeq (a b : stmt)
| SLet (x : string) (e : expr)                             (* let x = e; let mut x = e; *)
| SSet (x : string) (e : expr)                             (* x = e; *)
| SSetAt (x : string) (i e : expr)                         (* x[i] = e; x.array[i] = e; *)
| SPush (x : string) (e : expr)                            (* x.push(e); x.array.push(e); *)
| SSetField (x f : string) (e : expr)                      (* x.f = e; *)
| SIf (e : expr) (a b : stmt)
| SIfSome (x : string) (e : expr) (a b : stmt)             (* if let Some(x) = e { a } else { b } *)
| SMatch (e : expr) (x : string) (a : stmt) (y : string) (b : stmt)  (* match e { Ok(x) => a, Err(y) => b } *)
| SWhile (e : expr) (a : stmt) | SLoop (a : stmt)
| SFor (p : pat) (i : iter) (a : stmt)
| SSplit (x y : string) (e n : expr)                       (* (x, y) = e.split_at_mut(n); *)
| SSetSlice (a : string) (s i e : expr)                    (* s[i] = e; where s is a part of a *)
| SCall (x : string) (f : string) (y : string) (es : list expr)  (* let x = f(&mut y, es..); *)
| SAssert (e : expr) | SDebugAssert (e : expr)             (* assert!(e); debug_assert!(e); *)
| SSend (x : string) (i n e : expr)                        (* x[i].send((n, e)) *)
| SPanic                                                   (* panic!() *)
| SBreak | SContinue | SReturn (e : expr).
(** [{ s1; s2; .. }] (utils.rs:106-109) *)
Definition block (l : list stmt) : stmt := fold_right SSeq SSkip l.

(** How a statement ends: normally, by [break], [continue] (utils.rs:205), [return] (utils.rs:112) *)
Inductive flow : Type := Next | Brk | Cnt | Rtn (v : val).

(** Binding a pattern (utils.rs:197) *)
Fixpoint matches (p : pat) (v : val) (st : store) : outcome store :=
  match p, v with
  | PVar x, _ => Ret ((x, v) :: st)
  | PWild, _ => Ret st
  | PPair p q, VPair a b => let* st1 := matches p a st in matches q b st1
  | _, _ => stuck
  end.
(** One turn of a loop has ended in [f] (utils.rs:112, 205) *)
Definition turn (f : flow) (st : store) (go_on : store -> outcome (flow * store)) : outcome (flow * store) :=
  match f with Next | Cnt => go_on st | Brk => Ret (Next, st) | Rtn v => Ret (Rtn v, st) end.
(** [while] (utils.rs:106) and [loop] *)
Fixpoint loop_while (N : nat) (test : store -> outcome bool) (body : store -> outcome (flow * store)) (st : store)
  : outcome (flow * store) :=
  match N with
  | O => NoFuel
  | S n =>
    let* c := test st in
    if c then let* (f, st1) := body st in turn f (leave st st1) (loop_while n test body) else Ret (Next, st)
  end.
(** [for] (utils.rs:103, 147, 185, 197) *)
Fixpoint loop_for (l : list val) (body : val -> store -> outcome (flow * store)) (st : store) : outcome (flow * store) :=
  match l with
  | [] => Ret (Next, st)
  | v :: r => let* (f, st1) := body v st in turn f (leave st st1) (loop_for r body)
  end.

(** [c[n] = v] and [c.push(v)] on the containers (for a tensor: on its array, raw_tensor.rs:212, 184) *)
Definition put (c : val) (n : nat) (v : val) : outcome val :=
  match c, v with
  | VVec w, VNum m => let* w' := vset w n m in Ret (VVec w')
  | VArr a, VElem x => let* a' := vset a n x in Ret (VArr a')
  | VTen (LRaw t), VElem x => let* a' := vset (array t) n x in Ret (VTen (LRaw (mkRaw a' (shape t))))
  | _, _ => stuck
  end.
(** [push] (utils.rs:143) *)
Definition pushed (c v : val) : outcome val :=
  match c, v with
  | VVec w, VNum m => Ret (VVec (w ++ [m]))
  | VArr a, VElem x => Ret (VArr (a ++ [x]))
  | VTen (LRaw t), VElem x => Ret (VTen (LRaw (mkRaw (array t ++ [x]) (shape t))))
  | _, _ => stuck
  end.
(** [self.f = v] (utils.rs:90) *)
Definition set_field (c : val) (f : string) (v : val) : outcome val :=
  match c with VRec fs => let* fs' := assign fs f v in Ret (VRec fs') | _ => stuck end.

(** What a statement does (utils.rs:101-247, functional/misc.rs:46-139); [N]: the most turns a [while] or [loop] may take *)
Fixpoint denote (E : fenv) (N : nat) (s : stmt) (st : store) {struct s} : outcome (flow * store) :=
  let inner a st := let* (f, st1) := denote E N a st in Ret (f, leave st st1) in
  match s with
  | SSkip => Ret (Next, st)
  | SSeq a b => let* (f, st1) := denote E N a st in match f with Next => denote E N b st1 | _ => Ret (f, st1) end
  | SLet x e => let* v := eval E st e in Ret (Next, (x, v) :: st)
  | SSet x e => let* v := eval E st e in let* st1 := assign st x v in Ret (Next, st1)
  | SSetAt x i e =>
    let* v := eval E st e in let* n := eval E st i in let* n := as_num n in
    let* c := lookup st x in let* c' := put c n v in let* st1 := assign st x c' in Ret (Next, st1)
  | SPush x e =>
    let* v := eval E st e in let* c := lookup st x in let* c' := pushed c v in let* st1 := assign st x c' in Ret (Next, st1)
  | SSetField x f e =>
    let* v := eval E st e in let* c := lookup st x in let* c' := set_field c f v in let* st1 := assign st x c' in Ret (Next, st1)
  | SIf e a b => let* v := eval E st e in let* c := as_bool v in if c then inner a st else inner b st
  | SIfSome x e a b =>
    let* v := eval E st e in
    match v with
    | VSome w => let* (f, st1) := denote E N a ((x, w) :: st) in Ret (f, leave st st1)
    | VRanges (Some o) => let* (f, st1) := denote E N a ((x, v) :: st) in Ret (f, leave st st1)
    | VNone | VRanges None => inner b st
    | _ => stuck
    end
  | SMatch e x a y b =>
    let* v := eval E st e in
    match v with
    | VOk w => let* (f, st1) := denote E N a ((x, w) :: st) in Ret (f, leave st st1)
    | VErr k => let* (f, st1) := denote E N b ((y, v) :: st) in Ret (f, leave st st1)
    | _ => stuck
    end
  | SWhile e a => loop_while N (fun st => let* v := eval E st e in as_bool v) (denote E N a) st
  | SLoop a => loop_while N (fun _ => Ret true) (denote E N a) st
  | SFor p i a => let* l := items E st i in loop_for l (fun v st => let* st1 := matches p v st in denote E N a st1) st
  | SSplit x y e n =>
    let* v := eval E st e in let* n := eval E st n in let* n := as_num n in
    match v with
    | VSlice off len =>
      if n <=? len then
        let* st1 := assign st x (VSlice off n) in
        let* st2 := assign st1 y (VSlice (off + n) (len - n)) in Ret (Next, st2)
      else Panic PIndex
    | _ => stuck
    end
  | SSetSlice a s i e =>
    let* x := eval E st e in let* v := eval E st s in let* n := eval E st i in let* n := as_num n in
    match v with
    | VSlice off len =>
      if n <? len then let* c := lookup st a in let* c' := put c (off + n) x in let* st1 := assign st a c' in Ret (Next, st1)
      else Panic PIndex
    | _ => stuck
    end
  | SCall x f y es =>
    let* c := lookup st y in
    let* args := (fix go es : outcome (list val) :=
                    match es with [] => Ret [] | e :: r => let* v := eval E st e in let* l := go r in Ret (v :: l) end) es in
    let* (r, c') := call E f (c :: args) in
    let* st1 := assign st y c' in Ret (Next, (x, r) :: st1)
  | SAssert e => let* v := eval E st e in let* c := as_bool v in assert c ;; Ret (Next, st)
  | SDebugAssert e => if u_debug then let* v := eval E st e in let* c := as_bool v in assert c ;; Ret (Next, st) else Ret (Next, st)
  | SSend x i n e =>
    let* c := lookup st x in let* i := eval E st i in let* i := as_num i in
    match c with
    | VChans l =>
      let* q := vindex l i in
      let* n := eval E st n in let* n := as_num n in let* v := eval E st e in let* v := as_elem v in
      let* l' := vset l i (q ++ [(n, v)]) in let* st1 := assign st x (VChans l') in Ret (Next, st1)
    | _ => stuck
    end
  | SPanic => Panic PAssert
  | SBreak => Ret (Brk, st) | SContinue => Ret (Cnt, st)
  | SReturn e => let* v := eval E st e in Ret (Rtn v, st)
  end.

(** ** Functions and programs (utils.rs:101: [fn]) *)
Record func : Type := mkFn { f_params : list string; f_body : stmt }.
(** A call (utils.rs:111): parameters bound to arguments, body run; result, and the last value of the first parameter *)
Definition run_fn (E : fenv) (N : nat) (f : func) (args : list val) : outcome (val * val) :=
  if length (f_params f) =? length args then
    let st := combine (f_params f) args in
    let* (fl, st1) := denote E N (f_body f) st in
    let first := match f_params f with x :: _ => lookup (leave st st1) x | [] => Ret VUnit end in
    match fl with Rtn v => let* w := first in Ret (v, w) | Next => let* w := first in Ret (VUnit, w) | _ => stuck end
  else stuck.
(** Each function may call those before it; none of the crate's loops is recursive (utils.rs:101-247). *)
Definition link1 (N : nat) (E : fenv) (d : string * func) : fenv :=
  fun x => if String.eqb x (fst d) then Some (run_fn E N (snd d)) else E x.
Definition link (N : nat) (E : fenv) (ds : list (string * func)) : fenv := fold_left (link1 N) ds E.
End Lang.
