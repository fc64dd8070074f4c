(** * SpecShape: shape rules for programs, in the style of a type system *)
From Verif Require Import Base ModelIndex ModelTensor ModelGraph Spec.

Section SpecShape.
Context {T : Type} {NT : Num T}.

(** Matrices, a batch of matrices on the left, and what the code makes of higher ranks (C28) *)
Inductive matmul : list nat -> list nat -> list nat -> Prop :=
| mm_2 n k m : matmul [n; k] [k; m] [n; m]
| mm_3 b n k m : matmul [b; n; k] [k; m] [b; n; m]
| mm_high ones n k m : 2 <= length ones -> Forall (fun d => d = 1) ones -> matmul (ones ++ [n; k]) [k; m] [1; 1; m].

(** [shaped G c s]: with variables of shapes [G] call [c] makes a tensor of shape [s]. *)
Inductive shaped (G : list (list nat)) : cmd T -> list nat -> Prop :=
| sh_new a s : length a = size s -> shaped G (CNew a s) s
| sh_filler s x : shaped G (CFiller s x) s
| sh_scalar x : shaped G (CScalar x) []
| sh_from n s : rect n s -> shaped G (CFrom n) s
| sh_add x y a b s : nth_error G x = Some a -> nth_error G y = Some b -> bcast a b s -> shaped G (CAdd x y) s
| sh_sub x y a b s : nth_error G x = Some a -> nth_error G y = Some b -> bcast a b s -> shaped G (CSub x y) s
| sh_neg x s : nth_error G x = Some s -> shaped G (CNeg x) s
| sh_abs x s : nth_error G x = Some s -> shaped G (CAbs x) s
| sh_relu x s : nth_error G x = Some s -> shaped G (CRelu x) s
| sh_tanh x s : nth_error G x = Some s -> shaped G (CTanh x) s
| sh_copy x s : nth_error G x = Some s -> shaped G (CDeepClone x) s
| sh_scale_l x y s : nth_error G x = Some [] -> nth_error G y = Some s -> shaped G (CMul x y) s
| sh_scale_r x y s : nth_error G x = Some s -> nth_error G y = Some [] -> shaped G (CMul x y) s
| sh_mul x y s : nth_error G x = Some s -> nth_error G y = Some s -> shaped G (CMul x y) s
| sh_sum x s : nth_error G x = Some s -> shaped G (CSum x) []
| sh_dot x y s : nth_error G x = Some s -> nth_error G y = Some s -> shaped G (CDot x y) [1]
| sh_bmm x y a b s : nth_error G x = Some a -> nth_error G y = Some b -> matmul a b s -> shaped G (CBmm x y) s
| sh_view x o a : nth_error G x = Some a -> window_ok a o -> valid_ranges o -> shaped G (CViewToTensor x o) (window_shape o)
| sh_view_sum x o a : nth_error G x = Some a -> window_ok a o -> valid_ranges o -> shaped G (CViewSum x o) []
| sh_bmm_view x y o a b s : nth_error G x = Some a -> nth_error G y = Some b -> window_ok b o -> valid_ranges o ->
    matmul a (window_shape o) s -> shaped G (CBmmView x y o) s.

(** The shapes of all variables of a program *)
Inductive prog_shaped : list (list nat) -> list (cmd T) -> list (list nat) -> Prop :=
| ps_nil G : prog_shaped G [] G
| ps_cons G c s p G' : shaped G c s -> prog_shaped (G ++ [s]) p G' -> prog_shaped G (c :: p) G'.

(** Calls that compute tensors from tensors, without zero dimensions.  Scaling a view is left out: it can make an
    ill-formed tensor (C23). *)
Definition tame (c : cmd T) : Prop :=
  match c with
  | CNew _ s | CFiller s _ => positive s
  | CViewToTensor _ o | CViewSum _ o | CBmmView _ _ o => Forall (fun r => sr_start r <> sr_end r) o
  | CMulView _ _ _ | CGrad _ | CUpdateGrad _ _ | CZeroGrad _ | CBackward _ => False
  | _ => True
  end.

(** The shapes of a program's variables *)
Definition var_shapes (s : state T) : list (outcome (list nat)) :=
  map (fun i => let* nd := hget (hp s) i in Ret (shape (n_val nd))) (env s).

End SpecShape.
