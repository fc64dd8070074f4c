(** * SpecFlow: which gradients an operation can hand on

    Shapes only.  [g] is the shape of the gradient of a result, as [backward] passes it on. *)
From Verif Require Import Base ModelIndex ModelTensor ModelOps ModelJvp ModelGraph Spec SpecGraph.

(** A gradient with one row of [n] columns; for [n = 1] also a number. *)
Definition one_row (n : nat) (g : list nat) : Prop := g = [1; n] \/ n = 1 /\ (g = [] \/ g = [1]).

(** [hands_on k ss g gs]: for inputs of shapes [ss], operation [k] turns a gradient of shape [g] into gradients of
    shapes [gs], one for each input. *)
Inductive hands_on : opk -> list (list nat) -> list nat -> list (list nat) -> Prop :=
| ho_add a b s g : bcast a b s -> one_row (size s) g -> hands_on KAdd [a; b] g [[1; size a]; [1; size b]]
| ho_neg a g : one_row (size a) g -> hands_on KNeg [a] g [[1; size a]]
| ho_relu a g : one_row (size a) g -> hands_on KRelu [a] g [[1; size a]]
| ho_abs a : hands_on KAbs [a] [1; size a] [[1; size a]]
| ho_tanh a : hands_on KTanh [a] [1; size a] [[1; size a]]
| ho_tanh_one a : size a = 1 -> hands_on KTanh [a] [] [[1; 1]]
| ho_tanh_deep a k : 2 <= k -> size a <> 1 -> hands_on KTanh [a] (repeat 1 k ++ [size a]) [[1; 1; size a]]
| ho_sum a g : hands_on KSum [a] g [[1; size a]]
| ho_bmm n k m : hands_on KBmm [[n; k]; [k; m]] [1; n * m] [[1; n * k]; [1; k * m]]
| ho_bmm_ones r m : 3 <= r -> hands_on KBmm [repeat 1 r; [1; m]] [1; m] [[1; 1]; [1; m]]
| ho_bmm_one r : 3 <= r -> hands_on KBmm [repeat 1 r; [1; 1]] [1; 1; 1] [[1; 1]; [1; 1]]
| ho_dot a : hands_on KDot [a; a] [] [a; a]
| ho_dot_same a : size a = 1 -> hands_on KDot [a; a] a [a; a]
| ho_dot_numbers g : g <> [] -> hands_on KDot [[]; []] g [g; g].

(** A gradient of shape [g] for tensor [i] gets through to the leaves. *)
Inductive gets_through {T : Type} {NT : Num T} (ns : list (node T)) : nat -> list nat -> Prop :=
| gt_leaf i g : fn_of ns i = None -> gets_through ns i g
| gt_op i k ins g gs : fn_of ns i = Some (k, ins) -> hands_on k (map (fun j => shape (vof ns j)) ins) g gs ->
    Forall2 (gets_through ns) ins gs -> gets_through ns i g.
