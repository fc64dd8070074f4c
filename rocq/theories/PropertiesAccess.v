(** * PropertiesAccess: the theorems of ClaimsAccess.v, restated (generated by tools/genprops.py) *)
From Coq Require Import ZArith.
From Verif Require Import Base ModelIndex ModelTensor Spec Lists IndexFacts TensorFacts FuelFacts Instances.
From Verif Require Import ClaimsAccess.


(** C73: [set] writes exactly the element that [get] reads at the same index, whichever index stands for
    it, and nothing else; where there is no such element it reports an error. *)
Theorem C73_set :
  forall (T : Type) (NT : Num T) (a : list T) (s idx : list nat) (x : T) (t : raw T),
  raw_new a s = Ret t -> positive s ->
  (exists i t', resolves s idx i /\ raw_set t idx x = Ret (Ok t') /\ shape t' = s /\
     forall j k, resolves s j k -> (k = i -> raw_get t' j = Ret (Ok x)) /\ (k <> i -> raw_get t' j = raw_get t j)) \/
  ((forall i, ~ resolves s idx i) /\ exists e, raw_set t idx x = Ret (Err e)).
Proof. exact c73_set. Qed.
Print Assumptions C73_set.
Example C73_set_ex :
  raw_new [1; 2; 3; 4]%Z [2; 1; 2] = Ret (mkRaw [1; 2; 3; 4]%Z [2; 1; 2]) /\ positive [2; 1; 2] /\ resolves [2; 1; 2] [9; 1; 7; 0] [1; 0; 0] /\
  raw_set (mkRaw [1; 2; 3; 4]%Z [2; 1; 2]) [9; 1; 7; 0] 8%Z = Ret (Ok (mkRaw [1; 2; 8; 4]%Z [2; 1; 2])) /\
  raw_set (mkRaw [1; 2; 3; 4]%Z [2; 1; 2]) [2; 0; 0] 8%Z = Ret (Err ErrView).
Proof. exact c73_set_ex. Qed.

(** C73: [t[&index]] is the element where [get] gives one, and panics where [get] reports an error. *)
Theorem C73_index :
  forall (T : Type) (NT : Num T) (t : raw T) (idx : list nat),
  match raw_get t idx with
  | Ret (Ok x) => raw_at t idx = Ret x
  | Ret (Err _) => raw_at t idx = Panic PUnwrap
  | Panic e => raw_at t idx = Panic e
  | NoFuel => False
  end.
Proof. exact c73_index. Qed.
Print Assumptions C73_index.
Example C73_index_ex :
  raw_at (mkRaw [1; 2; 3]%Z [3]) [2] = Ret 3%Z /\ raw_at (mkRaw [1; 2; 3]%Z [3]) [3] = Panic PUnwrap.
Proof. exact c73_index_ex. Qed.

(** C73: [elem] gives the element of a tensor or view without dimensions, and panics on everything else. *)
Theorem C73_elem :
  forall (T : Type) (NT : Num T) (a : list T) (s : list nat) (t : raw T), raw_new a s = Ret t ->
  (forall x, s = [] -> a = [x] -> tl_elem (LRaw t) = Ret x) /\ (s <> [] -> tl_elem (LRaw t) = Panic PAssert) /\
  (forall o v, view_new t o = Ret v -> tl_elem (LView v) = tl_elem (LRaw t)).
Proof. exact c73_elem. Qed.
Print Assumptions C73_elem.
Example C73_elem_ex :
  raw_new [5%Z] [] = Ret (mkRaw [5%Z] []) /\ tl_elem (LRaw (mkRaw [5%Z] [])) = Ret 5%Z /\
  view_new (mkRaw [5%Z] []) [] = Ret (mkView (mkRaw [5%Z] []) [] []) /\ raw_new [5%Z] [1] = Ret (mkRaw [5%Z] [1]) /\ tl_elem (LRaw (mkRaw [5%Z] [1])) = Panic PAssert.
Proof. exact c73_elem_ex. Qed.

(** C73: [get_first_elem] gives the first element in row-major order: of the array, or of the window. *)
Theorem C73_first :
  forall (T : Type) (NT : Num T) (a : list T) (s : list nat) (t : raw T), raw_new a s = Ret t -> positive s ->
  (exists x r, a = x :: r /\ tl_get_first_elem (LRaw t) = Ret x) /\
  (forall o v, view_new t o = Ret v -> positive (v_shape v) -> exists x, raw_get t (map sr_start o) = Ret (Ok x) /\ tl_get_first_elem (LView v) = Ret x).
Proof. exact c73_first. Qed.
Print Assumptions C73_first.
Example C73_first_ex :
  let t := mkRaw [1; 2; 3; 4; 5; 6]%Z [2; 3] in let o := [mkSR 1 2; mkSR 1 3] in
  raw_new [1; 2; 3; 4; 5; 6]%Z [2; 3] = Ret t /\ positive [2; 3] /\ tl_get_first_elem (LRaw t) = Ret 1%Z /\
  view_new t o = Ret (mkView t [1; 2] o) /\ tl_get_first_elem (LView (mkView t [1; 2] o)) = Ret 5%Z.
Proof. exact c73_first_ex. Qed.

(** C73: [count] is the number of elements, of a tensor or a view. *)
Theorem C73_count :
  forall (T : Type) (NT : Num T) (a : list T) (s : list nat) (t : raw T), raw_new a s = Ret t ->
  tl_count (LRaw t) = length (all_indices s) /\ (forall o v, view_new t o = Ret v -> tl_count (LView v) = length (all_indices (v_shape v))).
Proof. exact c73_count. Qed.
Print Assumptions C73_count.
Example C73_count_ex :
  let t := mkRaw [1; 2; 3; 4; 5; 6]%Z [2; 3] in let o := [mkSR 1 2; mkSR 1 3] in
  raw_new [1; 2; 3; 4; 5; 6]%Z [2; 3] = Ret t /\ tl_count (LRaw t) = 6 /\ view_new t o = Ret (mkView t [1; 2] o) /\ tl_count (LView (mkView t [1; 2] o)) = 2.
Proof. exact c73_count_ex. Qed.

(** C73: [same_shape] and [broadcastable]: equal shapes; dimensions that, counted from the right, are
    equal or one of them 1. *)
Theorem C73_shapes :
  forall (T : Type) (NT : Num T) (l r : tlike T) (s s' : list nat),
  (same_shape l r = true <-> tl_shape l = tl_shape r) /\
  (broadcastable s s' = true <-> forall p, p < length s -> p < length s' -> let d := nth p (rev s) 0 in let d' := nth p (rev s') 0 in d = d' \/ d = 1 \/ d' = 1).
Proof. exact c73_shapes. Qed.
Print Assumptions C73_shapes.
Example C73_shapes_ex :
  broadcastable [4; 1; 3] [2; 3] = true /\ broadcastable [3; 2] [2; 3] = false /\
  same_shape (LRaw (mkRaw [1; 2]%Z [1; 2])) (LRaw (mkRaw [1; 2]%Z [2; 1])) = false.
Proof. exact c73_shapes_ex. Qed.

