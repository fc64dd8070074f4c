(** * PropertiesVjp: the theorems of ClaimsVjp.v, restated (generated by tools/genprops.py) *)
From Coq Require Import ZArith Ring.
From Verif Require Import Base ModelIndex ModelTensor ModelOps ModelJvp ModelGraph Spec SpecDual SpecGraph
  Lists IndexFacts TensorFacts OpsFacts Sums JvpFacts Dual ClaimsMat Adjoint GradRing FuelFacts GraphFacts ProgFacts BackFacts ClaimsGraph Instances.
From Verif Require Import ClaimsVjp.


(** C32 is false without restrictions: with 33 entries the gradients of [bmm] are in the wrong places. *)
Theorem C32_rules_exact_refuted :
  ~ (forall (T : Type) (NT : Num T), is_ring T -> forall (k : opk) (xs : list (raw T)) (y G : raw T) (d0 : nat),
       k <> KSum -> fwd k xs = Ret y -> Forall (fun x => wf x /\ positive (shape x)) xs ->
       (k = KBmm -> Forall (fun x => length (shape x) = 2) xs) ->
       wf G -> 0 < d0 -> shape G = [d0; size (shape y)] ->
       exists gs, jvp k xs [G] = Ret gs /\
         forall ds, Forall2 tangent xs ds ->
           exists dy, fwd_dual k xs ds = Ret (dual y dy) /\ tangent y dy /\ forall r, r < d0 -> total gs r ds = rhs G r dy).
Proof. exact c32_rules_exact_refuted. Qed.
Print Assumptions C32_rules_exact_refuted.
Example C32_rules_exact_refuted_ex :
  jvp KBmm [mkRaw (repeat 0%Z 33) [1; 33]; mkRaw (repeat 0%Z 32 ++ [1%Z]) [33; 1]] [mkRaw [1%Z] [1; 1]] =
  Ret [mkRaw (1 :: repeat 0 32)%Z [1; 33]; mkRaw (repeat 0%Z 33) [1; 33]].
Proof. exact c32_rules_exact_refuted_ex. Qed.

(** C32, where it holds ([vjp_ok] of SpecDual.v): [abs] and [bmm] are given a matrix, [bmm]'s gradients have
    at most 32 entries, [tanh] of one element is given one row, [sum] is given 1.  The Jacobian is the one
    dual numbers compute. *)
Theorem C32_rules_exact :
  forall (T : Type) (NT : Num T), is_ring T -> forall (k : opk) (xs : list (raw T)) (y G : raw T) (d0 : nat),
    fwd k xs = Ret y -> Forall (fun x => wf x /\ positive (shape x)) xs ->
    (k = KBmm -> Forall (fun x => length (shape x) = 2) xs) ->
    grad_rows G d0 (size (shape y)) -> vjp_ok k xs G d0 ->
    exists gs, jvp k xs [G] = Ret gs /\ matrices gs xs d0 /\
      forall ds, Forall2 tangent xs ds ->
        exists dy, fwd_dual k xs ds = Ret (dual y dy) /\ tangent y dy /\
          forall r, r < d0 -> total gs r ds = rhs G r dy.
Proof. exact c32_rules_exact. Qed.
Print Assumptions C32_rules_exact.
Example C32_rules_exact_ex :
  jvp KAdd [mkRaw [1; 2; 3; 4]%Z [2; 2]; mkRaw [5; 6]%Z [2]] [mkRaw [1; 2; 3; 4; 5; 6; 7; 8]%Z [2; 4]] =
  Ret [mkRaw [1; 2; 3; 4; 5; 6; 7; 8]%Z [2; 4]; mkRaw [4; 6; 12; 14]%Z [2; 2]] /\
  vjp_ok KAdd [mkRaw [1; 2; 3; 4]%Z [2; 2]; mkRaw [5; 6]%Z [2]] (mkRaw [1; 2; 3; 4; 5; 6; 7; 8]%Z [2; 4]) 2.
Proof. exact c32_rules_exact_ex. Qed.

(** The rule of [dot], which is only exact for a rank-0 incoming gradient and returns its results in the
    operands' shapes *)
Theorem C32_dot_rule :
  forall (T : Type) (NT : Num T), is_ring T -> forall (a b y : raw T) (c : T),
    fwd KDot [a; b] = Ret y -> wf a -> wf b -> positive (shape a) -> positive (shape b) ->
    exists ga gb, jvp KDot [a; b] [raw_scalar c] = Ret [ga; gb] /\
      wf ga /\ shape ga = shape a /\ wf gb /\ shape gb = shape b /\
      forall da db, tangent a da -> tangent b db ->
        exists dy, fwd_dual KDot [a; b] [da; db] = Ret (dual y dy) /\ tangent y dy /\
          n_add (sumn (size (shape a)) (fun p => n_mul (nth p (array ga) n_zero) (nth p (array da) n_zero)))
                (sumn (size (shape b)) (fun p => n_mul (nth p (array gb) n_zero) (nth p (array db) n_zero))) =
          n_mul c (nth 0 (array dy) n_zero).
Proof. exact c32_dot_rule. Qed.
Print Assumptions C32_dot_rule.
Example C32_dot_rule_ex :
  jvp KDot [mkRaw [1; 2]%Z [2]; mkRaw [5; 6]%Z [2]] [raw_scalar 3%Z] = Ret [mkRaw [15; 18]%Z [2]; mkRaw [3; 6]%Z [2]].
Proof. exact c32_dot_rule_ex. Qed.

(** C33, exact: the entries of both gradients are right, but the entry for position [q] of a gradient of [len]
    entries is stored at position [place len q]. *)
Theorem C33_bmm_gradient_shuffled :
  forall (T : Type) (NT : Num T), is_ring T -> forall (a b : list T) (n k m : nat),
    length a = n * k -> length b = k * m -> 0 < n -> 0 < k -> 0 < m ->
    exists (s' : state T) (ga gb : list T),
      run [CNew a [n; k]; CNew b [k; m]; CBmm 0 1; CSum 2; CBackward 3] init_state = Ret s' /\
      var_grad s' 0 = Some (mkRaw ga [n; k]) /\ var_grad s' 1 = Some (mkRaw gb [k; m]) /\
      length ga = n * k /\ length gb = k * m /\
      (forall i t, i < n -> t < k -> nth (place (n * k) (i * k + t)) ga n_zero = sumn m (fun j => nth (t * m + j) b n_zero)) /\
      (forall t j, t < k -> j < m -> nth (place (k * m) (t * m + j)) gb n_zero = sumn n (fun i => nth (i * k + t) a n_zero)).
Proof. exact c33_bmm_gradient_shuffled. Qed.
Print Assumptions C33_bmm_gradient_shuffled.
Example C33_bmm_gradient_shuffled_ex :
  exists s' : state Z,
    run [CNew (repeat 0%Z 33) [1; 33]; CNew (map Z.of_nat (seq 0 33)) [33; 1]; CBmm 0 1; CSum 2; CBackward 3] init_state = Ret s' /\
    var_grad s' 0 = Some (mkRaw (32%Z :: map Z.of_nat (seq 0 32)) [1; 33]).
Proof. exact c33_bmm_gradient_shuffled_ex. Qed.

(** [place len] is a permutation of the positions, and the identity exactly up to 32 entries. *)
Theorem C33_place :
  forall len : nat,
    (forall q, q < len -> place len q < len) /\
    (forall q q', q < len -> q' < len -> place len q = place len q' -> q = q') /\
    ((forall q, q < len -> place len q = q) <-> len <= 32).
Proof. exact c33_place. Qed.
Print Assumptions C33_place.
Example C33_place_ex : map (place 40) [0; 7; 8; 31; 32; 39] = [8; 15; 16; 39; 0; 7].
Proof. exact c33_place_ex. Qed.

(** Hence C33 holds for gradients of at most 32 entries: *)
Theorem C33_small_matrices :
  forall (T : Type) (NT : Num T), is_ring T -> forall (a b : list T) (n k m : nat),
    length a = n * k -> length b = k * m -> 0 < n -> 0 < k -> 0 < m -> n * k <= 32 -> k * m <= 32 ->
    exists (s' : state T) (ga gb : list T),
      run [CNew a [n; k]; CNew b [k; m]; CBmm 0 1; CSum 2; CBackward 3] init_state = Ret s' /\
      var_grad s' 0 = Some (mkRaw ga [n; k]) /\ var_grad s' 1 = Some (mkRaw gb [k; m]) /\
      (forall i t, i < n -> t < k -> nth (i * k + t) ga n_zero = sumn m (fun j => nth (t * m + j) b n_zero)) /\
      (forall t j, t < k -> j < m -> nth (t * m + j) gb n_zero = sumn n (fun i => nth (i * k + t) a n_zero)).
Proof. exact c33_small_matrices. Qed.
Print Assumptions C33_small_matrices.
Example C33_small_matrices_ex :
  exists s' : state Z,
    run [CNew [1; 2; 3; 4; 5; 6]%Z [2; 3]; CNew [1; 0; 2; 1; 1; 5]%Z [3; 2]; CBmm 0 1; CSum 2; CBackward 3] init_state = Ret s' /\
    var_grad s' 0 = Some (mkRaw [1; 3; 6; 1; 3; 6]%Z [2; 3]) /\ var_grad s' 1 = Some (mkRaw [5; 5; 7; 7; 9; 9]%Z [3; 2]).
Proof. exact c33_small_matrices_ex. Qed.

(** ... and is false in general. *)
Theorem C33_all_sizes_refuted :
  ~ (forall (T : Type) (NT : Num T), is_ring T -> forall (a b : list T) (n k m : nat),
       length a = n * k -> length b = k * m -> 0 < n -> 0 < k -> 0 < m ->
       exists (s' : state T) (ga gb : list T),
         run [CNew a [n; k]; CNew b [k; m]; CBmm 0 1; CSum 2; CBackward 3] init_state = Ret s' /\
         var_grad s' 0 = Some (mkRaw ga [n; k]) /\ var_grad s' 1 = Some (mkRaw gb [k; m]) /\
         (forall i t, i < n -> t < k -> nth (i * k + t) ga n_zero = sumn m (fun j => nth (t * m + j) b n_zero)) /\
         (forall t j, t < k -> j < m -> nth (t * m + j) gb n_zero = sumn n (fun i => nth (i * k + t) a n_zero))).
Proof. exact c33_all_sizes_refuted. Qed.
Print Assumptions C33_all_sizes_refuted.
Example C33_all_sizes_refuted_ex : nth 0 (32%Z :: map Z.of_nat (seq 0 32)) 0%Z <> nth 0 (map Z.of_nat (seq 0 33)) 0%Z.
Proof. exact c33_all_sizes_refuted_ex. Qed.

