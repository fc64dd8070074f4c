(** * PropertiesParam: the theorems of ClaimsParam.v, restated (generated by tools/genprops.py) *)
From Coq Require Import Reals ZArith Lia Lra.
From Flocq Require Import Core BinarySingleNaN.
From Verif Require Import Base ModelIndex ModelTensor ModelOps ModelJvp ModelGraph ModelNN ModelMain ModelInt SpecParam SpecRound
  ParamFacts RoundFacts Instances FloatInst.
From Verif Require Import ClaimsParam.
Local Open Scope nat_scope.

(** C66: everything the library computes respects every relation between two element types that the arithmetic
    respects: a program that makes the same calls on related data panics for the same reason, or ends in
    the same variables and histories, with related values and related gradients. *)
Theorem C66_any_relation :
  forall (A B : Type) (NA : Num A) (NB : Num B) (R : A -> B -> Prop) (p : list (cmd A)) (q : list (cmd B)),
    respects_ring R -> Forall2 (rel_cmd R) p q -> (forall c k, In c p -> In k (needs c) -> respects R k) ->
    rel_outcome (rel_state R) (run p init_state) (run q init_state).
Proof. exact c66_any_relation. Qed.
Print Assumptions C66_any_relation.
Example C66_any_relation_ex :
  let R := fun a b : Z => (a mod 2 = b mod 2)%Z in
  respects_ring R /\ respects_neg R /\ Forall2 (rel_cmd R) (x_prog (fun z => z)) (x_prog (fun z => 3 * z)%Z) /\
  x_show (run (x_prog (fun z => z)) init_state) <> x_show (run (x_prog (fun z => 3 * z)%Z) init_state).
Proof. exact c66_any_relation_ex. Qed.

(** C66: whether a program panics, and why, depends neither on the data nor on the element type, only on the
    calls and the shapes. *)
Theorem C66_panics :
  forall (A B : Type) (NA : Num A) (NB : Num B) (p : list (cmd A)) (q : list (cmd B)) (why : panic),
    Forall2 (rel_cmd (fun _ _ => True)) p q ->
    (run p init_state = Panic why <-> run q init_state = Panic why).
Proof. exact c66_panics. Qed.
Print Assumptions C66_panics.
Example C66_panics_ex :
  run (NT := ZNum) [CNew [1; 2]%Z [2]; CNew [1; 2; 3]%Z [3]; CAdd 0 1] init_state = Panic PAssert /\
  run (NT := F32Num x_tanh) [CNew (map x_float [8; 9]%Z) [2]; CNew (map x_float [5; 5; 5]%Z) [3]; CAdd 0 1] init_state = Panic PAssert.
Proof. exact c66_panics_ex. Qed.

(** C66: ... and neither do the shapes of all tensors, their histories, which of them have gradients, and the
    shapes of these. *)
Theorem C66_shapes :
  forall (A B : Type) (NA : Num A) (NB : Num B) (p : list (cmd A)) (q : list (cmd B)) (s : state A),
    Forall2 (rel_cmd (fun _ _ => True)) p q -> run p init_state = Ret s ->
    exists t, run q init_state = Ret t /\ env s = env t /\
      map (fun nd => (shape (n_val nd), n_fn nd)) (nodes (hp s)) = map (fun nd => (shape (n_val nd), n_fn nd)) (nodes (hp t)) /\
      forall i, option_map (fun g => shape g) (grads (hp s) i) = option_map (fun g => shape g) (grads (hp t) i).
Proof. exact c66_shapes. Qed.
Print Assumptions C66_shapes.
Example C66_shapes_ex :
  Forall2 (rel_cmd (fun _ _ => True)) (x_prog (fun z => z)) (x_prog x_float) /\
  x_show (run (NT := ZNum) (x_prog (fun z => z)) init_state) =
    Ret ([[1; 2; 3; 4]; [5; 6]; [17; 39]; [7]; [-7]; [10; 32]; [42]]%Z,
         [Some [5; 6; 5; 6]; Some [4; 6]; Some [1; 1]; Some [-2]; Some [2]; Some [1; 1]; Some [1; 1]]%Z) /\
  x_show (run (NT := F32Num x_tanh) (x_prog x_float) init_state) =
    Ret (map (map x_float) [[1; 2; 3; 4]; [5; 6]; [17; 39]; [7]; [-7]; [10; 32]; [42]]%Z,
         map (option_map (map x_float)) [Some [5; 6; 5; 6]; Some [4; 6]; Some [1; 1]; Some [-2]; Some [2]; Some [1; 1]; Some [1; 1]]%Z).
Proof. exact c66_shapes_ex. Qed.

(** C66: the training program of main.rs: whatever the random numbers are, it goes through the same steps. *)
Theorem C66_main :
  forall (A B : Type) (NA : Num A) (NB : Num B) (inp hid out rounds : nat) (one step : A) (one' step' : B)
         (w1 b1 w2 b2 w3 b3 input : list A) (w1' b1' w2' b2' w3' b3' input' : list B),
    map (@length A) [w1; b1; w2; b2; w3; b3; input] = map (@length B) [w1'; b1'; w2'; b2'; w3'; b3'; input'] ->
    rel_outcome (fun a b => rel_heap (fun _ _ => True) (fst a) (fst b) /\ map weights (snd a) = map weights (snd b) /\ map bias (snd a) = map bias (snd b))
      (main_program inp hid out rounds one step w1 b1 w2 b2 w3 b3 input)
      (main_program inp hid out rounds one' step' w1' b1' w2' b2' w3' b3' input').
Proof. exact c66_main. Qed.
Print Assumptions C66_main.
Example C66_main_ex :
  (forall o, o = main_program (NT := ZNum) 1 2 1 2 1%Z 1%Z [1; 2]%Z [0; 0]%Z [1; 0; 0; 1]%Z [1; 1]%Z [1; 1]%Z [0]%Z [3]%Z -> match o with Ret (h, m) => map weights m = [54; 60; 66] | _ => False end) /\
  (forall o, o = main_program (NT := ZNum) 1 2 1 2 1%Z 1%Z [1]%Z [0; 0]%Z [1; 0; 0; 1]%Z [1; 1]%Z [1; 1]%Z [0]%Z [3]%Z -> o = Panic PAssert).
Proof. exact c66_main_ex. Qed.

(** C67: in the release profile every value and every gradient is the exact one, wrapped around once at the end.
    [M] is the number of values of the type, [lo] the smallest.  (The programs do not use [abs], [relu] and
    [tanh], which integers do not have.) *)
Theorem C67_mod :
  forall (M lo : Z) (p q : list (cmd Z)),
    (0 < M)%Z -> Forall2 (rel_cmd (fun a z => a = wrap M lo z)) p q -> (forall c k, In c p -> In k (needs c) -> k = KNeg) ->
    rel_outcome (rel_state (fun a z => a = wrap M lo z)) (run (NT := WrapNum M lo) p init_state) (run q init_state).
Proof. exact c67_mod. Qed.
Print Assumptions C67_mod.
Example C67_mod_ex :
  x_show (run (NT := WrapNum 256 (-128)) (x_int (wrap 256 (-128))) init_state) =
    Ret ([[1; 2; 3; 4]; [5; 6]; [17; 39]; [7]; [-7]; [10; 32]; [42]; [6]; [-4]]%Z,
         [Some [5; 6; 5; 6]; Some [4; 6]; Some [1; 1]; Some [-2]; Some [2]; Some [1; 1]; Some [1; 1]; None; None]%Z) /\
  x_show (run (x_int (fun z => z)) init_state) =
    Ret ([[1; 2; 3; 4]; [5; 6]; [17; 39]; [7]; [-7]; [10; 32]; [42]; [6]; [252]]%Z,
         [Some [5; 6; 5; 6]; Some [4; 6]; Some [1; 1]; Some [-2]; Some [2]; Some [1; 1]; Some [1; 1]; None; None]%Z) /\
  Forall2 (rel_cmd (fun a z => a = wrap 256 (-128) z)) (x_int (wrap 256 (-128))) (x_int (fun z => z)).
Proof. exact c67_mod_ex. Qed.

(** C67: where the exact values and gradients fit, there is nothing wrong with the wrapped ones, whatever
    the intermediate results were. *)
Theorem C67_fits :
  forall (M lo : Z) (p q : list (cmd Z)) (t : state Z),
    (0 < M)%Z -> Forall2 (rel_cmd (fun a z => a = wrap M lo z)) p q -> (forall c k, In c p -> In k (needs c) -> k = KNeg) ->
    run q init_state = Ret t -> everywhere (fun z => lo <= z < lo + M)%Z t ->
    exists s, run (NT := WrapNum M lo) p init_state = Ret s /\ rel_state eq s t.
Proof. exact c67_fits. Qed.
Print Assumptions C67_fits.
Example C67_fits_ex :
  x_show (run (NT := WrapNum 256 (-128)) [CNew [100; 100; -106]%Z [3]; CNew [1; 1; 1]%Z [3]; CDot 0 1] init_state) =
    Ret ([[100; 100; -106]; [1; 1; 1]; [94]]%Z, [None; None; None]) /\
  x_show (run (NT := ZNum) [CNew [100; 100; -106]%Z [3]; CNew [1; 1; 1]%Z [3]; CDot 0 1] init_state) =
    Ret ([[100; 100; -106]; [1; 1; 1]; [94]]%Z, [None; None; None]).
Proof. exact c67_fits_ex. Qed.

(** C68: in the dev profile a program may overflow although everything that it holds fits: [a - b] is computed
    as [a + (-b)].  In [i8], [-1 - (-128)] is 127, but [-(-128)] does not fit. *)
Theorem C68_fits_refuted :
  ~ (forall (lo hi : Z) (p : list (cmd (option Z))) (q : list (cmd Z)) (s : state (option Z)) (t : state Z),
       (lo <= 0)%Z -> (1 <= hi)%Z -> Forall2 (rel_cmd (fun o z => o = Some z)) p q -> (forall c k, In c p -> In k (needs c) -> k = KNeg) ->
       run (NT := CheckedNum lo hi) p init_state = Ret s -> run q init_state = Ret t ->
       (forall i nd, In i (env t) -> nth_error (nodes (hp t)) i = Some nd -> Forall (fun z => lo <= z <= hi)%Z (array (n_val nd))) ->
       forall i nd, In i (env s) -> nth_error (nodes (hp s)) i = Some nd -> ~ In None (array (n_val nd))).
Proof. exact c68_fits_refuted. Qed.
Print Assumptions C68_fits_refuted.
Example C68_fits_refuted_ex :
  x_show (run (NT := CheckedNum (-128) 127) [CNew [Some (-1)]%Z [1]; CNew [Some (-128)]%Z [1]; CSub 0 1] init_state) =
    Ret ([[Some (-1)]; [Some (-128)]; [None]; [None]]%Z, [None; None; None; None]) /\
  x_show (run (NT := CheckedNum (-128) 127) [CNew [Some 100; Some 100; Some (-106)]%Z [3]; CNew [Some 1; Some 1; Some 1]%Z [3]; CDot 0 1] init_state) =
    Ret ([[Some 100; Some 100; Some (-106)]; [Some 1; Some 1; Some 1]; [None]]%Z, [None; None; None]).
Proof. exact c68_fits_refuted_ex. Qed.

(** C68: no wrong answers: a value or gradient for which nothing overflowed is exact. *)
Theorem C68_never_wrong :
  forall (lo hi : Z) (p : list (cmd (option Z))) (q : list (cmd Z)),
    let R := fun o z => o = None \/ o = Some z in
    Forall2 (rel_cmd R) p q -> (forall c k, In c p -> In k (needs c) -> k = KNeg) ->
    rel_outcome (rel_state R) (run (NT := CheckedNum lo hi) p init_state) (run q init_state).
Proof. exact c68_never_wrong. Qed.
Print Assumptions C68_never_wrong.
Example C68_never_wrong_ex :
  x_show (run (NT := CheckedNum (-128) 127) (x_int (fun z => Some z)) init_state) =
    Ret (map (map Some) [[1; 2; 3; 4]; [5; 6]; [17; 39]; [7]; [-7]; [10; 32]; [42]; [6]]%Z ++ [[None]],
         map (option_map (map Some)) [Some [5; 6; 5; 6]; Some [4; 6]; Some [1; 1]; Some [-2]; Some [2]; Some [1; 1]; Some [1; 1]; None; None]%Z).
Proof. exact c68_never_wrong_ex. Qed.

(** C68: what does hold: run the program on the magnitudes of its inputs, adding them where it adds or subtracts and
    multiplying them where it multiplies.  If no number in this run exceeds the largest value of a signed
    type, then nothing overflows and all values and gradients are exact. *)
Theorem C68_room :
  forall (lo hi : Z) (bounds : list (cmd (Z * Z))) (q : list (cmd Z)) (p : list (cmd (option Z))) (s : state (Z * Z)),
    (lo <= - hi)%Z -> (1 <= hi)%Z ->
    Forall2 (rel_cmd (fun xb z => fst xb = z)) bounds q ->
    Forall2 (rel_cmd (fun xb o => snd xb = Z.abs (fst xb) /\ o = Some (fst xb))) bounds p ->
    (forall c k, In c bounds -> In k (needs c) -> k = KNeg) ->
    run (NT := BoundNum) bounds init_state = Ret s -> everywhere (fun xb => snd xb <= hi)%Z s ->
    exists t u, run q init_state = Ret t /\ run (NT := CheckedNum lo hi) p init_state = Ret u /\ rel_state (fun z o => o = Some z) t u.
Proof. exact c68_room. Qed.
Print Assumptions C68_room.
Example C68_room_ex :
  x_show (run (NT := BoundNum) (x_prog (fun z => (z, Z.abs z))) init_state) =
    Ret ([[(1, 1); (2, 2); (3, 3); (4, 4)]; [(5, 5); (6, 6)]; [(17, 17); (39, 39)]; [(7, 7)]; [(-7, 7)]; [(10, 24); (32, 46)]; [(42, 70)]],
         [Some [(5, 5); (6, 6); (5, 5); (6, 6)]; Some [(4, 4); (6, 6)]; Some [(1, 1); (1, 1)]; Some [(-2, 2)]; Some [(2, 2)]; Some [(1, 1); (1, 1)]; Some [(1, 1); (1, 1)]])%Z /\
  x_show (run (NT := CheckedNum (-128) 127) (x_prog (fun z => Some z)) init_state) =
    Ret (map (map Some) [[1; 2; 3; 4]; [5; 6]; [17; 39]; [7]; [-7]; [10; 32]; [42]]%Z,
         map (option_map (map Some)) [Some [5; 6; 5; 6]; Some [4; 6]; Some [1; 1]; Some [-2]; Some [2]; Some [1; 1]; Some [1; 1]]%Z).
Proof. exact c68_room_ex. Qed.

(** C68: the same for the unsigned types, which have no negation and no subtraction. *)
Theorem C68_room_unsigned :
  forall (hi : Z) (bounds : list (cmd (Z * Z))) (q : list (cmd Z)) (p : list (cmd (option Z))) (s : state (Z * Z)),
    (1 <= hi)%Z ->
    Forall2 (rel_cmd (fun xb z => fst xb = z)) bounds q ->
    Forall2 (rel_cmd (fun xb o => snd xb = Z.abs (fst xb) /\ (0 <= fst xb)%Z /\ o = Some (fst xb))) bounds p ->
    (forall c, In c bounds -> needs c = []) ->
    run (NT := BoundNum) bounds init_state = Ret s -> everywhere (fun xb => snd xb <= hi)%Z s ->
    exists t u, run q init_state = Ret t /\ run (NT := CheckedNum 0 hi) p init_state = Ret u /\ rel_state (fun z o => o = Some z) t u.
Proof. exact c68_room_unsigned. Qed.
Print Assumptions C68_room_unsigned.
Example C68_room_unsigned_ex :
  x_show (run (NT := BoundNum) (x_unsigned (fun z => (z, Z.abs z))) init_state) =
    Ret ([[(1, 1); (2, 2); (3, 3); (4, 4)]; [(5, 5); (30, 30)]; [(65, 65); (135, 135)]; [(200, 200)]],
         [Some [(5, 5); (30, 30); (5, 5); (30, 30)]; Some [(4, 4); (6, 6)]; Some [(1, 1); (1, 1)]; Some [(1, 1); (1, 1)]])%Z /\
  x_show (run (NT := CheckedNum 0 255) (x_unsigned (fun z => Some z)) init_state) =
    Ret (map (map Some) [[1; 2; 3; 4]; [5; 30]; [65; 135]; [200]]%Z,
         map (option_map (map Some)) [Some [5; 30; 5; 30]; Some [4; 6]; Some [1; 1]; Some [1; 1]]%Z).
Proof. exact c68_room_unsigned_ex. Qed.

(** C69: floats with [prec] bits compute with whole numbers exactly, including all gradients, if the run on the magnitudes
    stays within [2 ^ prec] (16777216 for [f32]).  The programs do not use [abs], [relu] and [tanh]. *)
Theorem C69_whole_numbers :
  forall (prec emax : Z) (P : Prec_gt_0 prec) (E : Prec_lt_emax prec emax) (tanh : float prec emax -> float prec emax)
         (bounds : list (cmd (Z * Z))) (q : list (cmd Z)) (p : list (cmd (float prec emax))) (s : state (Z * Z)),
    let exactly := fun z f => is_finite f = true /\ B2R f = IZR z in
    Forall2 (rel_cmd (fun xb z => fst xb = z)) bounds q ->
    Forall2 (rel_cmd (fun xb f => snd xb = Z.abs (fst xb) /\ exactly (fst xb) f)) bounds p ->
    (forall c k, In c bounds -> In k (needs c) -> k = KNeg) ->
    run (NT := BoundNum) bounds init_state = Ret s -> everywhere (fun xb => snd xb <= 2 ^ prec)%Z s ->
    exists t u, run q init_state = Ret t /\ run (NT := FloatNum prec emax tanh) p init_state = Ret u /\ rel_state exactly t u.
Proof. exact c69_whole_numbers. Qed.
Print Assumptions C69_whole_numbers.
Example C69_whole_numbers_ex :
  x_bits (x_show (run (NT := FloatNum 24 128 (fun x => x)) (x_prog x_f) init_state)) =
    x_bits (Ret (map (map x_f) [[1; 2; 3; 4]; [5; 6]; [17; 39]; [7]; [-7]; [10; 32]; [42]]%Z,
         map (option_map (map x_f)) [Some [5; 6; 5; 6]; Some [4; 6]; Some [1; 1]; Some [-2]; Some [2]; Some [1; 1]; Some [1; 1]]%Z)) /\
  x_bits (x_show (run (NT := FloatNum 24 128 (fun x => x)) [CNew [x_f 16777216; x_f 1; x_f 1] [3]; CSum 0] init_state)) =
    x_bits (Ret ([[x_f 16777216; x_f 1; x_f 1]; [x_f 16777216]], [None; Some [x_f 1; x_f 1; x_f 1]])).
Proof. exact c69_whole_numbers_ex. Qed.

