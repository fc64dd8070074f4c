(** * PropertiesRoom: the theorems of ClaimsRoom.v, restated (generated by tools/genprops.py) *)
From Coq Require Import Reals ZArith Lia Lra.
From Flocq Require Import Core BinarySingleNaN.
From Verif Require Import Base ModelIndex ModelTensor ModelOps ModelJvp ModelGraph Spec SpecGraph SpecParam SpecRound SpecError
  Lists ParamFacts RoundFacts BranchFacts RoomFacts ClaimsParam Instances.
From Verif Require Import ClaimsRoom.
Local Open Scope nat_scope.

(** C69, with [abs] and [relu]: only [tanh] is left out. *)
Theorem C69_with_signs :
  forall (prec emax : Z) (P : Prec_gt_0 prec) (E : Prec_lt_emax prec emax) (tanh : float prec emax -> float prec emax)
         (bounds : list (cmd (Z * Z))) (q : list (cmd Z)) (p : list (cmd (float prec emax))) (s : state (Z * Z)),
    let exactly := fun z f => is_finite f = true /\ B2R f = IZR z in
    Forall2 (rel_cmd (fun xb z => fst xb = z)) bounds q ->
    Forall2 (rel_cmd (fun xb f => snd xb = Z.abs (fst xb) /\ exactly (fst xb) f)) bounds p ->
    (forall c, In c bounds -> ~ In KTanh (needs c)) ->
    run (NT := BoundNum) bounds init_state = Ret s -> everywhere (fun xb => snd xb <= 2 ^ prec)%Z s ->
    exists t u, run q init_state = Ret t /\ run (NT := FloatNum prec emax tanh) p init_state = Ret u /\ rel_state exactly t u.
Proof. exact c69_with_signs. Qed.
Print Assumptions C69_with_signs.
Example C69_with_signs_ex :
  Forall2 (rel_cmd (fun xb z => fst xb = z)) (x_absrelu (fun z => (z, Z.abs z))) (x_absrelu (fun z => z)) /\
  x_show (run (NT := BoundNum) (x_absrelu (fun z => (z, Z.abs z))) init_state) =
    Ret ([[(1, 1); (-2, 2); (3, 3); (4, 4)]; [(5, 5); (6, 6)]; [(-7, 17); (39, 39)]; [(0, 0); (39, 39)]; [(40, 40)]; [(-40, 40)]; [(-40, 40); (-1, 79)]; [(40, 40); (1, 79)]; [(41, 119)]]%Z,
         [Some [(0, 5); (0, 6); (-5, 5); (-6, 6)]; Some [(-3, 4); (-4, 6)]; Some [(0, 1); (-1, 1)]; Some [(-1, 1); (-1, 1)]; Some [(2, 2)]; Some [(-2, 2)]; Some [(-1, 1); (-1, 1)]; Some [(1, 1); (1, 1)]; Some [(1, 1); (1, 1)]]%Z) /\
  x_bits (x_show (run (NT := FloatNum 24 128 (fun x => x)) (x_absrelu x_f) init_state)) =
    x_bits (Ret (map (map x_f) [[1; -2; 3; 4]; [5; 6]; [-7; 39]; [0; 39]; [40]; [-40]; [-40; -1]; [40; 1]; [41]]%Z,
         map (option_map (map x_f)) [Some [0; 0; -5; -6]; Some [-3; -4]; Some [0; -1]; Some [-1; -1]; Some [2]; Some [-2]; Some [-1; -1]; Some [1; 1]; Some [1; 1]]%Z)).
Proof. exact c69_with_signs_ex. Qed.

