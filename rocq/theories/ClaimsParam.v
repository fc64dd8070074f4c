(** * ClaimsParam: programs over different element types *)
From Coq Require Import Reals ZArith Lia Lra.
From Flocq Require Import Core BinarySingleNaN.
From Verif Require Import Base ModelIndex ModelTensor ModelOps ModelJvp ModelGraph ModelNN ModelMain ModelInt SpecParam SpecRound
  ParamFacts RoundFacts Instances FloatInst.
Local Open Scope nat_scope.

(** Programs for the examples.  [x_prog f]: a matrix product, a broadcast subtraction, a sum and a backward pass *)
Definition x_prog {A : Type} (f : Z -> A) : list (cmd A) :=
  [CNew (map f [1; 2; 3; 4]%Z) [2; 2]; CNew (map f [5; 6]%Z) [2; 1]; CBmm 0 1; CNew (map f [7]%Z) [1; 1]; CSub 2 3; CSum 4; CBackward 5].
Definition x_float : Z -> f32 := f32_of_Z.
Definition x_tanh (x : f32) : f32 := x.
(** all values, all gradients *)
Definition x_show {A : Type} (o : outcome (state A)) : outcome (list (list A) * list (option (list A))) :=
  match o with
  | Ret s => Ret (map (fun nd => array (n_val nd)) (nodes (hp s)),
                  map (fun i => option_map array (grads (hp s) i)) (seq 0 (length (nodes (hp s)))))
  | Panic p => Panic p
  | NoFuel => NoFuel
  end.

(** ** C66 *)

(** C66: everything the library computes respects every relation between two element types that the arithmetic
    respects: a program that makes the same calls on related data panics for the same reason, or ends in
    the same variables and histories, with related values and related gradients. *)
Lemma c66_any_relation :
  forall (A B : Type) (NA : Num A) (NB : Num B) (R : A -> B -> Prop) (p : list (cmd A)) (q : list (cmd B)),
    respects_ring R -> Forall2 (rel_cmd R) p q -> (forall c k, In c p -> In k (needs c) -> respects R k) ->
    rel_outcome (rel_state R) (run p init_state) (run q init_state).
Proof. intros A B NA NB R p q HR F HN. apply parametric; auto. Qed.

(** doubling everything is not respected by the arithmetic, being even is *)
Example c66_any_relation_ex :
  let R := fun a b : Z => (a mod 2 = b mod 2)%Z in
  respects_ring R /\ respects_neg R /\ Forall2 (rel_cmd R) (x_prog (fun z => z)) (x_prog (fun z => 3 * z)%Z) /\
  x_show (run (x_prog (fun z => z)) init_state) <> x_show (run (x_prog (fun z => 3 * z)%Z) init_state).
Proof.
  cbv zeta. split; [|split; [|split]].
  - constructor; try reflexivity; intros a b x y H K; cbn [n_add n_mul ZNum].
    + rewrite Z.add_mod, H, K, <- Z.add_mod by lia. reflexivity.
    + rewrite Z.mul_mod, H, K, <- Z.mul_mod by lia. reflexivity.
  - intros a x H. cbn [n_neg ZNum]. rewrite <- (Z.sub_0_l a), <- (Z.sub_0_l x), Zminus_mod, H, <- Zminus_mod. reflexivity.
  - repeat (constructor; try reflexivity).
  - vm_compute. discriminate.
Qed.

Definition anything {A B : Type} (a : A) (b : B) : Prop := True.
Lemma anything_ring (A B : Type) (NA : Num A) (NB : Num B) : respects_ring (@anything A B).
Proof. constructor; intros; exact I. Qed.
Lemma anything_op (A B : Type) (NA : Num A) (NB : Num B) k : respects (@anything A B) k.
Proof. destruct k; cbn; try exact I; repeat intro; try exact I; split; exact I. Qed.

(** C66: whether a program panics, and why, depends neither on the data nor on the element type, only on the
    calls and the shapes. *)
Lemma c66_panics :
  forall (A B : Type) (NA : Num A) (NB : Num B) (p : list (cmd A)) (q : list (cmd B)) (why : panic),
    Forall2 (rel_cmd (fun _ _ => True)) p q ->
    (run p init_state = Panic why <-> run q init_state = Panic why).
Proof.
  intros A B NA NB p q why F. pose proof (parametric (@anything A B) (anything_ring A B NA NB) p q F (fun c k _ _ => anything_op A B NA NB k)) as H.
  destruct (run p init_state) as [s|e|], (run q init_state) as [t|e'|]; cbn in H; try tauto; split; intros E; try discriminate; congruence.
Qed.

Example c66_panics_ex :
  run (NT := ZNum) [CNew [1; 2]%Z [2]; CNew [1; 2; 3]%Z [3]; CAdd 0 1] init_state = Panic PAssert /\
  run (NT := F32Num x_tanh) [CNew (map x_float [8; 9]%Z) [2]; CNew (map x_float [5; 5; 5]%Z) [3]; CAdd 0 1] init_state = Panic PAssert.
Proof. vm_compute. auto. Qed.

(** C66: ... and neither do the shapes of all tensors, their histories, which of them have gradients, and the
    shapes of these. *)
Lemma c66_shapes :
  forall (A B : Type) (NA : Num A) (NB : Num B) (p : list (cmd A)) (q : list (cmd B)) (s : state A),
    Forall2 (rel_cmd (fun _ _ => True)) p q -> run p init_state = Ret s ->
    exists t, run q init_state = Ret t /\ env s = env t /\
      map (fun nd => (shape (n_val nd), n_fn nd)) (nodes (hp s)) = map (fun nd => (shape (n_val nd), n_fn nd)) (nodes (hp t)) /\
      forall i, option_map (fun g => shape g) (grads (hp s) i) = option_map (fun g => shape g) (grads (hp t) i).
Proof.
  intros A B NA NB p q s F E. pose proof (parametric (@anything A B) (anything_ring A B NA NB) p q F (fun c k _ _ => anything_op A B NA NB k)) as H.
  rewrite E in H. destruct (run q init_state) as [t|e'|]; cbn in H; try tauto. exists t. destruct H as (HE & HN & HG). split; [reflexivity|]. split; [exact HE|]. split.
  - induction HN as [|n m l l' [[Hs _] Hf] _ IH]; [reflexivity|]. cbn [map]. rewrite Hs, Hf, IH. reflexivity.
  - intros i. specialize (HG i). destruct (grads (hp s) i), (grads (hp t) i); cbn in *; try tauto. destruct HG as [HG _]. congruence.
Qed.

Example c66_shapes_ex :
  Forall2 (rel_cmd (fun _ _ => True)) (x_prog (fun z => z)) (x_prog x_float) /\
  x_show (run (NT := ZNum) (x_prog (fun z => z)) init_state) =
    Ret ([[1; 2; 3; 4]; [5; 6]; [17; 39]; [7]; [-7]; [10; 32]; [42]]%Z,
         [Some [5; 6; 5; 6]; Some [4; 6]; Some [1; 1]; Some [-2]; Some [2]; Some [1; 1]; Some [1; 1]]%Z) /\
  x_show (run (NT := F32Num x_tanh) (x_prog x_float) init_state) =
    Ret (map (map x_float) [[1; 2; 3; 4]; [5; 6]; [17; 39]; [7]; [-7]; [10; 32]; [42]]%Z,
         map (option_map (map x_float)) [Some [5; 6; 5; 6]; Some [4; 6]; Some [1; 1]; Some [-2]; Some [2]; Some [1; 1]; Some [1; 1]]%Z).
Proof. split; [repeat (constructor; try reflexivity)|]. vm_compute. auto. Qed.

(** C66: the training program of main.rs: whatever the random numbers are, it goes through the same steps. *)
Lemma c66_main :
  forall (A B : Type) (NA : Num A) (NB : Num B) (inp hid out rounds : nat) (one step : A) (one' step' : B)
         (w1 b1 w2 b2 w3 b3 input : list A) (w1' b1' w2' b2' w3' b3' input' : list B),
    map (@length A) [w1; b1; w2; b2; w3; b3; input] = map (@length B) [w1'; b1'; w2'; b2'; w3'; b3'; input'] ->
    rel_outcome (fun a b => rel_heap (fun _ _ => True) (fst a) (fst b) /\ map weights (snd a) = map weights (snd b) /\ map bias (snd a) = map bias (snd b))
      (main_program inp hid out rounds one step w1 b1 w2 b2 w3 b3 input)
      (main_program inp hid out rounds one' step' w1' b1' w2' b2' w3' b3' input').
Proof.
  intros A B NA NB inp hid out rounds one step one' step' w1 b1 w2 b2 w3 b3 input w1' b1' w2' b2' w3' b3' input' H. cbn [map] in H. injection H as H1 H2 H3 H4 H5 H6 H7.
  assert (F : forall (l : list A) (l' : list B), length l = length l' -> Forall2 anything l l').
  { induction l as [|x l IH]; intros [|y l'] E; cbn in E; try discriminate; constructor; [exact I|]. apply IH. congruence. }
  pose proof (anything_op A B NA NB) as HO.
  eapply ro_mono; [|apply (p_main (@anything A B) (anything_ring A B NA NB)); try exact I; try (apply F; assumption); try exact (HO KNeg); try exact (HO KAbs); try exact (HO KRelu); exact (HO KTanh)].
  intros [h l] [k m] [[Hh _] HF]. cbn [fst snd] in *. split; [exact Hh|]. clear - HF. induction HF as [|a b l m (Ew & Eb & _) _ [IH1 IH2]]; [split; reflexivity|]. cbn [map]. split; congruence.
Qed.

Example c66_main_ex :
  (forall o, o = main_program (NT := ZNum) 1 2 1 2 1%Z 1%Z [1; 2]%Z [0; 0]%Z [1; 0; 0; 1]%Z [1; 1]%Z [1; 1]%Z [0]%Z [3]%Z -> match o with Ret (h, m) => map weights m = [54; 60; 66] | _ => False end) /\
  (forall o, o = main_program (NT := ZNum) 1 2 1 2 1%Z 1%Z [1]%Z [0; 0]%Z [1; 0; 0; 1]%Z [1; 1]%Z [1; 1]%Z [0]%Z [3]%Z -> o = Panic PAssert).
Proof. split; intros o ->; vm_compute; reflexivity. Qed.

(** ** C67 *)

Lemma wrap_mod M lo z : (0 < M)%Z -> (wrap M lo z mod M = z mod M)%Z.
Proof. intros H. unfold wrap. rewrite Zplus_mod_idemp_l. f_equal. lia. Qed.
Lemma wrap_eq M lo x y : (0 < M)%Z -> (x mod M = y mod M)%Z -> wrap M lo x = wrap M lo y.
Proof. intros H E. unfold wrap. rewrite Zminus_mod, E, <- Zminus_mod. reflexivity. Qed.
Lemma wraps_ring M lo : (0 < M)%Z -> respects_ring (NA := WrapNum M lo) (NB := ZNum) (fun a z => a = wrap M lo z).
Proof.
  intros HM. constructor; try reflexivity; intros a b x y -> ->; cbn [n_add n_mul WrapNum ZNum]; apply wrap_eq; auto.
  - rewrite Z.add_mod, !wrap_mod, <- Z.add_mod by lia. reflexivity.
  - rewrite Z.mul_mod, !wrap_mod, <- Z.mul_mod by lia. reflexivity.
Qed.
Lemma wraps_neg M lo : (0 < M)%Z -> respects_neg (NA := WrapNum M lo) (NB := ZNum) (fun a z => a = wrap M lo z).
Proof.
  intros HM a x ->. cbn [n_neg WrapNum ZNum]. apply wrap_eq; auto. rewrite <- (Z.sub_0_l (wrap _ _ _)), <- (Z.sub_0_l x), Zminus_mod, wrap_mod, <- Zminus_mod by lia. reflexivity.
Qed.

(** C67: in the release profile every value and every gradient is the exact one, wrapped around once at the end.
    [M] is the number of values of the type, [lo] the smallest.  (The programs do not use [abs], [relu] and
    [tanh], which integers do not have.) *)
Lemma c67_mod :
  forall (M lo : Z) (p q : list (cmd Z)),
    (0 < M)%Z -> Forall2 (rel_cmd (fun a z => a = wrap M lo z)) p q -> (forall c k, In c p -> In k (needs c) -> k = KNeg) ->
    rel_outcome (rel_state (fun a z => a = wrap M lo z)) (run (NT := WrapNum M lo) p init_state) (run q init_state).
Proof.
  intros M lo p q HM F HN. apply (parametric (NA := WrapNum M lo) (NB := ZNum) _ (wraps_ring M lo HM)); auto.
  intros c k Hc Hk. rewrite (HN c k Hc Hk). apply (wraps_neg M lo HM).
Qed.

(** in [i8], 42 * 6 = 252 becomes -4; in [u8] it is still right *)
Definition x_int {A : Type} (f : Z -> A) : list (cmd A) := x_prog f ++ [CScalar (f 6%Z); CMul 5 6].
Example c67_mod_ex :
  x_show (run (NT := WrapNum 256 (-128)) (x_int (wrap 256 (-128))) init_state) =
    Ret ([[1; 2; 3; 4]; [5; 6]; [17; 39]; [7]; [-7]; [10; 32]; [42]; [6]; [-4]]%Z,
         [Some [5; 6; 5; 6]; Some [4; 6]; Some [1; 1]; Some [-2]; Some [2]; Some [1; 1]; Some [1; 1]; None; None]%Z) /\
  x_show (run (x_int (fun z => z)) init_state) =
    Ret ([[1; 2; 3; 4]; [5; 6]; [17; 39]; [7]; [-7]; [10; 32]; [42]; [6]; [252]]%Z,
         [Some [5; 6; 5; 6]; Some [4; 6]; Some [1; 1]; Some [-2]; Some [2]; Some [1; 1]; Some [1; 1]; None; None]%Z) /\
  Forall2 (rel_cmd (fun a z => a = wrap 256 (-128) z)) (x_int (wrap 256 (-128))) (x_int (fun z => z)).
Proof. split; [vm_compute; reflexivity|]. split; [vm_compute; reflexivity|]. repeat (constructor; try reflexivity). Qed.

Lemma rel_state_all A B (R Q : A -> B -> Prop) (P : B -> Prop) s t : rel_state R s t -> everywhere P t -> (forall a b, R a b -> P b -> Q a b) -> rel_state Q s t.
Proof.
  intros (E & F & G) [PV PG] H.
  assert (L : forall (l : list A) l', Forall2 R l l' -> Forall P l' -> Forall2 Q l l').
  { induction 1; intros HP; inversion HP; subst; constructor; auto. }
  split; [exact E|]. split.
  - assert (PV' : Forall (fun nd => Forall P (array (n_val nd))) (nodes (hp t))) by (apply Forall_forall; exact PV).
    clear - F PV' L. induction F as [|n m l l' [[Es Fa] Ef] _ IH]; inversion PV'; subst; constructor; auto. split; [split|]; auto.
  - intros i. specialize (G i). destruct (grads (hp s) i) as [g|], (grads (hp t) i) as [g'|] eqn:Eg; cbn in *; try tauto. destruct G as [Es Fa]. split; auto. apply L; eauto.
Qed.

(** C67: where the exact values and gradients fit, there is nothing wrong with the wrapped ones, whatever
    the intermediate results were. *)
Lemma c67_fits :
  forall (M lo : Z) (p q : list (cmd Z)) (t : state Z),
    (0 < M)%Z -> Forall2 (rel_cmd (fun a z => a = wrap M lo z)) p q -> (forall c k, In c p -> In k (needs c) -> k = KNeg) ->
    run q init_state = Ret t -> everywhere (fun z => lo <= z < lo + M)%Z t ->
    exists s, run (NT := WrapNum M lo) p init_state = Ret s /\ rel_state eq s t.
Proof.
  intros M lo p q t HM F HN E HT. pose proof (c67_mod M lo p q HM F HN) as H. rewrite E in H. destruct (run (NT := WrapNum M lo) p init_state) as [s|e|]; cbn in H; try tauto.
  exists s. split; [reflexivity|]. apply (rel_state_all _ _ _ eq _ _ _ H HT). intros a z -> Hz. unfold wrap. rewrite Z.mod_small; lia.
Qed.

(** 100 + 100 - 106 in [i8]: the sum wraps, the result is right *)
Example c67_fits_ex :
  x_show (run (NT := WrapNum 256 (-128)) [CNew [100; 100; -106]%Z [3]; CNew [1; 1; 1]%Z [3]; CDot 0 1] init_state) =
    Ret ([[100; 100; -106]; [1; 1; 1]; [94]]%Z, [None; None; None]) /\
  x_show (run (NT := ZNum) [CNew [100; 100; -106]%Z [3]; CNew [1; 1; 1]%Z [3]; CDot 0 1] init_state) =
    Ret ([[100; 100; -106]; [1; 1; 1]; [94]]%Z, [None; None; None]).
Proof. vm_compute. auto. Qed.

(** ** C68 *)

(** C68: in the dev profile a program may overflow although everything that it holds fits: [a - b] is computed
    as [a + (-b)].  In [i8], [-1 - (-128)] is 127, but [-(-128)] does not fit. *)
Lemma c68_fits_refuted :
  ~ (forall (lo hi : Z) (p : list (cmd (option Z))) (q : list (cmd Z)) (s : state (option Z)) (t : state Z),
       (lo <= 0)%Z -> (1 <= hi)%Z -> Forall2 (rel_cmd (fun o z => o = Some z)) p q -> (forall c k, In c p -> In k (needs c) -> k = KNeg) ->
       run (NT := CheckedNum lo hi) p init_state = Ret s -> run q init_state = Ret t ->
       (forall i nd, In i (env t) -> nth_error (nodes (hp t)) i = Some nd -> Forall (fun z => lo <= z <= hi)%Z (array (n_val nd))) ->
       forall i nd, In i (env s) -> nth_error (nodes (hp s)) i = Some nd -> ~ In None (array (n_val nd))).
Proof.
  intros H. set (p := [CNew [Some (-1)]%Z [1]; CNew [Some (-128)]%Z [1]; CSub 0 1]). set (q := [CNew [-1]%Z [1]; CNew [-128]%Z [1]; CSub 0 1]).
  destruct (run (NT := CheckedNum (-128) 127) p init_state) as [s|e|] eqn:ES; [|vm_compute in ES; discriminate..].
  destruct (run q init_state) as [t|e|] eqn:ET; [|vm_compute in ET; discriminate..].
  assert (XS : env s = [0; 1; 3] /\ nth_error (nodes (hp s)) 3 = Some (mkNode (mkRaw [None] [1]) (Some (KAdd, [0; 2])))).
  { vm_compute in ES. injection ES as <-. vm_compute. auto. }
  assert (XT : env t = [0; 1; 3] /\ map (fun nd => array (n_val nd)) (nodes (hp t)) = [[-1]; [-128]; [128]; [127]]%Z).
  { vm_compute in ET. injection ET as <-. vm_compute. auto. }
  apply (H (-128)%Z 127%Z p q s t) with (i := 3) (nd := mkNode (mkRaw [None] [1]) (Some (KAdd, [0; 2]))); try lia; try assumption.
  - repeat (constructor; try reflexivity).
  - intros c k [<-|[<-|[<-|[]]]] Hk; cbn in Hk; [destruct Hk|destruct Hk|destruct Hk as [<-|[]]; reflexivity].
  - destruct XT as [XE XV]. rewrite XE. intros i nd Hi Hn. apply (map_nth_error (fun nd => array (n_val nd))) in Hn. rewrite XV in Hn.
    destruct Hi as [<-|[<-|[<-|[]]]]; cbn in Hn; injection Hn as <-; repeat constructor; lia.
  - destruct XS as [-> _]. right. right. left. reflexivity.
  - apply XS.
  - left. reflexivity.
Qed.

(** the same with an intermediate sum of a product: 100 + 100 - 106 *)
Example c68_fits_refuted_ex :
  x_show (run (NT := CheckedNum (-128) 127) [CNew [Some (-1)]%Z [1]; CNew [Some (-128)]%Z [1]; CSub 0 1] init_state) =
    Ret ([[Some (-1)]; [Some (-128)]; [None]; [None]]%Z, [None; None; None; None]) /\
  x_show (run (NT := CheckedNum (-128) 127) [CNew [Some 100; Some 100; Some (-106)]%Z [3]; CNew [Some 1; Some 1; Some 1]%Z [3]; CDot 0 1] init_state) =
    Ret ([[Some 100; Some 100; Some (-106)]; [Some 1; Some 1; Some 1]; [None]]%Z, [None; None; None]).
Proof. vm_compute. auto. Qed.

(** C68: no wrong answers: a value or gradient for which nothing overflowed is exact. *)
Lemma c68_never_wrong :
  forall (lo hi : Z) (p : list (cmd (option Z))) (q : list (cmd Z)),
    let R := fun o z => o = None \/ o = Some z in
    Forall2 (rel_cmd R) p q -> (forall c k, In c p -> In k (needs c) -> k = KNeg) ->
    rel_outcome (rel_state R) (run (NT := CheckedNum lo hi) p init_state) (run q init_state).
Proof.
  intros lo hi p q R F HN. assert (C : forall z, R (checked lo hi z) z) by (intros z; unfold R, checked; destruct (_ && _); auto).
  apply (parametric (NA := CheckedNum lo hi) (NB := ZNum) R); auto.
  - constructor; cbn [n_zero n_one n_add n_mul CheckedNum ZNum]; try (right; reflexivity);
      intros a b x y [-> | ->] [-> | ->]; cbn [both]; try (left; reflexivity); apply C.
  - intros c k Hc Hk. rewrite (HN c k Hc Hk). intros a x [-> | ->]; cbn [n_neg CheckedNum ZNum both]; [left; reflexivity|apply C].
Qed.

Example c68_never_wrong_ex :
  x_show (run (NT := CheckedNum (-128) 127) (x_int (fun z => Some z)) init_state) =
    Ret (map (map Some) [[1; 2; 3; 4]; [5; 6]; [17; 39]; [7]; [-7]; [10; 32]; [42]; [6]]%Z ++ [[None]],
         map (option_map (map Some)) [Some [5; 6; 5; 6]; Some [4; 6]; Some [1; 1]; Some [-2]; Some [2]; Some [1; 1]; Some [1; 1]; None; None]%Z).
Proof. vm_compute. reflexivity. Qed.

(** The bounds are kept beside the exact values. *)
Definition exact_part (xb : Z * Z) (z : Z) : Prop := fst xb = z.
Lemma exact_ring : respects_ring (NA := BoundNum) (NB := ZNum) exact_part.
Proof. constructor; try reflexivity; intros [a b] [c d] x y <- <-; reflexivity. Qed.
Lemma exact_neg : respects_neg (NA := BoundNum) (NB := ZNum) exact_part.
Proof. intros [a b] x <-. reflexivity. Qed.

(** A representation [f] of the exact value [x] is good as long as the bound stays below [L]. *)
Definition good_until {B : Type} (repr : Z -> B -> Prop) (L : Z) (xb : Z * Z) (f : B) : Prop :=
  (Z.abs (fst xb) <= snd xb)%Z /\ ((snd xb <= L)%Z -> repr (fst xb) f).

Lemma good_ring (B : Type) (NB : Num B) (repr : Z -> B -> Prop) (L : Z) :
  (1 <= L)%Z -> repr 0%Z n_zero -> repr 1%Z n_one ->
  (forall x y f g, Z.abs x <= L -> Z.abs y <= L -> Z.abs (x + y) <= L -> repr x f -> repr y g -> repr (x + y) (n_add f g))%Z ->
  (forall x y f g, Z.abs x <= L -> Z.abs y <= L -> Z.abs (x * y) <= L -> repr x f -> repr y g -> repr (x * y) (n_mul f g))%Z ->
  respects_ring (NA := BoundNum) (good_until repr L).
Proof.
  intros HL H0 H1 HA HM. constructor; cbn [n_zero n_one n_add n_mul BoundNum]; try (split; cbn [fst snd]; [lia|auto]);
    intros [x b] [y c] f g [Hx Rx] [Hy Ry]; cbn [fst snd] in *; (split; cbn [fst snd]; [|intros HB]).
  - lia.
  - apply HA; try apply Rx; try apply Ry; lia.
  - rewrite Z.abs_mul. pose proof (Z.abs_nonneg x). pose proof (Z.abs_nonneg y). nia.
  - assert (b <= L)%Z by lia. assert (c <= L)%Z by lia. assert (Z.abs (x * y) <= b * c)%Z by (rewrite Z.abs_mul; pose proof (Z.abs_nonneg x); pose proof (Z.abs_nonneg y); nia).
    apply HM; auto; lia.
Qed.

Definition is_repr {B : Type} (repr : Z -> B -> Prop) (xb : Z * Z) (f : B) : Prop := snd xb = Z.abs (fst xb) /\ repr (fst xb) f.
Lemma rel_nest_mono A B (P Q : A -> B -> Prop) : (forall a b, P a b -> Q a b) -> forall n m, rel_nest P n m -> rel_nest Q n m.
Proof.
  intros H n m HN. refine (rel_nest_mut A B P (fun n m _ => rel_nest Q n m) (fun l l' _ => rel_nests Q l l') _ _ _ _ n m HN);
    intros; try constructor; auto.
Qed.
Lemma rel_cmd_mono A B (P Q : A -> B -> Prop) : (forall a b, P a b -> Q a b) -> forall c d, rel_cmd P c d -> rel_cmd Q c d.
Proof.
  intros H c d HC. destruct HC; constructor; auto. - match goal with F : Forall2 _ _ _ |- _ => induction F; constructor; auto end.
  - eapply rel_nest_mono; eauto.
Qed.
Lemma F2_mono X Y (P Q : X -> Y -> Prop) l m : (forall a b, P a b -> Q a b) -> Forall2 P l m -> Forall2 Q l m.
Proof. induction 2; constructor; auto. Qed.

(** Two runs related to a third *)
Lemma rel_state_compose A B C (P : A -> B -> Prop) (Q : A -> C -> Prop) (V : A -> Prop) (S : B -> C -> Prop) s t u :
  rel_state P s t -> rel_state Q s u -> everywhere V s -> (forall a b c, V a -> P a b -> Q a c -> S b c) -> rel_state S t u.
Proof.
  intros (E1 & F1 & G1) (E2 & F2 & G2) [VV VG] H.
  assert (L : forall (l : list A) l' l'', Forall2 P l l' -> Forall2 Q l l'' -> Forall V l -> Forall2 S l' l'').
  { intros l l' l'' F. revert l''. induction F; intros l'' F'' HV; inversion F''; inversion HV; subst; constructor; eauto. }
  assert (K : forall a b c, rel_raw P a b -> rel_raw Q a c -> Forall V (array a) -> rel_raw S b c).
  { intros a b c [Ea Fa] [Eb Fb] HV. split; [congruence|]. eapply L; eauto. }
  split; [congruence|]. split.
  - assert (VV' : Forall (fun nd => Forall V (array (n_val nd))) (nodes (hp s))) by (apply Forall_forall; exact VV).
    clear - F1 F2 VV' K. revert F2 VV'. generalize (nodes (hp u)). induction F1 as [|n m l l' [Hr Ef] _ IH]; intros k F2 VV'; inversion F2 as [|n' m2 l2 l2' [Hr2 Ef2] F2']; subst; [constructor|].
    inversion VV'; subst. constructor; [|apply IH; assumption]. split; [eapply K; eauto|congruence].
  - intros i. specialize (G1 i). specialize (G2 i). destruct (grads (hp s) i) as [g|] eqn:Eg, (grads (hp t) i), (grads (hp u) i); cbn in *; try tauto. eapply K; eauto.
Qed.

Lemma room (B : Type) (NB : Num B) (repr : Z -> B -> Prop) (L : Z) (ps : list (cmd (Z * Z))) (q : list (cmd Z)) (p : list (cmd B)) (s : state (Z * Z)) :
  respects_ring (NA := BoundNum) (good_until repr L) -> ((exists c, In c ps /\ In KNeg (needs c)) -> respects_neg (NA := BoundNum) (good_until repr L)) ->
  Forall2 (rel_cmd exact_part) ps q -> Forall2 (rel_cmd (is_repr repr)) ps p -> (forall c k, In c ps -> In k (needs c) -> k = KNeg) ->
  run (NT := BoundNum) ps init_state = Ret s -> everywhere (fun xb => snd xb <= L)%Z s ->
  exists t u, run q init_state = Ret t /\ run p init_state = Ret u /\ rel_state repr t u.
Proof.
  intros HR HG FQ FP HN E HS.
  pose proof (parametric (NA := BoundNum) (NB := ZNum) exact_part exact_ring ps q FQ) as H1.
  pose proof (parametric (NA := BoundNum) (good_until repr L) HR ps p) as H2. rewrite E in H1, H2.
  assert (H1' := H1 ltac:(intros c k Hc Hk; rewrite (HN c k Hc Hk); exact exact_neg)). clear H1.
  assert (H2' := H2 ltac:(eapply F2_mono; [|exact FP]; intros c d; apply rel_cmd_mono; intros xb f [HB HX]; split; [lia|auto])
                    ltac:(intros c k Hc Hk; pose proof (HN c k Hc Hk); subst k; apply HG; exists c; auto)). clear H2.
  destruct (run q init_state) as [t| |]; cbn in H1'; try tauto. destruct (run p init_state) as [u| |]; cbn in H2'; try tauto.
  exists t, u. split; [reflexivity|]. split; [reflexivity|]. eapply rel_state_compose; [exact H1'|exact H2'|exact HS|].
  intros xb z f HB <- [_ HX]. auto.
Qed.

(** C68: what does hold: run the program on the magnitudes of its inputs, adding them where it adds or subtracts and
    multiplying them where it multiplies.  If no number in this run exceeds the largest value of a signed
    type, then nothing overflows and all values and gradients are exact. *)
Lemma c68_room :
  forall (lo hi : Z) (bounds : list (cmd (Z * Z))) (q : list (cmd Z)) (p : list (cmd (option Z))) (s : state (Z * Z)),
    (lo <= - hi)%Z -> (1 <= hi)%Z ->
    Forall2 (rel_cmd (fun xb z => fst xb = z)) bounds q ->
    Forall2 (rel_cmd (fun xb o => snd xb = Z.abs (fst xb) /\ o = Some (fst xb))) bounds p ->
    (forall c k, In c bounds -> In k (needs c) -> k = KNeg) ->
    run (NT := BoundNum) bounds init_state = Ret s -> everywhere (fun xb => snd xb <= hi)%Z s ->
    exists t u, run q init_state = Ret t /\ run (NT := CheckedNum lo hi) p init_state = Ret u /\ rel_state (fun z o => o = Some z) t u.
Proof.
  intros lo hi bounds q p s HL H1 FQ FP HN E HS.
  assert (C : forall z, (Z.abs z <= hi)%Z -> checked lo hi z = Some z).
  { intros z Hz. unfold checked. destruct (Z.leb_spec lo z), (Z.leb_spec z hi); cbn; try reflexivity; lia. }
  apply (room _ (CheckedNum lo hi) (fun z o => o = Some z) hi bounds q p s); auto.
  - apply good_ring; auto; intros x y f g Hx Hy Hz -> ->; cbn [n_add n_mul CheckedNum both]; apply C; exact Hz.
  - intros _ [x b] f [Hx Rx]. cbn [fst snd] in *. split; cbn [n_neg BoundNum fst snd]; [lia|]. intros HB. rewrite (Rx HB). cbn [n_neg CheckedNum both]. apply C. lia.
Qed.

Example c68_room_ex :
  x_show (run (NT := BoundNum) (x_prog (fun z => (z, Z.abs z))) init_state) =
    Ret ([[(1, 1); (2, 2); (3, 3); (4, 4)]; [(5, 5); (6, 6)]; [(17, 17); (39, 39)]; [(7, 7)]; [(-7, 7)]; [(10, 24); (32, 46)]; [(42, 70)]],
         [Some [(5, 5); (6, 6); (5, 5); (6, 6)]; Some [(4, 4); (6, 6)]; Some [(1, 1); (1, 1)]; Some [(-2, 2)]; Some [(2, 2)]; Some [(1, 1); (1, 1)]; Some [(1, 1); (1, 1)]])%Z /\
  x_show (run (NT := CheckedNum (-128) 127) (x_prog (fun z => Some z)) init_state) =
    Ret (map (map Some) [[1; 2; 3; 4]; [5; 6]; [17; 39]; [7]; [-7]; [10; 32]; [42]]%Z,
         map (option_map (map Some)) [Some [5; 6; 5; 6]; Some [4; 6]; Some [1; 1]; Some [-2]; Some [2]; Some [1; 1]; Some [1; 1]]%Z).
Proof. vm_compute. auto. Qed.

(** C68: the same for the unsigned types, which have no negation and no subtraction. *)
Lemma c68_room_unsigned :
  forall (hi : Z) (bounds : list (cmd (Z * Z))) (q : list (cmd Z)) (p : list (cmd (option Z))) (s : state (Z * Z)),
    (1 <= hi)%Z ->
    Forall2 (rel_cmd (fun xb z => fst xb = z)) bounds q ->
    Forall2 (rel_cmd (fun xb o => snd xb = Z.abs (fst xb) /\ (0 <= fst xb)%Z /\ o = Some (fst xb))) bounds p ->
    (forall c, In c bounds -> needs c = []) ->
    run (NT := BoundNum) bounds init_state = Ret s -> everywhere (fun xb => snd xb <= hi)%Z s ->
    exists t u, run q init_state = Ret t /\ run (NT := CheckedNum 0 hi) p init_state = Ret u /\ rel_state (fun z o => o = Some z) t u.
Proof.
  intros hi bounds q p s H1 FQ FP HN E HS.
  assert (C : forall z, (0 <= z <= hi)%Z -> checked 0 hi z = Some z).
  { intros z Hz. unfold checked. destruct (Z.leb_spec 0 z), (Z.leb_spec z hi); cbn; try reflexivity; lia. }
  destruct (room _ (CheckedNum 0 hi) (fun z o => (0 <= z)%Z /\ o = Some z) hi bounds q p s) as (t & u & Et & Eu & H); auto.
  - apply good_ring; auto; try (split; [lia|reflexivity]); intros x y f g Hx Hy Hz [Px ->] [Py ->]; (split; [nia|]); cbn [n_add n_mul CheckedNum both]; apply C; nia.
  - intros (c & Hc & Hk). rewrite (HN c Hc) in Hk. destruct Hk.
  - intros c k Hc Hk. rewrite (HN c Hc) in Hk. destruct Hk.
  - exists t, u. split; [exact Et|]. split; [exact Eu|]. eapply rel_state_all with (P := fun _ => True); [exact H| |intros a b [_ Hb] _; exact Hb].
    split; intros; apply Forall_forall; auto.
Qed.

Definition x_unsigned {A : Type} (f : Z -> A) : list (cmd A) := [CNew (map f [1; 2; 3; 4]%Z) [2; 2]; CNew (map f [5; 30]%Z) [2; 1]; CBmm 0 1; CSum 2; CBackward 3].
Example c68_room_unsigned_ex :
  x_show (run (NT := BoundNum) (x_unsigned (fun z => (z, Z.abs z))) init_state) =
    Ret ([[(1, 1); (2, 2); (3, 3); (4, 4)]; [(5, 5); (30, 30)]; [(65, 65); (135, 135)]; [(200, 200)]],
         [Some [(5, 5); (30, 30); (5, 5); (30, 30)]; Some [(4, 4); (6, 6)]; Some [(1, 1); (1, 1)]; Some [(1, 1); (1, 1)]])%Z /\
  x_show (run (NT := CheckedNum 0 255) (x_unsigned (fun z => Some z)) init_state) =
    Ret (map (map Some) [[1; 2; 3; 4]; [5; 30]; [65; 135]; [200]]%Z,
         map (option_map (map Some)) [Some [5; 30; 5; 30]; Some [4; 6]; Some [1; 1]; Some [1; 1]]%Z).
Proof. vm_compute. auto. Qed.

(** ** C69 *)

Section Whole.
Context (prec emax : Z) {P : Prec_gt_0 prec} {E : Prec_lt_emax prec emax} (tanh : float prec emax -> float prec emax).
Local Notation fexp := (SpecFloat.fexp prec emax).
Local Notation rnd := (round radix2 fexp ZnearestE).

(** The float is a whole number *)
Definition whole (z : Z) (f : float prec emax) : Prop := is_finite f = true /\ B2R f = IZR z.

Lemma whole_format z : (Z.abs z <= 2 ^ prec)%Z -> generic_format radix2 fexp (IZR z).
Proof.
  intros H. unfold Prec_gt_0 in P. pose proof E as E'. unfold Prec_lt_emax in E'.
  assert (B : (SpecFloat.emin prec emax <= 0)%Z) by (unfold SpecFloat.emin; lia).
  change fexp with (FLT_exp (SpecFloat.emin prec emax) prec).
  destruct (Z.eq_dec (Z.abs z) (2 ^ prec)) as [Hz|Hz].
  - assert (G : generic_format radix2 (FLT_exp (SpecFloat.emin prec emax) prec) (IZR (2 ^ prec))).
    { change 2%Z with (radix_val radix2). rewrite IZR_Zpower by lia. apply generic_format_bpow. unfold FLT_exp. lia. }
    destruct (Z.abs_spec z) as [[_ A]|[_ A]]; rewrite A in Hz; [rewrite Hz; exact G|].
    replace z with (- (2 ^ prec))%Z by lia. rewrite opp_IZR. apply generic_format_opp. exact G.
  - apply generic_format_FLT. apply (FLT_spec _ _ _ _ (Float radix2 z 0)); cbn [Fnum Fexp]; [unfold F2R; cbn; ring|change (radix_val radix2) with 2%Z; lia|lia].
Qed.
Lemma whole_small z : (Z.abs z <= 2 ^ prec)%Z -> Rlt_bool (Rabs (IZR z)) (bpow radix2 emax) = true.
Proof.
  intros H. apply Rlt_bool_true. unfold Prec_gt_0 in P. pose proof E as E'. unfold Prec_lt_emax in E'. apply Rle_lt_trans with (bpow radix2 prec); [|apply bpow_lt; lia].
  rewrite <- abs_IZR, <- IZR_Zpower by lia. apply IZR_le. exact H.
Qed.
Lemma whole_plus x y f g : (Z.abs (x + y) <= 2 ^ prec)%Z -> whole x f -> whole y g -> whole (x + y) (Bplus mode_NE f g).
Proof.
  intros H [Ff Ef] [Fg Eg]. pose proof (Bplus_correct prec emax _ _ mode_NE f g Ff Fg) as C. change (round_mode mode_NE) with ZnearestE in C.
  rewrite Ef, Eg, <- plus_IZR, (round_generic radix2 fexp ZnearestE _ (whole_format _ H)), (whole_small _ H) in C. destruct C as (C1 & C2 & _). split; assumption.
Qed.
Lemma whole_mult x y f g : (Z.abs (x * y) <= 2 ^ prec)%Z -> whole x f -> whole y g -> whole (x * y) (Bmult mode_NE f g).
Proof.
  intros H [Ff Ef] [Fg Eg]. pose proof (Bmult_correct prec emax _ _ mode_NE f g) as C. change (round_mode mode_NE) with ZnearestE in C.
  rewrite Ef, Eg, <- mult_IZR, (round_generic radix2 fexp ZnearestE _ (whole_format _ H)), (whole_small _ H) in C. destruct C as (C1 & C2 & _). split; [|assumption].
  rewrite C2, Ff, Fg. reflexivity.
Qed.
End Whole.

(** C69: floats with [prec] bits compute with whole numbers exactly, including all gradients, if the run on the magnitudes
    stays within [2 ^ prec] (16777216 for [f32]).  The programs do not use [abs], [relu] and [tanh]. *)
Lemma c69_whole_numbers :
  forall (prec emax : Z) (P : Prec_gt_0 prec) (E : Prec_lt_emax prec emax) (tanh : float prec emax -> float prec emax)
         (bounds : list (cmd (Z * Z))) (q : list (cmd Z)) (p : list (cmd (float prec emax))) (s : state (Z * Z)),
    let exactly := fun z f => is_finite f = true /\ B2R f = IZR z in
    Forall2 (rel_cmd (fun xb z => fst xb = z)) bounds q ->
    Forall2 (rel_cmd (fun xb f => snd xb = Z.abs (fst xb) /\ exactly (fst xb) f)) bounds p ->
    (forall c k, In c bounds -> In k (needs c) -> k = KNeg) ->
    run (NT := BoundNum) bounds init_state = Ret s -> everywhere (fun xb => snd xb <= 2 ^ prec)%Z s ->
    exists t u, run q init_state = Ret t /\ run (NT := FloatNum prec emax tanh) p init_state = Ret u /\ rel_state exactly t u.
Proof.
  intros prec emax P E tanh bounds q p s exactly FQ FP HN ER HS.
  apply (room _ (FloatNum prec emax tanh) exactly (2 ^ prec)%Z bounds q p s); auto.
  - apply good_ring.
    + unfold Prec_gt_0 in P. pose proof (Z.pow_pos_nonneg 2 prec). lia.
    + split; reflexivity.
    + split; [apply is_finite_Bone|apply Bone_correct].
    + intros x y f g _ _ Hz Hf Hg. apply whole_plus; assumption.
    + intros x y f g _ _ Hz Hf Hg. apply whole_mult; assumption.
  - intros _ [x b] f [Hx Rx]. cbn [fst snd] in *. split; cbn [n_neg BoundNum fst snd]; [lia|]. intros HB. destruct (Rx HB) as [F1 F2]. split; cbn [n_neg FloatNum].
    + rewrite is_finite_Bopp. exact F1.
    + rewrite B2R_Bopp, opp_IZR, F2. reflexivity.
Qed.

(** 2 ^ 24 + 1 is not a number of [f32] *)
Global Instance prec32 : Prec_gt_0 24. Proof. reflexivity. Qed.
Global Instance emax32 : Prec_lt_emax 24 128. Proof. reflexivity. Qed.
Definition x_f (z : Z) : float 24 128 := binary_normalize 24 128 _ _ mode_NE z 0 false.
Definition x_bits (o : outcome (list (list (float 24 128)) * list (option (list (float 24 128))))) : outcome (list (list SpecFloat.spec_float) * list (option (list SpecFloat.spec_float))) :=
  match o with Ret (v, g) => Ret (map (map B2SF) v, map (option_map (map B2SF)) g) | Panic e => Panic e | NoFuel => NoFuel end.
Example c69_whole_numbers_ex :
  x_bits (x_show (run (NT := FloatNum 24 128 (fun x => x)) (x_prog x_f) init_state)) =
    x_bits (Ret (map (map x_f) [[1; 2; 3; 4]; [5; 6]; [17; 39]; [7]; [-7]; [10; 32]; [42]]%Z,
         map (option_map (map x_f)) [Some [5; 6; 5; 6]; Some [4; 6]; Some [1; 1]; Some [-2]; Some [2]; Some [1; 1]; Some [1; 1]]%Z)) /\
  x_bits (x_show (run (NT := FloatNum 24 128 (fun x => x)) [CNew [x_f 16777216; x_f 1; x_f 1] [3]; CSum 0] init_state)) =
    x_bits (Ret ([[x_f 16777216; x_f 1; x_f 1]; [x_f 16777216]], [None; Some [x_f 1; x_f 1; x_f 1]])).
Proof. vm_compute. auto. Qed.
