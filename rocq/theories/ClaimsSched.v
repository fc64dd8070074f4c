(** * ClaimsSched: whole programs under any thread schedule *)
From Coq Require Import ZArith Lia.
From Flocq Require Import BinarySingleNaN.
From Verif Require Import Base ModelIndex ModelTensor ModelOps ModelJvp ModelGraph ModelNN ModelMain ModelPar ModelSched SpecParam SpecSched
  ParamFacts RoomFacts ParFacts ChanBmm SchedFacts Instances FloatInst ClaimsParam ClaimsPar.
Local Open Scope nat_scope.

Lemma eq_op (T : Type) (NT : Num T) k : respects (@eq T) k.
Proof. destruct k; cbn; try exact I; intros a x ->; try split; reflexivity. Qed.
Lemma eq_ring (T : Type) (NT : Num T) : respects_ring (@eq T).
Proof. constructor; try reflexivity; intros a b x y -> ->; reflexivity. Qed.

(** C80: with exact addition, a program gives the same values and the same gradients under every thread schedule, with
    any number of workers: what its matrix products and their backward passes do concurrently is never seen. *)
Lemma c80_exact :
  forall (T : Type) (NT : Num T) (workers : nat) (fifo : bool) (p : list (cmd T)) (r : outcome (state T)),
    (forall x y : T, n_add x y = n_add y x) -> (forall x y z : T, n_add (n_add x y) z = n_add x (n_add y z)) ->
    run_any workers fifo p init_state r -> alike (rel_state eq) r (run p init_state).
Proof.
  intros T NT w f p r HC HA H. apply (sched_run eq (eq_ring T NT) w f p p r HC HA); auto.
  - clear H. induction p; constructor; auto using rel_cmd_refl.
  - intros c k _ _. apply eq_op.
Qed.

(** [x_back f]: a matrix product whose backward pass adds several messages up in the same place *)
Definition x_back {A : Type} (f : Z -> A) : list (cmd A) :=
  [CNew (map f [2 ^ 30; 1; - 2 ^ 30]%Z) [3; 1]; CNew (map f [1]%Z) [1; 1]; CBmm 0 1; CSum 2; CBackward 3].
Example c80_exact_ex : (exists r, run_any (NT := ZNum) 3 true (x_back (fun z => z)) init_state r) /\
  x_show (run (NT := ZNum) (x_back (fun z => z)) init_state) =
    Ret ([[2 ^ 30; 1; - 2 ^ 30]; [1]; [2 ^ 30; 1; - 2 ^ 30]; [1]]%Z, [Some [1; 1; 1]; Some [1]; Some [1; 1; 1]; Some [1; 1; 1]]%Z).
Proof. split; [apply run_possible; lia|vm_compute; reflexivity]. Qed.

(** an arithmetic that knows nothing *)
Definition flat_num {T : Type} (z : T) : Num T :=
  {| n_zero := z; n_one := z; n_add := fun _ _ => z; n_mul := fun _ _ => z; n_sub := fun _ _ => z; n_neg := fun _ => z;
     n_lt := fun _ _ => false; n_ge := fun _ _ => false; n_eq := fun _ _ => false; n_abs := fun _ => z; n_tanh := fun _ => z |}.

Lemma alike_ro_trans X Y Z (P : X -> Y -> Prop) (Q : Y -> Z -> Prop) (R : X -> Z -> Prop) m n o :
  (forall x y z, P x y -> Q y z -> R x z) -> alike P m n -> rel_outcome Q n o -> alike R m o.
Proof. intros H A B. destruct m, n, o; cbn in *; try tauto; eauto; discriminate. Qed.
Lemma F2_true X Y Z (P : X -> Y -> Prop) (Q : Y -> Z -> Prop) (R : X -> Z -> Prop) : (forall x y z, P x y -> Q y z -> R x z) ->
  forall l m, Forall2 P l m -> forall n, Forall2 Q m n -> Forall2 R l n.
Proof. intros H. induction 1; intros n G; inversion G; subst; constructor; eauto. Qed.
Lemma raw_true A B C (t : raw A) (u : raw B) (v : raw C) : rel_raw anything t u -> rel_raw anything u v -> rel_raw (fun _ _ => True) t v.
Proof. intros [E F] [E' F']. split; [congruence|]. eapply F2_true; [|exact F|exact F']. intros; exact I. Qed.
Lemma heap_true A B C (h : heap A) (k : heap B) (m : heap C) : rel_heap anything h k -> rel_heap anything k m -> rel_heap (fun _ _ => True) h m.
Proof.
  intros [F G] [F' G']. split.
  - eapply F2_true; [|exact F|exact F']. intros x y z [H1 H2] [H3 H4]. split; [eapply raw_true; eauto|congruence].
  - intros i. specialize (G i). specialize (G' i). destruct (grads h i), (grads k i), (grads m i); cbn in *; try tauto. eapply raw_true; eauto.
Qed.

(** C80: whatever the arithmetic - floats included - the schedule cannot be seen in what a program does: two runs of
    the same calls either both panic or both end with the same tensors and gradients in place, of the same
    shapes and with the same histories.  (Which of several panics is passed on is left open.) *)
Lemma c80_same_course :
  forall (A B : Type) (NA : Num A) (NB : Num B) (workers : nat) (fifo : bool) (p : list (cmd A)) (q : list (cmd B)) (r : outcome (state A)),
    Forall2 (rel_cmd (fun _ _ => True)) p q -> run_any workers fifo p init_state r -> alike (rel_state (fun _ _ => True)) r (run q init_state).
Proof.
  intros A B NA NB w f p q r F H. pose (NF := flat_num (@n_zero B NB)).
  pose proof (sched_run (NB := NF) anything (anything_ring A B NA NF) w f p q r (fun _ _ => eq_refl) (fun _ _ _ => eq_refl) F (fun c k _ _ => anything_op A B NA NF k) H) as S.
  assert (F' : Forall2 (rel_cmd (@anything B B)) q q).
  { clear - F. induction F; constructor; auto. eapply rel_cmd_mono; [|apply rel_cmd_refl]. intros; exact I. }
  pose proof (parametric (NA := NF) (NB := NB) (@anything B B) (anything_ring B B NF NB) q q F' (fun c k _ _ => anything_op B B NF NB k)) as P.
  eapply alike_ro_trans; [|exact S|exact P]. intros x y z [E1 H1] [E2 H2]. split; [congruence|eapply heap_true; eauto].
Qed.

Example c80_same_course_ex :
  Forall2 (rel_cmd (fun _ _ => True)) (x_back x_float) (x_back (fun z => z)) /\
  (exists r, run_any (NT := F32Num x_tanh) 2 true (x_back x_float) init_state r) /\
  (exists r, run_any (NT := F32Num x_tanh) 2 true (x_back x_float ++ [CBackward 2]) init_state r) /\
  run (NT := ZNum) (x_back (fun z => z) ++ [CBackward 2]) init_state = Panic PAssert.
Proof.
  split; [repeat (constructor; try reflexivity)|]. split; [apply run_possible; lia|]. split; [apply run_possible; lia|]. vm_compute. reflexivity.
Qed.

(** C80: there is always a run that ends: no program can be stuck for ever because of the pool, whatever its
    number of workers, as long as jobs start in the order in which they were spawned. *)
Lemma c80_possible :
  forall (T : Type) (NT : Num T) (workers : nat) (p : list (cmd T)) (s : state T),
    1 <= workers -> exists r, run_any workers true p s r.
Proof. intros T NT w p s H. apply run_possible. exact H. Qed.

Example c80_possible_ex : forall r, run_any (NT := ZNum) 1 true (x_back (fun z => z)) init_state r ->
  exists s, r = Ret s /\ option_map array (grads (hp s) 1) = Some [1%Z].
Proof.
  intros r H. apply c80_exact in H; [|intros; apply Z.add_comm|intros; cbn; lia].
  assert (E : exists t, run (NT := ZNum) (x_back (fun z => z)) init_state = Ret t /\ option_map array (grads (hp t) 1) = Some [1%Z]).
  { eexists. split; [vm_compute; reflexivity|vm_compute; reflexivity]. }
  destruct E as (t & E & G). rewrite E in H. destruct r as [s|e|]; cbn in H; try (exfalso; assumption). exists s. split; [reflexivity|].
  destruct H as (_ & _ & HG). specialize (HG 1). destruct (grads (hp s) 1), (grads (hp t) 1); cbn in HG; try (exfalso; assumption); [|discriminate G].
  cbn [option_map] in *. injection G as G. destruct HG as [_ HG]. f_equal. rewrite <- G. clear - HG. induction HG; congruence.
Qed.

(** C80: with one worker, any arithmetic - floats included - gives the values and gradients of the sequential reading,
    bit for bit. *)
Lemma c80_one_worker :
  forall (T : Type) (NT : Num T) (p : list (cmd T)) (r : outcome (state T)),
    run_any 1 true p init_state r -> alike (rel_state eq) r (run p init_state).
Proof.
  intros T NT p r H. apply (sched_one eq (eq_ring T NT) p p r); auto.
  - clear H. induction p; constructor; auto using rel_cmd_refl.
  - intros c k _ _. apply eq_op.
Qed.

Example c80_one_worker_ex :
  (exists r, run_any (NT := F32Num x_tanh) 1 true (x_back x_float) init_state r) /\
  x_show (run (NT := F32Num x_tanh) (x_back x_float) init_state) =
    Ret (map (map x_float) [[2 ^ 30; 1; - 2 ^ 30]; [1]; [2 ^ 30; 1; - 2 ^ 30]; [0]]%Z,
         map (option_map (map x_float)) [Some [1; 1; 1]; Some [0]; Some [1; 1; 1]; Some [1; 1; 1]]%Z).
Proof. split; [apply run_possible; lia|vm_compute; reflexivity]. Qed.

(** C80: the training program of main.rs.  With exact addition, every schedule trains the same network. *)
Definition same_net {A B : Type} (R : A -> B -> Prop) (a : heap A * mlp A) (b : heap B * mlp B) : Prop :=
  rel_heap R (fst a) (fst b) /\ map weights (snd a) = map weights (snd b) /\ map bias (snd a) = map bias (snd b).
Lemma net_same {A B : Type} (R : A -> B -> Prop) (NA : Num A) (NB : Num B) a b : rel_net R a b -> same_net R a b.
Proof.
  destruct a as [h l], b as [k m]. intros [[Hh _] HF]. split; [exact Hh|]. cbn [snd] in *. clear - HF. induction HF as [|a b l m (Ew & Eb & _) _ [IH1 IH2]]; [split; reflexivity|]. cbn [map]. split; congruence.
Qed.
Lemma c80_main_exact :
  forall (T : Type) (NT : Num T) (workers : nat) (fifo : bool) (inp hid out rounds : nat) (one step : T) (w1 b1 w2 b2 w3 b3 input : list T) (r : outcome (heap T * mlp T)),
    (forall x y : T, n_add x y = n_add y x) -> (forall x y z : T, n_add (n_add x y) z = n_add x (n_add y z)) ->
    main_program_any workers fifo inp hid out rounds one step w1 b1 w2 b2 w3 b3 input r ->
    alike (same_net eq) r (main_program inp hid out rounds one step w1 b1 w2 b2 w3 b3 input).
Proof.
  intros T NT w f inp hid out rounds one step w1 b1 w2 b2 w3 b3 input r HC HA H.
  assert (F : forall l : list T, Forall2 eq l l) by (induction l; constructor; auto).
  eapply alike_mono; [|apply (sched_main eq (eq_ring T NT) w f inp hid out rounds one one step step w1 w1 b1 b1 w2 w2 b2 b2 w3 w3 b3 b3 input input r HC HA
    (eq_op T NT KNeg) (eq_op T NT KAbs) (eq_op T NT KRelu) (eq_op T NT KTanh)); auto].
  intros x y Hxy. apply (net_same eq NT NT). exact Hxy.
Qed.
Example c80_main_exact_ex :
  (exists r, main_program_any (NT := ZNum) 2 true 1 2 1 2 1%Z 1%Z [1; 2]%Z [0; 0]%Z [1; 0; 0; 1]%Z [1; 1]%Z [1; 1]%Z [0]%Z [3]%Z r) /\
  (forall o, o = main_program (NT := ZNum) 1 2 1 2 1%Z 1%Z [1; 2]%Z [0; 0]%Z [1; 0; 0; 1]%Z [1; 1]%Z [1; 1]%Z [0]%Z [3]%Z -> match o with Ret (h, m) => map weights m = [54; 60; 66] | _ => False end).
Proof. split; [apply main_possible; lia|]. intros o ->. vm_compute. reflexivity. Qed.

(** C80: ... and with floats it takes the same steps under every schedule, with whatever random numbers it starts. *)
Lemma c80_main_same_course :
  forall (A B : Type) (NA : Num A) (NB : Num B) (workers : nat) (fifo : bool) (inp hid out rounds : nat) (one step : A) (one' step' : B)
         (w1 b1 w2 b2 w3 b3 input : list A) (w1' b1' w2' b2' w3' b3' input' : list B) (r : outcome (heap A * mlp A)),
    map (@length A) [w1; b1; w2; b2; w3; b3; input] = map (@length B) [w1'; b1'; w2'; b2'; w3'; b3'; input'] ->
    main_program_any workers fifo inp hid out rounds one step w1 b1 w2 b2 w3 b3 input r ->
    alike (same_net (fun _ _ => True)) r (main_program inp hid out rounds one' step' w1' b1' w2' b2' w3' b3' input').
Proof.
  intros A B NA NB w f inp hid out rounds one step one' step' w1 b1 w2 b2 w3 b3 input w1' b1' w2' b2' w3' b3' input' r EL H.
  pose (NF := flat_num (@n_zero B NB)). pose proof (c66_main B B NF NB inp hid out rounds one' step' one' step' w1' b1' w2' b2' w3' b3' input' w1' b1' w2' b2' w3' b3' input' eq_refl) as P.
  cbn [map] in EL. injection EL as H1 H2 H3 H4 H5 H6 H7.
  assert (F : forall (l : list A) (l' : list B), length l = length l' -> Forall2 anything l l').
  { induction l as [|x l IH]; intros [|y l'] E; cbn in E; try discriminate; constructor; [exact I|]. apply IH. congruence. }
  pose proof (anything_op A B NA NF) as HO.
  pose proof (sched_main (NB := NF) anything (anything_ring A B NA NF) w f inp hid out rounds one one' step step' w1 w1' b1 b1' w2 w2' b2 b2' w3 w3' b3 b3' input input' r
    (fun _ _ => eq_refl) (fun _ _ _ => eq_refl) (HO KNeg) (HO KAbs) (HO KRelu) (HO KTanh) I I (F _ _ H1) (F _ _ H2) (F _ _ H3) (F _ _ H4) (F _ _ H5) (F _ _ H6) (F _ _ H7) H) as S.
  eapply alike_ro_trans; [|exact S|exact P]. intros x y z Hxy (Hh & Hw & Hb). apply (net_same anything NA NF) in Hxy. destruct Hxy as (Gh & Gw & Gb).
  split; [eapply heap_true; eauto|]. split; [rewrite Gw; exact Hw|rewrite Gb; exact Hb].
Qed.
Example c80_main_same_course_ex :
  (exists r, main_program_any (NT := F32Num x_tanh) 2 true 1 2 1 2 (x_float 1) (x_float 1) (map x_float [1; 2]%Z) (map x_float [0; 0]%Z) (map x_float [1; 0; 0; 1]%Z) (map x_float [1; 1]%Z) (map x_float [1; 1]%Z) [x_float 0] [x_float 3] r) /\
  (forall r, main_program_any (NT := F32Num x_tanh) 2 true 1 2 1 2 (x_float 1) (x_float 1) (map x_float [1; 2]%Z) (map x_float [0; 0]%Z) (map x_float [1; 0; 0; 1]%Z) (map x_float [1; 1]%Z) (map x_float [1; 1]%Z) [x_float 0] [x_float 3] r ->
    exists h m, r = Ret (h, m) /\ map weights m = [54; 60; 66]).
Proof.
  split; [apply main_possible; lia|]. intros r H.
  apply (c80_main_same_course _ _ _ ZNum 2 true 1 2 1 2 _ _ 1%Z 1%Z _ _ _ _ _ _ _ [1; 2]%Z [0; 0]%Z [1; 0; 0; 1]%Z [1; 1]%Z [1; 1]%Z [0]%Z [3]%Z) in H; [|reflexivity].
  pose proof (proj2 c80_main_exact_ex _ eq_refl) as M.
  destruct (main_program 1 2 1 2 1%Z 1%Z [1; 2]%Z [0; 0]%Z [1; 0; 0; 1]%Z [1; 1]%Z [1; 1]%Z [0]%Z [3]%Z) as [[h' m']|e|]; try (exfalso; assumption).
  destruct r as [[h m]|e|]; cbn in H; try (exfalso; assumption). exists h, m. split; [reflexivity|]. destruct H as (_ & Hw & _). cbn [snd] in Hw. rewrite Hw. exact M.
Qed.

(** C80: what floats do not have: on a pool of two workers the same program has two different gradients. *)
Lemma x_any (T : Type) (NT : Num T) (w : nat) (f : bool) (a1 a2 a3 b1 : T) : let g := n_one in forall l1 l2 l3 r1 : T,
  bmm_jvp_any w f [mkRaw [a1; a2; a3] [3; 1]; mkRaw [b1] [1; 1]] [mkRaw [g; g; g] [1; 3]] (Ret [mkRaw [l1; l2; l3] [1; 3]; mkRaw [r1] [1; 1]]) ->
  exists s, run_any w f [CNew [a1; a2; a3] [3; 1]; CNew [b1] [1; 1]; CBmm 0 1; CSum 2; CBackward 3] init_state (Ret s) /\ option_map array (grads (hp s) 1) = Some [r1].
Proof.
  intros g l1 l2 l3 r1 B. unfold run_any, run_nd. cbn [nfoldM exec_nd].
  eexists. split.
  - left. eexists. split; [unfold just; vm_compute; reflexivity|]. left. eexists. split; [unfold just; vm_compute; reflexivity|].
    left. eexists. split.
    { left. eexists. split; [reflexivity|]. left. eexists. split; [reflexivity|]. left. eexists. split.
      - left. eexists. split; [reflexivity|]. left. eexists. split; [reflexivity|]. left. eexists. split; [|reflexivity].
        exists (fun _ li => mapM (cell_value (LRaw (mkRaw [a1; a2; a3] [3; 1])) (LRaw (mkRaw [b1] [1; 1])) li 1) (seq 0 1)). split; [intros n li; apply cell_row_runs|]. vm_compute. reflexivity.
      - unfold just. vm_compute. reflexivity. }
    left. eexists. split; [unfold just; vm_compute; reflexivity|].
    left. eexists. split; [|reflexivity]. left. eexists. split; [reflexivity|]. left. eexists. split.
    { left. eexists. split; [reflexivity|]. left. eexists. split; [reflexivity|]. left. eexists. split; [reflexivity|]. left. eexists. split; [|reflexivity].
      left. eexists. split; [reflexivity|]. left. eexists. split; [unfold just; vm_compute; reflexivity|].
      left. eexists. split.
      - left. eexists. split; [unfold just; vm_compute; reflexivity|].
        left. eexists. split; [reflexivity|]. left. eexists. split; [exact B|].
        left. eexists. split; [left; eexists; split; [unfold just; vm_compute; reflexivity|reflexivity]|].
        left. eexists. split; [left; eexists; split; [unfold just; vm_compute; reflexivity|reflexivity]|]. reflexivity.
      - reflexivity. }
    reflexivity.
  - reflexivity.
Qed.
Lemma x_runs : let NT := F32Num x_tanh in exists s s', run_any 2 true (x_back x_float) init_state (Ret s) /\ run_any 2 true (x_back x_float) init_state (Ret s') /\
  option_map array (grads (hp s) 1) = Some [x_float 0] /\ option_map array (grads (hp s') 1) = Some [x_float 1].
Proof.
  intros NT. destruct (f_runs x_tanh) as (st & st' & R & F & R' & F' & E & E').
  assert (G : forall st r, par_run 2 true (Some (f_start x_tanh)) (Some st) -> finished st ->
    bmm_jvp_finish ([1; 3], [1; 1]) st = Ret [mkRaw [f32_of_Z 1; f32_of_Z 1; f32_of_Z 1] [1; 3]; mkRaw [r] [1; 1]] ->
    exists s, run_any 2 true (x_back x_float) init_state (Ret s) /\ option_map array (grads (hp s) 1) = Some [r]).
  { intros t r Rt Ft Et. apply (x_any f32 NT 2 true _ _ _ _ (f32_of_Z 1) (f32_of_Z 1) (f32_of_Z 1) r). change (bmm_jvp_any 2 true [fa; fb] [fj] (Ret [mkRaw [f32_of_Z 1; f32_of_Z 1; f32_of_Z 1] [1; 3]; mkRaw [r] [1; 1]])).
    unfold bmm_jvp_any. rewrite (bmm_start_ok fa fb fj 3 1 1 1 f_inputs). left. exists t. auto. }
  destruct (G st (x_float 0) R F E) as (s & Hs & Gs). destruct (G st' (x_float 1) R' F' E') as (s' & Hs' & Gs'). exists s, s'. auto.
Qed.
Lemma c80_floats_refuted :
  ~ (forall (tanh : f32 -> f32) (workers : nat) (p : list (cmd f32)) (r r' : outcome (state f32)), let NT := F32Num tanh in
       run_any workers true p init_state r -> run_any workers true p init_state r' -> alike (rel_state eq) r r').
Proof.
  intros H. destruct x_runs as (s & s' & R & R' & E & E'). specialize (H x_tanh 2 _ _ _ R R'). cbn [alike] in H. destruct H as (_ & _ & HG). specialize (HG 1).
  destruct (grads (hp s) 1), (grads (hp s') 1); cbn in HG; try (exfalso; assumption); [|discriminate E]. cbn [option_map] in *. injection E as E. injection E' as E'. destruct HG as [_ HG]. rewrite E, E' in HG.
  inversion HG as [|? ? ? ? H0 _]. vm_compute in H0. discriminate H0.
Qed.
(** the gradient of the second factor: 2^30 + 1 - 2^30, added up in one order and in another *)
Example c80_floats_refuted_ex : let NT := F32Num x_tanh in exists s s', run_any 2 true (x_back x_float) init_state (Ret s) /\ run_any 2 true (x_back x_float) init_state (Ret s') /\
  option_map array (grads (hp s) 1) = Some [x_float 0] /\ option_map array (grads (hp s') 1) = Some [x_float 1].
Proof. exact x_runs. Qed.
