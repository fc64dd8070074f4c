(** * SchedFacts: outcomes of programs whose parts have several outcomes *)
From Coq Require Import Permutation.
From Verif Require Import Base ModelIndex ModelTensor ModelOps ModelJvp ModelGraph ModelNN ModelMain ModelPar ModelSched Spec SpecGraph SpecParam SpecPar SpecSched
  Lists IndexFacts TensorFacts ParamFacts ChanFacts ChanOne ChanLive ParFacts ClaimsPar FuelFacts.

(** Every outcome on the left is like one on the right. *)
Definition nrel {X Y : Type} (P : X -> Y -> Prop) (m : nd X) (m' : nd Y) : Prop :=
  forall r, m r -> exists r', m' r' /\ alike P r r'.

Lemma alike_ro X Y (P : X -> Y -> Prop) m m' : rel_outcome P m m' -> alike P m m'.
Proof. destruct m, m'; cbn; auto. Qed.
Lemma alike_mono X Y (P Q : X -> Y -> Prop) m m' : (forall x y, P x y -> Q x y) -> alike P m m' -> alike Q m m'.
Proof. destruct m, m'; cbn; auto. Qed.
Lemma nrel_mono X Y (P Q : X -> Y -> Prop) m m' : (forall x y, P x y -> Q x y) -> nrel P m m' -> nrel Q m m'.
Proof. intros H HR r Hr. destruct (HR r Hr) as (r' & Hr' & Ha). exists r'. split; [exact Hr'|]. eapply alike_mono; eauto. Qed.
Lemma nrel_just X Y (P : X -> Y -> Prop) m m' : rel_outcome P m m' -> nrel P (just m) (just m').
Proof. intros H r ->. exists m'. split; [reflexivity|]. apply alike_ro, H. Qed.
Lemma nrel_bind X Y X' Y' (P : X -> Y -> Prop) (Q : X' -> Y' -> Prop) m m' f f' :
  nrel P m m' -> (forall x y, P x y -> nrel Q (f x) (f' y)) -> nrel Q (nbind m f) (nbind m' f').
Proof.
  intros Hm Hf r [(a & Ha & Hr)|[(p & Hp & ->)|[Hn ->]]].
  - destruct (Hm _ Ha) as ([b|p|] & Hb & HP); cbn in HP; try tauto. destruct (Hf a b HP r Hr) as (r' & Hr' & HA). exists r'. split; [|exact HA]. left. eauto.
  - destruct (Hm _ Hp) as ([b|q|] & Hb & HP); cbn in HP; try tauto. exists (Panic q). split; [right; left; eauto|exact I].
  - destruct (Hm _ Hn) as ([b|q|] & Hb & HP); cbn in HP; try tauto. exists NoFuel. split; [right; right; auto|exact I].
Qed.
Lemma nrel_foldM X Y I J (P : X -> Y -> Prop) (K : I -> J -> Prop) f f' : forall l l' a a', Forall2 K l l' -> P a a' ->
  (forall x y i j, P x y -> K i j -> nrel P (f x i) (f' y j)) -> nrel P (nfoldM f l a) (nfoldM f' l' a').
Proof.
  induction l as [|x l IH]; intros l' a a' F Ha Hf; inversion F; subst; cbn [nfoldM]; [apply nrel_just; exact Ha|].
  eapply nrel_bind; [apply Hf; eassumption|]. intros b b' Hb. apply IH; assumption.
Qed.

Section Rel.
Context {A B : Type} (R : A -> B -> Prop) {NA : Num A} {NB : Num B} (HR : respects_ring R).
Variables (bm : tlike A -> tlike A -> nd (raw A)) (bb : list (raw A) -> list (raw A) -> nd (list (raw A))).
Variables (bm' : tlike B -> tlike B -> nd (raw B)) (bb' : list (raw B) -> list (raw B) -> nd (list (raw B))).
Notation RR := (rel_raw R).
Notation RL := (rel_like R).
Hypothesis HM : forall l m l' m', RL l m -> RL l' m' -> nrel RR (bm l l') (bm' m m').
Hypothesis HB : forall ts us gs hs, Forall2 RR ts us -> Forall2 RR gs hs -> nrel (Forall2 RR) (bb ts gs) (bb' us hs).

Lemma n_full t u t' u' : RR t u -> RR t' u' -> nrel RR (full_jacobians_nd bm t t') (full_jacobians_nd bm' u u').
Proof.
  intros H H'. unfold full_jacobians_nd. rewrite (p_is_scalar R t u H), (p_is_scalar R t' u' H'), (proj1 H), (proj1 H').
  destruct (_ || _)%bool; [|apply HM; assumption]. apply nrel_just. apply ro_same. intros _. apply (p_mul R HR); assumption.
Qed.

Lemma n_jvp k ts us gs hs : respects R k -> Forall2 RR ts us -> Forall2 RR gs hs -> nrel (Forall2 RR) (jvp_nd bm bb k ts gs) (jvp_nd bm' bb' k us hs).
Proof.
  intros Hk Ft Fg. destruct k; try (apply nrel_just; apply (p_jvp R HR); assumption); cbn [jvp_nd].
  - unfold tanh_jvp_nd. eapply nrel_bind; [apply nrel_just, (p_one_one R); eassumption|]. intros [t g] [u h] [H1 H2]. cbn [fst snd] in *.
    eapply nrel_bind; [apply nrel_just, (p_tanh_derivative R HR); eassumption|]. intros j j' Hj. eapply nrel_bind; [apply n_full; eassumption|].
    intros x y Hx. apply nrel_just. cbn. auto.
  - apply HB; assumption.
  - unfold dot_jvp_nd. eapply nrel_bind; [apply nrel_just, (p_two_one R); eassumption|]. intros [[t t'] g] [[u u'] h] (H1 & H2 & H3). cbn [fst snd] in *.
    eapply nrel_bind; [apply n_full; eassumption|]. intros x y Hx. eapply nrel_bind; [apply n_full; eassumption|]. intros x' y' Hx'. apply nrel_just. cbn. auto.
Qed.

Lemma n_compute ns ns' : Forall2 (rel_node R) ns ns' -> Forall (fn_ok R) ns -> forall f k ins outer outer' g g', respects R k -> Forall2 RR outer outer' -> rel_grads R g g' ->
  nrel (rel_grads R) (compute_jvp_nd bm bb f ns k ins outer g) (compute_jvp_nd bm' bb' f ns' k ins outer' g').
Proof.
  intros Fns Fok. induction f as [|f IH]; intros k ins outer outer' g g' Hk Fo Hg; [apply nrel_just; exact I|]. cbn [compute_jvp_nd].
  eapply nrel_bind.
  { apply nrel_just. apply (ro_mapM_same _ _ _ (fun n m => rel_node R n m /\ fn_ok R n)). intros i.
    apply (p_hget R (mkHeap ns g) (mkHeap ns' g')). split; [split; assumption|exact Fok]. }
  intros xs ys Fx. eapply nrel_bind; [apply n_jvp; [exact Hk| |exact Fo]; eapply F2_map; [exact Fx|]; intros x y [[H _] _]; exact H|].
  intros sg sg' Fs. eapply nrel_foldM; [eapply F2_combine; [exact Fs|eapply F2_combine; [apply F2_refl|exact Fx]]|exact Hg|].
  clear g g' Hg. intros g g' [t [i nd]] [u [i' nd']] Hg (Ht & Hi & [Hv Hf] & Hok). cbn [fst snd] in *. subst i'.
  rewrite (F2_length _ _ _ _ _ (proj2 Ht)), (F2_length _ _ _ _ _ (proj2 Hv)), (proj1 Hv).
  eapply nrel_bind.
  { apply nrel_just. apply ro_same. intros _. eapply ro_bind; [apply p_new; exact (proj2 Ht)|]. intros a b Hab. apply (p_update R HR); assumption. }
  intros g1 g1' Hg1. rewrite <- Hf. unfold fn_ok in Hok. destruct (n_fn nd) as [[k' ins']|]; [|apply nrel_just; exact Hg1]. apply IH; auto.
Qed.

Lemma n_backward h k i : hrel R h k -> nrel (hrel R) (backward_nd bm bb h i) (backward_nd bm' bb' k i).
Proof.
  intros H. unfold backward_nd. eapply nrel_bind; [apply nrel_just, p_hget; exact H|]. intros n m [[Hv Hf] Hok].
  rewrite (F2_length _ _ _ _ _ (proj2 Hv)), Hf. eapply nrel_bind; [apply nrel_just, ro_refl|]. intros _ _ _.
  eapply nrel_bind with (P := fun a b => a = b /\ respects R (fst a)).
  { apply nrel_just. unfold fn_ok in Hok. rewrite Hf in Hok. destruct (n_fn m) as [[k0 ins]|]; cbn; auto. }
  intros [k0 ins] [k1 ins1] [Hk Hres]. injection Hk as <- <-. cbn [fst] in Hres. destruct H as [[Fn Hg] Fok].
  eapply nrel_bind.
  { rewrite (F2_length _ _ _ _ _ Fn). apply n_compute; [exact Fn|exact Fok|exact Hres| |exact Hg]. constructor; [|constructor]. apply p_scalar. exact (rr_one R HR). }
  intros g g' Hg'. apply nrel_just. split; [split; [exact Fn|exact Hg']|exact Fok].
Qed.

Lemma n_op_bmm h k i j : hrel R h k -> nrel (rel_made R) (op_bmm_nd bm h i j) (op_bmm_nd bm' k i j).
Proof.
  intros H. unfold op_bmm_nd. eapply nrel_bind; [apply nrel_just, p_hget; exact H|]. intros n m [[Hv _] _].
  eapply nrel_bind; [apply nrel_just, p_hget; exact H|]. intros n' m' [[Hv' _] _].
  eapply nrel_bind; [apply HM; [exact Hv|exact Hv']|]. intros t u Ht. apply nrel_just. apply p_alloc; cbn; auto.
Qed.
Lemma n_op_bmm_view h k i j o : hrel R h k -> nrel (rel_made R) (op_bmm_view_nd bm h i j o) (op_bmm_view_nd bm' k i j o).
Proof.
  intros H. unfold op_bmm_view_nd. eapply nrel_bind; [apply nrel_just, p_hget; exact H|]. intros n m [[Hv _] _].
  eapply nrel_bind; [apply nrel_just, p_hget; exact H|]. intros n' m' [[Hv' _] _].
  eapply nrel_bind; [apply nrel_just, p_view_new; exact Hv'|]. intros v w Hvw.
  eapply nrel_bind; [apply HM; [exact Hv|exact Hvw]|]. intros t u Ht. eapply nrel_bind; [apply nrel_just, (p_to_tensor R (LView v) (LView w)); exact Hvw|].
  intros r r' Hr. apply nrel_just. destruct (p_alloc R h k r r' None None None H Hr I I) as [H1 H2].
  destruct (alloc h r None None) as [h1 i1], (alloc k r' None None) as [k1 i1']. cbn [fst snd] in *. subst i1'. exact (p_alloc R h1 k1 t u (Some (KBmm, [i; i1])) None None H1 Ht I I).
Qed.

Definition srel (s : state A) (t : state B) : Prop := env s = env t /\ hrel R (hp s) (hp t).
Lemma n_push s t m m' : env s = env t -> nrel (rel_made R) m m' -> nrel srel (push_nd s m) (push_nd t m').
Proof.
  intros E H. unfold push_nd. eapply nrel_bind; [exact H|]. intros [h i] [k j] [Hh Hi]. cbn [fst snd] in *. subst j. apply nrel_just. cbn. unfold srel. cbn. rewrite E. auto.
Qed.

Lemma n_exec s t c d : srel s t -> rel_cmd R c d -> (forall k, In k (needs c) -> respects R k) -> nrel srel (exec_nd bm bb s c) (exec_nd bm' bb' t d).
Proof.
  intros [E H] Hc Hn. pose proof (p_exec R HR s t c d E H Hc Hn) as HP. inversion Hc; subst; try (apply nrel_just; exact HP); clear HP; cbn [exec_nd]; rewrite E.
  - eapply nrel_bind; [apply nrel_just, ro_refl|]. intros i ? <-. eapply nrel_bind; [apply nrel_just, ro_refl|]. intros j ? <-. apply n_push; [exact E|]. apply n_op_bmm. exact H.
  - eapply nrel_bind; [apply nrel_just, ro_refl|]. intros i ? <-. eapply nrel_bind; [apply nrel_just, ro_refl|]. intros j ? <-. apply n_push; [exact E|]. apply n_op_bmm_view. exact H.
  - eapply nrel_bind; [apply nrel_just, ro_refl|]. intros i ? <-. eapply nrel_bind; [apply n_backward; exact H|]. intros h' k' Hh. apply nrel_just. split; [reflexivity|exact Hh].
Qed.

Lemma n_run p : forall q s t, Forall2 (rel_cmd R) p q -> (forall c k, In c p -> In k (needs c) -> respects R k) ->
  srel s t -> nrel srel (run_nd bm bb p s) (run_nd bm' bb' q t).
Proof.
  unfold run_nd. induction p as [|c p IH]; intros q s t F Hn H; inversion F; subst; cbn [nfoldM]; [apply nrel_just; exact H|].
  eapply nrel_bind; [apply n_exec; [exact H|eassumption|]; intros k Hk; exact (Hn c k (or_introl eq_refl) Hk)|].
  intros s' t' H'. apply IH; auto. intros c' k Hc Hk. exact (Hn c' k (or_intror Hc) Hk).
Qed.

Lemma srel_init : srel init_state init_state.
Proof. split; [reflexivity|]. split; [|constructor]. split; [constructor|]. intros i. exact I. Qed.
Lemma srel_state s t : srel s t -> rel_state R s t.
Proof. intros [E [H _]]. split; assumption. Qed.

Lemma n_init p q : Forall2 (rel_cmd R) p q -> (forall c k, In c p -> In k (needs c) -> respects R k) ->
  nrel (rel_state R) (run_nd bm bb p init_state) (run_nd bm' bb' q init_state).
Proof. intros F Hn. eapply nrel_mono; [exact srel_state|]. apply n_run; auto. apply srel_init. Qed.

(** ** Training *)
Lemma n_linear_forward l m h k i : rel_linear R l m -> hrel R h k -> nrel (rel_made R) (linear_forward_nd bm l h i) (linear_forward_nd bm' m k i).
Proof.
  intros (Ew & Eb & Ha) H. unfold linear_forward_nd. rewrite Ew, Eb. eapply nrel_bind; [apply n_op_bmm; exact H|]. intros [h1 y] [k1 y'] [H1 E1]. cbn [fst snd] in *. subst y'.
  apply nrel_just. eapply ro_bind; [apply (p_op_add R HR); exact H1|]. intros [h2 z] [k2 z'] [H2 E2]. cbn [fst snd] in *. subst z'. apply Ha. exact H2.
Qed.
Lemma n_mlp_forward l m h k i : Forall2 (rel_linear R) l m -> hrel R h k -> nrel (rel_made R) (mlp_forward_nd bm l h i) (mlp_forward_nd bm' m k i).
Proof.
  intros F H. unfold mlp_forward_nd. eapply nrel_foldM with (K := rel_linear R); [exact F|split; [exact H|reflexivity]|].
  intros [h1 y] [k1 y'] la lb [H1 E1] Hl. cbn [fst snd] in *. subst y'. apply n_linear_forward; assumption.
Qed.
Lemma p_sgd_step l m st st' h k : respects_neg R -> Forall2 (rel_linear R) l m -> RR st st' -> hrel R h k ->
  rel_outcome (rel_net R) (sgd_step_mlp l st h) (sgd_step_mlp m st' k).
Proof.
  intros HN F Hs H. unfold sgd_step_mlp. rewrite (p_params R l m F). eapply ro_bind; [apply (p_sgd R HR); [exact HN|exact Hs|exact H]|].
  intros [h1 ps] [k1 ps'] [H1 E1]. cbn [fst snd] in *. subst ps'. eapply ro_bind; [apply p_update_params; exact F|]. intros x y Hxy. split; assumption.
Qed.
Lemma n_train_step l m st st' h k x y : respects_neg R -> respects_abs R -> Forall2 (rel_linear R) l m -> RR st st' -> hrel R h k ->
  nrel (rel_net R) (train_step_nd bm bb l st h x y) (train_step_nd bm' bb' m st' k x y).
Proof.
  intros HN HA F Hs H. unfold train_step_nd. eapply nrel_bind; [apply n_mlp_forward; eassumption|]. intros [h1 r] [k1 r'] [H1 E1]. cbn [fst snd] in *. subst r'.
  eapply nrel_bind with (P := rel_made R).
  { apply nrel_just. eapply ro_bind; [apply (p_op_sub R HR); [exact HN|exact H1]|]. intros [h2 d] [k2 d'] [H2 E2]. cbn [fst snd] in *. subst d'.
    eapply ro_bind; [apply (p_op_unary_abs R); [exact HA|exact H2]|]. intros [h3 a] [k3 a'] [H3 E3]. cbn [fst snd] in *. subst a'. apply (p_op_sum R HR). exact H3. }
  intros [h4 lo] [k4 lo'] [H4 E4]. cbn [fst snd] in *. subst lo'. eapply nrel_bind; [apply n_backward; exact H4|]. intros h5 k5 H5.
  apply nrel_just. apply p_sgd_step; assumption.
Qed.
Lemma n_main inp hid out rounds one one' st st' w1 w1' b1 b1' w2 w2' b2 b2' w3 w3' b3 b3' input input' :
  respects_neg R -> respects_abs R -> respects_relu R -> respects_tanh R -> R one one' -> R st st' ->
  Forall2 R w1 w1' -> Forall2 R b1 b1' -> Forall2 R w2 w2' -> Forall2 R b2 b2' -> Forall2 R w3 w3' -> Forall2 R b3 b3' -> Forall2 R input input' ->
  nrel (rel_net R) (main_program_nd bm bb inp hid out rounds one st w1 b1 w2 b2 w3 b3 input)
                   (main_program_nd bm' bb' inp hid out rounds one' st' w1' b1' w2' b2' w3' b3' input').
Proof.
  intros HN HA HL HT H1 Hs Fw1 Fb1 Fw2 Fb2 Fw3 Fb3 Fi. unfold main_program_nd.
  eapply nrel_bind; [apply nrel_just, (p_setup R); eassumption|].
  intros [[[h l] x] y] [[[k m] x'] y'] (Hh & F & Ex & Ey). cbn [fst snd] in *. subst x' y'.
  eapply nrel_foldM with (K := eq) (P := rel_net R); [apply F2_refl|split; assumption|]. intros [h1 l1] [k1 m1] u ? [Hh1 F1] <-. cbn [fst snd] in *. unfold main_round_nd.
  eapply nrel_bind; [apply n_train_step; [exact HN|exact HA|exact F1|apply p_scalar; exact Hs|exact Hh1]|].
  intros [h2 l2] [k2 m2] [H2 FL]. cbn [fst snd] in *. apply nrel_just. split; [|exact FL]. apply p_zero_grads. exact H2.
Qed.
End Rel.

Lemma F2_in_r X Y (P : X -> Y -> Prop) l l' : Forall2 P l l' -> forall y, In y l' -> exists x, In x l /\ P x y.
Proof. induction 1 as [|x y l l' H F IH]; intros z Hz; [destruct Hz|]. destruct Hz as [<- |Hz]; [exists x; cbn; auto|]. destruct (IH z Hz) as (x' & Hx & HP). exists x'. cbn. auto. Qed.

(** ** Only orders matter *)

(** [bmm_jvp] up to the scope, with its messages: the tasks, the lengths of the two arrays and their shapes *)
Section Order.
Context {T : Type} {NT : Num T}.
Definition jvp_pieces (tensors grads : list (raw T)) : outcome (list (list (msg T * msg T)) * (nat * nat) * (list nat * list nat)) :=
  let* (a, b, jac) := two_one tensors grads in
  let* a1 := vindex (shape a) 1 in
  let* b0 := vindex (shape b) 0 in
  assert (a1 =? b0) ;;
  let* a0 := vindex (shape a) 0 in
  let* b1 := vindex (shape b) 1 in
  let* j0 := vindex (shape jac) 0 in
  let* tasks := mapM (fun '(i, k, j) => bmm_task a b jac [a0; b1] [a0 * b1; a0 * a1] [j0; a0 * a1] [j0; b0 * b1] i k j) (ikj a0 a1 b1) in
  Ret (tasks, (j0 * (a0 * a1), j0 * (b0 * b1)), ([j0; a0 * a1], [j0; b0 * b1])).
Definition pieces_arr (lens : nat * nat) (s : side) : list T := match s with SLeft => repeat n_zero (fst lens) | SRight => repeat n_zero (snd lens) end.

(** [bmm_jvp] with the messages for each array delivered in the given orders *)
Definition jvp_deliver (lens : nat * nat) (shapes : list nat * list nat) (DL DR : list (msg T)) : outcome (list (raw T)) :=
  let* left_segs := foldM deliver DL (split_new (repeat n_zero (fst lens))) in
  let* right_segs := foldM deliver DR (split_new (repeat n_zero (snd lens))) in
  let* l := raw_new (split_join left_segs) (fst shapes) in
  let* r := raw_new (split_join right_segs) (snd shapes) in
  Ret [l; r].
Definition bmm_jvp_ord (tensors grads : list (raw T)) : nd (list (raw T)) :=
  let~ (tasks, lens, shapes) := just (jvp_pieces tensors grads) in
  fun o => exists DL DR, Permutation DL (map fst (concat tasks)) /\ Permutation DR (map snd (concat tasks)) /\ o = jvp_deliver lens shapes DL DR.

Lemma bmm_jvp_pieces tensors grads : bmm_jvp tensors grads =
  let* (tasks, lens, shapes) := jvp_pieces tensors grads in jvp_deliver lens shapes (map fst (concat tasks)) (map snd (concat tasks)).
Proof.
  unfold bmm_jvp, jvp_pieces, jvp_deliver. destruct (two_one tensors grads) as [[[a b] jac]| |]; cbn [bind]; try reflexivity.
  destruct (vindex (shape a) 1) as [a1| |]; cbn [bind]; try reflexivity. destruct (vindex (shape b) 0) as [b0| |]; cbn [bind]; try reflexivity.
  destruct (assert (a1 =? b0)) as [[]| |]; cbn [bind]; try reflexivity. destruct (vindex (shape a) 0) as [a0| |]; cbn [bind]; try reflexivity.
  destruct (vindex (shape b) 1) as [b1| |]; cbn [bind]; try reflexivity. destruct (vindex (shape jac) 0) as [j0| |]; cbn [bind]; try reflexivity.
  destruct (mapM _ _) as [tasks| |]; cbn [bind fst snd]; reflexivity.
Qed.
Lemma bmm_start_pieces tensors grads : bmm_jvp_start tensors grads =
  let* (tasks, lens, shapes) := jvp_pieces tensors grads in Ret (par_init tasks (pieces_arr lens), shapes).
Proof.
  unfold bmm_jvp_start, jvp_pieces. destruct (two_one tensors grads) as [[[a b] jac]| |]; cbn [bind]; try reflexivity.
  destruct (vindex (shape a) 1) as [a1| |]; cbn [bind]; try reflexivity. destruct (vindex (shape b) 0) as [b0| |]; cbn [bind]; try reflexivity.
  destruct (assert (a1 =? b0)) as [[]| |]; cbn [bind]; try reflexivity. destruct (vindex (shape a) 0) as [a0| |]; cbn [bind]; try reflexivity.
  destruct (vindex (shape b) 1) as [b1| |]; cbn [bind]; try reflexivity. destruct (vindex (shape jac) 0) as [j0| |]; cbn [bind]; try reflexivity.
  destruct (mapM _ _) as [tasks| |]; cbn [bind fst snd]; reflexivity.
Qed.

Lemma global_lt idx d e x : 0 < d -> 0 < e -> global_index idx [d; e] None = Ret (Ok x) -> x < d * e.
Proof.
  intros Hd He E. destruct (global_index_none idx [d; e]) as [(i & HR & E')|(_ & e' & E')]; [repeat constructor; assumption| |congruence].
  rewrite E' in E. injection E as <-. pose proof (resolves_in_range _ _ _ HR) as IR. pose proof (rm_lt [d; e] i IR) as L. cbn in L. lia.
Qed.

Lemma in_ikj a b c i k j : In (i, k, j) (ikj a b c) -> i < a /\ k < b /\ j < c.
Proof. unfold ikj. rewrite !in_prod_iff, !in_seq. lia. Qed.

Lemma task_bound (a b jac : raw T) os ljs d e d' e' i k j ms : bmm_task a b jac os ljs [d; e] [d'; e'] i k j = Ret ms ->
  (0 < e) -> (0 < e') -> (d = nth 0 (shape jac) 0) -> d' = d ->
  forall m, In m ms -> fst (fst m) < d * e /\ fst (snd m) < d' * e'.
Proof.
  intros E He He' Ed -> m Hm. unfold bmm_task in E.
  repeat (match type of E with bind _ _ = _ => idtac end; apply bind_Ret_inv in E as (? & ? & E)).
  apply mapM_Forall2 in E. 
  match goal with H : vindex (shape jac) 0 = Ret ?y |- _ => assert (Y : y = d) by (rewrite Ed; unfold vindex in H; destruct (shape jac); cbn in *; congruence) end. subst.
  destruct (F2_in_r _ _ _ _ _ E m Hm) as (r & Hr & Er). apply in_seq in Hr.
  repeat (match type of Er with bind _ _ = _ => idtac end; apply bind_Ret_inv in Er as (? & ? & Er)). injection Er as <-. cbn [fst snd].
  assert (P : 0 < nth 0 (shape jac) 0) by lia.
  repeat match goal with H : unwrap ?r = Ret _ |- _ => destruct r; cbn in H; [injection H as ->|discriminate H] end.
  split; eapply global_lt; eassumption.
Qed.

Lemma pieces_bound tensors grads tasks lens shapes : jvp_pieces tensors grads = Ret (tasks, lens, shapes) ->
  forall s m, In m (all_msgs tasks s) -> fst m < length (pieces_arr lens s).
Proof.
  intros E. unfold jvp_pieces in E. apply bind_Ret_inv in E as ([[a b] jac] & _ & E). apply bind_Ret_inv in E as (a1 & _ & E). apply bind_Ret_inv in E as (b0 & _ & E).
  apply bind_Ret_inv in E as ([] & Eab & E). apply bind_Ret_inv in E as (a0 & _ & E). apply bind_Ret_inv in E as (b1 & _ & E). apply bind_Ret_inv in E as (j0 & Ej & E).
  apply bind_Ret_inv in E as (ts & Et & E). injection E as <- <- <-. assert (EQ : b0 = a1) by (destruct (Nat.eqb_spec a1 b0); [congruence|discriminate Eab]). subst b0.
  assert (G : forall m, In m (concat ts) -> fst (fst m) < j0 * (a0 * a1) /\ fst (snd m) < j0 * (a1 * b1)).
  { intros m Hm. apply in_concat in Hm as (t & Ht & Hm). apply mapM_Forall2 in Et. destruct (F2_in_r _ _ _ _ _ Et t Ht) as ([[i k] j] & Hi & Ei).
    apply in_ikj in Hi as (H1 & H2 & H3). eapply task_bound; try exact Ei; try exact Hm; try reflexivity; [nia|nia|].
    unfold vindex in Ej. destruct (shape jac); cbn in *; congruence. }
  intros s m Hm. destruct s; cbn [all_msgs pieces_arr fst snd] in *; rewrite repeat_length; apply in_map_iff in Hm as (x & <- & Hx); apply G; exact Hx.
Qed.

Lemma finish_deliver (lens : nat * nat) shapes (st : machine T) DL DR :
  foldM deliver DL (split_new (pieces_arr lens SLeft)) = Ret (m_segs st SLeft) -> foldM deliver DR (split_new (pieces_arr lens SRight)) = Ret (m_segs st SRight) ->
  bmm_jvp_finish shapes st = jvp_deliver lens shapes DL DR.
Proof. intros EL ER. unfold jvp_deliver. cbn [pieces_arr] in *. rewrite EL, ER. reflexivity. Qed.

(** Machine runs are orders. *)
Lemma any_ord w f tensors grads : nrel eq (bmm_jvp_any w f tensors grads) (bmm_jvp_ord tensors grads).
Proof.
  intros r H. unfold bmm_jvp_any in H. rewrite bmm_start_pieces in H. unfold bmm_jvp_ord.
  destruct (jvp_pieces tensors grads) as [[[tasks lens] shapes]|p|] eqn:EP; cbn [bind] in H.
  - pose proof (pieces_bound _ _ _ _ _ EP) as BD. destruct H as [(st & RS & FS & ->)|[RN _]]; [|destruct (good_reach tasks (pieces_arr lens) BD w f None RN)].
    destruct (finished_delivered tasks (pieces_arr lens) BD w f st RS FS SLeft) as (DL & PL & EL).
    destruct (finished_delivered tasks (pieces_arr lens) BD w f st RS FS SRight) as (DR & PR & ER).
    exists (bmm_jvp_finish shapes st). split.
    + left. exists (tasks, lens, shapes). split; [reflexivity|]. exists DL, DR. split; [exact PL|]. split; [exact PR|]. apply finish_deliver; assumption.
    + destruct (bmm_jvp_finish shapes st); cbn; auto.
  - subst r. exists (Panic p). split; [|exact I]. right. left. exists p. split; reflexivity.
  - subst r. exists NoFuel. split; [|exact I]. right. right. split; reflexivity.
Qed.

(** With commutative and associative addition there is one result. *)
Lemma ord_det tensors grads r : (forall x y : T, n_add x y = n_add y x) -> (forall x y z : T, n_add (n_add x y) z = n_add x (n_add y z)) ->
  bmm_jvp_ord tensors grads r -> r = bmm_jvp tensors grads.
Proof.
  intros comm assoc H. rewrite bmm_jvp_pieces. unfold bmm_jvp_ord, just in H. destruct H as [([[tasks lens] shapes] & E & DL & DR & PL & PR & ->)|[(p & E & ->)|[E ->]]]; rewrite <- E; cbn [bind]; try reflexivity.
  pose proof (pieces_bound _ _ _ _ _ (eq_sym E)) as BD. unfold jvp_deliver.
  rewrite (deliver_perm comm assoc DL _ PL), (deliver_perm comm assoc DR _ PR); [reflexivity| |].
  - intros m Hm. apply (BD SRight). cbn [all_msgs]. eapply Permutation_in; eassumption.
  - intros m Hm. apply (BD SLeft). cbn [all_msgs]. eapply Permutation_in; eassumption.
Qed.

(** One worker *)
Lemma one_det tensors grads r : bmm_jvp_any 1 true tensors grads r -> r = bmm_jvp tensors grads.
Proof.
  intros H. unfold bmm_jvp_any in H. rewrite bmm_start_pieces in H. rewrite bmm_jvp_pieces.
  destruct (jvp_pieces tensors grads) as [[[tasks lens] shapes]|p|] eqn:EP; cbn [bind] in *; try exact H.
  pose proof (pieces_bound _ _ _ _ _ EP) as BD. destruct H as [(st & RS & FS & ->)|[RN _]]; [|destruct (good_reach tasks (pieces_arr lens) BD 1 true None RN)].
  apply finish_deliver; [apply (one_segs tasks (pieces_arr lens) BD st RS FS SLeft)|apply (one_segs tasks (pieces_arr lens) BD st RS FS SRight)].
Qed.

(** There is an outcome. *)
Lemma any_possible w tensors grads : 1 <= w -> exists r, bmm_jvp_any w true tensors grads r.
Proof.
  intros Hw. unfold bmm_jvp_any. rewrite bmm_start_pieces. destruct (jvp_pieces tensors grads) as [[[tasks lens] shapes]|p|] eqn:EP; cbn [bind]; eauto.
  pose proof (pieces_bound _ _ _ _ _ EP) as BD. destruct (fifo_ends tasks (pieces_arr lens) BD w _ Hw (star_refl _ _)) as (st & RS & FS).
  exists (bmm_jvp_finish shapes st). left. eauto.
Qed.
End Order.

(** ** Computations with one outcome *)
Definition is {A : Type} (m : nd A) (o : outcome A) : Prop := forall r, m r <-> r = o.
Lemma is_just A (o : outcome A) : is (just o) o.
Proof. intros r. reflexivity. Qed.
Lemma is_bind A B (m : nd A) (o : outcome A) (f : A -> nd B) g : is m o -> (forall a, o = Ret a -> is (f a) (g a)) -> is (nbind m f) (bind o g).
Proof.
  intros Hm Hf r. unfold nbind. split.
  - intros [(a & Ha & Hr)|[(p & Hp & ->)|[Hn ->]]].
    + apply Hm in Ha. subst o. apply (Hf a eq_refl). exact Hr.
    + apply Hm in Hp. subst o. reflexivity.
    + apply Hm in Hn. subst o. reflexivity.
  - intros ->. destruct o as [a|p|]; cbn [bind].
    + left. exists a. split; [apply Hm; reflexivity|apply (Hf a eq_refl); reflexivity].
    + right. left. exists p. split; [apply Hm; reflexivity|reflexivity].
    + right. right. split; [apply Hm; reflexivity|reflexivity].
Qed.
Lemma is_foldM A B (f : A -> B -> nd A) g : (forall a b, is (f a b) (g a b)) -> forall l a, is (nfoldM f l a) (foldM g l a).
Proof. intros H. induction l as [|b l IH]; intros a; cbn [nfoldM foldM]; [apply is_just|]. apply is_bind; auto. Qed.
Lemma is_eq A (m : nd A) o o' : o = o' -> is m o -> is m o'.
Proof. intros ->. auto. Qed.

Section One.
Context {T : Type} {NT : Num T}.
Notation bm := (fun l r : tlike T => just (bmm_raw l r)).
Notation bb := (fun ts gs : list (raw T) => just (bmm_jvp ts gs)).
Lemma is_full l r : is (full_jacobians_nd bm l r) (jvp_from_full_jacobians l r).
Proof. unfold full_jacobians_nd, jvp_from_full_jacobians. destruct (_ || _)%bool; apply is_just. Qed.
Lemma is_jvp k ts gs : is (jvp_nd bm bb k ts gs) (jvp k ts gs).
Proof.
  destruct k; try apply is_just; cbn [jvp_nd jvp].
  - unfold tanh_jvp_nd, tanh_jvp. apply is_bind; [apply is_just|]. intros [t g] _. apply is_bind; [apply is_just|]. intros j _. apply is_bind; [apply is_full|]. intros x _. apply is_just.
  - unfold dot_jvp_nd, dot_jvp. apply is_bind; [apply is_just|]. intros [[l r] j] _. apply is_bind; [apply is_full|]. intros x _. apply is_bind; [apply is_full|]. intros y _. apply is_just.
Qed.
Lemma is_compute ns : forall f k ins outer g, is (compute_jvp_nd bm bb f ns k ins outer g) (compute_jvp f ns k ins outer g).
Proof.
  induction f as [|f IH]; intros k ins outer g; [apply is_just|]. cbn [compute_jvp_nd compute_jvp].
  apply is_bind; [apply is_just|]. intros xs _. apply is_bind; [apply is_jvp|]. intros sg _. apply is_foldM. clear g. intros g [t [i nd]].
  destruct (assert _) as [[]|p|]; cbn [bind]; try (intros r; unfold nbind, just; split; [intros [(a & Ha & _)|[(q & Hq & ->)|[Hn ->]]]; congruence|intros ->; eauto]).
  destruct (raw_new _ _) as [s|p|]; cbn [bind]; try (intros r; unfold nbind, just; split; [intros [(a & Ha & _)|[(q & Hq & ->)|[Hn ->]]]; congruence|intros ->; eauto]).
  apply is_bind; [apply is_just|]. intros g' _. destruct (n_fn nd) as [[k' ins']|]; [apply IH|apply is_just].
Qed.
Lemma is_backward h i : is (backward_nd bm bb h i) (backward h i).
Proof.
  unfold backward_nd, backward. apply is_bind; [apply is_just|]. intros nd _. apply is_bind; [apply is_just|]. intros _ _. apply is_bind; [apply is_just|]. intros [k ins] _.
  apply is_bind; [apply is_compute|]. intros g _. apply is_just.
Qed.
Lemma is_op_bmm h i j : is (op_bmm_nd bm h i j) (op_bmm h i j).
Proof. unfold op_bmm_nd, op_bmm. apply is_bind; [apply is_just|]. intros a _. apply is_bind; [apply is_just|]. intros b _. apply is_bind; [apply is_just|]. intros t _. apply is_just. Qed.
Lemma is_op_bmm_view h i j o : is (op_bmm_view_nd bm h i j o) (op_bmm_view h i j o).
Proof.
  unfold op_bmm_view_nd, op_bmm_view. apply is_bind; [apply is_just|]. intros a _. apply is_bind; [apply is_just|]. intros b _. apply is_bind; [apply is_just|]. intros v _.
  apply is_bind; [apply is_just|]. intros t _. apply is_bind; [apply is_just|]. intros r _. apply is_just.
Qed.
Lemma is_push (s : state T) m o : is m o -> is (push_nd s m) (push s o).
Proof.
  intros H. unfold push_nd. eapply is_eq; [|apply is_bind; [exact H|intros a _; apply is_just]]. destruct o; reflexivity.
Qed.
Lemma is_exec s c : is (exec_nd bm bb s c) (exec s c).
Proof.
  destruct c; try apply is_just; cbn [exec_nd exec].
  - apply is_bind; [apply is_just|]. intros i _. apply is_bind; [apply is_just|]. intros j _. apply is_push, is_op_bmm.
  - apply is_bind; [apply is_just|]. intros i _. apply is_bind; [apply is_just|]. intros j _. apply is_push, is_op_bmm_view.
  - apply is_bind; [apply is_just|]. intros i _. apply is_bind; [apply is_backward|]. intros h _. apply is_just.
Qed.
Lemma is_run p s : is (run_nd bm bb p s) (run p s).
Proof. apply is_foldM. intros. apply is_exec. Qed.
Lemma bind_bind A B C (m : outcome A) (f : A -> outcome B) (g : B -> outcome C) : bind (bind m f) g = bind m (fun a => bind (f a) g).
Proof. destruct m; reflexivity. Qed.
Lemma is_forward m h i : is (mlp_forward_nd bm m h i) (mlp_forward m h i).
Proof. apply is_foldM. intros [h' p] l. unfold linear_forward_nd, linear_forward. apply is_bind; [apply is_op_bmm|]. intros [h1 y] _. apply is_just. Qed.
Lemma is_train m st h x y : is (train_step_nd bm bb m st h x y) (train_step m st h x y).
Proof.
  unfold train_step_nd, train_step. apply is_bind; [apply is_forward|]. intros [h1 r] _.
  eapply is_eq; [|apply is_bind with (g := fun a => let* h5 := backward (fst a) (snd a) in sgd_step_mlp m st h5); [apply is_just|intros [h4 lo] _; apply is_bind; [apply is_backward|intros h5 _; apply is_just]]].
  destruct (op_sub h1 r y) as [[h2 d]| |]; cbn [bind]; try reflexivity. destruct (op_abs h2 d) as [[h3 ab]| |]; cbn [bind]; try reflexivity. destruct (op_sum h3 ab) as [[h4 lo]| |]; reflexivity.
Qed.
Lemma is_main inp hid out rounds one st w1 b1 w2 b2 w3 b3 input :
  is (main_program_nd bm bb inp hid out rounds one st w1 b1 w2 b2 w3 b3 input) (main_program inp hid out rounds one st w1 b1 w2 b2 w3 b3 input).
Proof.
  unfold main_program_nd, main_program. apply is_bind; [apply is_just|]. intros [[[h m] x] y] _. apply is_foldM. intros [h' m'] _. unfold main_round_nd, main_round.
  apply is_bind; [apply is_train|]. intros [h1 m1] _. apply is_just.
Qed.
End One.

(** ** Computations with some outcome *)
Definition some {A : Type} (m : nd A) : Prop := exists r, m r.
Lemma some_just A (o : outcome A) : some (just o).
Proof. exists o. reflexivity. Qed.
Lemma some_bind A B (m : nd A) (f : A -> nd B) : some m -> (forall a, some (f a)) -> some (nbind m f).
Proof.
  intros [[a|p|] H] Hf.
  - destruct (Hf a) as [r Hr]. exists r. left. eauto.
  - exists (Panic p). right. left. eauto.
  - exists NoFuel. right. right. auto.
Qed.
Lemma some_foldM A B (f : A -> B -> nd A) : (forall a b, some (f a b)) -> forall l a, some (nfoldM f l a).
Proof. intros H. induction l as [|b l IH]; intros a; cbn [nfoldM]; [apply some_just|]. apply some_bind; auto. Qed.

Section Some.
Context {T : Type} {NT : Num T}.
Variables (bm : tlike T -> tlike T -> nd (raw T)) (bb : list (raw T) -> list (raw T) -> nd (list (raw T))).
Hypothesis (HM : forall l r, some (bm l r)) (HB : forall ts gs, some (bb ts gs)).
Lemma some_full l r : some (full_jacobians_nd bm l r).
Proof. unfold full_jacobians_nd. destruct (_ || _)%bool; [apply some_just|apply HM]. Qed.
Ltac go := repeat first [apply some_just | apply HM | apply HB | apply some_full | apply some_bind; [|intros ?]].
Lemma some_jvp k ts gs : some (jvp_nd bm bb k ts gs).
Proof. destruct k; try apply some_just; cbn [jvp_nd]; [|apply HB|]; unfold tanh_jvp_nd, dot_jvp_nd; (apply some_bind; [apply some_just|]); [intros [t g]|intros [[l r] j]]; go. Qed.
Lemma some_compute ns : forall f k ins outer g, some (compute_jvp_nd bm bb f ns k ins outer g).
Proof.
  induction f as [|f IH]; intros k ins outer g; [apply some_just|]. cbn [compute_jvp_nd]. apply some_bind; [apply some_just|]. intros xs. apply some_bind; [apply some_jvp|]. intros sg.
  apply some_foldM. intros g' [t [i nd]]. apply some_bind; [apply some_just|]. intros g''. destruct (n_fn nd) as [[k' ins']|]; [apply IH|apply some_just].
Qed.
Lemma some_backward h i : some (backward_nd bm bb h i).
Proof.
  unfold backward_nd. apply some_bind; [apply some_just|]. intros nd. apply some_bind; [apply some_just|]. intros _. apply some_bind; [apply some_just|]. intros [k ins].
  apply some_bind; [apply some_compute|]. intros g. apply some_just.
Qed.
Lemma some_op_bmm h i j : some (op_bmm_nd bm h i j).
Proof. unfold op_bmm_nd. go. Qed.
Lemma some_exec s c : some (exec_nd bm bb s c).
Proof. destruct c; try apply some_just; cbn [exec_nd]; unfold push_nd, op_bmm_nd, op_bmm_view_nd; [go|go|]. apply some_bind; [apply some_just|]. intros i. apply some_bind; [apply some_backward|]. intros h. apply some_just. Qed.
Lemma some_run p s : some (run_nd bm bb p s).
Proof. apply some_foldM. intros. apply some_exec. Qed.
Lemma some_main inp hid out rounds one st w1 b1 w2 b2 w3 b3 input : some (main_program_nd bm bb inp hid out rounds one st w1 b1 w2 b2 w3 b3 input).
Proof.
  unfold main_program_nd. apply some_bind; [apply some_just|]. intros [[[h m] x] y]. apply some_foldM. intros [h' m'] _. unfold main_round_nd. apply some_bind; [|intros [? ?]; apply some_just].
  unfold train_step_nd. apply some_bind.
  - apply some_foldM. intros [h1 p] l. unfold linear_forward_nd. apply some_bind; [apply some_op_bmm|]. intros [h2 z]. apply some_just.
  - intros [h1 r]. apply some_bind; [apply some_just|]. intros [h4 lo]. apply some_bind; [apply some_backward|]. intros h5. apply some_just.
Qed.
End Some.

(** ** The machines *)
Section Machines.
Context {T : Type} {NT : Num T}.
Lemma cell_row_runs (lt rt : tlike T) li kdim m : row_runs lt rt li kdim m (mapM (cell_value lt rt li kdim) (seq 0 m)).
Proof.
  pose proof (run_seq lt rt li kdim m 0 (repeat n_zero m) [] ltac:(rewrite repeat_length; lia)) as H.
  destruct (mapM (cell_value lt rt li kdim) (seq 0 m)) as [r|p|] eqn:E.
  - destruct H as (log' & S). eexists. split; [exact S|]. repeat split.
  - destruct H as (o & l & S). eexists. split; [exact S|]. repeat split.
  - exfalso. revert E. apply nf_mapM. intros. apply nf_cell_value.
Qed.
Lemma raw_some (l r : tlike T) : some (bmm_raw_any l r).
Proof.
  unfold some, bmm_raw_any. set (row := fun (_ : nat) li => mapM (cell_value l r li (nth 0 (tl_shape r) 0)) (seq 0 (nth 1 (tl_shape r) 0))).
  exists (bmm_raw_with row l r), row. split; [|reflexivity]. intros n li. apply cell_row_runs.
Qed.
Lemma run_possible w p s : 1 <= w -> some (run_any w true p s).
Proof. intros Hw. apply some_run; [apply raw_some|]. intros ts gs. apply any_possible. exact Hw. Qed.
Lemma main_possible w inp hid out rounds one st w1 b1 w2 b2 w3 b3 input : 1 <= w -> some (main_program_any w true inp hid out rounds one st w1 b1 w2 b2 w3 b3 input).
Proof. intros Hw. apply some_main; [apply raw_some|]. intros ts gs. apply any_possible. exact Hw. Qed.
End Machines.

Section Compare.
Context {A B : Type} (R : A -> B -> Prop) {NA : Num A} {NB : Num B} (HR : respects_ring R).
Notation RR := (rel_raw R).
Notation RL := (rel_like R).

Lemma any_raw l m l' m' : RL l m -> RL l' m' -> nrel RR (bmm_raw_any l l') (just (bmm_raw m m')).
Proof.
  intros H H' o (row & Hrow & ->). exists (bmm_raw m m'). split; [reflexivity|].
  pose proof (c26_schedule_independent A NA l l' row Hrow) as HA. pose proof (p_bmm R HR l m l' m' H H') as HP.
  destruct (bmm_raw l l') as [t|p|]; cbn [agree] in HA; [rewrite HA; apply alike_ro; exact HP| |tauto]. destruct HA as [q ->]. destruct (bmm_raw m m'); cbn in *; tauto.
Qed.

Lemma F2_perm X Y (P : X -> Y -> Prop) l D : Permutation D l -> forall l', Forall2 P l l' -> exists D', Permutation D' l' /\ Forall2 P D D'.
Proof.
  intros HP. induction HP as [|x D l HP IH|x y l|D l l2 HP1 IH1 HP2 IH2]; intros l' F.
  - inversion F. exists []. auto.
  - inversion F as [|? y ? m' Hxy F']; subst. destruct (IH m' F') as (D' & PD & FD). exists (y :: D'). split; [apply perm_skip; exact PD|constructor; assumption].
  - inversion F as [|? x' ? m' Hx F']; subst. inversion F' as [|? y' ? m'' Hy F'']; subst. exists (y' :: x' :: m''). split; [apply perm_swap|]. repeat constructor; assumption.
  - destruct (IH2 l' F) as (D2 & P2 & F2). destruct (IH1 D2 F2) as (D1 & P1 & F1). exists D1. split; [etransitivity; eassumption|exact F1].
Qed.

Notation mrel := (fun m m' => rel_pair R (fst m) (fst m') /\ rel_pair R (snd m) (snd m')).
Lemma p_pieces ts us gs hs : Forall2 RR ts us -> Forall2 RR gs hs ->
  rel_outcome (fun a b => Forall2 (Forall2 mrel) (fst (fst a)) (fst (fst b)) /\ snd (fst a) = snd (fst b) /\ snd a = snd b) (jvp_pieces ts gs) (jvp_pieces us hs).
Proof.
  intros Ft Fg. unfold jvp_pieces. eapply ro_bind; [apply (p_two_one R); eassumption|]. intros [[a b] j] [[a' b'] j'] (Ha & Hb & Hj). cbn [fst snd] in *.
  rewrite (proj1 Ha), (proj1 Hb), (proj1 Hj). apply ro_same. intros a1. apply ro_same. intros b0. apply ro_same. intros _. apply ro_same. intros a0. apply ro_same. intros b1. apply ro_same. intros j0.
  eapply ro_bind; [apply ro_mapM_same; intros [[i k] jj]; apply (p_bmm_task R HR); assumption|]. intros x y Hxy. cbn. auto.
Qed.

Lemma F2_concat X Y (P : X -> Y -> Prop) l l' : Forall2 (Forall2 P) l l' -> Forall2 P (concat l) (concat l').
Proof. induction 1; cbn [concat]; [constructor|]. apply Forall2_app; assumption. Qed.
Lemma F2_repeat X Y (P : X -> Y -> Prop) x y n : P x y -> Forall2 P (repeat x n) (repeat y n).
Proof. intros H. induction n; cbn [repeat]; constructor; auto. Qed.

Lemma p_jvp_deliver lens shapes DL DL' DR DR' : Forall2 (rel_pair R) DL DL' -> Forall2 (rel_pair R) DR DR' ->
  rel_outcome (Forall2 RR) (jvp_deliver lens shapes DL DR) (jvp_deliver lens shapes DL' DR').
Proof.
  intros FL FR. unfold jvp_deliver.
  eapply ro_bind; [apply ro_foldM with (P := Forall2 (Forall2 R)) (K := rel_pair R); [exact FL|apply F2_rchunks, F2_repeat; exact (rr_zero R HR)|intros; apply (p_deliver R HR); assumption]|].
  intros ls ls' Hl.
  eapply ro_bind; [apply ro_foldM with (P := Forall2 (Forall2 R)) (K := rel_pair R); [exact FR|apply F2_rchunks, F2_repeat; exact (rr_zero R HR)|intros; apply (p_deliver R HR); assumption]|].
  intros rs rs' Hr.
  assert (J : forall a b, Forall2 (Forall2 R) a b -> Forall2 R (split_join a) (split_join b)).
  { intros a b F. unfold split_join. apply F2_concat. clear - F. induction F; cbn [rev]; [constructor|]. apply Forall2_app; [assumption|repeat constructor; assumption]. }
  eapply ro_bind; [apply p_new, J; exact Hl|]. intros l l' Hll. eapply ro_bind; [apply p_new, J; exact Hr|]. intros r r' Hrr. cbn. auto.
Qed.

Lemma ord_rel ts us gs hs : Forall2 RR ts us -> Forall2 RR gs hs -> nrel (Forall2 RR) (bmm_jvp_ord ts gs) (bmm_jvp_ord us hs).
Proof.
  intros Ft Fg. unfold bmm_jvp_ord. eapply nrel_bind; [apply nrel_just, p_pieces; eassumption|].
  intros [[tasks lens] shapes] [[tasks' lens'] shapes'] (Hts & El & Es). cbn [fst snd] in *. subst lens' shapes'.
  intros r (DL & DR & PL & PR & ->). apply F2_concat in Hts.
  destruct (F2_perm _ _ (rel_pair R) _ DL PL (map fst (concat tasks'))) as (DL' & PL' & FL); [eapply F2_map; [exact Hts|intros x y [H _]; exact H]|].
  destruct (F2_perm _ _ (rel_pair R) _ DR PR (map snd (concat tasks'))) as (DR' & PR' & FR); [eapply F2_map; [exact Hts|intros x y [_ H]; exact H]|].
  exists (jvp_deliver lens shapes DL' DR'). split; [exists DL', DR'; auto|]. apply alike_ro, p_jvp_deliver; assumption.
Qed.

Lemma any_jvp w f ts us gs hs : (forall x y : B, n_add x y = n_add y x) -> (forall x y z : B, n_add (n_add x y) z = n_add x (n_add y z)) ->
  Forall2 RR ts us -> Forall2 RR gs hs -> nrel (Forall2 RR) (bmm_jvp_any w f ts gs) (just (bmm_jvp us hs)).
Proof.
  intros comm assoc Ft Fg r Hr. destruct (any_ord w f ts gs r Hr) as (r1 & H1 & A1). destruct (ord_rel ts us gs hs Ft Fg r1 H1) as (r2 & H2 & A2).
  apply ord_det in H2; auto. subst r2. exists (bmm_jvp us hs). split; [reflexivity|]. destruct r, r1, (bmm_jvp us hs); cbn in *; subst; tauto.
Qed.

(** Programs under any schedule, compared with programs over elements whose addition is commutative and associative *)
Lemma sched_run w f p q r : (forall x y : B, n_add x y = n_add y x) -> (forall x y z : B, n_add (n_add x y) z = n_add x (n_add y z)) ->
  Forall2 (rel_cmd R) p q -> (forall c k, In c p -> In k (needs c) -> respects R k) ->
  run_any w f p init_state r -> alike (rel_state R) r (run q init_state).
Proof.
  intros comm assoc F Hn Hr. unfold run_any in Hr.
  destruct (n_init R HR bmm_raw_any (bmm_jvp_any w f) (fun l r => just (bmm_raw l r)) (fun ts gs => just (bmm_jvp ts gs))
              any_raw (fun ts us gs hs Ft Fg => any_jvp w f ts us gs hs comm assoc Ft Fg) p q F Hn r Hr) as (r' & Hr' & HA).
  apply is_run in Hr'. subst r'. exact HA.
Qed.
Lemma sched_main w f inp hid out rounds one one' st st' w1 w1' b1 b1' w2 w2' b2 b2' w3 w3' b3 b3' input input' r :
  (forall x y : B, n_add x y = n_add y x) -> (forall x y z : B, n_add (n_add x y) z = n_add x (n_add y z)) ->
  respects_neg R -> respects_abs R -> respects_relu R -> respects_tanh R -> R one one' -> R st st' ->
  Forall2 R w1 w1' -> Forall2 R b1 b1' -> Forall2 R w2 w2' -> Forall2 R b2 b2' -> Forall2 R w3 w3' -> Forall2 R b3 b3' -> Forall2 R input input' ->
  main_program_any w f inp hid out rounds one st w1 b1 w2 b2 w3 b3 input r ->
  alike (rel_net R) r (main_program inp hid out rounds one' st' w1' b1' w2' b2' w3' b3' input').
Proof.
  intros comm assoc HN HA HL HT H1 Hs Fw1 Fb1 Fw2 Fb2 Fw3 Fb3 Fi Hr. unfold main_program_any in Hr.
  destruct (n_main R HR bmm_raw_any (bmm_jvp_any w f) (fun l r => just (bmm_raw l r)) (fun ts gs => just (bmm_jvp ts gs))
              any_raw (fun ts us gs hs Ft Fg => any_jvp w f ts us gs hs comm assoc Ft Fg) inp hid out rounds one one' st st' w1 w1' b1 b1' w2 w2' b2 b2' w3 w3' b3 b3' input input'
              HN HA HL HT H1 Hs Fw1 Fb1 Fw2 Fb2 Fw3 Fb3 Fi r Hr) as (r' & Hr' & HR').
  apply is_main in Hr'. subst r'. exact HR'.
Qed.

(** One worker: no condition on the addition *)
Lemma one_jvp ts us gs hs : Forall2 RR ts us -> Forall2 RR gs hs -> nrel (Forall2 RR) (bmm_jvp_any 1 true ts gs) (just (bmm_jvp us hs)).
Proof.
  intros Ft Fg r Hr. apply one_det in Hr. subst r. exists (bmm_jvp us hs). split; [reflexivity|]. apply alike_ro, (p_bmm_jvp R HR); assumption.
Qed.
Lemma sched_one p q r : Forall2 (rel_cmd R) p q -> (forall c k, In c p -> In k (needs c) -> respects R k) ->
  run_any 1 true p init_state r -> alike (rel_state R) r (run q init_state).
Proof.
  intros F Hn Hr. unfold run_any in Hr.
  destruct (n_init R HR bmm_raw_any (bmm_jvp_any 1 true) (fun l r => just (bmm_raw l r)) (fun ts gs => just (bmm_jvp ts gs))
              any_raw one_jvp p q F Hn r Hr) as (r' & Hr' & HA).
  apply is_run in Hr'. subst r'. exact HA.
Qed.
End Compare.
