(** * CrashFacts *)
From Verif Require Import Base ModelIndex ModelTensor ModelOps ModelJvp ModelGraph ModelCrash Spec SpecDual SpecGraph
  Lists IndexFacts TensorFacts OpsFacts JvpFacts Dual GradRing FuelFacts GraphFacts ProgFacts BackFacts SimFacts.

Section Crash.
Context {T : Type} {NT : Num T}.
Implicit Types (gr : nat -> option (raw T)).

(** ** The same calls as in ModelGraph *)
Lemma go_each_agrees {B} (f : cells -> B -> cells * outcome unit) (F : (nat -> option (raw T)) -> B -> outcome (nat -> option (raw T))) l :
  (forall b, In b l -> forall gr, F gr b = (let (gr', st) := f gr b in st ;; Ret gr')) ->
  forall gr, foldM F l gr = (let (gr', st) := go_each f l gr in st ;; Ret gr').
Proof.
  induction l as [|b l IH]; intros H gr; [reflexivity|]. cbn [foldM go_each]. rewrite H by (left; auto).
  destruct (f gr b) as [gr1 [[]|p|]]; cbn [bind go]; [|reflexivity..]. apply IH. intros; apply H; right; auto.
Qed.

Lemma compute_agrees ns : forall fuel k ins outer gr,
  compute_jvp fuel ns k ins outer gr = (let (gr', st) := compute_jvp_left fuel ns k ins outer gr in st ;; Ret gr').
Proof.
  induction fuel as [|fuel IH]; intros k ins outer gr; [reflexivity|]. cbn [compute_jvp compute_jvp_left].
  destruct (mapM (vindex ns) ins) as [nds|p|]; cbn [bind go]; [|reflexivity..].
  destruct (jvp k (map n_val nds) outer) as [gs|p|]; cbn [bind go]; [|reflexivity..].
  apply go_each_agrees. intros [g [i nd]] _ gr1.
  destruct (assert _) as [[]|p|]; cbn [bind go]; [|reflexivity..].
  destruct (raw_new _ _) as [sg|p|]; cbn [bind go]; [|reflexivity..].
  destruct (update_grad gr1 i sg) as [gr2|p|]; cbn [bind go]; [|reflexivity..].
  destruct (n_fn nd) as [[k' ins']|]; [apply IH|reflexivity].
Qed.

Lemma backward_agrees (h : heap T) i : backward h i = (let (h', st) := backward_left h i in st ;; Ret h').
Proof.
  unfold backward, backward_left. destruct (hget h i) as [nd|p|]; cbn [bind go]; [|reflexivity..].
  destruct (assert _) as [[]|p|]; cbn [bind go]; [|reflexivity..].
  destruct (unwrap_opt (n_fn nd)) as [[k ins]|p|]; cbn [bind go]; [|reflexivity..].
  rewrite compute_agrees. destruct (compute_jvp_left _ _ _ _ _ _) as [gr [[]|p|]]; reflexivity.
Qed.

Lemma exec_agrees (s : state T) c : exec s c = (let (s', st) := exec_left s c in st ;; Ret s').
Proof.
  destruct c; try (cbn [exec_left]; destruct (exec s _) as [s'|p|]; reflexivity).
  cbn [exec exec_left]. destruct (vindex (env s) x) as [i|p|]; cbn [bind]; [|reflexivity..].
  rewrite backward_agrees. destruct (backward_left (hp s) i) as [h' [[]|p|]]; reflexivity.
Qed.

(** ** What is left behind was put there by gradient updates. *)
Definition leaves (P : nat * raw T -> Prop) (F : cells -> cells * outcome unit) : Prop :=
  forall gr, exists us, Forall P us /\ upd_all us gr = Ret (fst (F gr)).

Lemma leaves_same P st : leaves P (fun gr => (gr, st)).
Proof. intros gr. exists []. split; [constructor|reflexivity]. Qed.
Lemma leaves_const {A} P (m : outcome A) F : (forall a, m = Ret a -> leaves P (F a)) -> leaves P (fun gr => go gr m (fun a => F a gr)).
Proof. intros H. destruct m as [a|p|]; cbn [go]; [auto|apply leaves_same..]. Qed.
Lemma upd_all_app us1 us2 gr gr' gr'' : upd_all us1 gr = Ret gr' -> upd_all us2 gr' = Ret gr'' -> upd_all (us1 ++ us2) gr = Ret gr''.
Proof. unfold upd_all. intros H1 H2. rewrite foldM_app, H1. exact H2. Qed.
Lemma leaves_then P (F G : cells -> cells * outcome unit) : leaves P F -> leaves P G ->
  leaves P (fun gr => let (gr', st) := F gr in go gr' st (fun _ => G gr')).
Proof.
  intros H1 H2 gr. destruct (H1 gr) as (u1 & P1 & E1). destruct (F gr) as [gr1 st]. cbn [fst] in E1.
  destruct st as [[]|p|]; cbn [go]; [|exists u1; auto..].
  destruct (H2 gr1) as (u2 & P2 & E2). exists (u1 ++ u2). split; [apply Forall_app; auto|]. eapply upd_all_app; eauto.
Qed.
Lemma leaves_each {B} P (f : cells -> B -> cells * outcome unit) l : (forall b, In b l -> leaves P (fun gr => f gr b)) -> leaves P (go_each f l).
Proof.
  induction l as [|b l IH]; intros H; [apply leaves_same|]. cbn [go_each].
  apply (leaves_then P (fun gr => f gr b) (go_each f l)); [apply H; left; auto|apply IH; intros; apply H; right; auto].
Qed.
Lemma leaves_update (P : nat * raw T -> Prop) i g G : P (i, g) -> leaves P G -> leaves P (fun gr => go gr (update_grad gr i g) (fun gr' => G gr')).
Proof.
  intros HP HG gr. destruct (update_grad gr i g) as [gr1|p|] eqn:E; cbn [go]; [|exists []; split; [constructor|reflexivity]..].
  destruct (HG gr1) as (us & H & Eu). exists ((i, g) :: us). split; [constructor; auto|]. unfold upd_all in *. cbn [foldM]. rewrite E. exact Eu.
Qed.
Lemma leaves_impl (P Q : nat * raw T -> Prop) F : (forall u, P u -> Q u) -> leaves P F -> leaves Q F.
Proof. intros H L gr. destruct (L gr) as (us & A & B). exists us. split; [eapply Forall_impl; eauto|exact B]. Qed.

Lemma compute_leaves ns : forall fuel k ins outer, leaves (upd_ok ns ins) (compute_jvp_left fuel ns k ins outer).
Proof.
  induction fuel as [|fuel IH]; intros k ins outer; cbn [compute_jvp_left]; [apply leaves_same|].
  apply leaves_const. intros nds En. apply leaves_const. intros gs _. apply leaves_each.
  intros [g [i nd]] Hin. apply in_combine_r in Hin. destruct (in_inputs ns ins nds i nd En Hin) as [Hi Hn].
  apply leaves_const. intros _ _. apply leaves_const. intros sg Es. apply raw_new_inv in Es as [-> Ls].
  assert (Hlt : i < length ns) by (apply nth_error_Some; congruence).
  assert (Ev : vof ns i = n_val nd) by (unfold vof; rewrite Hn; reflexivity).
  apply leaves_update with (G := fun gr' => match n_fn nd with Some (k', ins') => compute_jvp_left fuel ns k' ins' [g] gr' | None => (gr', Ret tt) end).
  - split; [|split; [exact Ls|split; [|exact Hlt]]].
    + exists i. split; [exact Hi|apply uses_refl].
    + cbn [fst snd shape]. rewrite Ev. reflexivity.
  - destruct (n_fn nd) as [[k' ins']|] eqn:Ef; [|apply leaves_same].
    eapply leaves_impl; [|apply IH]. intros [m gm] ((j & Hj & U) & W). split; [|exact W].
    exists i. split; [exact Hi|]. eapply uses_step; [|exact Hj|exact U]. unfold fn_of. rewrite Hn. exact Ef.
Qed.

Definition upd_below (ns : list (node T)) (i : nat) (u : nat * raw T) : Prop :=
  uses ns i (fst u) /\ fst u <> i /\ wf (snd u) /\ shape (snd u) = shape (vof ns (fst u)) /\ fst u < length ns.

Lemma backward_leaves (h : heap T) i : recorded (nodes h) ->
  nodes (fst (backward_left h i)) = nodes h /\
  exists us, Forall (upd_below (nodes h) i) us /\ upd_all us (grads h) = Ret (grads (fst (backward_left h i))).
Proof.
  intros HR. destruct h as [ns gr0]. cbn [nodes grads] in *. unfold backward_left. cbn [nodes grads].
  set (X := go gr0 _ _).
  assert (L : exists us, Forall (upd_below ns i) us /\ upd_all us gr0 = Ret (fst X)).
  { unfold X, hget. cbn [nodes]. destruct (vindex ns i) as [nd|p|] eqn:En; cbn [go]; [|exists []; split; [constructor|reflexivity]..].
    apply vindex_ret in En. destruct (assert _) as [[]|p|]; cbn [go]; [|exists []; split; [constructor|reflexivity]..].
    destruct (n_fn nd) as [[k ins]|] eqn:Ef; cbn [unwrap_opt go]; [|exists []; split; [constructor|reflexivity]].
    destruct (compute_leaves ns (S (length ns)) k ins [raw_scalar n_one] gr0) as (us & Hu & E). exists us. split; [|exact E].
    eapply Forall_impl; [|exact Hu]. intros [m g] ((j & Hj & U) & W1 & W2 & W3). unfold upd_below. cbn [fst snd] in *.
    assert (Hfn : fn_of ns i = Some (k, ins)) by (unfold fn_of; rewrite En; exact Ef).
    split; [eapply uses_step; eauto|]. split; [|auto].
    destruct (HR i nd En) as [_ Q]. destruct (Q k ins Ef) as [Q1 _]. rewrite Forall_forall in Q1. specialize (Q1 j Hj).
    apply (uses_lt ns j m HR) in U. lia. }
  destruct X as [gr st]. cbn [fst nodes grads] in *. auto.
Qed.

(** ** Effect *)
Lemma left_effect (h : heap T) i : heap_inv h -> let h' := fst (backward_left h i) in
  heap_inv h' /\ nodes h' = nodes h /\
  (forall j, ~ uses (nodes h) i j -> grads h' j = grads h j) /\ grads h' i = grads h i /\
  (forall j, grads h j <> None -> grads h' j <> None) /\
  (forall (Q : list nat -> Prop) j, Q (shape (vof (nodes h) j)) -> (forall s, Q s -> Q (max_shape s (shape (vof (nodes h) j)))) ->
     (forall g, grads h j = Some g -> Q (shape g)) -> forall g, grads h' j = Some g -> Q (shape g)).
Proof.
  intros [HR HG]. cbn zeta. destruct (backward_leaves h i HR) as (EN & us & Hu & Eu). destruct (fst (backward_left h i)) as [ns' gr'].
  cbn [nodes grads] in *. subst ns'. destruct h as [ns gr]. cbn [nodes grads] in *. rewrite Forall_forall in Hu.
  split; [split|split; [reflexivity|split; [|split; [|split]]]].
  - exact HR.
  - intros j g Ej. cbn [nodes grads] in *. revert g Ej.
    apply (upd_all_keep (fun j o => forall g, o = Some g -> wf g /\ j < length ns) us gr gr'); [|exact HG|exact Eu].
    intros m g Hin gr1 gr2 E1 Hold g' Eg'. destruct (Hu _ Hin) as (_ & _ & W & _ & L). cbn [fst snd] in *.
    apply update_grad_inv in E1 as [_ [[_ E1]|(o & s & E0 & Es & E1)]].
    + rewrite E1 in Eg'. injection Eg' as <-. auto.
    + rewrite E1 in Eg'. injection Eg' as <-. apply binop_form in Es. split; [apply Es|exact L].
  - intros j Hj. apply (upd_all_other us gr gr'); [|exact Eu]. intros u Hin Ej. subst j. apply Hj. apply (Hu u Hin).
  - apply (upd_all_other us gr gr'); [|exact Eu]. intros u Hin. apply (Hu u Hin).
  - intros j Hj.
    assert (K : forall j', j' = j -> gr' j' <> None); [|exact (K j eq_refl)].
    apply (upd_all_keep (fun j' o => j' = j -> o <> None) us gr gr'); [|intros j' ->; exact Hj|exact Eu].
    intros m gm Hin gr1 gr2 E1 Hold ->. apply update_grad_inv in E1 as [_ [[E0 E1]|(o & s & E0 & Es & E1)]]; congruence.
  - intros Q j Q0 Q1 Q2.
    assert (K : forall j', j' = j -> forall g, gr' j' = Some g -> Q (shape g)); [|exact (K j eq_refl)].
    apply (upd_all_keep (fun j' o => j' = j -> forall g, o = Some g -> Q (shape g)) us gr gr'); [|intros j' ->; exact Q2|exact Eu].
    intros m gm Hin gr1 gr2 E1 Hold -> g Eg. destruct (Hu _ Hin) as (_ & _ & W & Sm & L). cbn [fst snd] in *.
    apply update_grad_inv in E1 as [_ [[E0 E1]|(o & s & E0 & Es & E1)]]; rewrite E1 in Eg; injection Eg as <-; [rewrite Sm; exact Q0|].
    apply binop_form in Es as [_ Es]. cbn [tl_shape] in Es. rewrite Es, Sm. apply Q1, (Hold eq_refl o E0).
Qed.

(** ** Guarded programs *)
Lemma exec_left_other (s : state T) c : (forall x, c <> CBackward x) -> exec_left s c =
  match exec s c with Ret s' => (s', Ret tt) | Panic p => (s, Panic p) | NoFuel => (s, NoFuel) end.
Proof. intros H. destruct c; try reflexivity. destruct (H x eq_refl). Qed.

Lemma is_backward (c : cmd T) : (exists x, c = CBackward x) \/ forall x, c <> CBackward x.
Proof. destruct c; try (right; intros ?; discriminate). left. eauto. Qed.

Lemma exec_left_inv (s : state T) c : inv s ->
  (forall x y o, c = CMulView x y o -> exists v, var_value s x = Ret v /\ shape v <> []) ->
  inv (fst (exec_left s c)) /\ extends (hp s) (hp (fst (exec_left s c))).
Proof.
  intros Hi Hm. destruct (is_backward c) as [[x ->]|Hb].
  - cbn [exec_left]. destruct (vindex (env s) x) as [i|p|]; cbn [fst]; [|split; [exact Hi|apply extends_refl]..].
    destruct (left_effect (hp s) i (proj1 Hi)) as (Q1 & Q2 & _). destruct (backward_left (hp s) i) as [h st]. cbn [fst hp] in *.
    split; [split; [exact Q1|cbn [hp env]; rewrite Q2; apply Hi]|]. exists []. rewrite app_nil_r. exact Q2.
  - rewrite exec_left_other by exact Hb. destruct (exec s c) as [s'|p|] eqn:E; cbn [fst]; [|split; [exact Hi|apply extends_refl]..].
    apply (exec_inv s s' c Hi Hm E).
Qed.

Lemma left_shapes (s : state T) c : inv s -> shapes_ok (hp s) -> tidy c ->
  (forall x y o, c = CMulView x y o -> exists v, var_value s x = Ret v /\ shape v <> []) ->
  shapes_ok (hp (fst (exec_left s c))).
Proof.
  intros Hi IH Hok Hm. destruct (is_backward c) as [[x ->]|Hb].
  - cbn [exec_left]. destruct (vindex (env s) x) as [i|p|]; cbn [fst]; [|exact IH..].
    destruct (left_effect (hp s) i (proj1 Hi)) as (Q1 & Q2 & _ & _ & _ & Q3). destruct (backward_left (hp s) i) as [h st]. cbn [fst hp] in *.
    intros n g Eg. rewrite Q2.
    apply (Q3 (fun sh => sh = shape (vof (nodes (hp s)) n) \/ exists i, fn_of (nodes (hp s)) n = Some (KSum, [i]) /\ i < n /\ sh = shape (vof (nodes (hp s)) i)) n); auto.
    intros sh [->|(i0 & E1 & E2 & E3)]; [left; apply max_shape_self|]. right. exists i0. split; [exact E1|]. split; [exact E2|].
    assert (En : shape (vof (nodes (hp s)) n) = []).
    { unfold fn_of in E1. unfold vof. destruct (nth_error (nodes (hp s)) n) as [nd|] eqn:En; [|discriminate].
      destruct (proj1 (proj1 Hi) n nd En) as [_ W]. destruct (W _ _ E1) as [_ W2]. eapply fwd_sum_shape; eauto. }
    rewrite En, max_shape_nil_r. exact E3.
  - rewrite exec_left_other by exact Hb. destruct (exec s c) as [s'|p|] eqn:E; cbn [fst]; [|exact IH..].
    destruct (forward c) eqn:Hf.
    + destruct (exec_forward s s' c Hi Hf Hm E) as (H1 & X & K & P & _). intros n g Eg.
      destruct (Nat.lt_ge_cases n (length (nodes (hp s)))) as [Hlt|Hge].
      * rewrite K in Eg by auto. destruct X as [e ->]. rewrite vof_app_old, fn_app_old by auto.
        destruct (IH n g Eg) as [Q|(i & Q1 & Q2 & Q3)]; [left; exact Q|]. right. exists i. rewrite vof_app_old by lia. auto.
      * destruct (P n g Hge Eg) as (i & P1 & P2 & ->). right. exists i. split; [exact P1|]. split; [exact P2|rewrite raw_filler_tab; reflexivity].
    + destruct c as [a sh|sh x|x|n|x y|x y|x|x y|x|x|x|x|x y|x y|x y|x|x|x o|x o|x y o|x y o|x y|x|x]; try discriminate Hf; cbn [exec] in E.
      * destruct (Hok x y eq_refl).
      * apply bind_Ret_inv in E as (i & Ei & E). apply Ret_inj in E. subst s'. cbn [hp]. intros n g Eg. cbn [grads zero_grad nodes] in *.
        unfold upd in Eg. destruct (n =? i); [discriminate|]. apply IH; auto.
      * destruct (Hb x eq_refl).
Qed.
End Crash.
