(** * LocalFacts: [backward] sees only what its root was computed from *)
From Verif Require Import Base ModelIndex ModelTensor ModelOps ModelJvp ModelGraph Spec SpecDual SpecGraph SpecFlow SpecLocal
  Lists IndexFacts TensorFacts FuelFacts GraphFacts ProgFacts BackFacts FlowFacts.

Section LocalFacts.
Context {T : Type} {NT : Num T}.

Lemma uses_trans (ns : list (node T)) a b c : uses ns a b -> uses ns b c -> uses ns a c.
Proof. induction 1; intros; [assumption|]. econstructor; eauto. Qed.
Lemma uses_input (ns : list (node T)) r n k ins i : uses ns r n -> fn_of ns n = Some (k, ins) -> In i ins -> uses ns r i.
Proof. intros U E Hi. eapply uses_trans; [exact U|]. eapply uses_step; eauto. constructor. Qed.

(** ** The same history under other names *)
Section Rename.
Variables (f : nat -> nat) (P : nat -> Prop) (ns ns' : list (node T)).
Hypothesis (HP : forall n k ins i, P n -> fn_of ns n = Some (k, ins) -> In i ins -> P i).
Hypothesis (Hdef : forall n, P n -> n < length ns).
Hypothesis (Hn : forall n nd, P n -> nth_error ns n = Some nd -> nth_error ns' (f n) = Some (renamed f nd)).
Hypothesis (Hf : forall n m, P n -> P m -> f n = f m -> n = m).

Definition gsame (g g' : nat -> option (raw T)) : Prop := forall n, P n -> g' (f n) = g n.
Definition osame (o o' : outcome (nat -> option (raw T))) : Prop :=
  match o, o' with Ret g, Ret g' => gsame g g' | Panic p, Panic q => p = q | NoFuel, NoFuel => True | _, _ => False end.

Lemma update_same g g' i x : P i -> gsame g g' -> osame (update_grad g i x) (update_grad g' (f i) x).
Proof.
  intros Hi HG. unfold update_grad. rewrite (HG i Hi). destruct (g i) as [old|].
  - destruct (add_raw _ _) as [s| |]; cbn [bind osame]; auto. intros n Pn. unfold upd.
    destruct (Nat.eq_dec n i) as [->|Hne]; [rewrite !Nat.eqb_refl; reflexivity|].
    rewrite (proj2 (Nat.eqb_neq n i)), (proj2 (Nat.eqb_neq (f n) (f i))) by (auto; intros E; apply Hne; auto). auto.
  - cbn [osame]. intros n Pn. unfold upd.
    destruct (Nat.eq_dec n i) as [->|Hne]; [rewrite !Nat.eqb_refl; reflexivity|].
    rewrite (proj2 (Nat.eqb_neq n i)), (proj2 (Nat.eqb_neq (f n) (f i))) by (auto; intros E; apply Hne; auto). auto.
Qed.

Lemma inputs_same ins : Forall P ins -> exists nds, mapM (vindex ns) ins = Ret nds /\ mapM (vindex ns') (map f ins) = Ret (map (renamed f) nds) /\
  Forall2 (fun i nd => nth_error ns i = Some nd) ins nds.
Proof.
  induction 1 as [|i ins Hi _ IH]; [exists []; cbn; auto|]. destruct IH as (nds & E1 & E2 & E3).
  destruct (nth_error ns i) as [nd|] eqn:En; [|apply nth_error_None in En; pose proof (Hdef i Hi); lia].
  exists (nd :: nds). cbn [mapM map]. unfold vindex at 1 3. rewrite En, (Hn i nd Hi En), E1, E2. cbn [bind]. auto.
Qed.

Lemma compute_same fuel : forall k ins outer g g', Forall P ins -> gsame g g' ->
  osame (compute_jvp fuel ns k ins outer g) (compute_jvp fuel ns' k (map f ins) outer g').
Proof.
  induction fuel as [|fuel IH]; intros k ins outer g g' HI HG; [exact I|]. cbn [compute_jvp].
  destruct (inputs_same ins HI) as (nds & E1 & E2 & E3). rewrite E1, E2. cbn [bind].
  rewrite map_map, (map_ext (fun nd => n_val (renamed f nd)) n_val) by reflexivity.
  destruct (jvp k (map n_val nds) outer) as [gs| |]; cbn [bind osame]; auto.
  clear E1 E2. revert gs g g' HG. induction E3 as [|i nd ins nds En E3 IHl]; intros gs g g' HG.
  { destruct gs; cbn [combine map foldM osame]; auto. }
  inversion HI as [|? ? Pi HI']; subst. destruct gs as [|x gs]; [cbn [combine map foldM osame]; auto|]. cbn [combine map foldM].
  change (n_val (renamed f nd)) with (n_val nd).
  destruct (assert _) as [[]| |]; cbn [bind osame]; auto.
  destruct (raw_new _ _) as [sg| |]; cbn [bind osame]; auto.
  pose proof (update_same g g' i sg Pi HG) as U. destruct (update_grad g i sg) as [g1| |]; destruct (update_grad g' (f i) sg) as [g1'| |]; cbn [osame bind] in U |- *; try contradiction; auto.
  unfold renamed at 1. cbn [n_fn]. destruct (n_fn nd) as [[k' ins']|] eqn:Ef.
  - assert (HI2 : Forall P ins').
    { apply Forall_forall. intros j Hj. apply (HP i k' ins' j Pi); auto. unfold fn_of. rewrite En. exact Ef. }
    pose proof (IH k' ins' [x] g1 g1' HI2 U) as Q.
    destruct (compute_jvp fuel ns k' ins' [x] g1) as [g2| |]; destruct (compute_jvp fuel ns' k' (map f ins') [x] g1') as [g2'| |]; cbn [osame bind] in Q |- *; try contradiction; auto.
  - cbn [bind]. auto.
Qed.
End Rename.

(** ** More fuel changes nothing *)
Lemma foldM_more A B (F G : A -> B -> outcome A) l : (forall a b, In b l -> F a b <> NoFuel -> G a b = F a b) ->
  forall a, foldM F l a <> NoFuel -> foldM G l a = foldM F l a.
Proof.
  induction l as [|b l IH]; intros H a N; [reflexivity|]. cbn [foldM] in *.
  rewrite (H a b) by (cbn; auto; intros E; rewrite E in N; apply N; reflexivity). destruct (F a b) as [a'| |]; cbn [bind] in *; auto.
  apply IH; auto. intros. apply H; cbn; auto.
Qed.
Lemma bind_nf A B (m : outcome A) (k : A -> outcome B) : bind m k <> NoFuel -> m <> NoFuel.
Proof. intros H E. rewrite E in H. apply H. reflexivity. Qed.

Lemma compute_more (ns : list (node T)) f : forall k ins outer gr, compute_jvp f ns k ins outer gr <> NoFuel ->
  compute_jvp (S f) ns k ins outer gr = compute_jvp f ns k ins outer gr.
Proof.
  induction f as [|f IH]; intros k ins outer gr N; [exfalso; apply N; reflexivity|].
  remember (S f) as f1 eqn:E1. cbn [compute_jvp]. subst f1. cbn [compute_jvp] in N |- *.
  destruct (mapM (vindex ns) ins) as [nds| |]; cbn [bind] in *; auto. destruct (jvp k (map n_val nds) outer) as [gs| |]; cbn [bind] in *; auto.
  apply foldM_more; [|exact N]. clear N. intros a [g [i nd]] _ N.
  destruct (assert _) as [[]| |]; cbn [bind] in *; auto. destruct (raw_new _ _) as [sg| |]; cbn [bind] in *; auto.
  destruct (update_grad a i sg) as [g1| |]; cbn [bind] in *; auto. destruct (n_fn nd) as [[k' ins']|]; auto. apply IH. exact N.
Qed.
Lemma compute_fuel (ns : list (node T)) f f' k ins outer gr : f <= f' -> compute_jvp f ns k ins outer gr <> NoFuel ->
  compute_jvp f' ns k ins outer gr = compute_jvp f ns k ins outer gr.
Proof.
  induction 1 as [|f' _ IH]; intros N; [reflexivity|]. rewrite compute_more; [auto|]. rewrite IH by auto. exact N.
Qed.

(** ** The theorem *)
Lemma local (f : nat -> nat) (h h' : heap T) r : heap_inv h -> heap_inv h' -> r < length (nodes h) -> same_history f h h' r ->
  same_gradients f h r (backward h r) (backward h' (f r)).
Proof.
  intros HI HI' Hr [HN HF HG].
  assert (BR := recorded_backrefs _ (proj1 HI)). assert (BR' := recorded_backrefs _ (proj1 HI')).
  assert (D : forall n, uses (nodes h) r n -> n < length (nodes h)).
  { intros n U. assert (n <= r); [|lia]. clear - U BR. induction U as [|n k ins i m E Hi U IH]; [auto|].
    unfold fn_of in E. destruct (nth_error (nodes h) n) as [nd|] eqn:En; [|discriminate]. pose proof (BR n nd k ins En E) as Q. rewrite Forall_forall in Q. specialize (Q i Hi). lia. }
  destruct (nth_error (nodes h) r) as [nd|] eqn:En; [|apply nth_error_None in En; lia].
  assert (En' := HN r nd (uses_refl _ _) En). unfold backward, hget, vindex. rewrite En, En'. cbn [bind]. change (n_val (renamed f nd)) with (n_val nd).
  destruct (assert _) as [[]| |] eqn:EA; cbn [bind same_gradients]; auto; [|unfold assert in EA; destruct (length (array (n_val nd)) =? 1); discriminate].
  unfold renamed at 1. cbn [n_fn]. destruct (n_fn nd) as [[k ins]|] eqn:Ef; [|reflexivity]. cbn [unwrap_opt bind].
  assert (HI2 : Forall (fun n => uses (nodes h) r n) ins).
  { apply Forall_forall. intros i Hi. eapply uses_step; [unfold fn_of; rewrite En; exact Ef|exact Hi|constructor]. }
  set (F := S (length (nodes h)) + S (length (nodes h'))).
  assert (N1 : compute_jvp (S (length (nodes h))) (nodes h) k ins [raw_scalar n_one] (grads h) <> NoFuel).
  { apply (nf_compute_jvp _ BR _ r); [eapply BR; eauto|lia]. }
  assert (N2 : compute_jvp (S (length (nodes h'))) (nodes h') k (map f ins) [raw_scalar n_one] (grads h') <> NoFuel).
  { apply (nf_compute_jvp _ BR' _ (f r)).
    - apply (BR' (f r) (renamed f nd) k (map f ins) En'). unfold renamed. rewrite Ef. reflexivity.
    - assert (f r < length (nodes h')) by (apply nth_error_Some; congruence). lia. }
  rewrite <- (compute_fuel _ _ F) by (auto; unfold F; lia). rewrite <- (compute_fuel _ (S (length (nodes h'))) F) by (auto; unfold F; lia).
  assert (Q : osame f (uses (nodes h) r) (compute_jvp F (nodes h) k ins [raw_scalar n_one] (grads h)) (compute_jvp F (nodes h') k (map f ins) [raw_scalar n_one] (grads h'))).
  { apply compute_same; auto. intros n k0 ins0 i U E Hi. eapply uses_input; eauto. }
  rewrite (compute_fuel _ (S (length (nodes h))) F) in Q |- * by (auto; unfold F; lia).
  rewrite (compute_fuel _ (S (length (nodes h'))) F) in Q |- * by (auto; unfold F; lia).
  destruct (compute_jvp (S (length (nodes h))) _ _ _ _ _) as [g| |]; destruct (compute_jvp (S (length (nodes h'))) _ _ _ _ _) as [g'| |]; cbn [osame bind same_gradients] in *; try contradiction; auto; congruence.
Qed.

(** ** Everything else replaced by a number *)
Fixpoint usedb (f : nat) (ns : list (node T)) (n m : nat) : bool :=
  (n =? m) || match f with O => false | S f' => match fn_of ns n with Some (_, ins) => existsb (fun i => usedb f' ns i m) ins | None => false end end.

Lemma fn_of_backrefs (ns : list (node T)) n k ins i : recorded ns -> fn_of ns n = Some (k, ins) -> In i ins -> i < n /\ n < length ns.
Proof.
  intros HR E Hi. unfold fn_of in E. destruct (nth_error ns n) as [nd|] eqn:En; [|discriminate].
  pose proof (recorded_backrefs _ HR n nd k ins En E) as Q. rewrite Forall_forall in Q. split; [auto|]. apply nth_error_Some. congruence.
Qed.
Lemma usedb_spec (ns : list (node T)) : recorded ns -> forall f n m, n < f -> usedb f ns n m = true <-> uses ns n m.
Proof.
  intros HR. induction f as [|f IH]; intros n m Hn; [lia|]. cbn [usedb]. rewrite orb_true_iff, Nat.eqb_eq. split.
  - intros [->|E]; [constructor|]. destruct (fn_of ns n) as [[k ins]|] eqn:Ef; [|discriminate]. apply existsb_exists in E as (i & Hi & E).
    pose proof (fn_of_backrefs ns n k ins i HR Ef Hi). apply IH in E; [|lia]. eapply uses_step; eauto.
  - intros U. inversion U as [|? k ins i ? Ef Hi U']; subst; [auto|]. right. rewrite Ef. apply existsb_exists. exists i. split; [exact Hi|].
    pose proof (fn_of_backrefs ns n k ins i HR Ef Hi). apply IH; [lia|exact U'].
Qed.
Lemma uses_lt (ns : list (node T)) r n : recorded ns -> r < length ns -> uses ns r n -> n < length ns.
Proof.
  intros HR Hr U. induction U as [|n k ins i m E Hi U IH]; [auto|]. apply IH. pose proof (fn_of_backrefs ns n k ins i HR E Hi). lia.
Qed.

Definition pruned (ns : list (node T)) (r : nat) : list (node T) :=
  map (fun m => if usedb (S r) ns r m then nth m ns (mkNode (raw_scalar n_zero) None) else mkNode (raw_scalar n_zero) None) (seq 0 (length ns)).
Definition pruned_heap (h : heap T) (r : nat) : heap T :=
  mkHeap (pruned (nodes h) r) (fun m => if usedb (S r) (nodes h) r m then grads h m else None).

Section Pruned.
Variables (ns : list (node T)) (r : nat).
Hypotheses (HR : recorded ns) (Hr : r < length ns).

Lemma pruned_length : length (pruned ns r) = length ns.
Proof. unfold pruned. rewrite map_length, seq_length. reflexivity. Qed.
Lemma pruned_used n : uses ns r n -> nth_error (pruned ns r) n = nth_error ns n.
Proof.
  intros U. pose proof (uses_lt _ _ _ HR Hr U). unfold pruned. rewrite nth_error_map, (nth_error_nth' _ 0), seq_nth by (rewrite ?seq_length; auto). cbn [option_map Nat.add].
  rewrite (proj2 (usedb_spec ns HR (S r) r n ltac:(lia))) by auto. symmetry. apply nth_error_nth'. auto.
Qed.
Lemma pruned_other n : n < length ns -> ~ uses ns r n -> nth_error (pruned ns r) n = Some (mkNode (raw_scalar n_zero) None).
Proof.
  intros Hn U. unfold pruned. rewrite nth_error_map, (nth_error_nth' _ 0), seq_nth by (rewrite ?seq_length; auto). cbn [option_map Nat.add].
  destruct (usedb (S r) ns r n) eqn:E; [apply usedb_spec in E; [contradiction|auto|lia]|reflexivity].
Qed.
Lemma used_cases n : n < length ns -> uses ns r n \/ ~ uses ns r n.
Proof. intros Hn. destruct (usedb (S r) ns r n) eqn:E; [left; apply usedb_spec in E; auto|right; intros U; apply (usedb_spec ns HR (S r)) in U; [congruence|lia]]. Qed.
Lemma pruned_vof n : uses ns r n -> vof (pruned ns r) n = vof ns n.
Proof. intros U. unfold vof. rewrite pruned_used by auto. reflexivity. Qed.
Lemma pruned_fn n : uses ns r n -> fn_of (pruned ns r) n = fn_of ns n.
Proof. intros U. unfold fn_of. rewrite pruned_used by auto. reflexivity. Qed.
Lemma pruned_fn_used n k ins : fn_of (pruned ns r) n = Some (k, ins) -> uses ns r n /\ fn_of ns n = Some (k, ins).
Proof.
  intros E. assert (Hn : n < length ns).
  { rewrite <- pruned_length. apply nth_error_Some. unfold fn_of in E. destruct (nth_error (pruned ns r) n); congruence. }
  destruct (used_cases n Hn) as [U|U]; [rewrite pruned_fn in E by auto; auto|]. unfold fn_of in E. rewrite pruned_other in E by auto. discriminate.
Qed.
Lemma pruned_recorded : recorded (pruned ns r).
Proof.
  intros n nd En. assert (Hn : n < length ns) by (rewrite <- pruned_length; apply nth_error_Some; congruence).
  destruct (used_cases n Hn) as [U|U].
  - rewrite pruned_used in En by auto. destruct (HR n nd En) as [W Q]. split; [exact W|]. intros k ins Ef. destruct (Q k ins Ef) as [Q1 Q2]. split; [exact Q1|].
    rewrite <- Q2. f_equal. apply map_ext_in. intros i Hi. apply pruned_vof. eapply uses_input; [exact U| |exact Hi]. unfold fn_of. rewrite En. exact Ef.
  - rewrite pruned_other in En by auto. injection En as <-. split; [reflexivity|]. intros k ins E. discriminate.
Qed.
Lemma pruned_nonempty : nonempty_above ns r -> nonempty (pruned ns r).
Proof.
  intros HN n Hn. rewrite pruned_length in Hn. destruct (used_cases n Hn) as [U|U]; [rewrite pruned_vof by auto; auto|].
  unfold vof. rewrite pruned_other by auto. constructor.
Qed.
Lemma pruned_matrices : matrices_above ns r -> matrices_only (pruned ns r).
Proof.
  intros HM n ins E. apply pruned_fn_used in E as [U E]. specialize (HM n ins U E). rewrite Forall_forall in *. intros i Hi. rewrite pruned_vof by (eapply uses_input; eauto). auto.
Qed.
Lemma pruned_uses n m : uses ns r n -> (uses (pruned ns r) n m <-> uses ns n m).
Proof.
  intros U. split; intros V.
  - induction V as [|n k ins i m E Hi V IH]; [constructor|]. rewrite pruned_fn in E by auto. eapply uses_step; eauto. apply IH. eapply uses_input; eauto.
  - induction V as [|n k ins i m E Hi V IH]; [constructor|]. eapply uses_step; [rewrite pruned_fn by auto; exact E|exact Hi|]. apply IH. eapply uses_input; eauto.
Qed.
Lemma pruned_through n g : uses ns r n -> (gets_through (pruned ns r) n g <-> gets_through ns n g).
Proof.
  revert g. induction n as [n IH] using lt_wf_ind. intros g U. 
  assert (M : forall k ins, fn_of ns n = Some (k, ins) -> map (fun j => shape (vof (pruned ns r) j)) ins = map (fun j => shape (vof ns j)) ins).
  { intros k ins E. apply map_ext_in. intros j Hj. rewrite pruned_vof by (eapply uses_input; eauto). reflexivity. }
  split; intros H; inversion H as [? ? E|? k ins ? gs E HO HF]; subst.
  - apply gt_leaf. rewrite <- pruned_fn; auto.
  - rewrite pruned_fn in E by auto. rewrite (M k ins E) in HO. eapply gt_op; eauto.
    assert (HIn : forall i, In i ins -> uses ns r i /\ i < n) by (intros i Hi; split; [eapply uses_input; eauto|eapply (fn_of_backrefs ns n k ins i); eauto]).
    clear - HF IH HIn. induction HF as [|i g' ins gs' HG HF IHF]; constructor.
    + destruct (HIn i) as [Ui Li]; [cbn; auto|]. apply IH in HG; auto.
    + apply IHF. intros. apply HIn. cbn. auto.
  - apply gt_leaf. rewrite pruned_fn; auto.
  - rewrite <- (M k ins E) in HO. eapply gt_op; [rewrite pruned_fn; eauto|exact HO|].
    assert (HIn : forall i, In i ins -> uses ns r i /\ i < n) by (intros i Hi; split; [eapply uses_input; eauto|eapply (fn_of_backrefs ns n k ins i); eauto]).
    clear - HF IH HIn. induction HF as [|i g' ins gs' HG HF IHF]; constructor.
    + destruct (HIn i) as [Ui Li]; [cbn; auto|]. apply IH in HG; auto.
    + apply IHF. intros. apply HIn. cbn. auto.
Qed.
End Pruned.

Section PrunedHeap.
Variables (h : heap T) (r : nat).
Hypotheses (HI : heap_inv h) (HS : shapes_ok h) (Hr : r < length (nodes h)).
Let HR : recorded (nodes h) := proj1 HI.

Lemma pruned_inv : heap_inv (pruned_heap h r).
Proof.
  split; [apply pruned_recorded; auto|]. intros i g E. cbn [grads pruned_heap] in E. destruct (usedb _ _ _ _); [|discriminate].
  destruct (proj2 HI i g E). cbn [nodes pruned_heap]. rewrite pruned_length. auto.
Qed.
Lemma pruned_shapes : shapes_ok (pruned_heap h r).
Proof.
  intros n g E. cbn [grads nodes pruned_heap] in *. destruct (usedb _ _ _ _) eqn:Eu; [|discriminate]. apply usedb_spec in Eu; auto.
  rewrite pruned_vof, pruned_fn by auto. destruct (HS n g E) as [Q|(i & Q1 & Q2 & Q3)]; [auto|]. right. exists i. rewrite pruned_vof; auto. eapply uses_input; eauto. cbn. auto.
Qed.
Lemma pruned_same : same_history (fun n => n) h (pruned_heap h r) r.
Proof.
  split.
  - intros n nd U En. cbn [nodes pruned_heap]. rewrite pruned_used by auto. rewrite En. destruct nd as [v [[k ins]|]]; unfold renamed; cbn; rewrite ?map_id; reflexivity.
  - auto.
  - intros n U. cbn [grads pruned_heap]. rewrite (proj2 (usedb_spec (nodes h) HR (S r) r n ltac:(lia))); auto.
Qed.
Lemma pruned_backward : same_gradients (fun n => n) h r (backward h r) (backward (pruned_heap h r) r).
Proof. apply (local (fun n => n)); auto; [apply pruned_inv|apply pruned_same]. Qed.
End PrunedHeap.
End LocalFacts.
