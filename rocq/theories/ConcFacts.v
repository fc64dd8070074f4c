(** * ConcFacts: proofs about threads that share tensors *)
From Verif Require Import Base ModelIndex ModelTensor ModelOps ModelJvp ModelGraph ModelConc Spec SpecGraph SpecConc
  Lists FuelFacts GraphFacts.

Lemma nth_error_set A (v : list A) : forall i x y j, nth_error v i = Some y -> nth_error (list_set v i x) j = if j =? i then Some x else nth_error v j.
Proof. induction v as [|a v IH]; intros [|i] x y [|j] H; cbn in *; try discriminate; auto. apply (IH i x y j H). Qed.

Section Conc.
Context {T : Type} {NT : Num T}.

(** ** Steps as a relation *)

Inductive move (pref : bool) (st : conc T) : thread T -> thread T -> (nat -> option (raw T)) -> Prop :=
| mv_read i g c s : may_read pref st i = true -> move pref st (mkTh (IUpdate i g :: c) PIdle s) (mkTh c (PRead i g) s) (c_cells st)
| mv_zero i c s : move pref st (mkTh (IZero i :: c) PIdle s) (mkTh c (PWait i None) s) (c_cells st)
| mv_get i c s : may_read pref st i = true -> move pref st (mkTh (IGet i :: c) PIdle s) (mkTh c (PPeek i) s) (c_cells st)
| mv_stop p c s : move pref st (mkTh (IStop p :: c) PIdle s) (mkTh c (PDead p) s) (c_cells st)
| mv_compute i g c s new : new_grad (c_cells st i) g = Ret new -> move pref st (mkTh c (PRead i g) s) (mkTh c (PWait i new) s) (c_cells st)
| mv_panic i g c s p : new_grad (c_cells st i) g = Panic p -> move pref st (mkTh c (PRead i g) s) (mkTh c (PDead p) s) (c_cells st)
| mv_lock i new c s : may_write st i = true -> move pref st (mkTh c (PWait i new) s) (mkTh c (PWrite i new) s) (c_cells st)
| mv_store i new c s : move pref st (mkTh c (PWrite i new) s) (mkTh c PIdle s) (upd (c_cells st) i new)
| mv_seen i g c s : c_cells st i = Some g -> move pref st (mkTh c (PPeek i) s) (mkTh c PIdle (s ++ [g])) (c_cells st)
| mv_unwrap i c s : c_cells st i = None -> move pref st (mkTh c (PPeek i) s) (mkTh c (PDead PUnwrap) s) (c_cells st).

Lemma advance_move pref st t st' : advance pref st t = Some st' ->
  exists th th', nth_error (c_threads st) t = Some th /\ c_threads st' = list_set (c_threads st) t th' /\ move pref st th th' (c_cells st').
Proof.
  unfold advance. destruct (nth_error (c_threads st) t) as [[c ph s]|]; [|discriminate].
  destruct ph as [|i g|i new|i new|i|p]; [destruct c as [|[i g|i|i|p] c]| | | | |]; try discriminate;
    try (destruct (may_read pref st i) eqn:E; [|discriminate]); try (destruct (may_write st i) eqn:E; [|discriminate]);
    try (destruct (new_grad (c_cells st i) g) as [new|p|] eqn:E; [| |discriminate]); try (destruct (c_cells st i) as [g|] eqn:E);
    intros H; injection H as <-; do 2 eexists; (split; [reflexivity|]); (split; [reflexivity|]); cbn [c_cells];
    first [apply mv_read; assumption | apply mv_zero | apply mv_get; assumption | apply mv_stop | apply mv_compute; assumption | apply mv_panic; assumption
          | apply mv_lock; assumption | apply mv_store | apply mv_seen; assumption | apply mv_unwrap; assumption].
Qed.

Lemma run_app pref : forall l st st' m, conc_run pref st l = Some st' -> conc_run pref st (l ++ m) = conc_run pref st' m.
Proof. induction l as [|t l IH]; intros st st' m; cbn; [intros H; injection H as <-; reflexivity|]. destruct (advance pref st t); [apply IH|discriminate]. Qed.

(** A property kept by each step holds at the end. *)
Lemma run_inv pref (P : conc T -> Prop) : (forall st t st', P st -> advance pref st t = Some st' -> P st') ->
  forall l st st', P st -> conc_run pref st l = Some st' -> P st'.
Proof.
  intros H. induction l as [|t l IH]; intros st st' Hp; cbn; [intros E; injection E as <-; exact Hp|].
  destruct (advance pref st t) as [st1|] eqn:E; [|discriminate]. apply IH. eapply H; eauto.
Qed.

(** ** Which cells a thread can change *)

Definition inside (c : list (instr T)) (th : thread T) : Prop :=
  incl (t_code th) c /\ match t_phase th with PRead i _ | PWait i _ | PWrite i _ => writes_cell c i | _ => True end.

Lemma move_inside pref st th th' cells c : move pref st th th' cells -> inside c th -> inside c th'.
Proof.
  intros M [H1 H2]. destruct M; cbn [t_code t_phase] in *;
    (split; cbn [t_code t_phase]; [first [exact H1 | intros y Hy; apply H1; right; exact Hy]|first [exact H2 | exact I | eexists; split; [apply H1; left; reflexivity|eauto]]]).
Qed.

Lemma move_cells pref st th th' cells c i : move pref st th th' cells -> inside c th -> ~ writes_cell c i -> cells i = c_cells st i.
Proof.
  intros M [_ H] N. destruct M; auto. cbn [t_phase] in H. unfold upd. destruct (Nat.eqb_spec i i0); [subst; contradiction|reflexivity].
Qed.

Definition all_inside (codes : list (list (instr T))) (st : conc T) : Prop :=
  Forall2 inside codes (c_threads st).

Lemma writes_uses (c : list (instr T)) i : writes_cell c i -> uses_cell c i.
Proof. intros (x & Hx & [-> | [g ->]]); (eexists; split; [exact Hx|reflexivity]). Qed.

Lemma F2_set A B (R : A -> B -> Prop) l : forall l' t a b, Forall2 R l l' -> nth_error l t = Some a -> R a b -> Forall2 R l (list_set l' t b).
Proof. induction l as [|x l IH]; intros l' [|t] a b H E Hab; inversion H; subst; cbn in *; try discriminate; [injection E as ->; constructor; auto|constructor; eauto]. Qed.
Lemma F2_nth A B (R : A -> B -> Prop) l l' t b : Forall2 R l l' -> nth_error l' t = Some b -> exists a, nth_error l t = Some a /\ R a b.
Proof. intros H. revert t. induction H; intros [|t] E; cbn in *; try discriminate; [injection E as <-; eauto|auto]. Qed.
Lemma F2_nth_l A B (R : A -> B -> Prop) l l' t a : Forall2 R l l' -> nth_error l t = Some a -> exists b, nth_error l' t = Some b /\ R a b.
Proof. intros H. revert t. induction H; intros [|t] E; cbn in *; try discriminate; [injection E as <-; eauto|auto]. Qed.

Lemma step_inside pref codes st t st' : all_inside codes st -> advance pref st t = Some st' -> all_inside codes st'.
Proof.
  intros H E. apply advance_move in E as (th & th' & E1 & E2 & M). unfold all_inside. rewrite E2.
  destruct (F2_nth _ _ _ _ _ _ _ H E1) as (c & Ec & Hc). eapply F2_set; eauto. eapply move_inside; eauto.
Qed.

Lemma start_inside codes cells : all_inside codes (conc_start codes cells).
Proof. unfold all_inside, conc_start. cbn. induction codes; constructor; auto. split; cbn; auto. intros x Hx; exact Hx. Qed.

(** ** A thread whose cells nobody else changes *)

Lemma alone_app : forall d r cells s cs sn, alone d cells s = (cs, sn, None) -> alone (d ++ r) cells s = alone r cs sn.
Proof.
  induction d as [|x d IH]; intros r cells s cs sn E; cbn [app]; [injection E as <- <-; reflexivity|].
  destruct x as [i g|i|i|p]; cbn [alone] in *.
  - destruct (cells i) as [old|]; [|apply IH; exact E]. pose proof (nf_add (LRaw old) (LRaw g)) as NF.
    destruct (add_raw (LRaw old) (LRaw g)) as [sm|p|]; [apply IH; exact E|discriminate|congruence].
  - apply IH; exact E.
  - destruct (cells i); [apply IH; exact E|discriminate].
  - discriminate.
Qed.
Lemma alone_snoc d x cells s cs sn : alone d cells s = (cs, sn, None) -> alone (d ++ [x]) cells s = alone [x] cs sn.
Proof. apply alone_app. Qed.

Lemma alone_update cs sn i g : alone [IUpdate i g] cs sn = match new_grad (cs i) g with Ret new => (upd cs i new, sn, None) | Panic p => (cs, sn, Some p) | NoFuel => (cs, sn, None) end.
Proof. cbn [alone]. unfold new_grad. destruct (cs i) as [o|]; [|reflexivity]. destruct (add_raw (LRaw o) (LRaw g)); reflexivity. Qed.

Definition tracks (c : list (instr T)) (cells0 cells : nat -> option (raw T)) (th : thread T) : Prop :=
  exists d rest cs, c = d ++ rest /\ alone d cells0 [] = (cs, t_seen th, None) /\ (forall i, uses_cell c i -> cells i = cs i) /\
    match t_phase th with
    | PIdle => t_code th = rest
    | PRead i g => rest = IUpdate i g :: t_code th
    | PWait i new | PWrite i new => exists x, rest = x :: t_code th /\ alone [x] cs (t_seen th) = (upd cs i new, t_seen th, None)
    | PPeek i => rest = IGet i :: t_code th
    | PDead p => exists x r, rest = x :: r /\ alone [x] cs (t_seen th) = (cs, t_seen th, Some p)
    end.

Lemma uses_mid (c d : list (instr T)) x r i : c = d ++ x :: r -> about x = Some i -> uses_cell c i.
Proof. intros -> H. exists x. split; [apply in_or_app; right; left; reflexivity|exact H]. Qed.

Lemma move_tracks pref st th th' cells c cells0 : move pref st th th' cells -> tracks c cells0 (c_cells st) th -> tracks c cells0 cells th'.
Proof.
  intros M (d & rest & cs & Ec & Ea & Hc & Hp).
  destruct M; cbn [t_phase t_code t_seen] in *.
  - exists d, rest, cs. cbn [t_phase t_code t_seen]. auto.
  - exists d, rest, cs. cbn [t_phase t_code t_seen]. split; [auto|]. split; [auto|]. split; [auto|]. subst rest. eexists. split; reflexivity.
  - exists d, rest, cs. cbn [t_phase t_code t_seen]. auto.
  - exists d, rest, cs. cbn [t_phase t_code t_seen]. split; [auto|]. split; [auto|]. split; [auto|]. subst rest. do 2 eexists. split; reflexivity.
  - exists d, rest, cs. cbn [t_phase t_code t_seen]. split; [auto|]. split; [auto|]. split; [auto|]. subst rest. eexists. split; [reflexivity|].
    rewrite alone_update. rewrite <- (Hc i) by (eapply uses_mid; [exact Ec|reflexivity]). rewrite H. reflexivity.
  - exists d, rest, cs. cbn [t_phase t_code t_seen]. split; [auto|]. split; [auto|]. split; [auto|]. subst rest. do 2 eexists. split; [reflexivity|].
    rewrite alone_update. rewrite <- (Hc i) by (eapply uses_mid; [exact Ec|reflexivity]). rewrite H. reflexivity.
  - exists d, rest, cs. cbn [t_phase t_code t_seen]. auto.
  - destruct Hp as (x & -> & Hx). exists (d ++ [x]), c0, (upd cs i new). cbn [t_phase t_code t_seen]. split; [rewrite <- app_assoc; exact Ec|].
    split; [rewrite (alone_snoc _ _ _ _ _ _ Ea); exact Hx|]. split; [|reflexivity]. intros j Hj. unfold upd. destruct (j =? i); auto.
  - subst rest. exists (d ++ [IGet i]), c0, cs. cbn [t_phase t_code t_seen]. split; [rewrite <- app_assoc; exact Ec|].
    split; [|split; [exact Hc|reflexivity]]. rewrite (alone_snoc _ _ _ _ _ _ Ea). cbn [alone]. rewrite <- (Hc i) by (eapply uses_mid; [exact Ec|reflexivity]). rewrite H. reflexivity.
  - exists d, rest, cs. cbn [t_phase t_code t_seen]. split; [auto|]. split; [auto|]. split; [auto|]. subst rest. do 2 eexists. split; [reflexivity|].
    cbn [alone]. rewrite <- (Hc i) by (eapply uses_mid; [exact Ec|reflexivity]). rewrite H. reflexivity.
Qed.

Lemma tracks_cells c cells0 cells cells' th : (forall i, uses_cell c i -> cells' i = cells i) -> tracks c cells0 cells th -> tracks c cells0 cells' th.
Proof. intros H (d & rest & cs & Ec & Ea & Hc & Hp). exists d, rest, cs. split; [auto|]. split; [auto|]. split; [|auto]. intros i Hi. rewrite H; auto. Qed.

Definition tracked (codes : list (list (instr T))) (cells0 : nat -> option (raw T)) (t : nat) (st : conc T) : Prop :=
  all_inside codes st /\ forall c th, nth_error codes t = Some c -> nth_error (c_threads st) t = Some th -> tracks c cells0 (c_cells st) th.

Lemma step_tracked pref codes cells0 t st u st' : on_its_own codes t -> tracked codes cells0 t st -> advance pref st u = Some st' -> tracked codes cells0 t st'.
Proof.
  intros HO [HI HT] E. split; [eapply step_inside; eauto|]. intros c th Ec Et. apply advance_move in E as (th0 & th0' & E1 & E2 & M).
  rewrite E2, (nth_error_set _ _ _ _ _ _ E1) in Et. destruct (Nat.eqb_spec t u) as [->|N].
  - injection Et as <-. eapply move_tracks; eauto.
  - destruct (F2_nth _ _ _ _ _ _ _ HI E1) as (cu & Ecu & Hin). eapply tracks_cells; [|eapply HT; eauto].
    intros i Hi. eapply move_cells; eauto.
Qed.

Lemma start_tracked codes cells t : tracked codes cells t (conc_start codes cells).
Proof.
  split; [apply start_inside|]. intros c th Ec Et. cbn [c_threads conc_start] in Et. rewrite nth_error_map, Ec in Et. injection Et as <-.
  exists [], c, cells. cbn. auto.
Qed.

Lemma run_alone pref codes cells sched st t c th e :
  conc_run pref (conc_start codes cells) sched = Some st -> on_its_own codes t -> nth_error codes t = Some c -> nth_error (c_threads st) t = Some th -> ended_as th e ->
  exists cs, alone c cells [] = (cs, t_seen th, e) /\ forall i, uses_cell c i -> c_cells st i = cs i.
Proof.
  intros R HO Ec Et He.
  assert (H : tracked codes cells t st) by (eapply (run_inv pref (tracked codes cells t)); [intros; eapply step_tracked; eauto|apply start_tracked|exact R]).
  destruct H as [_ H]. destruct (H c th Ec Et) as (d & rest & cs & E1 & Ea & Hc & Hp). unfold ended_as in He. exists cs. split; [|exact Hc].
  destruct (t_phase th); try contradiction.
  - destruct (t_code th); [|contradiction]. subst rest e. rewrite app_nil_r in E1. congruence.
  - subst e. destruct Hp as (x & r & -> & Hx). subst c. rewrite (alone_app _ (x :: r) _ _ _ _ Ea).
    replace (x :: r) with ([x] ++ r) by reflexivity. revert Hx. clear. generalize (t_seen th) as s. intros s.
    destruct x as [i g|i|i|q]; cbn [alone app]; intros Hx; try discriminate.
    + destruct (cs i) as [old|]; [|discriminate]. destruct (add_raw (LRaw old) (LRaw g)); [discriminate|exact Hx|discriminate].
    + destruct (cs i); [discriminate|exact Hx].
    + exact Hx.
Qed.

(** At every moment the cells of such a thread are as after the calls it has finished. *)
Lemma run_prefix pref codes cells sched st t c :
  conc_run pref (conc_start codes cells) sched = Some st -> on_its_own codes t -> nth_error codes t = Some c ->
  exists d rest cs seen, c = d ++ rest /\ alone d cells [] = (cs, seen, None) /\ forall i, uses_cell c i -> c_cells st i = cs i.
Proof.
  intros R HO Ec.
  assert (H : tracked codes cells t st) by (eapply (run_inv pref (tracked codes cells t)); [intros; eapply step_tracked; eauto|apply start_tracked|exact R]).
  destruct H as [HI H]. destruct (F2_nth_l _ _ _ _ _ _ _ HI Ec) as (th & Et & _). destruct (H c th Ec Et) as (d & rest & cs & E1 & Ea & Hc & _).
  exists d, rest, cs, (t_seen th). auto.
Qed.

(** Cells that no thread writes to *)
Lemma run_unused pref codes cells sched st i :
  conc_run pref (conc_start codes cells) sched = Some st -> (forall c, In c codes -> ~ writes_cell c i) -> c_cells st i = cells i.
Proof.
  intros R N. refine (proj2 (run_inv pref (fun st => all_inside codes st /\ c_cells st i = cells i) _ sched (conc_start codes cells) st (conj (start_inside _ _) eq_refl) R)).
  intros s t s' [HI Hc] E. split; [eapply step_inside; eauto|]. apply advance_move in E as (th & th' & E1 & E2 & M).
  destruct (F2_nth _ _ _ _ _ _ _ HI E1) as (cu & Ecu & Hin). rewrite <- Hc. eapply move_cells; eauto. apply N. eapply nth_error_In; eauto.
Qed.

(** ** [backward] and its calls *)

Lemma each_calls_spec B (f : B -> list (nat * raw T) * outcome unit) (F : (nat -> option (raw T)) -> B -> outcome (nat -> option (raw T))) :
  forall l, (forall b, In b l -> forall gr, F gr b = (let* gr' := upd_all (fst (f b)) gr in snd (f b) ;; Ret gr')) ->
  forall gr, foldM F l gr = (let* gr' := upd_all (fst (each_calls f l)) gr in snd (each_calls f l) ;; Ret gr').
Proof.
  induction l as [|b l IH]; intros H gr; cbn [foldM each_calls]; [reflexivity|].
  rewrite (H b) by (left; reflexivity). destruct (f b) as [us st]. cbn [fst snd]. assert (IH' := IH (fun b' Hb => H b' (or_intror Hb))).
  destruct (each_calls f l) as [vs st'] eqn:Ee. cbn [fst snd] in IH'.
  destruct st as [[]|p|]; cbn [fst snd bind].
  - unfold upd_all. rewrite foldM_app. fold (upd_all us gr). destruct (upd_all us gr) as [gr'|p|]; cbn [bind]; [apply IH'|reflexivity|reflexivity].
  - destruct (upd_all us gr); reflexivity.
  - destruct (upd_all us gr); reflexivity.
Qed.

Lemma compute_jvp_calls_spec ns : forall fuel k ins outer gr,
  compute_jvp fuel ns k ins outer gr = (let* gr' := upd_all (fst (compute_jvp_calls fuel ns k ins outer)) gr in snd (compute_jvp_calls fuel ns k ins outer) ;; Ret gr').
Proof.
  induction fuel as [|fuel IH]; intros k ins outer gr; cbn [compute_jvp compute_jvp_calls]; [reflexivity|].
  destruct (mapM (vindex ns) ins) as [nds|p|]; cbn [bind then_calls fst snd upd_all foldM]; auto.
  destruct (jvp k (map n_val nds) outer) as [gs|p|]; cbn [bind then_calls fst snd upd_all foldM]; auto.
  apply each_calls_spec. intros [g [i nd]] _ gr'.
  destruct (assert (length (array g) =? length (array (n_val nd)))) as [[]|p|]; cbn [bind then_calls fst snd]; auto.
  destruct (raw_new (array g) (shape (n_val nd))) as [sg|p|]; cbn [bind then_calls fst snd]; auto.
  destruct (n_fn nd) as [[k' ins']|].
  - specialize (IH k' ins' [g]). destruct (compute_jvp_calls fuel ns k' ins' [g]) as [us st]. cbn [fst snd] in *. unfold upd_all. cbn [foldM].
    destruct (update_grad gr' i sg) as [gr2|p|]; cbn [bind]; [apply IH|reflexivity|reflexivity].
  - cbn [fst snd]. unfold upd_all. cbn [foldM]. destruct (update_grad gr' i sg); reflexivity.
Qed.

Lemma backward_calls_spec ns i gr :
  backward (mkHeap ns gr) i = (let* gr' := upd_all (fst (backward_calls ns i)) gr in snd (backward_calls ns i) ;; Ret (mkHeap ns gr')).
Proof.
  unfold backward, backward_calls. cbn [nodes grads]. unfold hget. cbn [nodes].
  destruct (vindex ns i) as [nd|p|]; cbn [bind then_calls fst snd upd_all foldM]; auto.
  destruct (assert (length (array (n_val nd)) =? 1)) as [[]|p|]; cbn [bind then_calls fst snd upd_all foldM]; auto.
  destruct (unwrap_opt (n_fn nd)) as [[k ins]|p|]; cbn [bind then_calls fst snd upd_all foldM]; auto.
  rewrite compute_jvp_calls_spec. destruct (compute_jvp_calls (S (length ns)) ns k ins [raw_scalar n_one]) as [us st]. cbn [fst snd].
  destruct (upd_all us gr); cbn [bind]; auto. destruct st; reflexivity.
Qed.


(** ** Threads one after the other *)

Lemma alone_agree (P : nat -> Prop) : forall c cells cells' s, (forall i, uses_cell c i -> P i) -> (forall i, P i -> cells i = cells' i) ->
  (forall i, P i -> fst (fst (alone c cells s)) i = fst (fst (alone c cells' s)) i) /\
  snd (fst (alone c cells s)) = snd (fst (alone c cells' s)) /\ snd (alone c cells s) = snd (alone c cells' s).
Proof.
  induction c as [|x c IH]; intros cells cells' s Hu He; [cbn; auto|].
  assert (Hu' : forall i, uses_cell c i -> P i) by (intros i (y & Hy & Ay); apply Hu; exists y; split; [right; exact Hy|exact Ay]).
  assert (Hup : forall i v j, P j -> upd cells i v j = upd cells' i v j) by (intros i v j Hj; unfold upd; destruct (j =? i); auto).
  destruct x as [i g|i|i|p]; cbn [alone].
  - rewrite (He i) by (apply Hu; eexists; split; [left; reflexivity|reflexivity]).
    destruct (cells' i) as [old|]; [|apply IH; auto]. destruct (add_raw (LRaw old) (LRaw g)); [apply IH; auto|cbn; auto|cbn; auto].
  - apply IH; auto.
  - rewrite (He i) by (apply Hu; eexists; split; [left; reflexivity|reflexivity]). destruct (cells' i); [apply IH; auto|cbn; auto].
  - cbn; auto.
Qed.

Lemma alone_unused : forall c cells s i, ~ writes_cell c i -> fst (fst (alone c cells s)) i = cells i.
Proof.
  induction c as [|x c IH]; intros cells s i N; [reflexivity|].
  assert (N' : ~ writes_cell c i) by (intros (y & Hy & Ay); apply N; exists y; split; [right; exact Hy|exact Ay]).
  assert (Nx : ~ (x = IZero i \/ exists g, x = IUpdate i g)) by (intros E; apply N; exists x; split; [left; reflexivity|exact E]).
  destruct x as [j g|j|j|p]; cbn [alone] in *.
  - assert (forall v, upd cells j v i = cells i) by (intros v; unfold upd; destruct (Nat.eqb_spec i j); [subst; exfalso; eauto|reflexivity]).
    destruct (cells j) as [old|]; [destruct (add_raw (LRaw old) (LRaw g))|]; cbn; auto; rewrite IH by exact N'; auto.
  - rewrite IH by exact N'. unfold upd. destruct (Nat.eqb_spec i j); [subst; exfalso; eauto|reflexivity].
  - destruct (cells j); [apply IH; exact N'|reflexivity].
  - reflexivity.
Qed.

Definition after (c : list (instr T)) (cells : nat -> option (raw T)) : nat -> option (raw T) := fst (fst (alone c cells [])).
Definition in_turn (codes : list (list (instr T))) (cells : nat -> option (raw T)) : nat -> option (raw T) :=
  fold_left (fun cs c => after c cs) codes cells.
Definition apart (codes : list (list (instr T))) : Prop := forall t, on_its_own codes t.

Lemma apart_tl c codes : apart (c :: codes) -> apart codes.
Proof. intros H t c1 u c2 i E1 E2 N. apply (H (S t) c1 (S u) c2 i E1 E2). congruence. Qed.

Lemma in_turn_unused : forall codes cells i, (forall c, In c codes -> ~ writes_cell c i) -> in_turn codes cells i = cells i.
Proof.
  induction codes as [|c codes IH]; intros cells i N; [reflexivity|]. cbn. fold (in_turn codes (after c cells)). rewrite IH by (intros; apply N; right; assumption).
  apply alone_unused, N. left; reflexivity.
Qed.

Lemma in_turn_used : forall codes cells, apart codes -> forall t c i, nth_error codes t = Some c -> uses_cell c i -> in_turn codes cells i = after c cells i.
Proof.
  induction codes as [|c0 codes IH]; intros cells HA t c i Et Hi; [destruct t; discriminate|].
  cbn. fold (in_turn codes (after c0 cells)). destruct t as [|t]; cbn in Et.
  - injection Et as ->. apply in_turn_unused. intros c1 Hc1 U. apply In_nth_error in Hc1 as [u Eu].
    apply (HA 0 c (S u) c1 i); auto.
  - rewrite (IH _ (apart_tl _ _ HA) t c i Et Hi). apply (alone_agree (uses_cell c)); auto. intros j Hj. apply alone_unused. intros U.
    apply (HA (S t) c 0 c0 j); auto.
Qed.

Lemma run_in_turn pref codes cells sched st : conc_run pref (conc_start codes cells) sched = Some st -> apart codes -> all_ended st ->
  (forall i, c_cells st i = in_turn codes cells i) /\
  (forall t c th, nth_error codes t = Some c -> nth_error (c_threads st) t = Some th -> ended_as th (snd (alone c cells [])) /\ t_seen th = snd (fst (alone c cells []))).
Proof.
  intros R HA HE.
  assert (HI : all_inside codes st) by (eapply (run_inv pref (all_inside codes)); [intros; eapply step_inside; eauto|apply start_inside|exact R]).
  assert (K : forall t c th, nth_error codes t = Some c -> nth_error (c_threads st) t = Some th ->
    (ended_as th (snd (alone c cells [])) /\ t_seen th = snd (fst (alone c cells []))) /\ forall i, uses_cell c i -> c_cells st i = after c cells i).
  { intros t c th Ec Et. unfold all_ended in HE. rewrite Forall_forall in HE. destruct (HE th (nth_error_In _ _ Et)) as [e He].
    destruct (run_alone _ _ _ _ _ _ _ _ _ R (HA t) Ec Et He) as (cs & Ea & Hc). unfold after. rewrite Ea. auto. }
  split; [|intros t c th Ec Et; apply (K t c th Ec Et)].
  intros i.
  assert (D : (exists t c, nth_error codes t = Some c /\ uses_cell c i) \/ forall c, In c codes -> ~ writes_cell c i).
  { clear. induction codes as [|c codes IH]; [right; intros c []|].
    assert (Dc : uses_cell c i \/ ~ uses_cell c i).
    { clear. induction c as [|x c IH]; [right; intros (x & [] & _)|]. destruct IH as [(y & Hy & Ay)|N]; [left; exists y; split; [right; exact Hy|exact Ay]|].
      assert (D : about x = Some i \/ about x <> Some i) by (destruct (about x) as [j|]; [destruct (Nat.eq_dec j i); [left|right]; congruence|right; discriminate]).
      destruct D as [D|D]; [left; exists x; split; [left; reflexivity|exact D]|].
      right. intros (y & [<- | Hy] & Ay); [contradiction|]. apply N. exists y. auto. }
    destruct Dc as [Dc|Dc]; [left; exists 0, c; auto|]. destruct IH as [(t & c' & E & U)|N]; [left; exists (S t), c'; auto|].
    right. intros c' [<- | Hc']; [intros W; apply Dc, writes_uses, W|auto]. }
  destruct D as [(t & c & Ec & U)|N].
  - destruct (F2_nth_l _ _ _ _ _ _ _ HI Ec) as (th & Et & _). destruct (K t c th Ec Et) as [_ Hk]. rewrite (Hk i U). symmetry. eapply in_turn_used; eauto.
  - rewrite (in_turn_unused _ _ _ N). eapply run_unused; eauto.
Qed.

(** ** Threads that run [backward] *)

Lemma alone_updates us : forall gr s r, alone (map (fun '(i, g) => IUpdate i g) us ++ r) gr s =
  match upd_all us gr with Ret gr' => alone r gr' s | Panic p => (fst (fst (alone (map (fun '(i, g) => IUpdate i g) us) gr s)), s, Some p) | NoFuel => (fst (fst (alone (map (fun '(i, g) => IUpdate i g) us) gr s)), s, None) end.
Proof.
  induction us as [|[i g] us IH]; intros gr s r; [reflexivity|].
  unfold upd_all. cbn [map app alone foldM]. fold (upd_all us). unfold update_grad.
  destruct (gr i) as [old|]; cbn [bind]; [|apply IH].
  pose proof (nf_add (LRaw old) (LRaw g)) as NF. destruct (add_raw (LRaw old) (LRaw g)) as [sm|p|]; cbn [bind]; [apply IH|reflexivity|congruence].
Qed.

Lemma upd_all_nf us : forall gr, upd_all us gr <> NoFuel.
Proof.
  induction us as [|[i g] us IH]; intros gr; unfold upd_all; cbn [foldM]; [discriminate|]. fold (upd_all us). unfold update_grad.
  destruct (gr i) as [old|]; cbn [bind]; [|apply IH]. pose proof (nf_add (LRaw old) (LRaw g)) as NF. destruct (add_raw (LRaw old) (LRaw g)); cbn [bind]; [apply IH|discriminate|congruence].
Qed.

Lemma alone_backward ns r gr :
  match backward (mkHeap ns gr) r with
  | Ret h' => alone (code ns [TBackward r]) gr [] = (grads h', [], None) /\ nodes h' = ns
  | Panic p => snd (alone (code ns [TBackward r]) gr []) = Some p
  | NoFuel => True
  end.
Proof.
  rewrite backward_calls_spec. unfold code. cbn [flat_map]. rewrite app_nil_r. cbn [code1]. destruct (backward_calls ns r) as [us st]. cbn [fst snd].
  rewrite alone_updates. pose proof (upd_all_nf us gr) as NF. destruct (upd_all us gr) as [gr'|p|]; cbn [bind]; [|reflexivity|exact I].
  destruct st as [[]|p|]; cbn [bind alone]; auto.
Qed.

Lemma compute_jvp_calls_uses ns : forall fuel k ins outer, Forall (fun u => exists j, In j ins /\ uses ns j (fst u)) (fst (compute_jvp_calls fuel ns k ins outer)).
Proof.
  induction fuel as [|fuel IH]; intros k ins outer; cbn [compute_jvp_calls]; [constructor|].
  destruct (mapM (vindex ns) ins) as [nds|p|] eqn:Em; cbn [then_calls fst]; try constructor.
  destruct (jvp k (map n_val nds) outer) as [gs|p|]; cbn [then_calls fst]; try constructor.
  assert (HC : forall i nd, In (i, nd) (combine ins nds) -> In i ins /\ nth_error ns i = Some nd).
  { clear - Em. revert nds Em. induction ins as [|a ins IH]; intros nds Em i nd Hin; [destruct Hin|].
    cbn [mapM] in Em. destruct (vindex ns a) as [x| |] eqn:Ex; cbn [bind] in Em; try discriminate.
    destruct (mapM (vindex ns) ins) as [xs| |]; cbn [bind] in Em; try discriminate. injection Em as <-. destruct Hin as [Hin|Hin].
    - injection Hin as <- <-. split; [left; reflexivity|apply vindex_ret; exact Ex].
    - destruct (IH xs eq_refl i nd Hin). split; [right|]; auto. }
  remember (combine ins nds) as l eqn:El. clear El Em. revert l HC. induction gs as [|g gs IHg]; intros [|[i nd] l] HC; cbn [combine each_calls fst]; try constructor.
  destruct (HC i nd (or_introl eq_refl)) as [Hi En].
  assert (IHl := IHg l (fun i' nd' H => HC i' nd' (or_intror H))).
  match goal with |- Forall _ (fst (let (us, st) := ?t in _)) => assert (Hb : Forall (fun u => exists j, In j ins /\ uses ns j (fst u)) (fst t)); [|destruct t as [us st]; cbn [fst] in Hb] end.
  { destruct (assert (length (array g) =? length (array (n_val nd)))) as [[]|p|]; cbn [then_calls fst]; try constructor.
    destruct (raw_new (array g) (shape (n_val nd))) as [sg|p|]; cbn [then_calls fst]; try constructor.
    destruct (n_fn nd) as [[k' ins']|] eqn:Ef.
    - pose proof (IH k' ins' [g]) as HF. destruct (compute_jvp_calls fuel ns k' ins' [g]) as [us st]. cbn [fst] in *. constructor; [exists i; split; [exact Hi|constructor]|].
      eapply Forall_impl; [|exact HF]. intros [m g'] (j & Hj & U). exists i. split; [exact Hi|]. eapply uses_step; [unfold fn_of; rewrite En; exact Ef|exact Hj|exact U].
    - cbn [fst]. constructor; [exists i; split; [exact Hi|constructor]|constructor]. }
  destruct st as [[]|p|]; cbn [fst]; auto. destruct (each_calls _ (combine gs l)) as [vs st']. cbn [fst] in *. apply Forall_app. auto.
Qed.

Lemma backward_calls_uses ns r : Forall (fun u => uses ns r (fst u)) (fst (backward_calls ns r)).
Proof.
  unfold backward_calls. destruct (vindex ns r) as [nd|p|] eqn:En; cbn [then_calls fst]; try constructor.
  destruct (assert (length (array (n_val nd)) =? 1)) as [[]|p|]; cbn [then_calls fst]; try constructor.
  destruct (n_fn nd) as [[k ins]|] eqn:Ef; cbn [unwrap_opt then_calls fst]; try constructor.
  eapply Forall_impl; [|apply compute_jvp_calls_uses]. intros [m g] (j & Hj & U). eapply uses_step; [|exact Hj|exact U].
  unfold fn_of. apply vindex_ret in En. rewrite En. exact Ef.
Qed.

Lemma code_uses ns r i : uses_cell (code ns [TBackward r]) i -> uses ns r i.
Proof.
  unfold code. cbn [flat_map]. rewrite app_nil_r. cbn [code1]. pose proof (backward_calls_uses ns r) as H. destruct (backward_calls ns r) as [us st]. cbn [fst] in H.
  rewrite Forall_forall in H. intros (x & Hx & Ax). apply in_app_iff in Hx as [Hx|Hx].
  - apply in_map_iff in Hx as ([m g] & <- & Hm). injection Ax as ->. apply (H _ Hm).
  - destruct st as [u|p|]; [destruct Hx|destruct Hx as [<- | []]; discriminate|destruct Hx as [<- | []]; discriminate].
Qed.

Lemma separate_apart ns rs : separate ns rs -> apart (map (fun r => code ns [TBackward r]) rs).
Proof.
  intros HS t c u c' i Ec Eu N U U'. rewrite nth_error_map in Ec, Eu. destruct (nth_error rs t) as [r|] eqn:Er; [|discriminate]. destruct (nth_error rs u) as [r'|] eqn:Er'; [|discriminate].
  injection Ec as <-. injection Eu as <-. apply writes_uses in U'. apply code_uses in U, U'. apply (HS t u r r' i Er Er'); auto.
Qed.

Lemma foldM_backward ns : forall rs gr, apart (map (fun r => code ns [TBackward r]) rs) ->
  match foldM backward rs (mkHeap ns gr) with
  | Ret h' => (forall i, in_turn (map (fun r => code ns [TBackward r]) rs) gr i = grads h' i) /\
      forall t r, nth_error rs t = Some r -> snd (alone (code ns [TBackward r]) gr []) = None
  | Panic p => exists t r, nth_error rs t = Some r /\ snd (alone (code ns [TBackward r]) gr []) = Some p
  | NoFuel => True
  end.
Proof.
  induction rs as [|r rs IH]; intros gr HA; cbn [foldM].
  - split; [reflexivity|]. intros [|t] r E; discriminate.
  - pose proof (alone_backward ns r gr) as HB. destruct (backward (mkHeap ns gr) r) as [[ns' gr']|p|]; cbn [bind]; [|exists 0, r; auto|exact I].
    destruct HB as [HB Hn]. cbn [nodes grads] in *. subst ns'. cbn [map] in HA. assert (HA' := apart_tl _ _ HA).
    assert (Eq : forall t r1, nth_error rs t = Some r1 -> snd (alone (code ns [TBackward r1]) gr []) = snd (alone (code ns [TBackward r1]) gr' [])).
    { intros t r1 E1. symmetry. apply (alone_agree (uses_cell (code ns [TBackward r1]))); auto. intros i Hi.
      change gr' with (fst (fst (gr', @nil (raw T), @None panic))). rewrite <- HB. apply alone_unused. intros U.
      apply (HA (S t) (code ns [TBackward r1]) 0 (code ns [TBackward r]) i); auto. cbn. rewrite nth_error_map, E1. reflexivity. }
    specialize (IH gr' HA'). destruct (foldM backward rs (mkHeap ns gr')) as [h'|p|]; [|destruct IH as (t & r1 & E1 & E2); exists (S t), r1; rewrite (Eq t r1 E1); auto|exact I].
    destruct IH as [I1 I2]. split.
    + intros i. cbn. unfold after. cbn in HB. rewrite HB. apply I1.
    + intros [|t] r1 E1; cbn in E1; [injection E1 as <-; rewrite HB; reflexivity|]. rewrite (Eq t r1 E1). eauto.
Qed.

Lemma foldM_backward_nf ns : backrefs ns -> forall rs gr, foldM backward rs (mkHeap ns gr) <> NoFuel.
Proof.
  intros HB. induction rs as [|r rs IH]; intros gr; cbn [foldM]; [discriminate|]. pose proof (nf_backward (mkHeap ns gr) r HB) as NF.
  pose proof (alone_backward ns r gr) as HA. destruct (backward (mkHeap ns gr) r) as [[ns' gr']|p|]; cbn [bind]; try discriminate; [|congruence].
  destruct HA as [_ Hn]. cbn in Hn. subst. apply IH.
Qed.

Lemma run_backward pref ns gr rs sched st :
  conc_run pref (conc_start (map (fun r => code ns [TBackward r]) rs) gr) sched = Some st -> backrefs ns -> separate ns rs -> all_ended st ->
  match foldM backward rs (mkHeap ns gr) with
  | Ret h' => all_succeeded st /\ forall i, c_cells st i = grads h' i
  | Panic p => exists th, In th (c_threads st) /\ ended_as th (Some p)
  | NoFuel => False
  end.
Proof.
  intros R HB HS HE. assert (HA := separate_apart _ _ HS). destruct (run_in_turn _ _ _ _ _ R HA HE) as [H1 H2].
  assert (HI : all_inside (map (fun r => code ns [TBackward r]) rs) st) by (eapply (run_inv pref (all_inside _)); [intros; eapply step_inside; eauto|apply start_inside|exact R]).
  pose proof (foldM_backward ns rs gr HA) as HF. pose proof (foldM_backward_nf ns HB rs gr) as NF. destruct (foldM backward rs (mkHeap ns gr)) as [h'|p|]; [| |congruence].
  - destruct HF as [F1 F2]. split; [|intros i; rewrite H1; apply F1]. unfold all_succeeded. apply Forall_forall. intros th Hin. apply In_nth_error in Hin as [t Et].
    destruct (F2_nth _ _ _ _ _ _ _ HI Et) as (c & Ec & _). destruct (H2 t c th Ec Et) as [He _]. rewrite nth_error_map in Ec. destruct (nth_error rs t) as [r|] eqn:Er; [|discriminate].
    assert (Hc : c = code ns [TBackward r]) by (cbn [option_map] in Ec; congruence). subst c. rewrite (F2 t r Er) in He. exact He.
  - destruct HF as (t & r & Er & Ea). assert (Ec : nth_error (map (fun r => code ns [TBackward r]) rs) t = Some (code ns [TBackward r])) by (rewrite nth_error_map, Er; reflexivity).
    destruct (F2_nth_l _ _ _ _ _ _ _ HI Ec) as (th & Et & _). destruct (H2 t _ th Ec Et) as [He _]. rewrite Ea in He. exists th. split; [eapply nth_error_In; eauto|exact He].
Qed.

(** ** What a cell holds when threads share it *)

Definition fin1 (c : list (instr T)) (th : thread T) : nat :=
  length c - length (t_code th) - match t_phase th with PIdle => 0 | _ => 1 end.

(** The instructions done, the one being done, and the rest *)
Definition split_code (c : list (instr T)) (th : thread T) : Prop :=
  match t_phase th with
  | PIdle => exists d, c = d ++ t_code th
  | PRead i g => exists d, c = d ++ IUpdate i g :: t_code th
  | PWait i _ | PWrite i _ => exists d x, c = d ++ x :: t_code th /\ about x = Some i
  | PPeek i => exists d, c = d ++ IGet i :: t_code th
  | PDead _ => exists d x, c = d ++ x :: t_code th
  end.

Definition fin (codes : list (list (instr T))) (st : conc T) (t : nat) : nat :=
  match nth_error codes t, nth_error (c_threads st) t with Some c, Some th => fin1 c th | _, _ => 0 end.

Definition kept (codes : list (list (instr T))) (i : nat) (v0 : option (raw T)) (f : nat -> nat) (none : Prop) (v : option (raw T)) : Prop :=
  exists l gs, NoDup l /\ Forall2 (contributes codes i) l gs /\ foldM added gs v0 = Ret v /\ Forall (fun tp => snd tp < f (fst tp)) l /\ (l = [] -> none).

Lemma kept_mono codes i v0 f f' (n n' : Prop) v : (forall t, f t <= f' t) -> (n -> n') -> kept codes i v0 f n v -> kept codes i v0 f' n' v.
Proof.
  intros Hf Hn (l & gs & H1 & H2 & H3 & H4 & H5). exists l, gs. split; [auto|]. split; [auto|]. split; [auto|]. split; [|auto].
  eapply Forall_impl; [|exact H4]. intros [t p] H. cbn [fst snd] in *. specialize (Hf t). lia.
Qed.

Definition untouched (codes : list (list (instr T))) (i : nat) (f : nat -> nat) : Prop := forall t p g, contributes codes i (t, p) g -> f t <= p.

Definition accounts (codes : list (list (instr T))) (i : nat) (v0 : option (raw T)) (st : conc T) : Prop :=
  Forall2 split_code codes (c_threads st) /\
  kept codes i v0 (fin codes st) (untouched codes i (fin codes st)) (c_cells st i) /\
  forall t th new, nth_error (c_threads st) t = Some th -> (t_phase th = PWait i new \/ t_phase th = PWrite i new) ->
    kept codes i v0 (upd (fin codes st) t (S (fin codes st t))) False new.

Lemma move_split pref st th th' cells c : move pref st th th' cells -> split_code c th -> split_code c th'.
Proof.
  unfold split_code. intros M. destruct M; cbn [t_phase t_code]; try (intros H'; exact H').
  - intros [d ->]. do 2 eexists. split; reflexivity.
  - intros [d ->]. do 2 eexists. reflexivity.
  - intros [d ->]. do 2 eexists. split; reflexivity.
  - intros [d ->]. do 2 eexists. reflexivity.
  - intros (d & x & -> & _). exists (d ++ [x]). rewrite <- app_assoc. reflexivity.
  - intros [d ->]. exists (d ++ [IGet i]). rewrite <- app_assoc. reflexivity.
  - intros [d ->]. eauto.
Qed.

(** [fin1] grows exactly when the thread goes back to being idle. *)
Lemma move_fin pref st th th' cells c : move pref st th th' cells -> split_code c th ->
  fin1 c th' = fin1 c th + match t_phase th' with PIdle => 1 | _ => 0 end.
Proof.
  unfold split_code, fin1. intros M. destruct M; cbn [t_phase t_code].
  1-4: intros [d ->]; rewrite !app_length; cbn [length]; lia.
  all: try (intros [d ->]; rewrite !app_length; cbn [length]; lia).
  all: intros (d & x & -> & _); rewrite !app_length; cbn [length]; lia.
Qed.

Lemma fin_step codes st st' t th th' c : c_threads st' = list_set (c_threads st) t th' -> nth_error (c_threads st) t = Some th -> nth_error codes t = Some c ->
  fin1 c th' = fin1 c th + match t_phase th' with PIdle => 1 | _ => 0 end ->
  fin codes st t = fin1 c th /\ forall u, fin codes st' u = if u =? t then fin1 c th' else fin codes st u.
Proof.
  intros E Et Ec Hf. unfold fin. rewrite E. split; [rewrite Ec, Et; reflexivity|]. intros u. rewrite (nth_error_set _ _ _ _ _ _ Et).
  destruct (Nat.eqb_spec u t) as [-> | N]; [rewrite Ec; reflexivity|reflexivity].
Qed.

Lemma foldM_snoc A B (f : A -> B -> outcome A) l b a : foldM f (l ++ [b]) a = (let* a' := foldM f l a in f a' b).
Proof. rewrite foldM_app. destruct (foldM f l a); cbn; auto. destruct (f a0 b); reflexivity. Qed.

Lemma step_accounts pref codes i v0 st u st' : (forall c, In c codes -> ~ In (IZero i) c) -> accounts codes i v0 st -> advance pref st u = Some st' -> accounts codes i v0 st'.
Proof.
  intros NZ (A1 & A2 & A3) E. apply advance_move in E as (th & th' & Et & Eq & M).
  destruct (F2_nth _ _ _ _ _ _ _ A1 Et) as (c & Ec & Hs). assert (Hs' := move_split _ _ _ _ _ _ M Hs). assert (Hf := move_fin _ _ _ _ _ _ M Hs).
  destruct (fin_step _ _ _ _ _ _ _ Eq Et Ec Hf) as [F0 F].
  assert (Mono : forall t, fin codes st t <= fin codes st' t) by (intros t; rewrite F; destruct (Nat.eqb_spec t u); [subst; lia|lia]).
  assert (B1 : Forall2 split_code codes (c_threads st')) by (rewrite Eq; eapply F2_set; eauto).
  (* the waiting threads other than u *)
  assert (Others : forall t th0 new, t <> u -> nth_error (c_threads st') t = Some th0 -> (t_phase th0 = PWait i new \/ t_phase th0 = PWrite i new) ->
            kept codes i v0 (upd (fin codes st') t (S (fin codes st' t))) False new).
  { intros t th0 new N E0 Hp. rewrite Eq, (nth_error_set _ _ _ _ _ _ Et) in E0. destruct (Nat.eqb_spec t u); [contradiction|].
    eapply kept_mono; [|intros H; exact H|apply (A3 t th0 new E0 Hp)]. intros x. unfold upd. destruct (x =? t); [specialize (Mono t); lia|apply Mono]. }
  (* the cell, if this step does not store to it *)
  assert (Same : c_cells st' i = c_cells st i -> (forall g, nth_error c (fin1 c th) = Some (IUpdate i g) -> t_phase th' <> PIdle) ->
            kept codes i v0 (fin codes st') (untouched codes i (fin codes st')) (c_cells st' i)).
  { intros Ecell Hn. rewrite Ecell. eapply kept_mono; [exact Mono| |exact A2]. intros HU t p g HC. specialize (HU t p g HC). rewrite F. destruct (Nat.eqb_spec t u) as [->|]; [|exact HU].
    rewrite Hf. destruct (t_phase th') eqn:Ep; try lia. rewrite F0 in HU. destruct (Nat.eq_dec (fin1 c th) p) as [<-|]; [|lia].
    destruct HC as (c1 & Ec1 & Hp). cbn [fst snd] in *. rewrite Ec in Ec1. injection Ec1 as <-. exfalso. apply (Hn g Hp). reflexivity. }
  assert (Mine : forall new, t_phase th' = PWait i new \/ t_phase th' = PWrite i new -> kept codes i v0 (upd (fin codes st) u (S (fin codes st u))) False new ->
            kept codes i v0 (upd (fin codes st') u (S (fin codes st' u))) False new).
  { intros new _ K. eapply kept_mono; [|intros H; exact H|exact K]. intros x. unfold upd. destruct (x =? u); [specialize (Mono u); lia|apply Mono]. }
  assert (Nfin : forall x, (exists d, c = d ++ x :: t_code th) -> t_phase th <> PIdle -> nth_error c (fin1 c th) = Some x).
  { intros x [d Ed] Np. assert (Hl : fin1 c th = length d).
    { unfold fin1. rewrite Ed, app_length. cbn [length]. destruct (t_phase th); [contradiction| | | | |]; lia. }
    rewrite Hl, Ed, nth_error_app2, Nat.sub_diag by lia. reflexivity. }
  assert (Thread : (forall new, t_phase th' = PWait i new \/ t_phase th' = PWrite i new -> kept codes i v0 (upd (fin codes st) u (S (fin codes st u))) False new) ->
            forall t th0 new, nth_error (c_threads st') t = Some th0 -> (t_phase th0 = PWait i new \/ t_phase th0 = PWrite i new) ->
            kept codes i v0 (upd (fin codes st') t (S (fin codes st' t))) False new).
  { intros HK t th0 new E0 Hp. destruct (Nat.eq_dec t u) as [->|N]; [|eapply Others; eauto].
    rewrite Eq, (nth_error_set _ _ _ _ _ _ Et), Nat.eqb_refl in E0. injection E0 as <-. apply Mine; auto. }
  split; [exact B1|]. 
  destruct M; cbn [t_phase t_code] in *.
  - split; [apply Same; [reflexivity|intros; discriminate]|apply Thread; intros new [Hp|Hp]; discriminate].
  - split; [apply Same; [reflexivity|intros; discriminate]|]. apply Thread. intros new [Hp|Hp]; [|discriminate]. injection Hp as -> <-.
    exfalso. destruct Hs as [d Hd]. cbn [t_code] in Hd. apply (NZ c (nth_error_In _ _ Ec)). rewrite Hd. apply in_or_app. right. left. reflexivity.
  - split; [apply Same; [reflexivity|intros; discriminate]|apply Thread; intros new [Hp|Hp]; discriminate].
  - split; [apply Same; [reflexivity|intros; discriminate]|apply Thread; intros new [Hp|Hp]; discriminate].
  - split; [apply Same; [reflexivity|intros; discriminate]|]. apply Thread. intros new' [Hp|Hp]; [|discriminate]. injection Hp as -> <-.
    destruct A2 as (l & gs & K1 & K2 & K3 & K4 & K5). exists (l ++ [(u, fin codes st u)]), (gs ++ [g]).
    assert (Hc : nth_error c (fin codes st u) = Some (IUpdate i g)).
    { rewrite F0. apply Nfin; [|cbn; discriminate]. exact Hs. }
    split.
    { rewrite <- rev_involutive. apply NoDup_rev. rewrite rev_app_distr. cbn. constructor.
      - rewrite <- in_rev. intros Hin. rewrite Forall_forall in K4. specialize (K4 _ Hin). cbn in K4. lia.
      - apply NoDup_rev. exact K1. }
    split; [apply Forall2_app; [exact K2|constructor; [exists c; auto|constructor]]|].
    split; [rewrite foldM_snoc, K3; cbn [bind]; exact H|].
    split; [|intros E; destruct l; discriminate].
    apply Forall_app. split.
    + eapply Forall_impl; [|exact K4]. intros [t p] Hp. cbn [fst snd] in *. unfold upd. destruct (Nat.eqb_spec t u); [subst; lia|exact Hp].
    + constructor; [|constructor]. cbn [fst snd]. rewrite upd_same. lia.
  - split; [apply Same; [reflexivity|intros; discriminate]|apply Thread; intros new [Hp|Hp]; discriminate].
  - split; [apply Same; [reflexivity|intros; discriminate]|]. apply Thread. intros new' [Hp|Hp]; [discriminate|]. injection Hp as -> <-.
    apply (A3 u _ new Et). left; reflexivity.
  - split; [|apply Thread; intros new' [Hp|Hp]; discriminate]. destruct (Nat.eq_dec i i0) as [<-|N].
    + rewrite upd_same. eapply kept_mono; [|exact (False_ind _)|apply (A3 u _ new Et); right; reflexivity].
      intros x. rewrite F. unfold upd. destruct (Nat.eqb_spec x u); [subst; rewrite F0, Hf; lia|lia].
    + apply Same; [unfold upd; destruct (Nat.eqb_spec i i0); [contradiction|reflexivity]|]. intros g Hg _.
      destruct Hs as (d & x & Hd & Ax). cbn [t_code] in Hd. rewrite (Nfin x) in Hg by (try (cbn; discriminate); exists d; exact Hd). injection Hg as ->. cbn in Ax. congruence.
  - split; [|apply Thread; intros new' [Hp|Hp]; discriminate]. apply Same; [reflexivity|]. intros g' Hg _.
    destruct Hs as (d & Hd). cbn [t_code] in Hd. rewrite (Nfin (IGet i0)) in Hg by (try (cbn; discriminate); exists d; exact Hd). discriminate.
  - split; [apply Same; [reflexivity|intros; discriminate]|apply Thread; intros new [Hp|Hp]; discriminate].
Qed.

Lemma start_accounts codes i cells : accounts codes i (cells i) (conc_start codes cells).
Proof.
  assert (Z : forall t, fin codes (conc_start codes cells) t = 0).
  { intros t. unfold fin. cbn [c_threads conc_start]. rewrite nth_error_map. destruct (nth_error codes t); cbn [option_map]; [|reflexivity]. unfold fin1. cbn. lia. }
  split; [|split].
  - clear Z. cbn. induction codes; constructor; auto. exists []. reflexivity.
  - exists [], []. split; [constructor|]. split; [constructor|]. split; [reflexivity|]. split; [constructor|]. intros _ t p g _. rewrite Z. lia.
  - intros t th new E Hp. cbn [c_threads conc_start] in E. rewrite nth_error_map in E. destruct (nth_error codes t); [|discriminate]. injection E as <-. destruct Hp; discriminate.
Qed.

Lemma run_kept pref codes cells sched st i : conc_run pref (conc_start codes cells) sched = Some st -> (forall c, In c codes -> ~ In (IZero i) c) ->
  exists l gs, NoDup l /\ Forall2 (contributes codes i) l gs /\ foldM added gs (cells i) = Ret (c_cells st i) /\
    (all_succeeded st -> l = [] -> forall tp g, ~ contributes codes i tp g).
Proof.
  intros R NZ. assert (H : accounts codes i (cells i) st) by (eapply (run_inv pref (accounts codes i (cells i))); [intros; eapply step_accounts; eauto|apply start_accounts|exact R]).
  destruct H as (H0 & (l & gs & K1 & K2 & K3 & K4 & K5) & _). exists l, gs. split; [auto|]. split; [auto|]. split; [auto|].
  intros HE El [t p] g HC. specialize (K5 El t p g HC). destruct HC as (c & Ec & Hp). cbn [fst snd] in *.
  destruct (F2_nth_l _ _ _ _ _ _ _ H0 Ec) as (th & Et & _). unfold fin in K5. rewrite Ec, Et in K5.
  unfold all_succeeded in HE. rewrite Forall_forall in HE. specialize (HE th (nth_error_In _ _ Et)). unfold ended_as in HE.
  assert (p < length c) by (apply nth_error_Some; congruence). unfold fin1 in K5. destruct (t_phase th); try contradiction; [|discriminate]. destruct (t_code th); [|contradiction]. cbn in K5. lia.
Qed.

(** ** Progress *)

Lemma holder_advances pref st t th : nth_error (c_threads st) t = Some th ->
  match t_phase th with PRead _ _ | PWrite _ _ | PPeek _ => True | _ => False end -> advance pref st t <> None.
Proof.
  intros E. unfold advance. rewrite E. destruct th as [c [|i g|i new|i new|i|p] s]; cbn [t_phase]; try contradiction; intros _.
  - unfold new_grad. destruct (c_cells st i) as [o|]; [|discriminate]. pose proof (nf_add (LRaw o) (LRaw g)) as NF. destruct (add_raw (LRaw o) (LRaw g)); cbn [bind]; [discriminate|discriminate|congruence].
  - discriminate.
  - destruct (c_cells st i); discriminate.
Qed.

Definition holds (th : thread T) : bool := match t_phase th with PRead _ _ | PWrite _ _ | PPeek _ => true | _ => false end.
Definition waits (th : thread T) : bool := match t_phase th with PWait _ _ => true | _ => false end.

Definition going (th : thread T) : bool :=
  match t_phase th, t_code th with PIdle, [] => false | PDead _, _ => false | _, _ => true end.

Lemma existsb_none A (f g : A -> bool) l : (forall x, g x = true -> f x = true) -> existsb f l = false -> existsb g l = false.
Proof.
  intros H E. destruct (existsb g l) eqn:Eg; [|reflexivity]. apply existsb_exists in Eg as (x & Hx & Gx). rewrite <- E. symmetry. apply existsb_exists. exists x. auto.
Qed.

Lemma progress pref st : ~ all_ended st -> exists t st', advance pref st t = Some st'.
Proof.
  intros HE. enough (H : exists t, advance pref st t <> None) by (destruct H as [t Ht]; exists t; destruct (advance pref st t); [eauto|congruence]).
  destruct (existsb holds (c_threads st)) eqn:Eh.
  - apply existsb_exists in Eh as (th & Hin & Hh). apply In_nth_error in Hin as [t Et]. exists t. eapply holder_advances; [exact Et|]. unfold holds in Hh. destruct (t_phase th); auto; discriminate.
  - assert (NR : forall i, existsb (reads_now i) (c_threads st) = false) by (intros i; eapply existsb_none; [|exact Eh]; intros th; unfold reads_now, holds; destruct (t_phase th); auto; discriminate).
    assert (NW : forall i, existsb (writes_now i) (c_threads st) = false) by (intros i; eapply existsb_none; [|exact Eh]; intros th; unfold writes_now, holds; destruct (t_phase th); auto; discriminate).
    destruct (existsb waits (c_threads st)) eqn:Ew.
    + apply existsb_exists in Ew as (th & Hin & Hw). apply In_nth_error in Hin as [t Et]. exists t. unfold advance. rewrite Et. destruct th as [c ph s]. unfold waits in Hw. cbn [t_phase] in Hw.
      destruct ph; try discriminate. unfold may_write. rewrite NR, NW. discriminate.
    + assert (NQ : forall i, existsb (waits_now i) (c_threads st) = false) by (intros i; eapply existsb_none; [|exact Ew]; intros th; unfold waits_now, waits; destruct (t_phase th); auto; discriminate).
      assert (MR : forall i, may_read pref st i = true) by (intros i; unfold may_read; rewrite NW, NQ, Bool.andb_false_r; reflexivity).
      assert (X : existsb going (c_threads st) = true).
      { destruct (existsb going (c_threads st)) eqn:Ex; [reflexivity|]. exfalso. apply HE. apply Forall_forall. intros th Hin. destruct th as [c ph s].
        assert (Hf : match ph, c with PIdle, [] => false | PDead _, _ => false | _, _ => true end = false).
        { destruct (match ph, c with PIdle, [] => false | PDead _, _ => false | _, _ => true end) eqn:Em; [|reflexivity]. rewrite <- Ex. symmetry. apply existsb_exists. exists (mkTh c ph s). split; [exact Hin|exact Em]. }
        unfold ended_as. cbn [t_phase t_code]. destruct ph; try discriminate; [destruct c; [eexists; reflexivity|discriminate]|eexists; reflexivity]. }
      apply existsb_exists in X as (th & Hin & Hx). apply In_nth_error in Hin as [t Et]. exists t. unfold advance. rewrite Et. destruct th as [c ph s]. unfold going in Hx. cbn [t_phase t_code] in Hx.
      assert (Nh : holds (mkTh c ph s) = false).
      { destruct (holds (mkTh c ph s)) eqn:E1; [|reflexivity]. rewrite <- Eh. symmetry. apply existsb_exists. exists (mkTh c ph s). split; [eapply nth_error_In; eauto|exact E1]. }
      assert (Nw : waits (mkTh c ph s) = false).
      { destruct (waits (mkTh c ph s)) eqn:E1; [|reflexivity]. rewrite <- Ew. symmetry. apply existsb_exists. exists (mkTh c ph s). split; [eapply nth_error_In; eauto|exact E1]. }
      unfold holds, waits in *. cbn [t_phase] in *. destruct ph; try discriminate. destruct c as [|[i g|i|i|p] c]; try discriminate; rewrite MR; discriminate.
Qed.

(** ** Every run is bounded *)

Definition weight (th : thread T) : nat :=
  match t_phase th with
  | PDead _ => 0
  | PIdle => 4 * length (t_code th)
  | PRead _ _ => 4 * length (t_code th) + 3
  | PWait _ _ => 4 * length (t_code th) + 2
  | PWrite _ _ | PPeek _ => 4 * length (t_code th) + 1
  end.
Definition total (st : conc T) : nat := list_sum (map weight (c_threads st)).

Lemma move_weight pref st th th' cells : move pref st th th' cells -> weight th' < weight th.
Proof. intros M. destruct M; unfold weight; cbn [t_phase t_code length]; lia. Qed.

Lemma sum_set : forall (l : list (thread T)) t th th', nth_error l t = Some th -> list_sum (map weight (list_set l t th')) + weight th = list_sum (map weight l) + weight th'.
Proof. induction l as [|a l IH]; intros [|t] th th' E; cbn in E; try discriminate; [injection E as ->; cbn; lia|]. specialize (IH t th th' E). unfold list_sum in *. cbn. lia. Qed.

Lemma step_total pref st t st' : advance pref st t = Some st' -> total st' < total st.
Proof.
  intros E. apply advance_move in E as (th & th' & E1 & E2 & M). unfold total. rewrite E2. pose proof (sum_set _ _ _ th' E1). apply move_weight in M. lia.
Qed.

Lemma run_bound pref : forall l st st', conc_run pref st l = Some st' -> length l + total st' <= total st.
Proof.
  induction l as [|t l IH]; intros st st'; cbn [conc_run length]; [intros E; injection E as <-; lia|].
  destruct (advance pref st t) as [st1|] eqn:E; [|discriminate]. intros R. apply IH in R. apply step_total in E. lia.
Qed.

Lemma all_ended_dec (st : conc T) : all_ended st \/ ~ all_ended st.
Proof.
  unfold all_ended. induction (c_threads st) as [|th l [IH|IH]]; [left; constructor| |right; intros H; inversion H; contradiction].
  assert (D : (exists e, ended_as th e) \/ ~ exists e, ended_as th e).
  { unfold ended_as. destruct (t_phase th) as [| | | | |p]; [destruct (t_code th)| | | | |]; first [left; eexists; reflexivity|right; intros [e []]]. }
  destruct D as [D|D]; [left; constructor; auto|right; intros H; inversion H; contradiction].
Qed.

Lemma run_completes pref : forall n st, total st <= n -> exists l st', conc_run pref st l = Some st' /\ all_ended st'.
Proof.
  induction n as [|n IH]; intros st Hn.
  - exists [], st. split; [reflexivity|]. destruct (all_ended_dec st) as [H|H]; [exact H|]. destruct (progress pref st H) as (t & st' & E). apply step_total in E. lia.
  - destruct (all_ended_dec st) as [H|H]; [exists [], st; auto|]. destruct (progress pref st H) as (t & st' & E). destruct (IH st') as (l & st2 & R & HE); [apply step_total in E; lia|].
    exists (t :: l), st2. cbn. rewrite E. auto.
Qed.

Lemma start_total codes cells : total (conc_start codes cells) = 4 * length (concat codes).
Proof.
  unfold total, conc_start. cbn [c_threads]. induction codes as [|c codes IH]; [reflexivity|]. cbn [map concat]. rewrite app_length. unfold list_sum in *. cbn [fold_right]. rewrite IH. unfold weight at 1. cbn [t_phase t_code]. lia.
Qed.

(** ** Mutual exclusion *)

Definition exclusive (st : conc T) : Prop := forall i t u th th', nth_error (c_threads st) t = Some th -> nth_error (c_threads st) u = Some th' -> t <> u ->
  writes_now i th = true -> reads_now i th' = false /\ writes_now i th' = false.

Lemma existsb_nth A (f : A -> bool) l u x : existsb f l = false -> nth_error l u = Some x -> f x = false.
Proof. intros E H. destruct (f x) eqn:Ef; [|reflexivity]. rewrite <- E. symmetry. apply existsb_exists. exists x. split; [eapply nth_error_In; eauto|exact Ef]. Qed.

Lemma step_exclusive pref st v st' : exclusive st -> advance pref st v = Some st' -> exclusive st'.
Proof.
  intros HX E. apply advance_move in E as (th0 & th0' & E1 & E2 & M). intros i t u th th' Et Eu N W. rewrite E2, (nth_error_set _ _ _ _ _ _ E1) in Et. rewrite E2, (nth_error_set _ _ _ _ _ _ E1) in Eu.
  assert (Rd : reads_now i th0' = true -> forall w x, nth_error (c_threads st) w = Some x -> w <> v -> writes_now i x = false).
  { intros Hr w x Ew Nw. destruct M; unfold reads_now in Hr; cbn [t_phase] in Hr; try discriminate; apply Nat.eqb_eq in Hr; subst; unfold may_read in H; apply andb_prop in H as [H _]; apply Bool.negb_true_iff in H; eapply existsb_nth; eauto. }
  assert (Wr : writes_now i th0' = true -> forall w x, nth_error (c_threads st) w = Some x -> w <> v -> reads_now i x = false /\ writes_now i x = false).
  { intros Hr w x Ew Nw. destruct M; unfold writes_now in Hr; cbn [t_phase] in Hr; try discriminate; apply Nat.eqb_eq in Hr; subst; unfold may_write in H; apply andb_prop in H as [H H']; apply Bool.negb_true_iff in H, H'; split; eapply existsb_nth; eauto. }
  destruct (Nat.eqb_spec t v) as [Ev|Nv].
  - injection Et as <-. subst t. destruct (Nat.eqb_spec u v); [congruence|]. eapply Wr; eauto.
  - destruct (Nat.eqb_spec u v) as [Ev|Nu]; [|eapply (HX i t u); eauto]. injection Eu as <-. subst u.
    split.
    + destruct (reads_now i th0') eqn:Er; [|reflexivity]. rewrite (Rd eq_refl t th Et N) in W. discriminate.
    + destruct (writes_now i th0') eqn:Ew; [|reflexivity]. destruct (Wr eq_refl t th Et N) as [_ Hw]. congruence.
Qed.

Lemma run_exclusive pref codes cells sched st : conc_run pref (conc_start codes cells) sched = Some st -> exclusive st.
Proof.
  intros R. eapply (run_inv pref exclusive); [intros; eapply step_exclusive; eauto| |exact R].
  intros i t u th th' Et _ _ W. cbn [c_threads conc_start] in Et. rewrite nth_error_map in Et. destruct (nth_error codes t); [|discriminate]. injection Et as <-. discriminate.
Qed.

End Conc.
