(** * ParFacts: the row machine of [bmm_raw] *)
From Coq Require Import Permutation.
From Verif Require Import Base ModelIndex ModelTensor ModelOps ModelJvp ModelPar Spec Lists IndexFacts FuelFacts.

Lemma star_ind_inv {S} (step : S -> S -> Prop) (P : S -> Prop) s t :
  P s -> (forall a b, P a -> step a b -> P b) -> star step s t -> P t.
Proof. intros H0 HS H. induction H; eauto. Qed.
Lemma star_trans {S} (step : S -> S -> Prop) s t u : star step s t -> star step t u -> star step s u.
Proof. intros H1 H2. induction H2 as [u|t v u H2 IH S2]; [exact H1|]. exact (star_step _ _ _ _ (IH H1) S2). Qed.
Lemma star_one {S} (step : S -> S -> Prop) s t : step s t -> star step s t.
Proof. intros H. eapply star_step; [apply star_refl|exact H]. Qed.
Lemma star_first {S} (step : S -> S -> Prop) s t u : step s t -> star step t u -> star step s u.
Proof. intros H. apply star_trans, star_one, H. Qed.

Lemma NoDup_app_r A (a b : list A) : NoDup (a ++ b) -> NoDup b.
Proof. induction a as [|x a IH]; intros N; [exact N|]. inversion N; subst. auto. Qed.
Lemma NoDup_app_l A (a b : list A) : NoDup (a ++ b) -> NoDup a.
Proof. induction a as [|x a IH]; intros N; [constructor|]. inversion N; subst. constructor; [rewrite in_app_iff in *; tauto|auto]. Qed.

Section Row.
Context {T : Type} {NT : Num T}.
Variables (lt rt : tlike T) (li : list nat) (kdim m : nat).
Local Notation cs := (cell_step lt rt li).

(** What a task computes *)
Definition cell_value (j : nat) : outcome T := foldM (cs j) (seq 0 kdim) n_zero.

Definition row_inv (st : row_state T) : Prop :=
  length (r_out st) = m /\
  (forall c, In c (r_live st) -> c_next c <= kdim /\ foldM (cs (c_col c)) (seq 0 (c_next c)) n_zero = Ret (c_val c)) /\
  (forall j, In j (r_log st) -> cell_value j = Ret (nth j (r_out st) n_zero)) /\
  exists lost, Permutation (r_todo st ++ map c_col (r_live st) ++ r_log st ++ lost) (seq 0 m) /\
    (forall j, In j lost -> exists p, cell_value j = Panic p) /\ (r_bad st = None <-> lost = []).

Lemma cell_panics j k val p : k < kdim -> foldM (cs j) (seq 0 k) n_zero = Ret val -> cs j val k = Panic p -> exists p', cell_value j = Panic p'.
Proof.
  intros Hk E1 E2. exists p. unfold cell_value. replace kdim with (k + S (kdim - S k)) by lia. rewrite seq_app, foldM_app, E1. cbn [bind seq foldM plus]. rewrite E2. reflexivity.
Qed.

Lemma row_inv_init : row_inv (row_init m).
Proof.
  split; [apply repeat_length|]. split; [intros c []|]. split; [intros j []|]. exists []. cbn. rewrite app_nil_r. split; [apply Permutation_refl|]. split; [intros j []|]. split; reflexivity.
Qed.

Lemma row_inv_step st st' : row_inv st -> row_step lt rt li kdim st st' -> row_inv st'.
Proof.
  intros (HL & HV & HW & lost & HP & HB & HE) H. destruct H; unfold row_inv; cbn [r_todo r_live r_out r_bad r_log] in *.
  - split; [exact HL|]. split; [|split; [exact HW|]].
    + intros c Hc. apply in_app_or in Hc as [Hc|[<-|[]]]; [auto|]. cbn. split; [lia|reflexivity].
    + exists lost. split; [|auto]. rewrite map_app. cbn [map c_col]. rewrite <- HP. rewrite <- app_assoc. cbn [app]. symmetry. 
      rewrite (Permutation_middle todo). apply Permutation_app_head. apply Permutation_middle.
  - split; [rewrite list_set_length; exact HL|]. split; [exact HV|]. split.
    + assert (Hj : j < m) by (assert (I : In j (seq 0 m)) by (rewrite <- HP; cbn; auto); apply in_seq in I; lia).
      intros i Hi. apply in_app_or in Hi as [Hi|[<-|[]]].
      * destruct (Nat.eq_dec j i) as [->|N]; [|rewrite list_set_nth_neq by auto; auto]. rewrite list_set_nth_eq by lia. unfold cell_value. rewrite H. reflexivity.
      * rewrite list_set_nth_eq by lia. unfold cell_value. rewrite H. reflexivity.
    + exists lost. split; [|auto]. rewrite <- HP. cbn [app]. rewrite <- !app_assoc. cbn [app]. symmetry. rewrite !app_assoc. apply Permutation_middle.
  - split; [exact HL|]. split; [|split; [exact HW|]].
    + intros c Hc. apply in_app_or in Hc as [Hc|[<-|Hc]]; [apply HV; apply in_or_app; auto| |apply HV; apply in_or_app; cbn; auto].
      cbn [c_next c_col c_val]. split; [lia|]. destruct (HV (mkCell j k val)) as [_ E]; [apply in_or_app; cbn; auto|]. cbn [c_next c_col c_val] in E.
      replace (S k) with (k + 1) by lia. rewrite seq_app, foldM_app, E. cbn [bind seq foldM plus]. rewrite H0. reflexivity.
    + exists lost. split; [|auto]. rewrite map_app in *. exact HP.
  - destruct (HV (mkCell j k val)) as [_ E]; [apply in_or_app; cbn; auto|]. cbn [c_next c_col c_val] in E.
    split; [exact HL|]. split; [|split; [exact HW|]].
    + intros c Hc. apply HV. apply in_app_or in Hc as [Hc|Hc]; apply in_or_app; cbn; auto.
    + exists (j :: lost). split.
      * rewrite map_app in *. cbn [map c_col] in HP. rewrite <- HP. rewrite <- !app_assoc. apply Permutation_app_head. apply Permutation_app_head. cbn [app]. symmetry.
        rewrite !app_assoc. apply Permutation_middle.
      * split; [intros i [<-|Hi]; [eapply cell_panics; eauto|auto]|]. unfold first_panic. destruct bad; split; discriminate.
  - assert (Hj : j < m) by (assert (I : In j (seq 0 m)) by (rewrite <- HP; rewrite map_app; cbn [map c_col]; rewrite !in_app_iff; cbn; auto); apply in_seq in I; lia).
    destruct (HV (mkCell j kdim val)) as [_ E]; [apply in_or_app; cbn; auto|]. cbn [c_next c_col c_val] in E.
    split; [rewrite list_set_length; exact HL|]. split; [|split].
    + intros c Hc. apply HV. apply in_app_or in Hc as [Hc|Hc]; apply in_or_app; cbn; auto.
    + intros i Hi. destruct (Nat.eq_dec j i) as [->|N]; [rewrite list_set_nth_eq by lia; exact E|]. rewrite list_set_nth_neq by auto. apply HW. apply in_app_or in Hi as [Hi|[->|[]]]; [auto|congruence].
    + exists lost. split; [|auto]. rewrite map_app in *. cbn [map c_col] in HP. rewrite <- HP. rewrite <- !app_assoc. do 2 apply Permutation_app_head. cbn [app]. symmetry.
      rewrite !app_assoc. etransitivity; [apply Permutation_middle|]. rewrite <- !app_assoc. apply Permutation_refl.
Qed.

Lemma row_inv_reach st : star (row_step lt rt li kdim) (row_init m) st -> row_inv st.
Proof. apply star_ind_inv; [apply row_inv_init|apply row_inv_step]. Qed.

(** Every step makes progress towards the end. *)
Definition row_measure (st : row_state T) : nat :=
  (kdim + 3) * length (r_todo st) + list_sum (map (fun c => S (kdim - c_next c)) (r_live st)).
Lemma row_measure_step st st' : row_step lt rt li kdim st st' -> row_measure st' < row_measure st.
Proof.
  intros H. destruct H; unfold row_measure; cbn [r_todo r_live length]; rewrite ?map_app; cbn [map c_next]; rewrite ?list_sum_app;
  repeat match goal with |- context [list_sum (?a :: ?l)] => change (list_sum (a :: l)) with (a + list_sum l) end; change (list_sum []) with 0;
  repeat match goal with |- context [list_sum ?l] => generalize (list_sum l); intros end; nia.
Qed.

Lemma nf_cell_step j v k : cs j v k <> NoFuel.
Proof.
  apply nf_bind; [apply nf_vset|]. intros ri _. apply nf_bind; [apply nf_vset|]. intros x _. apply nf_bind; [apply nf_vset|]. intros y _.
  apply nf_bind; [apply nf_tl_get_unwrap|]. intros z _. apply nf_bind; [apply nf_tl_get_unwrap|]. discriminate.
Qed.

Lemma row_progress st : row_inv st -> (r_todo st = [] /\ r_live st = []) \/ exists st', row_step lt rt li kdim st st'.
Proof.
  intros (HL & HV & HW & _). destruct st as [todo live out bad log]. cbn in *. destruct todo as [|j todo].
  - destruct live as [|[j k val] live]; [auto|]. right. destruct (HV (mkCell j k val) ltac:(cbn; auto)) as [Hk _]. cbn in Hk.
    destruct (Nat.eq_dec k kdim) as [->|N]; [eexists; apply (row_write _ _ _ _ j val []) |].
    destruct (cs j val k) as [v|p|] eqn:E; [eexists; eapply (row_iterate _ _ _ _ j k val v []); eauto; lia|eexists; eapply (row_panic _ _ _ _ j k val p []); eauto; lia|].
    exfalso. eapply nf_cell_step; eauto.
  - right. destruct (Nat.eq_dec kdim 0); eexists; [apply row_inline; auto|apply row_spawn; lia].
Qed.

Lemma row_ends st : row_inv st -> exists st', star (row_step lt rt li kdim) st st' /\ r_todo st' = [] /\ r_live st' = [].
Proof.
  remember (row_measure st) as n eqn:En. revert st En. induction n as [n IH] using lt_wf_ind. intros st En HI.
  destruct (row_progress st HI) as [[A B]|[st' S]]; [exists st; split; [constructor|auto]|].
  destruct (IH (row_measure st') ltac:(subst; apply row_measure_step; auto) st' eq_refl ltac:(eapply row_inv_step; eauto)) as (u & U & A & B).
  exists u. split; [eapply star_first; eauto|auto].
Qed.

(** The end of the scope: what the tasks in sequence give *)
Lemma mapM_seq_ret (f : nat -> outcome T) n : forall a l, length l = n -> (forall j, j < n -> f (a + j) = Ret (nth j l n_zero)) -> mapM f (seq a n) = Ret l.
Proof.
  induction n as [|n IH]; intros a [|x l] L H; try discriminate; [reflexivity|]. cbn [seq mapM].
  pose proof (H 0 ltac:(lia)) as H0. rewrite Nat.add_0_r in H0. rewrite H0. cbn [bind nth].
  rewrite (IH (S a) l); [reflexivity|cbn in L; lia|]. intros j Hj. specialize (H (S j) ltac:(lia)). cbn [nth] in H. rewrite <- H. f_equal. lia.
Qed.
Lemma mapM_panic (f : nat -> outcome T) l j p : (forall i, f i <> NoFuel) -> In j l -> f j = Panic p -> exists q, mapM f l = Panic q.
Proof.
  intros HN Hj E. induction l as [|i l IH]; [destruct Hj|]. cbn [mapM]. destruct (f i) as [x|q|] eqn:Ei; [|exists q; reflexivity|exfalso; eapply HN; eauto]. cbn [bind].
  destruct Hj as [->|Hj]; [congruence|]. destruct (IH Hj) as [q Eq]. rewrite Eq. exists q. reflexivity.
Qed.

Lemma nf_cell_value j : cell_value j <> NoFuel.
Proof. apply nf_foldM. intros. apply nf_cell_step. Qed.

Lemma row_result_seq st : row_inv st -> r_todo st = [] -> r_live st = [] ->
  match mapM cell_value (seq 0 m) with
  | Ret row => row_result st = Ret row /\ Permutation (r_log st) (seq 0 m)
  | Panic _ => exists p, row_result st = Panic p
  | NoFuel => False
  end.
Proof.
  intros (HL & HV & HW & lost & HP & HB & HE) E1 E2. rewrite E1, E2 in HP. cbn [app map] in HP. unfold row_result.
  destruct lost as [|j lost].
  - rewrite app_nil_r in HP. assert (EB : r_bad st = None) by (apply HE; reflexivity). rewrite EB.
    rewrite (mapM_seq_ret cell_value m 0 (r_out st) HL); [auto|]. intros j Hj. apply HW. eapply Permutation_in; [symmetry; exact HP|]. apply in_seq. lia.
  - destruct (HB j ltac:(cbn; auto)) as [p Ep]. destruct (mapM_panic cell_value (seq 0 m) j p nf_cell_value) as [q Eq]; auto.
    + eapply Permutation_in; [exact HP|]. apply in_or_app. cbn. auto.
    + rewrite Eq. destruct (r_bad st) as [b|]; [eauto|]. destruct HE as [HE _]. discriminate (HE eq_refl).
Qed.

Lemma row_log_nodup st : row_inv st -> NoDup (r_log st).
Proof.
  intros (_ & _ & _ & lost & HP & _). assert (N : NoDup (r_todo st ++ map c_col (r_live st) ++ r_log st ++ lost)) by (eapply Permutation_NoDup; [symmetry; exact HP|apply seq_NoDup]).
  apply NoDup_app_r, NoDup_app_r, NoDup_app_l in N. exact N.
Qed.

End Row.

Lemma cell_value_bmm_cell {T} {NT : Num T} (lt rt : tlike T) li j kdim r1 : tl_shape rt = [kdim; r1] -> bmm_cell lt rt li j = cell_value lt rt li kdim j.
Proof.
  intros E. unfold bmm_cell, cell_value, cell_step. rewrite E. cbn [vset length Nat.ltb Nat.leb bind vindex nth_error]. reflexivity.
Qed.

(** The tasks one after the other *)
Section Sequential.
Context {T : Type} {NT : Num T}.
Variables (lt rt : tlike T) (li : list nat) (kdim : nat).
Local Notation cs := (cell_step lt rt li).
Local Notation steps := (star (row_step lt rt li kdim)).

Lemma run_cell n : forall k j v todo out bad log, k + n = kdim ->
  match foldM (cs j) (seq k n) v with
  | Ret w => steps (mkRow todo [mkCell j k v] out bad log) (mkRow todo [] (list_set out j w) bad (log ++ [j]))
  | Panic p => steps (mkRow todo [mkCell j k v] out bad log) (mkRow todo [] out (first_panic bad p) log)
  | NoFuel => True
  end.
Proof.
  induction n as [|n IH]; intros k j v todo out bad log Hk.
  - cbn [seq foldM]. rewrite Nat.add_0_r in Hk. subst k. apply star_one. exact (row_write lt rt li kdim j v [] [] todo out bad log).
  - cbn [seq foldM]. destruct (cs j v k) as [w|p|] eqn:E; cbn [bind]; [| |exact I].
    + specialize (IH (S k) j w todo out bad log ltac:(lia)).
      assert (S1 : row_step lt rt li kdim (mkRow todo [mkCell j k v] out bad log) (mkRow todo [mkCell j (S k) w] out bad log)) by (apply (row_iterate lt rt li kdim j k v w [] []); [lia|exact E]).
      destruct (foldM (cs j) (seq (S k) n) w); [eapply star_first; eauto|eapply star_first; eauto|exact I].
    + apply star_one. apply (row_panic lt rt li kdim j k v p [] []); [lia|exact E].
Qed.

Lemma run_one j todo out bad log :
  match cell_value lt rt li kdim j with
  | Ret w => steps (mkRow (j :: todo) [] out bad log) (mkRow todo [] (list_set out j w) bad (log ++ [j]))
  | Panic p => steps (mkRow (j :: todo) [] out bad log) (mkRow todo [] out (first_panic bad p) log)
  | NoFuel => True
  end.
Proof.
  destruct (Nat.eq_dec kdim 0) as [K|K].
  - unfold cell_value. assert (E : seq 0 kdim = []) by (rewrite K; reflexivity). rewrite E. cbn [foldM]. apply star_one, row_inline. exact K.
  - pose proof (run_cell kdim 0 j n_zero todo out bad log eq_refl) as H. fold (cell_value lt rt li kdim j) in H.
    assert (S1 : row_step lt rt li kdim (mkRow (j :: todo) [] out bad log) (mkRow todo [mkCell j 0 n_zero] out bad log)) by (apply (row_spawn lt rt li kdim j todo []); lia).
    destruct (cell_value lt rt li kdim j); [eapply star_first; eauto|eapply star_first; eauto|exact I].
Qed.

Lemma run_bad n : forall a out p log, exists out' log', steps (mkRow (seq a n) [] out (Some p) log) (mkRow [] [] out' (Some p) log').
Proof.
  induction n as [|n IH]; intros a out p log; [exists out, log; apply star_refl|]. cbn [seq]. pose proof (run_one a (seq (S a) n) out (Some p) log) as H.
  destruct (cell_value lt rt li kdim a) as [w|q|] eqn:E; [| |exfalso; eapply nf_cell_value; eauto].
  - destruct (IH (S a) (list_set out a w) p (log ++ [a])) as (o & l & S). exists o, l. eapply star_trans; eauto.
  - destruct (IH (S a) out p log) as (o & l & S). exists o, l. eapply star_trans; eauto.
Qed.

Lemma run_seq n : forall a out log, length out = a + n ->
  match mapM (cell_value lt rt li kdim) (seq a n) with
  | Ret r => exists log', steps (mkRow (seq a n) [] out None log) (mkRow [] [] (firstn a out ++ r) None log')
  | Panic p => exists out' log', steps (mkRow (seq a n) [] out None log) (mkRow [] [] out' (Some p) log')
  | NoFuel => True
  end.
Proof.
  induction n as [|n IH]; intros a out log L.
  - cbn. exists log. rewrite app_nil_r, firstn_all2 by lia. apply star_refl.
  - cbn [seq mapM]. pose proof (run_one a (seq (S a) n) out None log) as H. destruct (cell_value lt rt li kdim a) as [w|q|] eqn:E; [| |exact I]; cbn [bind].
    + specialize (IH (S a) (list_set out a w) (log ++ [a]) ltac:(rewrite list_set_length; lia)).
      destruct (mapM (cell_value lt rt li kdim) (seq (S a) n)) as [r|p|]; cbn [bind]; [| |exact I].
      * destruct IH as (log' & Q). exists log'. assert (E2 : firstn (S a) (list_set out a w) ++ r = firstn a out ++ w :: r).
        { clear - L. revert out L. induction a as [|a IHa]; intros [|x out] L; cbn in L; try lia; cbn; [reflexivity|]. f_equal. apply IHa. lia. }
        rewrite E2 in Q. eapply star_trans; eauto.
      * destruct IH as (o & l & S). exists o, l. eapply star_trans; eauto.
    + cbn [first_panic] in H. destruct (run_bad n (S a) out q log) as (o & l & S). exists o, l. eapply star_trans; eauto.
Qed.

Lemma seq_row_runs m r1 : tl_shape rt = [kdim; r1] -> row_runs lt rt li kdim m (mapM (bmm_cell lt rt li) (seq 0 m)).
Proof.
  intros ES. assert (EM : mapM (bmm_cell lt rt li) (seq 0 m) = mapM (cell_value lt rt li kdim) (seq 0 m)).
  { induction (seq 0 m) as [|j l IH]; [reflexivity|]. cbn [mapM]. rewrite (cell_value_bmm_cell _ _ _ _ _ _ ES), IH. reflexivity. }
  rewrite EM. pose proof (run_seq m 0 (repeat n_zero m) [] ltac:(rewrite repeat_length; lia)) as H.
  destruct (mapM (cell_value lt rt li kdim) (seq 0 m)) as [r|p|] eqn:E.
  - destruct H as (log' & S). eexists. split; [exact S|]. repeat split.
  - destruct H as (o & l & S). eexists. split; [exact S|]. repeat split.
  - exfalso. revert E. apply nf_mapM. intros. apply nf_cell_value.
Qed.
End Sequential.
