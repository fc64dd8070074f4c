(** * ChanFacts: the writers and receivers of [bmm_jvp] *)
From Coq Require Import Permutation.
From Verif Require Import Base ModelIndex ModelTensor ModelOps ModelJvp ModelPar Spec Lists IndexFacts JvpFacts ParFacts.

Section Chan.
Context {T : Type} {NT : Num T}.
Variables (tasks : list (list (msg T * msg T))) (arr : side -> list T).

Lemma side_eqb_refl s : side_eqb s s = true.
Proof. destruct s; reflexivity. Qed.
Lemma side_eqb_spec s s' : reflect (s = s') (side_eqb s s').
Proof. destruct s, s'; cbn; constructor; congruence. Qed.
Lemma upd_same A (f : side -> A) s x : upd_side f s x s = x.
Proof. unfold upd_side. rewrite side_eqb_refl. reflexivity. Qed.
Lemma upd_other A (f : side -> A) s s' x : s <> s' -> upd_side f s x s' = f s'.
Proof. unfold upd_side. intros H. destruct (side_eqb_spec s s'); congruence. Qed.

(** The messages for side [s] *)
Definition side_msgs (s : side) (ms : list (side * msg T)) : list (msg T) :=
  flat_map (fun p => if side_eqb s (fst p) then [snd p] else []) ms.
Definition all_msgs (s : side) : list (msg T) :=
  match s with SLeft => map fst (concat tasks) | SRight => map snd (concat tasks) end.
Definition job_msgs (s : side) (j : job T) : list (msg T) := match j with JWrite ms => side_msgs s ms | _ => [] end.
(** The segments whose receiver this job is, or has still to start *)
Definition job_ids (s : side) (n : nat) (j : job T) : list nat :=
  match j with
  | JWrite _ => []
  | JStart s' next => if side_eqb s s' then seq next (n - next) else []
  | JRecv s' c => if side_eqb s s' then [c] else []
  end.
Definition nsegs (s : side) : nat := length (split_new (arr s)).

(** Jobs, counting those that the calling thread has still to spawn *)
Definition act_job (a : action T) : list (job T) := match a with AWrite ms => [JWrite ms] | ADrop _ => [] | AStart s => [JStart s 0] end.
Definition jobs (st : machine T) : list (job T) := flat_map act_job (m_main st) ++ m_injected st ++ m_local st ++ m_running st.

Definition queued (ch : list (option (list (msg T)))) : list (msg T) := flat_map (fun o => match o with Some q => q | None => [] end) ch.
Fixpoint closed (k : nat) (ch : list (option (list (msg T)))) : list nat :=
  match ch with [] => [] | None :: t => k :: closed (S k) t | Some _ :: t => closed (S k) t end.

Lemma closed_app ch1 : forall k ch2, closed k (ch1 ++ ch2) = closed k ch1 ++ closed (k + length ch1) ch2.
Proof.
  induction ch1 as [|[q|] ch1 IH]; intros k ch2; cbn [app closed length].
  - f_equal. lia.
  - rewrite IH. do 2 f_equal. lia.
  - cbn. rewrite IH. do 3 f_equal. lia.
Qed.
Lemma closed_in ch : forall k c, In c (closed k ch) <-> exists i, c = k + i /\ nth_error ch i = Some None.
Proof.
  induction ch as [|o ch IH]; intros k c.
  - split; [intros []|intros ([|i] & _ & E); discriminate E].
  - destruct o as [q|]; cbn [closed].
    + rewrite IH. split.
      * intros (i & -> & E). exists (S i). split; [lia|exact E].
      * intros ([|i] & -> & E); [discriminate E|]. exists i. split; [lia|exact E].
    + cbn [In]. rewrite IH. split.
      * intros [<-|(i & -> & E)]; [exists 0; split; [lia|reflexivity]|exists (S i); split; [lia|exact E]].
      * intros ([|i] & -> & E); [left; lia|right; exists i; split; [lia|exact E]].
Qed.

(** ** Stage 1: the calling thread *)
Definition is_drop (s : side) (a : action T) : bool := match a with ADrop s' => side_eqb s s' | _ => false end.
Definition is_recv (j : job T) : Prop := match j with JRecv _ _ => True | _ => False end.
Definition tail0 : list (action T) := [ADrop SRight; AStart SRight; ADrop SLeft; AStart SLeft].
Definition main_inv (st : machine T) : Prop :=
  Forall is_recv (m_local st) /\
  exists ts pre tail, m_main st = map AWrite ts ++ tail /\ pre ++ tail = tail0 /\ (ts = [] \/ pre = []) /\
    forall s, m_held st s = existsb (is_drop s) tail.

Lemma main_inv_init : main_inv (par_init tasks arr).
Proof.
  split; [constructor|]. exists (map writer_msgs tasks), [], tail0. rewrite map_map. cbn. repeat split; auto.
  intros [|]; reflexivity.
Qed.

Lemma suffix_cases pre tail : pre ++ tail = tail0 ->
  tail = tail0 \/ tail = [AStart SRight; ADrop SLeft; AStart SLeft] \/ tail = [ADrop SLeft; AStart SLeft] \/ tail = [AStart SLeft] \/ tail = [].
Proof.
  intros E. destruct pre as [|? [|? [|? [|? [|? ?]]]]]; cbn in E; inversion E; subst; auto 6.
Qed.

Lemma main_inv_step w f st st' : main_inv st -> par_step w f (Some st) (Some st') -> main_inv st'.
Proof.
  intros (HL & ts & pr & tail & E1 & E2 & E3 & E4) Q. inversion Q; subst; unfold main_inv; cbn [m_main m_injected m_local m_running m_chan m_segs m_held] in *;
    (split; [try assumption|try (exists ts, pr, tail; repeat split; auto; fail)]).
  - destruct ts as [|t ts].
    + exfalso. cbn in E1. subst. apply suffix_cases in E2. unfold tail0 in E2. intuition discriminate.
    + cbn in E1. injection E1 as -> ->. destruct E3 as [E3| ->]; [discriminate|]. exists ts, [], tail. auto.
  - destruct ts as [|t ts]; [|discriminate E1]. cbn in E1. subst tail. exists [], (pr ++ [ADrop s]), main. cbn.
    rewrite <- app_assoc. repeat split; auto. intros s'. specialize (E4 s'). apply suffix_cases in E2. unfold tail0 in E2.
    destruct (side_eqb_spec s s') as [<-|N].
    + rewrite upd_same. destruct E2 as [E|[E|[E|[E|E]]]]; inversion E; subst; reflexivity.
    + rewrite upd_other by auto. rewrite E4. cbn. destruct (side_eqb_spec s' s); [congruence|reflexivity].
  - destruct ts as [|t ts]; [|discriminate E1]. cbn in E1. subst tail. exists [], (pr ++ [AStart s]), main. cbn.
    rewrite <- app_assoc. repeat split; auto.
  - apply Forall_app in HL as [K1 K2]. inversion K2; subst. apply Forall_app; auto.
  - apply Forall_app; split; auto. repeat constructor.
Qed.

Lemma writers_jobs st s : main_inv st -> alive st s = false -> forall j, In j (jobs st) -> is_writer j = false.
Proof.
  intros (HL & ts & pr & tail & E1 & E2 & E3 & E4) E j Hj. unfold alive in E. apply orb_false_iff in E as [EH EW].
  rewrite E4 in EH. assert (ts = []).
  { destruct E3 as [E3| ->]; [exact E3|]. cbn in E2. subst tail. destruct s; discriminate EH. }
  subst ts. cbn in E1. unfold jobs in Hj. rewrite E1, !in_app_iff in Hj. destruct Hj as [Hj|[Hj|[Hj|Hj]]].
  - apply suffix_cases in E2. unfold tail0 in E2. destruct E2 as [E|[E|[E|[E|E]]]]; rewrite E in Hj; cbn in Hj; intuition (subst; reflexivity).
  - destruct (is_writer j) eqn:W; [|reflexivity]. exfalso.
    assert (X : existsb is_writer (m_injected st ++ m_running st) = true) by (apply existsb_exists; exists j; rewrite in_app_iff; auto). congruence.
  - rewrite Forall_forall in HL. apply HL in Hj. destruct j; [destruct Hj|reflexivity..].
  - destruct (is_writer j) eqn:W; [|reflexivity]. exfalso.
    assert (X : existsb is_writer (m_injected st ++ m_running st) = true) by (apply existsb_exists; exists j; rewrite in_app_iff; auto). congruence.
Qed.

(** ** Stage 2: a step, seen as a change of the jobs, channels and segments *)
Definition chans : Type := side -> list (option (list (msg T))).
Definition segments : Type := side -> list (list T).
Inductive vstep : list (job T) -> chans -> segments -> list (job T) -> chans -> segments -> Prop :=
| v_same V V' ch sg : Permutation V V' -> vstep V ch sg V' ch sg
| v_send V V' R ch sg s m ms c q : Permutation V (JWrite ((s, m) :: ms) :: R) -> Permutation V' (JWrite ms :: R) ->
    writer_channel (length (ch s)) (fst m) = Ret c -> nth_error (ch s) c = Some (Some q) ->
    vstep V ch sg V' (upd_side ch s (list_set (ch s) c (Some (q ++ [m])))) sg
| v_written V V' ch sg : Permutation V (JWrite [] :: V') -> vstep V ch sg V' ch sg
| v_start_one V V' R ch sg s next : Permutation V (JStart s next :: R) -> Permutation V' (JRecv s next :: JStart s (S next) :: R) ->
    next < length (sg s) -> vstep V ch sg V' ch sg
| v_started V V' ch sg s next : Permutation V (JStart s next :: V') -> length (sg s) <= next -> vstep V ch sg V' ch sg
| v_recv V V' ch sg s c m q slice slice' : Permutation V V' -> In (JRecv s c) V ->
    nth_error (ch s) c = Some (Some (m :: q)) -> nth_error (sg s) c = Some slice -> receive c slice m = Ret slice' ->
    vstep V ch sg V' (upd_side ch s (list_set (ch s) c (Some q))) (upd_side sg s (list_set (sg s) c slice'))
| v_received V V' ch sg s c : Permutation V (JRecv s c :: V') -> nth_error (ch s) c = Some (Some []) ->
    (forall j, In j V -> is_writer j = false) ->
    vstep V ch sg V' (upd_side ch s (list_set (ch s) c None)) sg.

Lemma perm_take A (u v w x : list A) (j : A) : Permutation (u ++ v ++ w ++ x ++ j :: nil) (j :: u ++ v ++ w ++ x).
Proof. rewrite !app_assoc. symmetry. apply Permutation_cons_append. Qed.

Lemma step_vstep w f st st' : main_inv st -> par_step w f (Some st) (Some st') ->
  vstep (jobs st) (m_chan st) (m_segs st) (jobs st') (m_chan st') (m_segs st').
Proof.
  intros HI Q. inversion Q; subst; unfold jobs; cbn [m_main m_injected m_local m_running m_chan m_segs m_held flat_map act_job app].
  - apply v_same. rewrite <- app_assoc. cbn [app]. rewrite <- (Permutation_middle inj). apply Permutation_middle.
  - apply v_same. reflexivity.
  - apply v_same. rewrite <- app_assoc. cbn [app]. rewrite <- (Permutation_middle inj). apply Permutation_middle.
  - apply v_same. apply Permutation_app_head. rewrite <- !app_assoc. apply Permutation_app_head. cbn [app].
    rewrite !app_assoc. apply Permutation_cons_append.
  - apply v_same. do 2 apply Permutation_app_head. rewrite <- !app_assoc. apply Permutation_app_head. cbn [app].
    rewrite !app_assoc. apply Permutation_cons_append.
  - eapply (v_send _ _ (flat_map act_job main ++ inj ++ loc ++ pre ++ post)); eauto;
      rewrite !app_assoc; symmetry; apply Permutation_middle.
  - apply v_written. rewrite !app_assoc. symmetry. apply Permutation_middle.
  - eapply (v_start_one _ _ (flat_map act_job main ++ inj ++ loc ++ pre ++ post)); eauto.
    + rewrite !app_assoc. symmetry. apply Permutation_middle.
    + rewrite <- (app_assoc loc). cbn [app]. rewrite !app_assoc. rewrite <- (Permutation_middle _ _ (JRecv s next)). constructor.
      rewrite !app_assoc. symmetry. apply Permutation_middle.
  - eapply v_started; eauto. rewrite !app_assoc. symmetry. apply Permutation_middle.
  - eapply v_recv; eauto. rewrite !in_app_iff. cbn. auto 6.
  - eapply v_received; eauto.
    + rewrite !app_assoc. symmetry. apply Permutation_middle.
    + intros j Hj. eapply writers_jobs; eauto.
Qed.

(** ** Stage 3: the invariant *)
Variable bound : forall s m, In m (all_msgs s) -> fst m < length (arr s).

Definition side_inv (V : list (job T)) (s : side) (ch : list (option (list (msg T)))) (sg : list (list T)) : Prop :=
  length ch = nsegs s /\
  (exists D a, foldM deliver D (split_new (arr s)) = Ret sg /\ sg = split_new a /\ length a = length (arr s) /\
     Permutation (D ++ queued ch ++ flat_map (job_msgs s) V) (all_msgs s)) /\
  (forall c q m, nth_error ch c = Some (Some q) -> In m q -> writer_channel (nsegs s) (fst m) = Ret c) /\
  Permutation (flat_map (job_ids s (nsegs s)) V ++ closed 0 ch) (seq 0 (nsegs s)) /\
  (forall c, nth_error ch c = Some None -> forall j, In j V -> is_writer j = false).

Lemma nsegs_len (a : list T) s : length a = length (arr s) -> length (split_new a) = nsegs s.
Proof.
  unfold nsegs, split_new, rchunks. intros E. rewrite E. generalize (length (arr s)) as f. intros f. revert a E. generalize (arr s) as b.
  induction f as [|f IH]; intros b a E; cbn; [reflexivity|].
  destruct a as [|x a], b as [|y b]; try discriminate E; [reflexivity|]. cbn [length]. f_equal. injection E as E.
  apply IH. rewrite !firstn_length. cbn [length]. lia.
Qed.

Lemma writer_channel_ok s m : In m (all_msgs s) -> exists c, writer_channel (nsegs s) (fst m) = Ret c /\ c < nsegs s.
Proof.
  intros H. apply bound in H. pose proof (deliver_ok (arr s) (fst m) (snd m) H) as E. unfold deliver in E. cbn [fst] in E.
  change (length (split_new (arr s))) with (nsegs s) in E. unfold writer_channel in *.
  destruct (Nat.ltb_spec (Nat.shiftr (fst m) bit_width) (nsegs s)); [|discriminate E]. eauto.
Qed.

(** Delivering a message is what the receiver of its channel does *)
Lemma deliver_receive s a m c : length a = length (arr s) -> fst m < length (arr s) -> writer_channel (nsegs s) (fst m) = Ret c ->
  exists slice slice', nth_error (split_new a) c = Some slice /\ receive c slice m = Ret slice' /\
    deliver (split_new a) m = Ret (list_set (split_new a) c slice') /\
    list_set (split_new a) c slice' = split_new (acc_at a (phi width (length a) (fst m)) (snd m)).
Proof.
  intros EL HB EC. destruct m as [g x]. cbn [fst snd] in *. pose proof (deliver_ok a g x) as E. rewrite EL in E. specialize (E HB). rewrite EL.
  unfold deliver in E |- *. cbn [fst] in *. rewrite nsegs_len with (s := s) in E |- * by auto. rewrite EC in *. cbn [bind] in *.
  unfold vindex in *. destruct (nth_error (split_new a) c) as [slice|] eqn:EN; [|discriminate E]. cbn [bind] in *.
  destruct (receive c slice (g, x)) as [slice'|p|] eqn:ER; try discriminate E. cbn [bind] in *.
  exists slice, slice'. split; [reflexivity|]. split; [exact ER|].
  assert (EV : vset (split_new a) c slice' = Ret (list_set (split_new a) c slice')).
  { apply vset_lt. apply nth_error_Some. congruence. }
  rewrite ?ER; cbn [bind]. rewrite EV in E |- *. split; [reflexivity|]. congruence.
Qed.

Lemma side_inv_perm V V' s ch sg : Permutation V V' -> side_inv V s ch sg -> side_inv V' s ch sg.
Proof.
  intros P (H1 & (D & a & H2 & H3 & H4 & H5) & H6 & H7 & H8). split; [exact H1|]. split; [|split; [exact H6|split]].
  - exists D, a. repeat split; auto. rewrite <- H5. do 2 apply Permutation_app_head. apply Permutation_flat_map. symmetry. exact P.
  - rewrite <- H7. apply Permutation_app_tail. apply Permutation_flat_map. symmetry. exact P.
  - intros c E j Hj. eapply H8; eauto. rewrite P. exact Hj.
Qed.

Lemma seq_le a n : n <= a -> seq a (n - a) = [].
Proof. intros H. replace (n - a) with 0 by lia. reflexivity. Qed.
Lemma seq_lt a n : a < n -> seq a (n - a) = a :: seq (S a) (n - S a).
Proof. intros H. replace (n - a) with (S (n - S a)) by lia. reflexivity. Qed.

Lemma closed_some u v q q' k : closed k (u ++ Some q :: v) = closed k (u ++ Some q' :: v).
Proof. rewrite !closed_app. reflexivity. Qed.
Lemma closed_none u v q : Permutation (closed 0 (u ++ None :: v)) (length u :: closed 0 (u ++ Some q :: v)).
Proof. rewrite !closed_app. cbn. symmetry. apply Permutation_middle. Qed.
Lemma queued_app u v : queued (u ++ v) = queued u ++ queued v.
Proof. apply flat_map_app. Qed.

Definition inv (V : list (job T)) (ch : chans) (sg : segments) : Prop := forall s, side_inv V s (ch s) (sg s).

Lemma inv_step V ch sg V' ch' sg' : inv V ch sg -> vstep V ch sg V' ch' sg' -> inv V' ch' sg'.
Proof.
  intros HI Q s0. pose proof (HI s0) as HS. inversion Q; subst.
  - eapply side_inv_perm; eauto.
  - (* send *)
    apply side_inv_perm with (V := JWrite ms :: R); [symmetry; assumption|].
    apply side_inv_perm with (V' := JWrite ((s, m) :: ms) :: R) in HS; [|assumption].
    destruct HS as (H3 & (D & a & H4 & H5 & H6 & H7) & H8 & H9 & H10).
    destruct (side_eqb_spec s s0) as [<-|N].
    + rewrite upd_same. pose proof (nth_error_split _ _ H2) as (u & v & E & EL). rewrite E in *. subst c. rewrite list_set_mid.
      split; [rewrite app_length in *; exact H3|]. split; [|split; [|split]].
      * exists D, a. repeat split; auto. rewrite <- H7. apply Permutation_app_head. cbn [flat_map job_msgs side_msgs fst snd]. rewrite side_eqb_refl.
        rewrite !queued_app. cbn [queued flat_map app]. rewrite <- !app_assoc. apply Permutation_app_head.
        apply Permutation_app_head. cbn [app]. apply Permutation_middle.
      * intros c q0 m0 E1 Hm0. destruct (Nat.eq_dec c (length u)) as [->|Nc].
        -- rewrite nth_error_app2, Nat.sub_diag in E1 by lia. cbn in E1. injection E1 as <-. rewrite in_app_iff in Hm0. destruct Hm0 as [Hm0|[<-|[]]].
           ++ apply (H8 (length u) q m0); [|exact Hm0]. rewrite nth_error_app2, Nat.sub_diag by lia. reflexivity.
           ++ rewrite <- H3. exact H1.
        -- apply (H8 c q0 m0); [|exact Hm0]. rewrite <- E1. destruct (Nat.lt_ge_cases c (length u)).
           ++ rewrite !nth_error_app1 by auto. reflexivity.
           ++ rewrite !nth_error_app2 by auto. replace (c - length u) with (S (c - length u - 1)) by lia. reflexivity.
      * rewrite (closed_some u v _ q). exact H9.
      * intros c E1. exfalso. assert (E2 : nth_error (u ++ Some q :: v) c = Some None).
        { rewrite <- E1. destruct (Nat.lt_ge_cases c (length u)).
          - rewrite !nth_error_app1 by auto. reflexivity.
          - rewrite !nth_error_app2 in * by auto. destruct (c - length u) eqn:Ec; [discriminate E1|reflexivity]. }
        specialize (H10 c E2 _ (or_introl eq_refl)). discriminate H10.
    + rewrite upd_other by auto. split; [exact H3|]. split; [|split; [exact H8|split; [exact H9|]]].
      * exists D, a. repeat split; auto. rewrite <- H7. do 2 apply Permutation_app_head. cbn [flat_map job_msgs side_msgs fst snd].
        destruct (side_eqb_spec s0 s); [congruence|]. reflexivity.
      * intros c0 E1. exfalso. specialize (H10 c0 E1 _ (or_introl eq_refl)). discriminate H10.
  - apply side_inv_perm with (V' := JWrite [] :: V') in HS; [|assumption].
    destruct HS as (H3 & (D & a & H4 & H5 & H6 & H7) & H8 & H9 & H10). split; [exact H3|]. split; [eauto 8|]. split; [exact H8|]. split; [exact H9|].
    intros c E j Hj. apply (H10 c E j). right. exact Hj.
  - apply side_inv_perm with (V := JRecv s next :: JStart s (S next) :: R); [symmetry; assumption|].
    apply side_inv_perm with (V' := JStart s next :: R) in HS; [|assumption].
    destruct HS as (H3 & (D & a & H4 & H5 & H6 & H7) & H8 & H9 & H10). split; [exact H3|]. split; [eauto 8|]. split; [exact H8|]. split.
    + rewrite <- H9. apply Permutation_app_tail. cbn [flat_map job_ids]. destruct (side_eqb_spec s0 s) as [->|N]; [|reflexivity].
      rewrite H5, (nsegs_len a s H6) in H1. rewrite (seq_lt next) by exact H1. reflexivity.
    + intros c E j [<-|[<-|Hj]]; [reflexivity..|]. apply (H10 c E j). right. exact Hj.
  - apply side_inv_perm with (V' := JStart s next :: V') in HS; [|assumption].
    destruct HS as (H3 & (D & a & H4 & H5 & H6 & H7) & H8 & H9 & H10). split; [exact H3|]. split; [eauto 8|]. split; [exact H8|]. split.
    + rewrite <- H9. cbn [flat_map job_ids]. destruct (side_eqb_spec s0 s) as [->|N]; [|reflexivity].
      rewrite H5, (nsegs_len a s H6) in H0. rewrite (seq_le next) by exact H0. reflexivity.
    + intros c E j Hj. apply (H10 c E j). right. exact Hj.
  - apply side_inv_perm with (V := V); [assumption|]. destruct (side_eqb_spec s s0) as [<-|N]; [|rewrite !upd_other by auto; exact HS].
    rewrite !upd_same. destruct HS as (H5 & (D & a & H6 & H7 & H8 & H9) & H10 & H11 & H12).
    pose proof (nth_error_split _ _ H1) as (u & v & E & EL). rewrite E in *. subst c. rewrite list_set_mid.
    assert (Hm : In m (all_msgs s)).
    { rewrite <- H9. rewrite queued_app. cbn. rewrite !in_app_iff. cbn. auto 6. }
    assert (EC : writer_channel (nsegs s) (fst m) = Ret (length u)).
    { apply (H10 (length u) (m :: q) m); [|left; reflexivity]. rewrite nth_error_app2, Nat.sub_diag by lia. reflexivity. }
    destruct (deliver_receive s a m _ H8 (bound _ _ Hm) EC) as (sl & sl' & X1 & X2 & X3 & X4).
    rewrite H7 in H2. rewrite H2 in X1. injection X1 as <-. rewrite H3 in X2. injection X2 as <-.
    split; [rewrite app_length in *; exact H5|]. split; [|split; [|split]].
    + exists (D ++ [m]), (acc_at a (phi width (length a) (fst m)) (snd m)). split; [|split; [|split]].
      * rewrite foldM_app, H6. cbn [bind foldM]. rewrite H7. rewrite X3. reflexivity.
      * rewrite H7. exact X4.
      * rewrite acc_at_length. exact H8.
      * rewrite <- H9. rewrite <- app_assoc. apply Permutation_app_head. rewrite !queued_app. cbn [queued flat_map app]. rewrite <- !app_assoc. cbn [app]. rewrite <- ?app_assoc. apply Permutation_middle.
    + intros c q0 m0 E1 Hm0. destruct (Nat.eq_dec c (length u)) as [->|Nc].
      * rewrite nth_error_app2, Nat.sub_diag in E1 by lia. cbn in E1. injection E1 as <-.
        apply (H10 (length u) (m :: q) m0); [|right; exact Hm0]. rewrite nth_error_app2, Nat.sub_diag by lia. reflexivity.
      * apply (H10 c q0 m0); [|exact Hm0]. rewrite <- E1. destruct (Nat.lt_ge_cases c (length u)).
        -- rewrite !nth_error_app1 by auto. reflexivity.
        -- rewrite !nth_error_app2 by auto. replace (c - length u) with (S (c - length u - 1)) by lia. reflexivity.
    + rewrite (closed_some u v _ (m :: q)). exact H11.
    + intros c E1. apply (H12 c). rewrite <- E1. destruct (Nat.lt_ge_cases c (length u)).
      * rewrite !nth_error_app1 by auto. reflexivity.
      * rewrite !nth_error_app2 in * by auto. destruct (c - length u) eqn:Ec; [discriminate E1|reflexivity].
  - assert (NW : forall j, In j V' -> is_writer j = false) by (intros j Hj; apply H1; rewrite H; right; exact Hj).
    apply side_inv_perm with (V' := JRecv s c :: V') in HS; [|assumption].
    destruct HS as (H3 & (D & a & H4 & H5 & H6 & H7) & H8 & H9 & H10). cbn [flat_map job_msgs app] in H7. destruct (side_eqb_spec s s0) as [<-|N].
    + rewrite upd_same. pose proof (nth_error_split _ _ H0) as (u & v & E & EL). rewrite E in *. subst c. rewrite list_set_mid.
      split; [rewrite app_length in *; exact H3|]. split; [|split; [|split]].
      * exists D, a. repeat split; auto. rewrite <- H7. rewrite !queued_app. reflexivity.
      * intros c q0 m0 E1 Hm0. apply (H8 c q0 m0); [|exact Hm0]. rewrite <- E1. destruct (Nat.lt_ge_cases c (length u)).
        -- rewrite !nth_error_app1 by auto. reflexivity.
        -- rewrite !nth_error_app2 in * by auto. destruct (c - length u) eqn:Ec; [discriminate E1|reflexivity].
      * rewrite (closed_none u v []). rewrite <- H9. cbn [flat_map job_ids]. rewrite side_eqb_refl. cbn [app]. symmetry. apply Permutation_middle.
      * intros c E1. exact NW.
    + rewrite upd_other by auto. split; [exact H3|]. split; [eauto 8|]. split; [exact H8|]. split.
      * rewrite <- H9. cbn [flat_map job_ids]. destruct (side_eqb_spec s0 s); [congruence|]. reflexivity.
      * intros c' E1. exact NW.
Qed.

Lemma side_msgs_writer s t : side_msgs s (writer_msgs t) = match s with SLeft => map fst t | SRight => map snd t end.
Proof. induction t as [|[l r] t IH]; [destruct s; reflexivity|]. destruct s; cbn in *; rewrite <- IH; reflexivity. Qed.

Lemma flat_map_repeat_nil A B (f : A -> list B) x n : f x = [] -> flat_map f (repeat x n) = [].
Proof. intros E. induction n as [|n IH]; cbn; [reflexivity|]. rewrite E. exact IH. Qed.
Lemma closed_repeat q n : forall k, closed k (repeat (Some q) n) = [].
Proof. induction n as [|n IH]; intros k; cbn; auto. Qed.

Lemma inv_init : inv (jobs (par_init tasks arr)) (m_chan (par_init tasks arr)) (m_segs (par_init tasks arr)).
Proof.
  intros s. unfold par_init, jobs. cbn [m_main m_injected m_local m_running m_chan m_segs]. rewrite !app_nil_r, flat_map_app.
  split; [apply repeat_length|]. split; [|split; [|split]].
  - exists [], (arr s). split; [reflexivity|]. split; [reflexivity|]. split; [reflexivity|]. unfold queued. rewrite flat_map_repeat_nil by reflexivity. cbn [app].
    rewrite flat_map_app. cbn [flat_map act_job app job_msgs]. rewrite app_nil_r.
    assert (E : forall l, flat_map (job_msgs s) (flat_map act_job (map (fun t => AWrite (writer_msgs t)) l)) =
                match s with SLeft => map fst (concat l) | SRight => map snd (concat l) end).
    { induction l as [|t l IH]; [destruct s; reflexivity|]. cbn [map flat_map act_job app job_msgs concat]. rewrite IH, side_msgs_writer. destruct s; rewrite map_app; reflexivity. }
    rewrite E. reflexivity.
  - intros c q m E Hm. apply nth_error_In, repeat_spec in E. injection E as ->. destruct Hm.
  - rewrite closed_repeat, app_nil_r, flat_map_app.
    assert (E : flat_map (job_ids s (nsegs s)) (flat_map act_job (map (fun t => AWrite (writer_msgs t)) tasks)) = []).
    { induction tasks as [|t l IH]; [reflexivity|]. cbn. apply IH. }
    rewrite E. destruct s; cbn; rewrite Nat.sub_0_r, ?app_nil_r; reflexivity.
  - intros c E. apply nth_error_In, repeat_spec in E. discriminate E.
Qed.

(** ** Stage 4: nothing panics *)
Definition good (c : config T) : Prop :=
  match c with Some st => main_inv st /\ inv (jobs st) (m_chan st) (m_segs st) | None => False end.

Lemma recv_ready st s c : inv (jobs st) (m_chan st) (m_segs st) -> In (JRecv s c) (jobs st) ->
  exists q, nth_error (m_chan st s) c = Some (Some q).
Proof.
  intros HI Hj. destruct (HI s) as (H1 & _ & _ & H2 & _).
  assert (Hin : In c (flat_map (job_ids s (nsegs s)) (jobs st))).
  { apply in_flat_map. exists (JRecv s c). split; [exact Hj|]. cbn. rewrite side_eqb_refl. left. reflexivity. }
  assert (Hc : c < nsegs s). { eapply Permutation_in in H2; [|apply in_or_app; left; exact Hin]. apply in_seq in H2. lia. }
  destruct (nth_error (m_chan st s) c) as [[q|]|] eqn:E; [eauto| |].
  - exfalso. assert (N : NoDup (seq 0 (nsegs s))) by apply seq_NoDup. rewrite <- H2 in N.
    assert (Hcl : In c (closed 0 (m_chan st s))) by (apply closed_in; exists c; auto).
    apply in_split in Hin as (u & v & E'). rewrite E' in N. rewrite <- app_assoc in N. apply NoDup_app_r in N. inversion N; subst. rewrite in_app_iff in *. tauto.
  - apply nth_error_None in E. lia.
Qed.

Lemma send_ready st s m ms : inv (jobs st) (m_chan st) (m_segs st) -> In (JWrite ((s, m) :: ms)) (jobs st) ->
  exists c q, writer_channel (length (m_chan st s)) (fst m) = Ret c /\ nth_error (m_chan st s) c = Some (Some q).
Proof.
  intros HI Hj. destruct (HI s) as (H1 & (D & a & H4 & H5 & H6 & H7) & _ & _ & H8).
  assert (Hm : In m (all_msgs s)).
  { rewrite <- H7. rewrite !in_app_iff. right. right. apply in_flat_map. exists (JWrite ((s, m) :: ms)). split; [exact Hj|]. cbn. rewrite side_eqb_refl. left. reflexivity. }
  destruct (writer_channel_ok s m Hm) as (c & EC & Hc). exists c. rewrite H1. 
  destruct (nth_error (m_chan st s) c) as [[q|]|] eqn:E; [eauto| |].
  - exfalso. specialize (H8 c E _ Hj). discriminate H8.
  - apply nth_error_None in E. lia.
Qed.

Lemma recv_works st s c m q : inv (jobs st) (m_chan st) (m_segs st) -> nth_error (m_chan st s) c = Some (Some (m :: q)) ->
  exists slice slice', nth_error (m_segs st s) c = Some slice /\ receive c slice m = Ret slice'.
Proof.
  intros HI E. destruct (HI s) as (H1 & (D & a & H4 & H5 & H6 & H7) & H8 & _).
  assert (EC : writer_channel (nsegs s) (fst m) = Ret c) by (apply (H8 c (m :: q)); [exact E|left; reflexivity]).
  assert (Hm : In m (all_msgs s)).
  { rewrite <- H7. rewrite !in_app_iff. right. left. apply in_flat_map. exists (Some (m :: q)). split; [eapply nth_error_In; eauto|left; reflexivity]. }
  destruct (deliver_receive s a m c H6 (bound _ _ Hm) EC) as (sl & sl' & X1 & X2 & _). rewrite H5. eauto.
Qed.

Lemma in_running st j : In j (m_running st) -> In j (jobs st).
Proof. intros H. unfold jobs. rewrite !in_app_iff. auto. Qed.

Lemma good_step w f c c' : good c -> par_step w f c c' -> good c'.
Proof.
  intros G Q. destruct c as [st|]; [|destruct G]. destruct G as [HM HI]. destruct c' as [st'|].
  - split; [eapply main_inv_step; eauto|]. eapply inv_step; [exact HI|]. eapply step_vstep; eauto.
  - exfalso. inversion Q; subst.
    + match type of Q with par_step _ _ (Some ?X) _ => destruct (send_ready X s m ms HI) as (c & q & E1 & E2) end.
      * apply in_running. cbn. rewrite in_app_iff. cbn. auto.
      * eapply H0; eauto.
    + match type of Q with par_step _ _ (Some ?X) _ => destruct (recv_works X s c m q HI) as (sl & sl' & E1 & E2) end; [assumption|].
      cbn in E1. congruence.
Qed.

Lemma good_init : good (Some (par_init tasks arr)).
Proof. split; [apply main_inv_init|apply inv_init]. Qed.

Lemma good_reach w f c : par_run w f (Some (par_init tasks arr)) c -> good c.
Proof. intros R. eapply star_ind_inv; [apply good_init|intros; eapply good_step; eauto|exact R]. Qed.

(** ** Stage 5: at the end all messages are delivered *)
Lemma finished_jobs st : finished st -> jobs st = [].
Proof. intros (H1 & H2 & H3 & H4). unfold jobs. rewrite H1, H2, H3, H4. reflexivity. Qed.

Lemma all_closed ch n : length ch = n -> Permutation (closed 0 ch) (seq 0 n) -> queued ch = [].
Proof.
  intros E P. unfold queued. apply flat_map_nil'. intros o Ho. apply In_nth_error in Ho as (i & Hi). assert (i < length ch) by (apply nth_error_Some; congruence).
  assert (Hin : In i (closed 0 ch)) by (rewrite P; apply in_seq; lia). apply closed_in in Hin as (i' & -> & Hi'). cbn in Hi. rewrite Hi' in Hi. injection Hi as <-. reflexivity.
Qed.

Lemma finished_delivered w f st : par_run w f (Some (par_init tasks arr)) (Some st) -> finished st ->
  forall s, exists D, Permutation D (all_msgs s) /\ foldM deliver D (split_new (arr s)) = Ret (m_segs st s).
Proof.
  intros R F s. apply good_reach in R as [_ HI]. destruct (HI s) as (H1 & (D & a & H4 & H5 & H6 & H7) & H8 & H9 & _).
  rewrite (finished_jobs st F) in *. cbn [flat_map app] in *. rewrite app_nil_r in H7. rewrite (all_closed _ _ H1 H9), app_nil_r in H7. eauto.
Qed.

(** ** Stage 6: the order of delivery does not matter when addition is commutative and associative *)
Section Order.
Hypothesis comm : forall x y : T, n_add x y = n_add y x.
Hypothesis assoc : forall x y z : T, n_add (n_add x y) z = n_add x (n_add y z).

Lemma acc_at_swap (l : list T) p q x y : p < length l -> q < length l -> acc_at (acc_at l p x) q y = acc_at (acc_at l q y) p x.
Proof.
  intros Hp Hq. apply (nth_ext _ _ n_zero n_zero); [rewrite !acc_at_length; reflexivity|]. intros i Hi. rewrite !acc_at_length in Hi. unfold acc_at.
  destruct (Nat.eq_dec i p) as [Ep|Np], (Nat.eq_dec i q) as [Eq|Nq]; subst.
  - rewrite !list_set_nth_eq by (rewrite ?list_set_length; auto). rewrite !assoc. f_equal. apply comm.
  - repeat first [rewrite list_set_nth_eq by (rewrite ?list_set_length; auto)|rewrite list_set_nth_neq by auto]. reflexivity.
  - repeat first [rewrite list_set_nth_eq by (rewrite ?list_set_length; auto)|rewrite list_set_nth_neq by auto]. reflexivity.
  - rewrite !list_set_nth_neq by auto. reflexivity.
Qed.

Lemma deliver_perm D D' : Permutation D D' -> forall l : list T, (forall m, In m D -> fst m < length l) ->
  foldM deliver D (split_new l) = foldM deliver D' (split_new l).
Proof.
  induction 1 as [|[g x] D D' P IH|[g x] [h y] D|D D' D'' P1 IH1 P2 IH2]; intros l HB.
  - reflexivity.
  - cbn [foldM]. rewrite deliver_ok by (apply (HB (g, x)); left; reflexivity). cbn [bind]. apply IH. intros m Hm. rewrite acc_at_length. apply HB. right. exact Hm.
  - cbn [foldM]. assert (B1 : g < length l) by (apply (HB (g, x)); right; left; reflexivity). assert (B2 : h < length l) by (apply (HB (h, y)); left; reflexivity).
    rewrite (deliver_ok l g), (deliver_ok l h) by auto. cbn [bind]. rewrite !deliver_ok by (rewrite acc_at_length; auto). cbn [bind]. rewrite !acc_at_length.
    rewrite acc_at_swap by (apply phi_lt; [unfold width; lia|auto]). reflexivity.
  - rewrite IH1 by auto. apply IH2. intros m Hm. apply HB. rewrite P1. exact Hm.
Qed.

Lemma finished_segs w f st : par_run w f (Some (par_init tasks arr)) (Some st) -> finished st ->
  forall s, foldM deliver (all_msgs s) (split_new (arr s)) = Ret (m_segs st s).
Proof.
  intros R F s. destruct (finished_delivered w f st R F s) as (D & P & E). rewrite <- E. apply deliver_perm; [symmetry; exact P|]. intros m Hm. apply bound. exact Hm.
Qed.
End Order.
End Chan.
