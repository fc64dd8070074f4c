(** * ChanLive: when the writers and receivers of [bmm_jvp] cannot block each other *)
From Coq Require Import Permutation.
From Verif Require Import Base ModelIndex ModelTensor ModelOps ModelJvp ModelPar Spec Lists IndexFacts JvpFacts ParFacts ChanFacts.

Section Live.
Context {T : Type} {NT : Num T}.

(** ** Every run is finite *)
Definition w_act (sg : side -> list (list T)) (a : action T) : nat :=
  match a with AWrite ms => 3 + 2 * length ms | ADrop _ => 1 | AStart s => 3 + 4 * length (sg s) end.
Definition w_wait (sg : side -> list (list T)) (j : job T) : nat :=
  match j with JWrite ms => 2 + 2 * length ms | JStart s next => 2 + 4 * (length (sg s) - next) | JRecv _ _ => 2 end.
Definition w_run (sg : side -> list (list T)) (j : job T) : nat :=
  match j with JWrite ms => 1 + 2 * length ms | JStart s next => 1 + 4 * (length (sg s) - next) | JRecv _ _ => 1 end.
Definition sum_of {A} (f : A -> nat) (l : list A) : nat := list_sum (map f l).
Definition weight (st : machine T) : nat :=
  sum_of (w_act (m_segs st)) (m_main st) + sum_of (w_wait (m_segs st)) (m_injected st ++ m_local st) + sum_of (w_run (m_segs st)) (m_running st)
  + (length (queued (m_chan st SLeft)) + length (queued (m_chan st SRight))).

Lemma sum_of_app A (f : A -> nat) u v : sum_of f (u ++ v) = sum_of f u + sum_of f v.
Proof. unfold sum_of. rewrite map_app, list_sum_app. reflexivity. Qed.
Lemma sum_of_cons A (f : A -> nat) a v : sum_of f (a :: v) = f a + sum_of f v.
Proof. reflexivity. Qed.
Lemma sum_of_nil A (f : A -> nat) : sum_of f [] = 0.
Proof. reflexivity. Qed.
Lemma sum_of_ext A (f g : A -> nat) l : (forall a, f a = g a) -> sum_of f l = sum_of g l.
Proof. intros E. unfold sum_of. f_equal. apply map_ext. exact E. Qed.

Lemma queued_set (ch : side -> list (option (list (msg T)))) s c q o : nth_error (ch s) c = Some (Some q) ->
  let q' := match o with Some x => x | None => [] end in
  let ch' := upd_side ch s (list_set (ch s) c o) in
  length (queued (ch' SLeft)) + length (queued (ch' SRight)) + length q =
  length (queued (ch SLeft)) + length (queued (ch SRight)) + length q'.
Proof.
  intros E. cbv zeta. apply nth_error_split in E as (u & v & E & <-).
  assert (X : length (queued (list_set (ch s) (length u) o)) + length q = length (queued (ch s)) + length (match o with Some x => x | None => [] end)).
  { rewrite E, list_set_mid. rewrite !queued_app, !app_length. cbn [queued flat_map]. rewrite !app_length. lia. }
  destruct s; unfold upd_side; cbn [side_eqb]; lia.
Qed.

Lemma weight_step w f st st' : par_step w f (Some st) (Some st') -> weight st' < weight st.
Proof.
  intros Q. inversion Q; subst; unfold weight; cbn [m_main m_injected m_local m_running m_chan m_segs m_held];
    rewrite ?sum_of_app, ?sum_of_cons, ?sum_of_app, ?sum_of_cons, ?sum_of_nil; cbn [w_act w_wait w_run length];
    rewrite ?Nat.sub_0_r; try lia.
  - destruct j; cbn [w_wait w_run]; lia.
  - destruct j; cbn [w_wait w_run]; lia.
  - match goal with E : nth_error (ch s) c = _ |- _ => pose proof (queued_set ch s c _ (Some (q ++ [m])) E) as X end. cbv beta iota zeta in X. rewrite app_length in X. cbn [length] in X. lia.
  - match goal with E : nth_error (ch s) c = _ |- _ => pose proof (queued_set ch s c _ (Some q) E) as X end. cbv beta iota zeta in X. cbn [length] in X.
    assert (L : forall s', length (upd_side sg s (list_set (sg s) c slice') s') = length (sg s')).
    { intros s'. destruct (side_eqb_spec s s') as [<-|N]; [rewrite upd_same; apply list_set_length|rewrite upd_other by auto; reflexivity]. }
    rewrite (sum_of_ext _ (w_act (upd_side sg s (list_set (sg s) c slice'))) (w_act sg)) by (intros [ms|s'|s']; cbn; rewrite ?L; reflexivity).
    rewrite !(sum_of_ext _ (w_wait (upd_side sg s (list_set (sg s) c slice'))) (w_wait sg)) by (intros [ms|s' n|s' n]; cbn; rewrite ?L; reflexivity).
    rewrite !(sum_of_ext _ (w_run (upd_side sg s (list_set (sg s) c slice'))) (w_run sg)) by (intros [ms|s' n|s' n]; cbn; rewrite ?L; reflexivity).
    unfold msg in *. lia.
  - match goal with E : nth_error (ch s) c = _ |- _ => pose proof (queued_set ch s c _ None E) as X end. cbv beta iota zeta in X. cbn [length] in X. lia.
Qed.

Lemma runs_finite w f c : Acc (fun b a => par_step w f a b) c.
Proof.
  assert (A0 : Acc (fun b a => par_step w f a b) None) by (constructor; intros y Q; inversion Q).
  destruct c as [st|]; [|exact A0]. remember (weight st) as n eqn:En. revert st En. induction n as [n IH] using lt_wf_ind. intros st En. constructor.
  intros [st'|] Q; [|exact A0]. apply (IH (weight st')); [subst; eapply weight_step; eauto|reflexivity].
Qed.

(** ** What a state looks like that can do nothing *)
Variables (tasks : list (list (msg T * msg T))) (arr : side -> list T).
Variable bound : forall s m, In m (all_msgs tasks s) -> fst m < length (arr s).
Local Notation good := (good tasks arr).

(** All running jobs are receivers that wait for senders that have not ended. *)
Definition waiting (st : machine T) : Prop :=
  m_main st = [] /\ forall j, In j (m_running st) -> exists s c, j = JRecv s c /\ nth_error (m_chan st s) c = Some (Some []) /\ alive st s = true.

Lemma split_run A (l : list A) (P : A -> Prop) : (forall x, P x \/ ~ P x) -> (exists pre x post, l = pre ++ x :: post /\ P x) \/ (forall x, In x l -> ~ P x).
Proof.
  intros D. induction l as [|x l IH]; [right; intros x []|]. destruct (D x) as [H|H].
  - left. exists [], x, l. auto.
  - destruct IH as [(pre & y & post & -> & Hy)|IH]; [left; exists (x :: pre), y, post; auto|]. right. intros y [<-|Hy]; auto.
Qed.

Lemma progress w f st : good (Some st) -> 
  (exists c, par_step w f (Some st) c) \/
  (waiting st /\ (w <= length (m_running st) \/ (m_injected st = [] /\ m_local st = []))).
Proof.
  intros [HM HI]. destruct st as [main inj loc run ch sg hd]. destruct main as [|[ms|s|s] main].
  2-4: left; eexists; constructor.
  set (st := mkMachine [] inj loc run ch sg hd) in *.
  destruct (split_run _ run (fun j => ~ exists s c, j = JRecv s c /\ nth_error (ch s) c = Some (Some []) /\ alive st s = true)) as [(pre & j & post & E & Hj)|HW].
  { intros j. destruct j as [ms|s next|s c].
    - left. intros (s & c & E & _). discriminate E.
    - left. intros (s' & c & E & _). discriminate E.
    - destruct (nth_error (ch s) c) as [[[|m q]|]|] eqn:E; [|left; intros (s' & c' & E' & E2 & _); injection E' as <- <-; congruence..].
      destruct (alive st s) eqn:EA; [right; intros X; apply X; eauto 6|]. left. intros (s' & c' & E' & E2 & E3). injection E' as <- <-. congruence. }
  - left. unfold st. subst run.
    assert (HR : In j (jobs st)). { apply in_running. cbn. rewrite in_app_iff. cbn. auto. }
    destruct j as [[|[s m] ms]|s next|s c].
    + eexists. apply p_written.
    + destruct (send_ready tasks arr bound st s m ms HI HR) as (c & q & E1 & E2). eexists. eapply p_send; eauto.
    + destruct (Nat.lt_ge_cases next (length (sg s))); [eexists; apply p_start_one; auto|eexists; apply p_started; auto].
    + destruct (recv_ready tasks arr st s c HI HR) as (q & E1). cbn in E1. destruct q as [|m q].
      * destruct (alive st s) eqn:EA; [exfalso; apply Hj; eauto 6|]. eexists. eapply p_received; eauto.
      * destruct (recv_works tasks arr bound st s c m q HI E1) as (sl & sl' & E2 & E3). eexists. eapply p_recv; eauto.
  - assert (W : waiting st).
    { split; [reflexivity|]. intros j Hj. cbn in Hj. specialize (HW j Hj). cbn.
      destruct j as [ms|s next|s c]; [exfalso; apply HW; intros (s & c & E & _); discriminate E|exfalso; apply HW; intros (s' & c & E & _); discriminate E|].
      exists s, c. split; [reflexivity|]. destruct (nth_error (ch s) c) as [[[|m q]|]|] eqn:E.
      2-4: exfalso; apply HW; intros (s' & c' & E' & E2 & _); injection E' as <- <-; congruence.
      split; [reflexivity|]. destruct (alive st s) eqn:EA; [reflexivity|]. exfalso; apply HW; intros (s' & c' & E' & E2 & E3). injection E' as <- <-. congruence. }
    destruct (Nat.lt_ge_cases (length run) w) as [HL|HL]; [|right; split; [exact W|left; exact HL]].
    destruct inj as [|j inj].
    + destruct loc as [|j loc]; [right; auto|]. left. eexists. apply (p_begin_local w f j [] loc). exact HL.
    + left. eexists. apply (p_begin w f j [] inj); auto.
Qed.

Lemma held_main st s : good (Some st) -> m_main st = [] -> m_held st s = false.
Proof.
  intros [(_ & ts & pre & tail & E1 & _ & _ & E4) _] E. rewrite E in E1. symmetry in E1. apply app_eq_nil in E1 as [_ ->]. apply E4.
Qed.

(** A waiting state that is not the end has a writer that has not begun. *)
Lemma waiting_writer st : good (Some st) -> waiting st -> m_running st <> [] -> exists ms, In (JWrite ms) (m_injected st).
Proof.
  intros G (EM & HW) NE. destruct (m_running st) as [|j run] eqn:ER; [congruence|].
  destruct (HW j (or_introl eq_refl)) as (s & c & _ & _ & EA). unfold alive in EA. rewrite (held_main st s G EM) in EA. cbn [orb] in EA.
  apply existsb_exists in EA as (j' & Hj' & Wj). rewrite in_app_iff, ER in Hj'. destruct j' as [ms| |]; try discriminate Wj. destruct Hj' as [Hj'|Hj']; [eauto|].
  apply HW in Hj' as (s' & c' & E & _). discriminate E.
Qed.

(** ** First-in first-out *)
Definition is_start (j : job T) : Prop := match j with JStart _ _ => True | _ => False end.
Definition not_recv (j : job T) : Prop := is_writer j = true.
Definition fifo_inv (st : machine T) : Prop :=
  exists ws ss, m_injected st = map JWrite ws ++ ss /\ Forall is_start ss /\
    ((exists ms, In (AWrite ms) (m_main st)) -> ss = []) /\
    ((ws <> [] \/ exists ms, In (AWrite ms) (m_main st)) -> Forall not_recv (m_running st) /\ m_local st = []).

Lemma main_no_write (st : machine T) a main : main_inv st -> m_main st = a :: main -> (forall ms, a <> AWrite ms) -> forall ms, ~ In (AWrite ms) (m_main st).
Proof.
  intros (_ & ts & pre & tail & E1 & E2 & _ & _) E N ms Hin. destruct ts as [|t ts].
  - cbn in E1. rewrite E1 in Hin. apply suffix_cases in E2. unfold tail0 in E2. destruct E2 as [E'|[E'|[E'|[E'|E']]]]; rewrite E' in Hin; cbn in Hin; intuition discriminate.
  - rewrite E in E1. cbn in E1. injection E1 as -> _. eapply N; reflexivity.
Qed.

Lemma fifo_step w st st' : main_inv st -> fifo_inv st -> par_step w true (Some st) (Some st') -> fifo_inv st'.
Proof.
  intros HM (ws & ss & E1 & E2 & E3 & E4) Q. inversion Q; subst; unfold fifo_inv; cbn [m_main m_injected m_local m_running m_chan m_segs m_held] in *.
  - (* spawn *) exists (ws ++ [ms]), []. assert (ss = []) by (apply E3; exists ms; left; reflexivity). subst ss. rewrite app_nil_r in *. subst inj.
    rewrite map_app. repeat split; auto; apply E4; right; exists ms; left; reflexivity.
  - exists ws, ss. repeat split; auto; [|apply E4..]; try (intros (ms & H); apply E3; exists ms; right; exact H).
    + destruct H as [H|(ms & H)]; [left; exact H|right; exists ms; right; exact H].
    + destruct H as [H|(ms & H)]; [left; exact H|right; exists ms; right; exact H].
  - exists ws, (ss ++ [JStart s 0]). subst inj. rewrite <- app_assoc. repeat split; auto.
    + apply Forall_app; split; auto. repeat constructor.
    + intros (ms & H). exfalso. eapply (main_no_write _ _ _ HM); [reflexivity|discriminate|right; exact H].
    + apply E4. destruct H as [H|(ms & H)]; [left; exact H|right; exists ms; right; exact H].
    + apply E4. destruct H as [H|(ms & H)]; [left; exact H|right; exists ms; right; exact H].
  - (* begin *) match goal with E : true = true -> _ |- _ => rewrite (E eq_refl) in * end. cbn [app] in *. destruct ws as [|ws0 ws].
    + cbn [map app] in E1. exists [], post. destruct ss as [|s0 ss]; [discriminate E1|]. injection E1 as <- <-. inversion E2; subst.
      repeat split; auto.
      * intros H. specialize (E3 H). discriminate E3.
      * intros. exfalso. destruct H as [H|H]; [congruence|]. specialize (E3 H). discriminate E3.
      * intros. exfalso. destruct H as [H|H]; [congruence|]. specialize (E3 H). discriminate E3.
    + cbn [map app] in E1. injection E1 as -> ->. exists ws, ss.
      assert (K : Forall not_recv run /\ loc = []) by (apply E4; left; discriminate). destruct K as [K1 K2].
      repeat split; auto. apply Forall_app; split; auto. repeat constructor.
  - exists ws, ss. repeat split; auto; try (exfalso; match goal with X : _ <> _ \/ _ |- _ => destruct (E4 X) as [_ K] end; apply app_eq_nil in K as [_ K]; discriminate K).
  - exists ws, ss. repeat split; auto; try (apply E4; assumption). match goal with X : _ <> _ \/ _ |- _ => destruct (E4 X) as [K _] end. apply Forall_app in K as [K1 K2]. inversion K2; subst.
    apply Forall_app; split; auto.
  - exists ws, ss. repeat split; auto; try (apply E4; assumption). match goal with X : _ <> _ \/ _ |- _ => destruct (E4 X) as [K _] end. apply Forall_app in K as [K1 K2]. inversion K2; subst.
    apply Forall_app; split; auto.
  - exists ws, ss. repeat split; auto; exfalso; match goal with X : _ <> _ \/ _ |- _ => destruct (E4 X) as [K _] end; apply Forall_app in K as [K1 K2]; inversion K2; subst; discriminate.
  - exists ws, ss. repeat split; auto; exfalso; match goal with X : _ <> _ \/ _ |- _ => destruct (E4 X) as [K _] end; apply Forall_app in K as [K1 K2]; inversion K2; subst; discriminate.
  - exists ws, ss. repeat split; auto; exfalso; match goal with X : _ <> _ \/ _ |- _ => destruct (E4 X) as [K _] end; apply Forall_app in K as [K1 K2]; inversion K2; subst; discriminate.
  - exists ws, ss. repeat split; auto; exfalso; match goal with X : _ <> _ \/ _ |- _ => destruct (E4 X) as [K _] end; apply Forall_app in K as [K1 K2]; inversion K2; subst; discriminate.
Qed.

Lemma fifo_live w st : 1 <= w -> good (Some st) -> fifo_inv st -> finished st \/ exists c, par_step w true (Some st) c.
Proof.
  intros Hw G (ws & ss & E1 & E2 & _ & E4). destruct (progress w true st G) as [H|(W & H)]; [right; exact H|].
  destruct (m_running st) as [|j run] eqn:ER.
  - left. destruct W as [EM _]. destruct H as [H|[H1 H2]]; [cbn in H; lia|]. repeat split; assumption.
  - exfalso. destruct (waiting_writer st G W) as (ms & Hms); [rewrite ER; discriminate|].
    assert (NE : ws <> []).
    { intros ->. cbn in E1. rewrite E1 in Hms. rewrite Forall_forall in E2. apply E2 in Hms. exact Hms. }
    destruct (E4 (or_introl NE)) as [K _]. inversion K; subst. destruct W as [_ W]. destruct (W j) as (s & c & E & _); [rewrite ER; left; reflexivity|].
    subst j. discriminate.
Qed.

Lemma fifo_init : fifo_inv (par_init tasks arr).
Proof. exists [], []. repeat split; cbn; auto. Qed.

(** ** Enough workers *)
Lemma ids_length_le (V : list (job T)) W : Permutation V W -> forall s n, length (flat_map (job_ids s n) V) = length (flat_map (job_ids s n) W).
Proof. intros P s n. apply Permutation_length, Permutation_flat_map, P. Qed.

Lemma recv_count (run : list (job T)) nl nr : (forall j, In j run -> exists s c, j = JRecv s c) ->
  length run = length (flat_map (job_ids SLeft nl) run) + length (flat_map (job_ids SRight nr) run).
Proof.
  induction run as [|j run IH]; intros H; [reflexivity|]. destruct (H j (or_introl eq_refl)) as (s & c & ->).
  cbn [flat_map length]. rewrite !app_length, IH by (intros j Hj; apply H; right; exact Hj). destruct s; cbn; lia.
Qed.

Lemma ids_run_le st s : good (Some st) -> length (flat_map (job_ids s (nsegs arr s)) (m_running st)) <= nsegs arr s.
Proof.
  intros [_ HI]. destruct (HI s) as (_ & _ & _ & P & _). apply Permutation_length in P. rewrite seq_length, app_length in P.
  unfold jobs in P. rewrite !flat_map_app, !app_length in P. lia.
Qed.

Lemma enough_live w f st : nsegs arr SLeft + nsegs arr SRight < w -> good (Some st) -> finished st \/ exists c, par_step w f (Some st) c.
Proof.
  intros Hw G. destruct (progress w f st G) as [H|(W & H)]; [right; exact H|].
  assert (HR : length (m_running st) < w).
  { rewrite (recv_count _ (nsegs arr SLeft) (nsegs arr SRight)).
    - pose proof (ids_run_le st SLeft G). pose proof (ids_run_le st SRight G). lia.
    - intros j Hj. destruct W as [_ W]. apply W in Hj as (s & c & E & _). eauto. }
  destruct H as [H|[H1 H2]]; [lia|]. left. destruct (m_running st) as [|j run] eqn:ER.
  - destruct W as [EM _]. repeat split; assumption.
  - exfalso. destruct (waiting_writer st G W) as (ms & Hms); [rewrite ER; discriminate|]. rewrite H1 in Hms. destruct Hms.
Qed.

(** ** From "never stuck before the end" to "ends" *)
Lemma ends w f (P : config T -> Prop) :
  (forall c c', P c -> par_step w f c c' -> P c') -> (forall c, P c -> (exists st, c = Some st /\ finished st) \/ exists c', par_step w f c c') ->
  forall c, P c -> exists st, par_run w f c (Some st) /\ finished st.
Proof.
  intros HP HL c. pose proof (runs_finite w f c) as A. induction A as [c _ IH]. intros Hc.
  destruct (HL c Hc) as [(st & -> & F)|(c' & Q)]; [exists st; split; [apply star_refl|exact F]|].
  destruct (IH c' Q (HP _ _ Hc Q)) as (st & R & F). exists st. split; [eapply star_first; eauto|exact F].
Qed.

Definition fifo_good (c : config T) : Prop := match c with Some st => good (Some st) /\ fifo_inv st | None => False end.
Lemma fifo_good_step w c c' : fifo_good c -> par_step w true c c' -> fifo_good c'.
Proof.
  intros H Q. destruct c as [st|]; [|destruct H]. destruct H as [G F]. pose proof (good_step tasks arr bound w true _ _ G Q) as G'.
  destruct c' as [st'|]; [|destruct G']. split; [exact G'|]. eapply fifo_step; eauto. apply G.
Qed.
Lemma fifo_good_reach w c : par_run w true (Some (par_init tasks arr)) c -> fifo_good c.
Proof.
  intros R. eapply star_ind_inv; [|intros a b Ha Q; eapply fifo_good_step; eauto|exact R]. split; [apply good_init|apply fifo_init].
Qed.

Lemma fifo_ends w c : 1 <= w -> par_run w true (Some (par_init tasks arr)) c ->
  exists st, par_run w true c (Some st) /\ finished st.
Proof.
  intros Hw R. apply (ends w true fifo_good); [intros; eapply fifo_good_step; eauto| |eapply fifo_good_reach; eauto].
  intros [st|] []. destruct (fifo_live w st) as [F|F]; eauto.
Qed.

Lemma enough_ends w f c : nsegs arr SLeft + nsegs arr SRight < w -> par_run w f (Some (par_init tasks arr)) c ->
  exists st, par_run w f c (Some st) /\ finished st.
Proof.
  intros Hw R. apply (ends w f good); [intros; eapply good_step; eauto| |eapply good_reach; eauto].
  intros [st|] G; [|destruct G]. destruct (enough_live w f st) as [F|F]; eauto.
Qed.

(** ** Too few workers, any order: a state in which nothing can happen *)
Section Deadlock.
Variable w : nat.
Local Notation run := (par_run w false).

Lemma spawn_all ts : forall tail inj loc rn ch sg hd,
  run (Some (mkMachine (map AWrite ts ++ tail) inj loc rn ch sg hd)) (Some (mkMachine tail (inj ++ map JWrite ts) loc rn ch sg hd)).
Proof.
  induction ts as [|t ts IH]; intros.
  - cbn. rewrite app_nil_r. apply star_refl.
  - cbn [map app]. eapply star_first; [apply p_spawn|]. replace (inj ++ JWrite t :: map JWrite ts) with ((inj ++ [JWrite t]) ++ map JWrite ts) by (rewrite <- app_assoc; reflexivity). apply IH.
Qed.

Lemma start_rest s ch (sg : side -> list (list T)) hd main inj : forall d next loc, length (sg s) = next + d ->
  run (Some (mkMachine main inj loc [JStart s next] ch sg hd)) (Some (mkMachine main inj (loc ++ map (JRecv s) (seq next d)) [] ch sg hd)).
Proof.
  induction d as [|d IH]; intros next loc E.
  - cbn. rewrite app_nil_r. apply star_one. apply (p_started w false s next [] []). lia.
  - eapply star_first; [apply (p_start_one w false s next [] []); lia|]. cbn [app seq map].
    replace (loc ++ JRecv s next :: map (JRecv s) (seq (S next) d)) with ((loc ++ [JRecv s next]) ++ map (JRecv s) (seq (S next) d)) by (rewrite <- app_assoc; reflexivity).
    apply IH. lia.
Qed.

Lemma start_all s ch (sg : side -> list (list T)) hd main pre post loc : 1 <= w ->
  run (Some (mkMachine main (pre ++ JStart s 0 :: post) loc [] ch sg hd)) (Some (mkMachine main (pre ++ post) (loc ++ map (JRecv s) (seq 0 (length (sg s)))) [] ch sg hd)).
Proof.
  intros Hw. eapply star_first; [apply p_begin; [cbn; lia|discriminate]|]. apply start_rest. reflexivity.
Qed.

Lemma begin_some l1 : forall l2 rn main inj ch sg hd, length rn + length l1 <= w ->
  run (Some (mkMachine main inj (l1 ++ l2) rn ch sg hd)) (Some (mkMachine main inj l2 (rn ++ l1) ch sg hd)).
Proof.
  induction l1 as [|j l1 IH]; intros l2 rn main inj ch sg hd H.
  - rewrite app_nil_r. apply star_refl.
  - cbn [length] in H. eapply star_first; [apply (p_begin_local w false j []); lia|]. cbn [app].
    replace (rn ++ j :: l1) with ((rn ++ [j]) ++ l1) by (rewrite <- app_assoc; reflexivity). apply IH. rewrite app_length. cbn. lia.
Qed.

Lemma deadlock : 1 <= w -> w <= nsegs arr SLeft + nsegs arr SRight -> tasks <> [] ->
  exists st, run (Some (par_init tasks arr)) (Some st) /\ ~ finished st /\ forall c, ~ par_step w false (Some st) c.
Proof.
  intros Hw1 Hw2 NE. set (ch := fun s => repeat (Some (@nil (msg T))) (nsegs arr s)). set (sg := fun s => split_new (arr s)).
  set (hd := upd_side (upd_side (fun _ => true) SRight false) SLeft false).
  set (recvs := map (@JRecv T SRight) (seq 0 (nsegs arr SRight)) ++ map (JRecv SLeft) (seq 0 (nsegs arr SLeft))).
  set (writers := map (@JWrite T) (map writer_msgs tasks)).
  assert (LR : length recvs = nsegs arr SRight + nsegs arr SLeft) by (unfold recvs; rewrite app_length, !map_length, !seq_length; reflexivity).
  set (st := mkMachine [] writers (skipn w recvs) (firstn w recvs) ch sg hd).
  assert (Hrec : forall j, In j (firstn w recvs) -> exists s c, j = JRecv s c /\ c < nsegs arr s).
  { intros j Hj. assert (Hj' : In j recvs) by (rewrite <- (firstn_skipn w recvs), in_app_iff; auto).
    unfold recvs in Hj'. rewrite in_app_iff, !in_map_iff in Hj'. destruct Hj' as [(c & <- & Hc)|(c & <- & Hc)]; apply in_seq in Hc; do 2 eexists; (split; [reflexivity|lia]). }
  exists st. split; [|split].
  - unfold par_init. rewrite <- (map_map writer_msgs AWrite). eapply star_trans; [apply spawn_all|].
    eapply star_first; [apply p_drop|]. eapply star_first; [apply p_start|]. eapply star_first; [apply p_drop|]. eapply star_first; [apply p_start|].
    cbn [app]. rewrite <- app_assoc. cbn [app]. fold writers.
    eapply star_trans; [apply start_all; exact Hw1|]. eapply star_trans; [apply start_all; exact Hw1|].
    rewrite app_nil_r. cbn [app]. fold (nsegs arr SRight) (nsegs arr SLeft). fold recvs.
    rewrite <- (firstn_skipn w recvs) at 1. apply (begin_some (firstn w recvs) (skipn w recvs) []). rewrite firstn_length. cbn. lia.
  - intros (_ & E & _). cbn in E. unfold writers in E. destruct tasks; [congruence|discriminate E].
  - intros c Q.
    assert (Hlen : length (firstn w recvs) = w) by (rewrite firstn_length; lia).
    assert (EA : forall s, alive st s = true).
    { intros s. unfold alive. apply orb_true_iff. right. cbn. unfold writers. destruct tasks; [congruence|reflexivity]. }
    assert (Hch : forall s c q, nth_error (ch s) c = Some (Some q) -> q = []).
    { intros s c' q E. apply nth_error_In, repeat_spec in E. congruence. }
    inversion Q; subst; try lia;
    match goal with
    | E : _ ++ ?j :: _ = firstn w recvs |- _ => destruct (Hrec j) as (s' & c' & Ej & _); [rewrite <- E, in_app_iff; cbn; auto|]; try discriminate Ej
    end.
    all: try (match goal with E : nth_error _ _ = Some (Some (_ :: _)) |- _ => apply Hch in E; discriminate E end).
    match goal with X : alive _ s = false, E : _ ++ _ :: _ = _ |- _ => rewrite E in X; fold st in X; rewrite EA in X; discriminate X end.
Qed.
End Deadlock.
End Live.
