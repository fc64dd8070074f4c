(** * ClaimsPar: concurrency (C26, C43 - C46) *)
From Coq Require Import Permutation ZArith SpecFloat.
From Verif Require Import Base ModelIndex ModelTensor ModelOps ModelJvp ModelPar Spec SpecPar Lists IndexFacts FuelFacts Instances TensorFacts OpsFacts JvpFacts ParFacts ChanFacts ChanLive ChanBmm ChanOne ChanExec UpdFacts FloatInst.

(** ** [bmm] *)
Lemma agree_refl {A} (o : outcome A) : o <> NoFuel -> agree o o.
Proof. destruct o; cbn; eauto. Qed.
Lemma agree_bind {A B} (o o' : outcome A) (f g : A -> outcome B) : agree o o' -> (forall a, agree (f a) (g a)) -> agree (bind o f) (bind o' g).
Proof. destruct o as [a|p|]; cbn; intros H1 H2; [subst o'; cbn; auto|destruct H1 as [q ->]; cbn; eauto|contradiction]. Qed.
Lemma agree_foldM {A B} (f g : A -> B -> outcome A) l : (forall a b, agree (f a b) (g a b)) -> forall a, agree (foldM f l a) (foldM g l a).
Proof. intros H. induction l as [|b l IH]; intros a; cbn [foldM]; [reflexivity|]. apply agree_bind; auto. Qed.

(** C26: however the element tasks of each row are interleaved, [bmm] gives the result of running them in
    sequence, for any element type - no law of arithmetic is used. *)
Lemma c26_schedule_independent :
  forall (T : Type) (NT : Num T) (left right : tlike T) (row : nat -> list nat -> outcome (list T)),
    (forall n li, row_runs left right li (nth 0 (tl_shape right) 0) (nth 1 (tl_shape right) 0) (row n li)) ->
    agree (bmm_raw left right) (bmm_raw_with row left right).
Proof.
  intros T NT left right row HR. unfold bmm_raw, bmm_raw_with.
  apply agree_bind; [apply agree_refl, nf_assert|]. intros _.
  destruct (Nat.eqb_spec (length (tl_shape right)) 2) as [L2|L2]; cbn [assert bind]; [|cbn; eauto].
  destruct (tl_shape right) as [|kd [|m [|? ?]]] eqn:ES; try discriminate L2. cbn [nth] in HR.
  apply agree_bind; [apply agree_refl, nf_vindex|]. intros linner. apply agree_bind; [apply agree_refl, nf_vindex|]. intros rinner.
  apply agree_bind; [apply agree_refl, nf_assert|]. intros _. apply agree_bind; [apply agree_refl, nf_vindex|]. intros l0. apply agree_bind; [apply agree_refl, nf_vindex|]. intros l1.
  assert (R1 : vindex [kd; m] 1 = Ret m) by reflexivity. rewrite R1. cbn [bind].
  assert (G : forall b n, agree (bmm_rows left right b n m) (bmm_rows_with row left b n m)).
  { intros b n. unfold bmm_rows, bmm_rows_with. apply agree_bind; [|intros; reflexivity]. apply agree_foldM. intros [arr li] bi.
    apply agree_bind; [apply agree_refl; destruct (_ =? 3); [apply nf_vset|discriminate]|]. intros li'. apply agree_foldM. intros [arr' li''] i.
    apply agree_bind; [apply agree_refl, nf_vset|]. intros li3. apply agree_bind; [|intros; reflexivity].
    destruct (HR (bi * n + i) li3) as (st & RS & E1 & E2 & ->). pose proof (row_result_seq left right li3 kd m st (row_inv_reach _ _ _ _ _ st RS) E1 E2) as Q.
    assert (EM : mapM (bmm_cell left right li3) (seq 0 m) = mapM (cell_value left right li3 kd) (seq 0 m)).
    { clear - ES. induction (seq 0 m) as [|j l IH]; [reflexivity|]. cbn [mapM]. rewrite (cell_value_bmm_cell _ _ _ _ _ _ ES), IH. reflexivity. }
    rewrite EM. destruct (mapM (cell_value left right li3 kd) (seq 0 m)) as [r|p|]; cbn; [exact (proj1 Q)|exact Q|exact Q]. }
  destruct (length (tl_shape left) =? 2); (apply agree_bind; [apply G|intros; reflexivity]).
Qed.

Definition ma : tlike Z := LRaw (mkRaw [1; 2; 3; 4]%Z [2; 2]).
Definition mb : tlike Z := LRaw (mkRaw [5; 6; 7; 8]%Z [2; 2]).
Example c26_schedule_independent_ex : exists row : nat -> list nat -> outcome (list Z),
  (forall n li, row_runs ma mb li (nth 0 (tl_shape mb) 0) (nth 1 (tl_shape mb) 0) (row n li)) /\
  bmm_raw_with row ma mb = Ret (mkRaw [19; 22; 43; 50]%Z [2; 2]).
Proof.
  exists (fun _ li => mapM (bmm_cell ma mb li) (seq 0 2)). split; [|vm_compute; reflexivity].
  intros n li. apply (seq_row_runs ma mb li 2 2 2). reflexivity.
Qed.

(** C26: the rows end: every run can be completed, and no run goes on for ever. *)
Lemma c26_rows_end :
  forall (T : Type) (NT : Num T) (left right : tlike T) (li : list nat) (kdim m : nat) (st : row_state T),
    star (row_step left right li kdim) (row_init m) st ->
    (exists st', star (row_step left right li kdim) st st' /\ r_todo st' = [] /\ r_live st' = []) /\
    Acc (fun b a => row_step left right li kdim a b) st.
Proof.
  intros T NT left right li kdim m st RS. split; [apply (row_ends left right li kdim m); apply row_inv_reach; auto|].
  clear RS. remember (row_measure kdim st) as n eqn:En. revert st En. induction n as [n IH] using lt_wf_ind. intros st En. constructor. intros st' S.
  apply (IH (row_measure kdim st')); [subst; eapply row_measure_step; eauto|reflexivity].
Qed.

Example c26_rows_end_ex : exists st : row_state Z, star (row_step ma mb [1; 2] 2) (row_init 2) st /\ r_todo st = [1] /\ map c_next (r_live st) = [1].
Proof.
  eexists. split; [|split; [|]].
  - eapply star_step; [eapply star_step; [apply star_refl|]|].
    + unfold row_init. cbn [seq repeat]. apply row_spawn. lia.
    + apply (row_iterate _ _ _ _ 0 0 0%Z 15%Z [] []); [lia|vm_compute; reflexivity].
  - reflexivity.
  - reflexivity.
Qed.

(** C26: no slot is written twice, and when no task panics every slot is written. *)
Lemma c26_written_once :
  forall (T : Type) (NT : Num T) (left right : tlike T) (li : list nat) (kdim m : nat) (st : row_state T),
    star (row_step left right li kdim) (row_init m) st ->
    NoDup (r_log st) /\ (r_todo st = [] -> r_live st = [] -> r_bad st = None -> Permutation (r_log st) (seq 0 m)).
Proof.
  intros T NT left right li kdim m st RS. pose proof (row_inv_reach _ _ _ _ _ st RS) as HI. split; [eapply row_log_nodup; eauto|].
  intros E1 E2 E3. destruct HI as (_ & _ & _ & lost & HP & _ & HE). rewrite E1, E2 in HP. cbn [app map] in HP. apply HE in E3. subst lost. rewrite app_nil_r in HP. exact HP.
Qed.
(** the second task finishes first *)
Example c26_written_once_ex : exists st : row_state Z, star (row_step ma mb [1; 2] 2) (row_init 2) st /\ r_todo st = [] /\ r_live st = [] /\
  r_bad st = None /\ r_log st = [1; 0] /\ r_out st = [43; 50]%Z.
Proof.
  eexists. split.
  - unfold row_init. cbn [seq repeat].
    eapply star_first; [apply row_spawn; lia|].
    eapply star_first; [apply (row_spawn _ _ _ _ 1 [] [_]); lia|].
    eapply star_first; [apply (row_iterate _ _ _ _ 1 0 0%Z 18%Z [_] []); [lia|vm_compute; reflexivity]|].
    eapply star_first; [apply (row_iterate _ _ _ _ 0 0 0%Z 15%Z [] [_]); [lia|vm_compute; reflexivity]|].
    eapply star_first; [apply (row_iterate _ _ _ _ 1 1 18%Z 50%Z [_] []); [lia|vm_compute; reflexivity]|].
    eapply star_first; [apply (row_write _ _ _ _ 1 50%Z [_] [])|].
    eapply star_first; [apply (row_iterate _ _ _ _ 0 1 15%Z 43%Z [] []); [lia|vm_compute; reflexivity]|].
    eapply star_first; [apply (row_write _ _ _ _ 0 43%Z [] [])|].
    apply star_refl.
  - cbn. auto.
Qed.

(** ** [bmm_jvp]: writers and receivers *)

(** C43: whatever the number of workers, the order in which jobs start and the interleaving, when addition
    is commutative and associative the scope ends with the gradients of the sequential reading. *)
Lemma c43_schedule_independent :
  forall (T : Type) (NT : Num T) (a b jac : raw T) (n kk m d0 workers : nat) (fifo : bool) (st0 : machine T) (shapes : list nat * list nat) (st : machine T),
    (forall x y : T, n_add x y = n_add y x) -> (forall x y z : T, n_add (n_add x y) z = n_add x (n_add y z)) ->
    bmm_inputs a b jac n kk m d0 -> bmm_jvp_start [a; b] [jac] = Ret (st0, shapes) ->
    par_run workers fifo (Some st0) (Some st) -> finished st ->
    bmm_jvp_finish shapes st = bmm_jvp [a; b] [jac].
Proof.
  intros T NT a b jac n kk m d0 w f st0 sh st comm assoc HI E R F. rewrite (bmm_start_ok a b jac n kk m d0 HI) in E. injection E as <- <-.
  apply bmm_finish_ok; [exact HI|]. intros s. eapply finished_segs; eauto. apply (bmm_bound a b jac n kk m d0).
Qed.

(** Two rows times one column; the schedule below lets the second writer overtake the first. *)
Definition pa : raw Z := mkRaw [2; 3]%Z [2; 1].
Definition pb : raw Z := mkRaw [5]%Z [1; 1].
Definition pj : raw Z := mkRaw [1; 10]%Z [1; 2].
Lemma p_inputs : bmm_inputs pa pb pj 2 1 1 1.
Proof. unfold bmm_inputs, wf. cbn. repeat split; lia. Qed.
Definition p_start : machine Z := par_init (bmm_tasks pa pb pj 2 1 1 1) (bmm_arr 2 1 1 1).
Definition p_plan : list choice :=
  times 6 CMain ++ [CBegin 0; CBegin 0] ++ times 3 (CRun 1) ++ [CRun 0; CRun 0; CRun 0] ++ [CBegin 0; CRun 0; CRun 0] ++ [CBegin 0; CRun 0; CRun 0]
  ++ [CLocal 0; CLocal 0] ++ [CRun 1; CRun 0; CRun 0; CRun 1] ++ [CRun 0; CRun 0].
Example c43_schedule_independent_ex : exists st,
  bmm_jvp_start [pa; pb] [pj] = Ret (p_start, ([1; 2], [1; 1])) /\ par_run 2 true (Some p_start) (Some st) /\ finished st /\
  bmm_jvp_finish ([1; 2], [1; 1]) st = Ret [mkRaw [5; 50]%Z [1; 2]; mkRaw [32]%Z [1; 1]].
Proof.
  destruct (schedule 2 true p_start p_plan) as [st|] eqn:E; [|vm_compute in E; discriminate E].
  exists st. split; [apply (bmm_start_ok pa pb pj 2 1 1 1 p_inputs)|]. split; [apply (schedule_run _ _ p_plan); exact E|].
  vm_compute in E. injection E as <-. split; [repeat split|vm_compute; reflexivity].
Qed.

(** C43: no job panics: no send meets a dropped receiver, no message is applied out of bounds.  Nothing
    is asked of the arithmetic. *)
Lemma c43_no_job_panics :
  forall (T : Type) (NT : Num T) (a b jac : raw T) (n kk m d0 workers : nat) (fifo : bool) (st0 : machine T) (shapes : list nat * list nat),
    bmm_inputs a b jac n kk m d0 -> bmm_jvp_start [a; b] [jac] = Ret (st0, shapes) ->
    ~ par_run workers fifo (Some st0) None.
Proof.
  intros T NT a b jac n kk m d0 w f st0 sh HI E R. rewrite (bmm_start_ok a b jac n kk m d0 HI) in E. injection E as <- <-.
  exact (good_reach _ _ (bmm_bound a b jac n kk m d0) w f None R).
Qed.
(** in the middle of that run: both writers are in progress *)
Example c43_no_job_panics_ex : exists st, par_run 2 true (Some p_start) (Some st) /\ length (m_running st) = 2 /\ queued (m_chan st SRight) = [(0, 30%Z)].
Proof.
  destruct (schedule 2 true p_start (firstn 10 p_plan)) as [st|] eqn:E; [|vm_compute in E; discriminate E].
  exists st. split; [apply (schedule_run _ _ (firstn 10 p_plan)); exact E|]. vm_compute in E. injection E as <-. split; vm_compute; reflexivity.
Qed.

(** C43: for any arithmetic, at the end each message has been applied exactly once, in some order: nothing
    is lost, nothing duplicated. *)
Lemma c43_each_message_once :
  forall (T : Type) (NT : Num T) (a b jac : raw T) (n kk m d0 workers : nat) (fifo : bool) (st0 : machine T) (shapes : list nat * list nat) (st : machine T) (s : side),
    bmm_inputs a b jac n kk m d0 -> bmm_jvp_start [a; b] [jac] = Ret (st0, shapes) ->
    par_run workers fifo (Some st0) (Some st) -> finished st ->
    exists order, Permutation order (unsent st0 s) /\ foldM deliver order (m_segs st0 s) = Ret (m_segs st s).
Proof.
  intros T NT a b jac n kk m d0 w f st0 sh st s HI E R F. rewrite (bmm_start_ok a b jac n kk m d0 HI) in E. injection E as <- <-.
  destruct (finished_delivered _ _ (bmm_bound a b jac n kk m d0) w f st R F s) as (D & P & ED). exists D. split; [|exact ED].
  rewrite P. clear. unfold unsent, par_init. cbn [m_main]. rewrite flat_map_app. cbn [flat_map app]. rewrite app_nil_r.
  assert (X : forall l, match s with SLeft => map fst (concat l) | SRight => map snd (concat l) end =
     flat_map (fun a0 => match a0 with AWrite ms => map snd (filter (fun p => side_eqb s (fst p)) ms) | _ => [] end) (map (fun t : list (msg T * msg T) => AWrite (writer_msgs t)) l)).
  { induction l as [|t l IH]; [destruct s; reflexivity|]. cbn [map flat_map concat]. rewrite <- IH. 
    assert (Y : map snd (filter (fun p => side_eqb s (fst p)) (writer_msgs t)) = match s with SLeft => map fst t | SRight => map snd t end).
    { clear. induction t as [|[l r] t IH]; [destruct s; reflexivity|]. destruct s; cbn in *; rewrite <- IH; reflexivity. }
    rewrite Y. destruct s; rewrite map_app; reflexivity. }
  unfold all_msgs. rewrite (X (bmm_tasks a b jac n kk m d0)). reflexivity.
Qed.
Example c43_each_message_once_ex : unsent p_start SLeft = [(0, 5%Z); (1, 50%Z)] /\ unsent p_start SRight = [(0, 2%Z); (0, 30%Z)] /\
  foldM deliver [(0, 30%Z); (0, 2%Z)] (m_segs p_start SRight) = Ret [[32%Z]].
Proof. vm_compute. auto. Qed.

(** C44, refuted: with 32-bit floats, two workers and jobs started in order, two runs of one backward step
    end with different gradients.  The matrix has rows 2^30, 1 and -2^30; the writers of the last two rows
    run at the same time. *)
Definition fa : raw f32 := mkRaw [f32_of_Z (2 ^ 30); f32_of_Z 1; f32_of_Z (- 2 ^ 30)] [3; 1].
Definition fb : raw f32 := mkRaw [f32_of_Z 1] [1; 1].
Definition fj : raw f32 := mkRaw [f32_of_Z 1; f32_of_Z 1; f32_of_Z 1] [1; 3].
Lemma f_inputs : bmm_inputs fa fb fj 3 1 1 1.
Proof. unfold bmm_inputs, wf. cbn. repeat split; lia. Qed.
Definition f_start (tanh : f32 -> f32) : machine f32 :=
  @par_init f32 (@bmm_tasks f32 (F32Num tanh) fa fb fj 3 1 1 1) (@bmm_arr f32 (F32Num tanh) 3 1 1 1).
(** writers: row 0; then row 1 and row 2 with their messages in order, or in the other order *)
Definition f_plan (second third : nat) : list choice :=
  times 7 CMain ++ [CBegin 0] ++ times 3 (CRun 0) ++ [CBegin 0; CBegin 0] ++ times 2 (CRun second) ++ times 2 (CRun third) ++ [CRun 0; CRun 0]
  ++ [CBegin 0; CRun 0; CRun 0] ++ [CBegin 0; CRun 0; CRun 0] ++ [CLocal 0; CLocal 0] ++ times 4 (CRun 0) ++ times 4 (CRun 0).
Lemma f_run (plan : list choice) (r : f32) tanh : 
  (exists st, @schedule f32 (F32Num tanh) 2 true (f_start tanh) plan = Some st /\ m_main st = [] /\ m_injected st = [] /\ m_local st = [] /\ m_running st = [] /\
    @bmm_jvp_finish f32 ([1; 3], [1; 1]) st = Ret [mkRaw [f32_of_Z 1; f32_of_Z 1; f32_of_Z 1] [1; 3]; mkRaw [r] [1; 1]]) ->
  exists st, @par_run f32 (F32Num tanh) 2 true (Some (f_start tanh)) (Some st) /\ finished st /\
    @bmm_jvp_finish f32 ([1; 3], [1; 1]) st = Ret [mkRaw [f32_of_Z 1; f32_of_Z 1; f32_of_Z 1] [1; 3]; mkRaw [r] [1; 1]].
Proof. intros (st & E & F1 & F2 & F3 & F4 & EF). exists st. split; [eapply schedule_run; eauto|]. split; [repeat split; assumption|exact EF]. Qed.
Lemma f_runs tanh : exists st st',
  @par_run f32 (F32Num tanh) 2 true (Some (f_start tanh)) (Some st) /\ finished st /\
  @par_run f32 (F32Num tanh) 2 true (Some (f_start tanh)) (Some st') /\ finished st' /\
  @bmm_jvp_finish f32 ([1; 3], [1; 1]) st = Ret [mkRaw [f32_of_Z 1; f32_of_Z 1; f32_of_Z 1] [1; 3]; mkRaw [f32_of_Z 0] [1; 1]] /\
  @bmm_jvp_finish f32 ([1; 3], [1; 1]) st' = Ret [mkRaw [f32_of_Z 1; f32_of_Z 1; f32_of_Z 1] [1; 3]; mkRaw [f32_of_Z 1] [1; 1]].
Proof.
  destruct (f_run (f_plan 0 1) (f32_of_Z 0) tanh) as (st & R & F & E).
  { eexists. split; [vm_compute; reflexivity|]. vm_compute. auto 6. }
  destruct (f_run (f_plan 1 0) (f32_of_Z 1) tanh) as (st' & R' & F' & E').
  { eexists. split; [vm_compute; reflexivity|]. vm_compute. auto 6. }
  exists st, st'. auto 8.
Qed.

Lemma c44_deterministic_refuted :
  ~ (forall (tanh : f32 -> f32) (a b jac : raw f32) (n kk m d0 workers : nat) (st0 : machine f32) (shapes : list nat * list nat) (st st' : machine f32),
       let NT := F32Num tanh in
       bmm_inputs a b jac n kk m d0 -> bmm_jvp_start [a; b] [jac] = Ret (st0, shapes) ->
       par_run workers true (Some st0) (Some st) -> finished st -> par_run workers true (Some st0) (Some st') -> finished st' ->
       bmm_jvp_finish shapes st = bmm_jvp_finish shapes st').
Proof.
  intros H. destruct (f_runs (fun x => x)) as (st & st' & R & F & R' & F' & E & E').
  specialize (H (fun x => x) fa fb fj 3 1 1 1 2 (f_start (fun x => x)) ([1; 3], [1; 1]) st st' f_inputs). cbv zeta in H.
  specialize (H (bmm_start_ok (NT := F32Num (fun x => x)) fa fb fj 3 1 1 1 f_inputs) R F R' F'). rewrite E, E' in H. vm_compute in H. discriminate H.
Qed.
Example c44_deterministic_refuted_ex : exists st st', let NT := F32Num (fun x => x) in
  par_run 2 true (Some (f_start (fun x => x))) (Some st) /\ finished st /\ par_run 2 true (Some (f_start (fun x => x))) (Some st') /\ finished st' /\
  bmm_jvp_finish ([1; 3], [1; 1]) st <> bmm_jvp_finish ([1; 3], [1; 1]) st'.
Proof.
  destruct (f_runs (fun x => x)) as (st & st' & R & F & R' & F' & E & E'). exists st, st'. cbv zeta.
  split; [exact R|]. split; [exact F|]. split; [exact R'|]. split; [exact F'|]. rewrite E, E'. vm_compute. discriminate.
Qed.

(** C44: what does hold, for any arithmetic - floats included: with a pool of one worker and jobs started
    in order, every run gives the gradients of the sequential reading. *)
Lemma c44_one_worker :
  forall (T : Type) (NT : Num T) (a b jac : raw T) (n kk m d0 : nat) (st0 : machine T) (shapes : list nat * list nat) (st : machine T),
    bmm_inputs a b jac n kk m d0 -> bmm_jvp_start [a; b] [jac] = Ret (st0, shapes) ->
    par_run 1 true (Some st0) (Some st) -> finished st ->
    bmm_jvp_finish shapes st = bmm_jvp [a; b] [jac].
Proof.
  intros T NT a b jac n kk m d0 st0 sh st HI E R F. rewrite (bmm_start_ok a b jac n kk m d0 HI) in E. injection E as <- <-.
  apply bmm_finish_ok; [exact HI|]. intros s. eapply one_segs; eauto. apply (bmm_bound a b jac n kk m d0).
Qed.
Definition one_plan : list choice :=
  times 7 CMain ++ [CBegin 0] ++ times 3 (CRun 0) ++ [CBegin 0] ++ times 3 (CRun 0) ++ [CBegin 0] ++ times 3 (CRun 0)
  ++ [CBegin 0; CRun 0; CRun 0] ++ [CBegin 0; CRun 0; CRun 0] ++ [CLocal 0] ++ times 4 (CRun 0) ++ [CLocal 0] ++ times 4 (CRun 0).
Example c44_one_worker_ex : exists st, let NT := F32Num (fun x => x) in
  par_run 1 true (Some (f_start (fun x => x))) (Some st) /\ finished st /\
  bmm_jvp_finish ([1; 3], [1; 1]) st = Ret [mkRaw [f32_of_Z 1; f32_of_Z 1; f32_of_Z 1] [1; 3]; mkRaw [f32_of_Z 0] [1; 1]].
Proof.
  eexists. cbv zeta. split; [apply (@schedule_run f32 (F32Num (fun x => x)) 1 true one_plan); vm_compute; reflexivity|]. split; [repeat split|vm_compute; reflexivity].
Qed.

(** C45 (a): when jobs of the calling thread start in the order in which they were spawned, the scope
    always ends, with any number of workers, even one. *)
Lemma c45_in_order_ends :
  forall (T : Type) (NT : Num T) (a b jac : raw T) (n kk m d0 workers : nat) (st0 : machine T) (shapes : list nat * list nat),
    bmm_inputs a b jac n kk m d0 -> bmm_jvp_start [a; b] [jac] = Ret (st0, shapes) -> 1 <= workers ->
    always_ends workers true st0.
Proof.
  intros T NT a b jac n kk m d0 w st0 sh HI E Hw c R. rewrite (bmm_start_ok a b jac n kk m d0 HI) in E. injection E as <- <-.
  eapply fifo_ends; eauto. apply (bmm_bound a b jac n kk m d0).
Qed.
(** the single worker has run the writers and is about to wait for nothing *)
Example c45_in_order_ends_ex : exists st, let NT := F32Num (fun x => x) in
  par_run 1 true (Some (f_start (fun x => x))) (Some st) /\ m_injected st = [] /\ length (m_local st) = 1 /\ m_running st = [JRecv SRight 0].
Proof.
  eexists. cbv zeta. split; [apply (@schedule_run f32 (F32Num (fun x => x)) 1 true (firstn 26 one_plan)); vm_compute; reflexivity|]. vm_compute. auto.
Qed.

(** C45: no run goes on for ever, from any state, in any order. *)
Lemma c45_runs_are_finite :
  forall (T : Type) (NT : Num T) (workers : nat) (fifo : bool) (c : config T), Acc (fun c2 c1 => par_step workers fifo c1 c2) c.
Proof. intros T NT w f c. apply runs_finite. Qed.
Example c45_runs_are_finite_ex : exists c, par_step 2 true (Some p_start) c.
Proof. eexists. unfold p_start, par_init. cbn [map app bmm_tasks]. apply p_spawn. Qed.

(** C45 (b), refuted: when the pool may start the jobs in another order (a calling thread that itself
    belongs to the pool takes its newest job first), one worker can end up waiting for ever. *)
Lemma c45_any_order_refuted :
  ~ (forall (T : Type) (NT : Num T) (a b jac : raw T) (n kk m d0 workers : nat) (st0 : machine T) (shapes : list nat * list nat),
       bmm_inputs a b jac n kk m d0 -> bmm_jvp_start [a; b] [jac] = Ret (st0, shapes) -> 1 <= workers ->
       always_ends workers false st0).
Proof.
  intros H. specialize (H Z ZNum pa pb pj 2 1 1 1 1 p_start _ p_inputs (bmm_start_ok pa pb pj 2 1 1 1 p_inputs) (le_n 1)).
  destruct (deadlock (bmm_tasks pa pb pj 2 1 1 1) (bmm_arr 2 1 1 1) (bmm_bound pa pb pj 2 1 1 1) 1) as (st & R & NF & NS); [lia|vm_compute; lia|discriminate|].
  destruct (H (Some st) R) as (st' & R' & F). clear - R' F NF NS. remember (Some st) as c eqn:Ec. remember (Some st') as c' eqn:Ec'.
  assert (X : forall s t : config Z, star (par_step 1 false) s t -> s = t \/ exists u, par_step 1 false s u).
  { intros s t Q. induction Q as [s|s u t Q IH Q']; [left; reflexivity|right]. destruct IH as [->|IH]; eauto. }
  destruct (X _ _ R') as [E|(u & Q)]; [|subst c; exact (NS u Q)]. subst c c'. injection E as ->. exact (NF F).
Qed.
(** the receiver of the right side holds the only worker and waits for writers that never begin *)
Example c45_any_order_refuted_ex : exists st, par_run 1 false (Some p_start) (Some st) /\ ~ finished st /\
  m_running st = [JRecv SRight 0] /\ length (m_injected st) = 3.
Proof.
  eexists. split; [apply (schedule_run 1 false (times 6 CMain ++ [CBegin 2; CRun 0; CRun 0; CLocal 0])); vm_compute; reflexivity|].
  split; [intros (_ & E & _); vm_compute in E; discriminate E|]. vm_compute. auto.
Qed.

(** C45 (b): the exact bound.  In any order the scope ends whenever there are more workers than pieces of
    32 entries of the two gradients; with as many workers as pieces, or fewer, a deadlock can be
    reached. *)
Lemma c45_any_order_bound :
  forall (T : Type) (NT : Num T) (a b jac : raw T) (n kk m d0 workers : nat) (st0 : machine T) (shapes : list nat * list nat),
    bmm_inputs a b jac n kk m d0 -> bmm_jvp_start [a; b] [jac] = Ret (st0, shapes) -> 1 <= workers ->
    let receivers := pieces (d0 * (n * kk)) + pieces (d0 * (kk * m)) in
    (receivers < workers -> always_ends workers false st0) /\
    (workers <= receivers -> exists st, par_run workers false (Some st0) (Some st) /\ deadlocked workers false st).
Proof.
  intros T NT a b jac n kk m d0 w st0 sh HI E Hw receivers. rewrite (bmm_start_ok a b jac n kk m d0 HI) in E. injection E as <- <-.
  pose proof (bmm_nsegs n kk m d0 SLeft) as EL. pose proof (bmm_nsegs n kk m d0 SRight) as ER. cbn beta iota in EL, ER. split.
  - intros H c R. eapply enough_ends; eauto; [apply (bmm_bound a b jac n kk m d0)|rewrite EL, ER; exact H].
  - intros H. destruct (deadlock (bmm_tasks a b jac n kk m d0) (bmm_arr n kk m d0) (bmm_bound a b jac n kk m d0) w) as (st & R & NF & NS); auto.
    + rewrite EL, ER. exact H.
    + eapply bmm_tasks_ne; eauto.
    + exists st. split; [exact R|]. split; assumption.
Qed.
Example c45_any_order_bound_ex : pieces (1 * (2 * 1)) + pieces (1 * (1 * 1)) = 2 /\ pieces (1 * (8 * 20)) + pieces (1 * (20 * 4)) = 8.
Proof. vm_compute. auto. Qed.

(** ** [update_grad] *)

(** C46, refuted: two threads contribute 1 each; both read before either writes; the gradient is 1. *)
Definition one : raw Z := mkRaw [1]%Z [1].
Lemma lost_run : star update_step (Some (None, [UReady one; UReady one])) (Some (Some one, [UDone; UDone])).
Proof.
  eapply star_first; [apply (u_read None one one [] [UReady one]); reflexivity|].
  eapply star_first; [apply (u_read None one one [UComputed one] []); reflexivity|].
  eapply star_first; [apply (u_write None one [] [UComputed one])|].
  eapply star_first; [apply (u_write (Some one) one [UDone] [])|]. apply star_refl.
Qed.
Lemma c46_no_lost_update_refuted :
  ~ (forall (gs : list (raw Z)) (s : list nat) (cell : option (raw Z)) (ts : list (updater Z)),
       positive s -> Forall (fun g => wf g /\ shape g = s) gs -> gs <> [] ->
       star update_step (Some (None, map UReady gs)) (Some (cell, ts)) -> Forall (fun u => u = UDone) ts ->
       exists t, cell = Some t /\ shape t = s /\ forall p, p < size s -> nth p (array t) 0%Z = total gs p).
Proof.
  intros H. destruct (H [one; one] [1] (Some one) [UDone; UDone]) as (t & E & _ & X); [repeat constructor|repeat constructor|discriminate|apply lost_run|repeat constructor|].
  injection E as <-. specialize (X 0 ltac:(cbn; lia)). vm_compute in X. discriminate X.
Qed.
Example c46_no_lost_update_refuted_ex : star update_step (Some (None, map UReady [one; one])) (Some (Some one, [UDone; UDone])) /\ total [one; one] 0 = 2%Z.
Proof. split; [apply lost_run|reflexivity]. Qed.

(** C46: what can happen in general: the gradient is at any time the old one with some of the
    contributions added, each at most once; once a thread is done, at least one of them. *)
Lemma c46_some_are_kept :
  forall (T : Type) (NT : Num T) (cell0 : option (raw T)) (gs : list (raw T)) (cell : option (raw T)) (ts : list (updater T)),
    star update_step (Some (cell0, map UReady gs)) (Some (cell, ts)) ->
    exists used, NoDup used /\ (forall i, In i used -> i < length gs) /\ (In UDone ts -> used <> []) /\
      foldM add_alone (map (fun i => nth i gs (mkRaw [] [])) used) cell0 = Ret cell.
Proof.
  intros T NT cell0 gs cell ts R. apply upd_reach in R as (_ & _ & (used & (U1 & U2 & U3) & _ & HN) & _). exists used.
  split; [exact U1|]. split; [exact U2|]. split; [|exact U3]. intros H. apply HN. apply In_nth_error in H. exact H.
Qed.
Example c46_some_are_kept_ex : foldM add_alone (map (fun i => nth i [one; one] (mkRaw [] [])) [1]) None = Ret (Some one).
Proof. reflexivity. Qed.

(** C46: what holds if never two threads are between read and write: the gradient is the sum of all
    contributions. *)
Lemma c46_one_at_a_time :
  forall (T : Type) (NT : Num T) (gs : list (raw T)) (s : list nat) (cell : option (raw T)) (ts : list (updater T)),
    is_ring T -> positive s -> Forall (fun g => wf g /\ shape g = s) gs -> gs <> [] ->
    star serial_step (Some (None, map UReady gs)) (Some (cell, ts)) -> Forall (fun u => u = UDone) ts ->
    exists t, cell = Some t /\ shape t = s /\ forall p, p < size s -> nth p (array t) n_zero = total gs p.
Proof.
  intros T NT gs s cell ts RT HP HF NE R F. destruct (serial_all None gs cell ts R F) as (gs' & P & E).
  assert (HF' : Forall (fun g => wf g /\ shape g = s) gs') by (eapply Permutation_Forall; eauto).
  destruct gs' as [|g gs']; [apply Permutation_sym, Permutation_nil in P; congruence|]. inversion HF' as [|? ? [Hg Eg] HF'']; subst.
  cbn [foldM add_alone bind] in E. destruct (add_alone_sum (shape g) HP gs' g Hg eq_refl HF'') as (t & E1 & _ & E3 & E4).
  rewrite E1 in E. injection E as <-. exists t. split; [reflexivity|]. split; [exact E3|]. intros p Hp. rewrite (E4 p Hp). unfold total.
  destruct RT as [R0 RC RA _ _ _ _ _ _].
  rewrite (sum_perm RC (fun x y z => eq_sym (RA x y z)) _ _ (Permutation_map (fun g0 => nth p (array g0) n_zero) P)). cbn [map fold_left]. f_equal. symmetry. apply R0.
Qed.
Example c46_one_at_a_time_ex : exists cell, star serial_step (Some (None, map UReady [one; one])) (Some (cell, [UDone; UDone])) /\ cell = Some (mkRaw [2]%Z [1]).
Proof.
  exists (Some (mkRaw [2]%Z [1])). split; [|reflexivity].
  eapply star_first; [split; [apply (u_read None one one [] [UReady one]); reflexivity|cbn; lia]|].
  eapply star_first; [split; [apply (u_write None one [] [UReady one])|cbn; lia]|].
  eapply star_first; [split; [apply (u_read (Some one) one (mkRaw [2]%Z [1]) [UDone] []); vm_compute; reflexivity|cbn; lia]|].
  eapply star_first; [split; [apply (u_write (Some one) _ [UDone] [])|cbn; lia]|]. apply star_refl.
Qed.
