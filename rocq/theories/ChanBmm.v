(** * ChanBmm: the machine of [bmm_jvp] for two matrices *)
From Coq Require Import Permutation.
From Verif Require Import Base ModelIndex ModelTensor ModelOps ModelJvp ModelPar Spec SpecPar Lists IndexFacts JvpFacts ParFacts ChanFacts ChanLive.

Section ChanBmm.
Context {T : Type} {NT : Num T}.

Lemma rchunks_length (l : list T) : length (split_new l) = pieces (length l).
Proof.
  unfold split_new. remember (length l) as len eqn:E. revert l E. induction len as [len IH] using lt_wf_ind. intros l E.
  assert (C : l = [] \/ l <> []) by (destruct l; [left; reflexivity|right; discriminate]).
  destruct C as [->|NE]; [subst; reflexivity|]. assert (0 < len) by (subst; destruct l; [congruence|cbn; lia]).
  rewrite rchunks_cons by (unfold width; lia || exact NE). cbn [length]. rewrite <- E.
  rewrite (IH (len - width)); [|unfold width; lia|rewrite firstn_length; lia].
  unfold pieces, width. destruct (Nat.le_gt_cases len 32) as [Hle|Hgt].
  - replace (len - 32) with 0 by lia. cbn [plus]. symmetry. replace (S (31 / 32)) with 1 by reflexivity.
    symmetry. apply (Nat.div_unique (len + 31) 32 1 (len - 1)); lia.
  - replace (len + 31) with ((len - 32 + 31) + 1 * 32) by lia. rewrite Nat.div_add by lia. lia.
Qed.

Variables (a b jac : raw T) (n kk m d0 : nat).
Hypothesis (HI : bmm_inputs a b jac n kk m d0).

Definition task_msgs (x : nat * nat * nat) : list (msg T * msg T) :=
  let '(i, k, j) := x in
  map (fun r => ((lpos n kk (i, k, j, r), lmsg b jac m (i, k, j, r)), (rpos kk m (i, k, j, r), rmsg a jac m (i, k, j, r)))) (seq 0 d0).
Definition bmm_tasks : list (list (msg T * msg T)) := map task_msgs (ikj n kk m).
Definition bmm_arr (s : side) : list T := match s with SLeft => repeat n_zero (d0 * (n * kk)) | SRight => repeat n_zero (d0 * (kk * m)) end.

Lemma bmm_start_ok : bmm_jvp_start [a; b] [jac] = Ret (par_init bmm_tasks bmm_arr, ([d0; n * kk], [d0; kk * m])).
Proof.
  destruct HI as (Ha & Hb & Hj & Hsa & Hsb & Hsj & Hn & Hk & Hm & Hd).
  unfold bmm_jvp_start. cbn [two_one bind]. rewrite Hsa, Hsb, Hsj.
  change (vindex [n; kk] 1) with (Ret kk). change (vindex [kk; m] 0) with (Ret kk).
  change (vindex [n; kk] 0) with (Ret n). change (vindex [kk; m] 1) with (Ret m).
  change (vindex [d0; n * m] 0) with (Ret d0). cbn [bind]. rewrite Nat.eqb_refl. cbn [assert bind].
  rewrite (mapM_pure _ _ _ task_msgs); [cbn [bind]; reflexivity|].
  intros [[i k] j] H. unfold ikj in H. apply in_prod_iff in H as [H H3]. apply in_prod_iff in H as [H1 H2].
  apply in_seq in H1, H2, H3. apply (bmm_task_ok a b jac n kk m d0); auto; lia.
Qed.

Lemma bmm_finish_ok st :
  (forall s, foldM deliver (all_msgs bmm_tasks s) (split_new (bmm_arr s)) = Ret (m_segs st s)) ->
  bmm_jvp_finish ([d0; n * kk], [d0; kk * m]) st = bmm_jvp [a; b] [jac].
Proof.
  intros H. destruct HI as (Ha & Hb & Hj & Hsa & Hsb & Hsj & Hn & Hk & Hm & Hd).
  unfold bmm_jvp. cbn [two_one bind]. rewrite Hsa, Hsb, Hsj.
  change (vindex [n; kk] 1) with (Ret kk). change (vindex [kk; m] 0) with (Ret kk).
  change (vindex [n; kk] 0) with (Ret n). change (vindex [kk; m] 1) with (Ret m).
  change (vindex [d0; n * m] 0) with (Ret d0). cbn [bind]. rewrite Nat.eqb_refl. cbn [assert bind].
  rewrite (mapM_pure _ _ _ task_msgs).
  2: { intros [[i k] j] X. unfold ikj in X. apply in_prod_iff in X as [X H3]. apply in_prod_iff in X as [H1 H2].
       apply in_seq in H1, H2, H3. apply (bmm_task_ok a b jac n kk m d0); auto; lia. }
  cbn [bind]. pose proof (H SLeft) as HL. pose proof (H SRight) as HR. unfold all_msgs, bmm_arr, bmm_tasks in HL, HR.
  unfold msg in *. rewrite HL. cbn [bind]. rewrite HR. reflexivity.
Qed.

Lemma bmm_bound s x : In x (all_msgs bmm_tasks s) -> fst x < length (bmm_arr s).
Proof.
  assert (K : forall y, In y (concat bmm_tasks) -> fst (fst y) < d0 * (n * kk) /\ fst (snd y) < d0 * (kk * m)).
  { intros y Hy. unfold bmm_tasks in Hy. apply in_concat in Hy as (t & Ht & Hy). apply in_map_iff in Ht as ([[i k] j] & <- & Ht).
    apply in_map_iff in Hy as (r & <- & Hr). unfold ikj in Ht. apply in_prod_iff in Ht as [Ht H3]. apply in_prod_iff in Ht as [H1 H2].
    apply in_seq in H1, H2, H3, Hr. cbn [fst snd]. split.
    - apply (lpos_lt n kk m d0); try lia. apply in_msgs; lia.
    - apply (rpos_lt n kk m d0); try lia. apply in_msgs; lia. }
  intros Hx. destruct s; cbn [all_msgs bmm_arr] in *; rewrite repeat_length; apply in_map_iff in Hx as (y & <- & Hy); apply K in Hy; tauto.
Qed.

Lemma bmm_tasks_ne : bmm_tasks <> [].
Proof.
  destruct HI as (Ha & Hb & Hj & Hsa & Hsb & Hsj & Hn & Hk & Hm & Hd). unfold bmm_tasks, ikj. destruct n, kk, m; try lia. discriminate.
Qed.

Lemma bmm_nsegs s : nsegs bmm_arr s = match s with SLeft => pieces (d0 * (n * kk)) | SRight => pieces (d0 * (kk * m)) end.
Proof. unfold nsegs. rewrite rchunks_length. destruct s; cbn [bmm_arr]; rewrite repeat_length; reflexivity. Qed.
End ChanBmm.
