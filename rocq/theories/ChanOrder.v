(** * ChanOrder: the gradients a run of [bmm_jvp] ends with, for any arithmetic *)
From Coq Require Import Permutation.
From Verif Require Import Base ModelIndex ModelTensor ModelOps ModelJvp ModelPar Spec SpecPar SpecGraph Lists IndexFacts TensorFacts JvpFacts ParFacts ChanFacts ChanBmm.

Section ChanOrder.
Context {T : Type} {NT : Num T}.

Lemma perm_filter A (f : A -> bool) (l l' : list A) : Permutation l l' -> Permutation (filter f l) (filter f l').
Proof.
  induction 1 as [|x l l' P IH|x y l|l l' l'' P1 IH1 P2 IH2]; cbn; auto.
  - destruct (f x); auto.
  - destruct (f x), (f y); auto. apply perm_swap.
  - transitivity (filter f l'); auto.
Qed.

Lemma deliver_slots (D : list (msg T)) len q : (forall x, In x D -> fst x < len) -> q < len ->
  exists l, foldM deliver D (split_new (repeat n_zero len)) = Ret (split_new l) /\ length l = len /\
    forall q, q < len -> nth (place len q) l n_zero = fold_left n_add (map snd (filter (fun x => fst x =? q) D)) n_zero.
Proof.
  intros HB _. pose proof (deliver_fold _ fst snd D (repeat n_zero len)) as E. rewrite repeat_length in E. specialize (E HB).
  replace (map (fun a => (fst a, snd a)) D) with D in E by (rewrite <- map_id at 1; apply map_ext; intros []; reflexivity).
  eexists. split; [exact E|]. split.
  { rewrite (acc_length _ D (fun x => phi width len (fst x)) snd). apply repeat_length. }
  intros q0 Hq. change (place len q0) with (phi width len q0). assert (Hw : 0 < width) by (unfold width; lia).
  rewrite (acc_nth _ D (fun x => phi width len (fst x)) snd) by (intros x Hx; rewrite repeat_length; apply phi_lt; auto).
  rewrite repeat_nth by (apply phi_lt; auto). do 2 f_equal. apply filter_ext_in. intros x Hx.
  destruct (Nat.eqb_spec (fst x) q0) as [->|Hne]; [apply Nat.eqb_refl|].
  apply Nat.eqb_neq. intros X. apply Hne. eapply phi_inj; eauto.
Qed.

Lemma filter_map_comm A B (f : B -> bool) (g : A -> B) l : filter f (map g l) = map g (filter (fun x => f (g x)) l).
Proof. induction l as [|a l IH]; cbn; auto. destruct (f (g a)); cbn; rewrite IH; reflexivity. Qed.

Variables (a b jac : raw T) (n kk m d0 : nat).
Hypothesis (HI : bmm_inputs a b jac n kk m d0).

Lemma all_msgs_bmm : all_msgs (bmm_tasks a b jac n kk m d0) SLeft = map (fun x => (lpos n kk x, lmsg b jac m x)) (msgs n kk m d0) /\
  all_msgs (bmm_tasks a b jac n kk m d0) SRight = map (fun x => (rpos kk m x, rmsg a jac m x)) (msgs n kk m d0).
Proof.
  assert (E : concat (bmm_tasks a b jac n kk m d0) = map (fun x => ((lpos n kk x, lmsg b jac m x), (rpos kk m x, rmsg a jac m x))) (msgs n kk m d0)).
  { unfold bmm_tasks. rewrite <- flat_map_concat_map.
    unfold ikj, msgs. rewrite !list_prod_flat, !flat_map_flat_map, map_flat_map. apply flat_map_ext_in. intros i _.
    rewrite !flat_map_map, ?flat_map_flat_map, ?map_flat_map.
    apply flat_map_ext_in. intros k _. rewrite flat_map_map, map_flat_map. apply flat_map_ext_in. intros j _.
    unfold task_msgs. rewrite map_map. reflexivity. }
  cbn [all_msgs]. rewrite E, !map_map. split; reflexivity.
Qed.

Lemma bmm_any_order w f st : par_run w f (Some (par_init (bmm_tasks a b jac n kk m d0) (bmm_arr n kk m d0))) (Some st) -> finished st ->
  exists L R, bmm_jvp_finish ([d0; n * kk], [d0; kk * m]) st = Ret [mkRaw L [d0; n * kk]; mkRaw R [d0; kk * m]] /\
    length L = d0 * (n * kk) /\ length R = d0 * (kk * m) /\
    (forall r i k, r < d0 -> i < n -> k < kk -> exists order,
       Permutation order (map (fun j => n_mul (tval jac [r; i * m + j]) (tval b [k; j])) (seq 0 m)) /\
       nth (place (d0 * (n * kk)) (r * (n * kk) + (i * kk + k))) L n_zero = fold_left n_add order n_zero) /\
    (forall r k j, r < d0 -> k < kk -> j < m -> exists order,
       Permutation order (map (fun i => n_mul (tval jac [r; i * m + j]) (tval a [i; k])) (seq 0 n)) /\
       nth (place (d0 * (kk * m)) (r * (kk * m) + (k * m + j))) R n_zero = fold_left n_add order n_zero).
Proof.
  intros RUN F. destruct HI as (Ha & Hb & Hj & Hsa & Hsb & Hsj & Hn & Hk & Hm & Hd).
  pose proof (bmm_bound a b jac n kk m d0) as BD. pose proof (finished_delivered _ _ BD w f st RUN F) as FD.
  destruct (FD SLeft) as (DL & PL & EL). destruct (FD SRight) as (DR & PR & ER). clear FD. destruct all_msgs_bmm as [AL AR].
  destruct (deliver_slots DL (d0 * (n * kk)) 0) as (L & XL & HL & NL).
  { intros x Hx. rewrite PL in Hx. apply BD in Hx. cbn [bmm_arr] in Hx. rewrite repeat_length in Hx. exact Hx. } { nia. }
  destruct (deliver_slots DR (d0 * (kk * m)) 0) as (R & XR & HR & NR).
  { intros x Hx. rewrite PR in Hx. apply BD in Hx. cbn [bmm_arr] in Hx. rewrite repeat_length in Hx. exact Hx. } { nia. }
  cbn [bmm_arr] in EL, ER. rewrite XL in EL. rewrite XR in ER. injection EL as EL. injection ER as ER.
  exists L, R. split; [|split; [exact HL|split; [exact HR|split]]].
  - unfold bmm_jvp_finish. rewrite <- EL, <- ER. unfold split_new. rewrite !split_join_rchunks by (unfold width; lia). cbn [fst snd].
    rewrite !raw_new_ok by (rewrite size_row; assumption). reflexivity.
  - intros r i k Hr Hi Hkk. exists (map snd (filter (fun x => fst x =? r * (n * kk) + (i * kk + k)) DL)). split.
    + rewrite (Permutation_map snd (perm_filter _ _ _ _ PL)). rewrite AL, filter_map_comm. cbn [fst].
      rewrite lfilter by auto. rewrite !map_map. reflexivity.
    + apply NL. assert (i * kk + k < n * kk) by nia. nia.
  - intros r k j Hr Hkk Hjm. exists (map snd (filter (fun x => fst x =? r * (kk * m) + (k * m + j)) DR)). split.
    + rewrite (Permutation_map snd (perm_filter _ _ _ _ PR)). rewrite AR, filter_map_comm. cbn [fst].
      rewrite rfilter by auto. rewrite !map_map. reflexivity.
    + apply NR. assert (k * m + j < kk * m) by nia. nia.
Qed.
End ChanOrder.
