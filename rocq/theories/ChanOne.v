(** * ChanOne: with one worker and jobs in order, the messages are applied in the order of the sequential reading *)
From Coq Require Import Permutation.
From Verif Require Import Base ModelIndex ModelTensor ModelOps ModelJvp ModelPar Spec SpecPar Lists IndexFacts JvpFacts ParFacts ChanFacts ChanLive.

Section One.
Context {T : Type} {NT : Num T}.
Variables (tasks : list (list (msg T * msg T))) (arr : side -> list T).
Variable bound : forall s m, In m (all_msgs tasks s) -> fst m < length (arr s).

(** The messages for channel [c] *)
Definition chan_of (c : nat) (m : msg T) : bool := Nat.shiftr (fst m) bit_width =? c.
Definition for_chan (c : nat) (l : list (msg T)) : list (msg T) := filter (chan_of c) l.

Definition act_msgs (s : side) (a : action T) : list (msg T) := match a with AWrite ms => side_msgs s ms | _ => [] end.
Definition to_send (st : machine T) (s : side) : list (msg T) :=
  flat_map (job_msgs s) (m_running st ++ m_injected st) ++ flat_map (act_msgs s) (m_main st).

Definition queue_of (ch : list (option (list (msg T)))) (c : nat) : list (msg T) := match nth_error ch c with Some (Some q) => q | _ => [] end.
Definition seg_of (sg : list (list T)) (c : nat) : list T := nth c sg [].

Definition order_inv (st : machine T) : Prop :=
  length (m_running st) <= 1 /\
  forall s c, c < nsegs arr s -> exists D, foldM (receive c) D (seg_of (split_new (arr s)) c) = Ret (seg_of (m_segs st s) c) /\
    D ++ queue_of (m_chan st s) c ++ for_chan c (to_send st s) = for_chan c (all_msgs tasks s).

Lemma order_init : order_inv (par_init tasks arr).
Proof.
  split; [cbn; lia|]. intros s c Hc. exists []. split; [reflexivity|]. unfold queue_of, to_send. cbn [par_init m_running m_injected m_main m_chan].
  destruct (nth_error (repeat (Some []) (length (split_new (arr s)))) c) as [[q|]|] eqn:E.
  1: apply nth_error_In, repeat_spec in E; injection E as ->.
  all: cbn [app flat_map]; f_equal; rewrite flat_map_app; cbn [flat_map act_msgs app]; rewrite ?app_nil_r.
  all: cut (forall l, flat_map (act_msgs s) (map (fun t => AWrite (writer_msgs t)) l) = match s with SLeft => map fst (concat l) | SRight => map snd (concat l) end);
    [intros X; apply X|]; (induction l as [|t l IH]; [destruct s; reflexivity|]); cbn [map flat_map act_msgs concat]; rewrite IH, side_msgs_writer; destruct s; rewrite map_app; reflexivity.
Qed.

Lemma one_run (pre post : list (job T)) j : length (pre ++ j :: post) <= 1 -> pre = [] /\ post = [].
Proof. rewrite app_length. cbn. destruct pre, post; cbn; try lia; auto. Qed.

Lemma for_chan_app c u v : for_chan c (u ++ v) = for_chan c u ++ for_chan c v.
Proof. apply filter_app. Qed.

Lemma queue_set ch c c' o : c < length ch -> queue_of (list_set ch c o) c' = if c =? c' then match o with Some q => q | None => [] end else queue_of ch c'.
Proof.
  intros H. unfold queue_of. destruct (Nat.eqb_spec c c') as [<-|N].
  - rewrite (nth_error_nth' _ None) by (rewrite list_set_length; auto). rewrite list_set_nth_eq by auto. reflexivity.
  - destruct (Nat.lt_ge_cases c' (length ch)) as [L|L].
    + rewrite !(nth_error_nth' _ None) by (rewrite ?list_set_length; auto). rewrite list_set_nth_neq by auto. reflexivity.
    + rewrite !(proj2 (nth_error_None _ _)) by (rewrite ?list_set_length; auto). reflexivity.
Qed.

Lemma channel_of (n : nat) (m : msg T) c : writer_channel n (fst m) = Ret c -> forall c', chan_of c' m = (c =? c').
Proof. unfold writer_channel, chan_of. destruct (_ <? n); [|discriminate]. intros E c'. inversion E. reflexivity. Qed.

Lemma order_step st st' : good tasks arr (Some st) -> fifo_inv st -> order_inv st -> par_step 1 true (Some st) (Some st') -> order_inv st'.
Proof.
  intros [HM HI] HF (HL & HO) Q.
  inversion Q; subst; unfold order_inv, to_send in *; cbn [m_main m_injected m_local m_running m_chan m_segs m_held] in *.
  - split; [exact HL|]. intros s c Hc. destruct (HO s c Hc) as (D & E1 & E2). exists D. split; [exact E1|]. rewrite <- E2. do 2 f_equal.
    rewrite !flat_map_app. cbn [flat_map act_msgs job_msgs]. rewrite <- !app_assoc. reflexivity.
  - split; [exact HL|]. exact HO.
  - split; [exact HL|]. intros s0 c Hc. destruct (HO s0 c Hc) as (D & E1 & E2). exists D. split; [exact E1|]. rewrite <- E2. do 2 f_equal.
    rewrite !flat_map_app. cbn [flat_map act_msgs job_msgs]. rewrite ?app_nil_r. reflexivity.
  - match goal with E : true = true -> _ |- _ => rewrite (E eq_refl) in * end. assert (run = []) by (destruct run; [reflexivity|cbn in *; lia]). subst run.
    split; [cbn; lia|]. exact HO.
  - assert (run = []) by (destruct run; [reflexivity|cbn in *; lia]). subst run. split; [cbn; lia|].
    destruct HM as [HM _]. cbn in HM. apply Forall_app in HM as [_ HM]. inversion HM as [|? ? HR _]; subst. destruct j; destruct HR. exact HO.
  - destruct (one_run _ _ _ HL) as [-> ->]. split; [cbn; lia|]. intros s0 c0 Hc. destruct (HO s0 c0 Hc) as (D & E1 & E2). exists D. split; [exact E1|]. rewrite <- E2.
    cbn [app flat_map job_msgs side_msgs fst snd]. destruct (side_eqb_spec s s0) as [<-|N].
    + rewrite upd_same, side_eqb_refl. match goal with E : nth_error (ch s) c = _, W : writer_channel _ _ = _ |- _ =>
        rewrite queue_set by (apply nth_error_Some; unfold msg in *; congruence); cbn [app for_chan filter]; rewrite (channel_of _ _ _ W);
        destruct (Nat.eqb_spec c c0) as [<-|Nc]; [|reflexivity]; unfold queue_of; rewrite E; rewrite <- !app_assoc; reflexivity end.
    + rewrite upd_other by auto. destruct (side_eqb_spec s0 s); [congruence|]. reflexivity.
  - destruct (one_run _ _ _ HL) as [-> ->]. split; [cbn; lia|]. exact HO.
  - destruct (one_run _ _ _ HL) as [-> ->]. split; [cbn; lia|]. exact HO.
  - destruct (one_run _ _ _ HL) as [-> ->]. split; [cbn; lia|]. exact HO.
  - split; [exact HL|]. intros s0 c0 Hc. destruct (HO s0 c0 Hc) as (D & E1 & E2). destruct (side_eqb_spec s s0) as [<-|N].
    + rewrite !upd_same. rewrite queue_set by (apply nth_error_Some; unfold msg in *; congruence). destruct (Nat.eqb_spec c c0) as [<-|Nc].
      * exists (D ++ [m]). split.
        -- rewrite foldM_app, E1. cbn [bind foldM]. unfold seg_of. erewrite nth_error_nth by eassumption.
           match goal with R : receive _ _ _ = _ |- _ => rewrite R end. cbn [bind]. rewrite list_set_nth_eq by (apply nth_error_Some; unfold msg in *; congruence). reflexivity.
        -- rewrite <- E2. unfold queue_of, msg in *. match goal with E : nth_error (ch s) c = _ |- _ => rewrite E end. rewrite <- app_assoc. reflexivity.
      * exists D. split; [|exact E2]. unfold seg_of in *. rewrite list_set_nth_neq by auto. exact E1.
    + rewrite !upd_other by auto. eauto.
  - destruct (one_run _ _ _ HL) as [-> ->]. split; [cbn; lia|]. intros s0 c0 Hc. destruct (HO s0 c0 Hc) as (D & E1 & E2). exists D. split; [exact E1|].
    rewrite <- E2. destruct (side_eqb_spec s s0) as [<-|N]; [|rewrite upd_other by auto; reflexivity].
    rewrite upd_same. match goal with E : nth_error (ch s) c = _ |- _ => rewrite queue_set by (apply nth_error_Some; unfold msg in *; congruence); destruct (Nat.eqb_spec c c0) as [<-|Nc]; [|reflexivity];
      unfold queue_of, msg in *; rewrite E; reflexivity end.
Qed.

(** The sequential reading, segment by segment *)
Lemma deliver_segs s : forall D a sg, length a = length (arr s) -> (forall m, In m D -> fst m < length (arr s)) ->
  foldM deliver D (split_new a) = Ret sg ->
  length sg = nsegs arr s /\ forall c, c < nsegs arr s -> foldM (receive c) (for_chan c D) (seg_of (split_new a) c) = Ret (seg_of sg c).
Proof.
  induction D as [|m D IH]; intros a sg EL HB E.
  - cbn in E. injection E as <-. split; [apply nsegs_len; exact EL|]. reflexivity.
  - cbn [foldM] in E. assert (Hm : fst m < length (arr s)) by (apply HB; left; reflexivity).
    assert (EC : exists c, writer_channel (nsegs arr s) (fst m) = Ret c).
    { pose proof (deliver_ok (arr s) (fst m) (snd m) Hm) as X. unfold deliver in X. cbn [fst] in X. fold (nsegs arr s) in X.
      destruct (writer_channel (nsegs arr s) (fst m)); [eauto|discriminate X|discriminate X]. }
    destruct EC as (c & EC). destruct (deliver_receive arr s a m c EL Hm EC) as (sl & sl' & X1 & X2 & X3 & X4).
    rewrite X3 in E. cbn [bind] in E. rewrite X4 in E. apply IH in E as [E1 E2]; [|rewrite acc_at_length; exact EL|intros m' Hm'; apply HB; right; exact Hm'].
    split; [exact E1|]. intros c0 Hc0. rewrite <- (E2 c0 Hc0), <- X4. cbn [for_chan filter]. rewrite (channel_of _ _ _ EC).
    destruct (Nat.eqb_spec c c0) as [<-|N].
    + cbn [foldM]. unfold seg_of at 1. rewrite (nth_error_nth _ _ _ X1), X2. cbn [bind]. unfold seg_of. rewrite list_set_nth_eq by (apply nth_error_Some; unfold msg in *; congruence). reflexivity.
    + unfold seg_of. rewrite list_set_nth_neq by auto. reflexivity.
Qed.

Definition one_good (c : config T) : Prop := match c with Some st => good tasks arr (Some st) /\ fifo_inv st /\ order_inv st | None => False end.

Lemma one_reach c : par_run 1 true (Some (par_init tasks arr)) c -> one_good c.
Proof.
  intros R. eapply star_ind_inv; [| |exact R].
  - split; [apply good_init|]. split; [apply fifo_init|apply order_init].
  - intros [st|] c' H Q; [|destruct H]. destruct H as (G & F & O). pose proof (good_step tasks arr bound 1 true _ _ G Q) as G'.
    destruct c' as [st'|]; [|destruct G']. split; [exact G'|]. split; [exact (fifo_step 1 st st' (proj1 G) F Q)|exact (order_step st st' G F O Q)].
Qed.

Lemma one_segs st : par_run 1 true (Some (par_init tasks arr)) (Some st) -> finished st ->
  forall s, foldM deliver (all_msgs tasks s) (split_new (arr s)) = Ret (m_segs st s).
Proof.
  intros R F s. destruct (one_reach _ R) as (G & _ & _ & O). destruct G as [_ HI]. destruct (HI s) as (H1 & (D & a & H4 & H5 & H6 & H7) & H8 & H9 & _).
  assert (HB : forall m, In m (all_msgs tasks s) -> fst m < length (arr s)) by (intros m; apply bound).
  assert (X : exists sg, foldM deliver (all_msgs tasks s) (split_new (arr s)) = Ret sg).
  { assert (K : forall l a, length a = length (arr s) -> (forall m, In m l -> fst m < length (arr s)) -> exists sg, foldM deliver l (split_new a) = Ret sg).
    { induction l as [|[g x] l IH]; intros a0 EL HB'; [eexists; reflexivity|]. cbn [foldM]. rewrite deliver_ok by (rewrite EL; apply (HB' (g, x)); left; reflexivity).
      cbn [bind]. apply IH; [rewrite acc_at_length; exact EL|intros m Hm; apply HB'; right; exact Hm]. }
    apply K; auto. }
  destruct X as (sg & X). rewrite X. f_equal. pose proof (deliver_segs s _ _ sg eq_refl HB X) as [L1 L2].
  apply (nth_ext _ _ [] []); [rewrite H5, (nsegs_len arr a s H6); exact L1|]. intros c Hc. rewrite L1 in Hc.
  specialize (L2 c Hc). destruct (O s c Hc) as (Dc & E1 & E2).
  assert (EQ : queue_of (m_chan st s) c = []).
  { rewrite (finished_jobs st F) in H9. cbn [flat_map app] in H9. unfold queue_of.
    assert (In c (closed 0 (m_chan st s))) as Hin by (rewrite H9; apply in_seq; lia). apply closed_in in Hin as (i & -> & Ei). cbn. rewrite Ei. reflexivity. }
  assert (ES : to_send st s = []). { destruct F as (F1 & F2 & _ & F4). unfold to_send. rewrite F1, F2, F4. reflexivity. }
  rewrite EQ, ES in E2. cbn [for_chan filter app] in E2. rewrite app_nil_r in E2. subst Dc. unfold seg_of in *. congruence.
Qed.
End One.
