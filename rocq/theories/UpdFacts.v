(** * UpdFacts: [update_grad] from several threads *)
From Coq Require Import Permutation.
From Verif Require Import Base ModelIndex ModelTensor ModelOps ModelJvp ModelPar Spec SpecPar Lists IndexFacts TensorFacts ParFacts OpsFacts.

Section Upd.
Context {T : Type} {NT : Num T}.
Variables (cell0 : option (raw T)) (gs : list (raw T)).
Definition pick (i : nat) : raw T := nth i gs (mkRaw [] []).
Definition added (used : list nat) (cell : option (raw T)) : Prop :=
  NoDup used /\ (forall i, In i used -> i < length gs) /\ foldM add_alone (map pick used) cell0 = Ret cell.

Definition ready (ts : list (updater T)) (i : nat) : Prop := exists g, nth_error ts i = Some (UReady g).

Lemma nth_mid_eq A (u v : list A) x : nth_error (u ++ x :: v) (length u) = Some x.
Proof. rewrite nth_error_app2, Nat.sub_diag by lia. reflexivity. Qed.
Lemma nth_mid_ne A (u v : list A) x y i : i <> length u -> nth_error (u ++ x :: v) i = nth_error (u ++ y :: v) i.
Proof.
  intros N. destruct (Nat.lt_ge_cases i (length u)); [rewrite !nth_error_app1 by auto; reflexivity|]. rewrite !nth_error_app2 by auto.
  destruct (i - length u) eqn:E; [lia|reflexivity].
Qed.

Definition upd_inv (s : option (option (raw T) * list (updater T))) : Prop :=
  match s with
  | None => True
  | Some (cell, ts) =>
    length ts = length gs /\ (forall i g, nth_error ts i = Some (UReady g) -> nth_error gs i = Some g) /\
    (exists used, added used cell /\ (forall i, In i used -> ~ ready ts i) /\ ((exists i, nth_error ts i = Some UDone) -> used <> [])) /\
    (forall j new, nth_error ts j = Some (UComputed new) -> exists u, added u (Some new) /\ (forall i, In i u -> ~ ready ts i) /\ u <> [])
  end.

Lemma ready_mono u v x y (i : nat) : (forall g, y <> UReady g) -> ~ ready (u ++ x :: v) i -> ~ ready (u ++ y :: v) i.
Proof.
  intros N H (g & E). destruct (Nat.eq_dec i (length u)) as [->|Ne].
  - rewrite nth_mid_eq in E. injection E as ->. eapply N; reflexivity.
  - apply H. exists g. rewrite (nth_mid_ne _ _ _ _ y) by auto. exact E.
Qed.

Lemma added_more used cell i new g : added used cell -> nth_error gs i = Some g -> ~ In i used ->
  match cell with None => Ret g | Some other => add_raw (LRaw other) (LRaw g) end = Ret new -> added (used ++ [i]) (Some new).
Proof.
  intros (H1 & H2 & H3) E N EN. split; [|split].
  - apply (Permutation_NoDup (Permutation_cons_append used i)). constructor; auto.
  - intros k Hk. apply in_app_iff in Hk as [Hk|[<-|[]]]; [auto|]. apply nth_error_Some. congruence.
  - rewrite map_app, foldM_app, H3. cbn [bind map foldM]. unfold pick. erewrite nth_error_nth by eassumption. unfold add_alone.
    destruct cell as [o|]; [rewrite EN; reflexivity|]. injection EN as ->. reflexivity.
Qed.

Lemma upd_inv_step s s' : upd_inv s -> update_step s s' -> upd_inv s'.
Proof.
  intros HI Q. inversion Q as [cell g new pre post E|cell g p pre post E|cell new pre post]; subst; [|exact I|].
  - destruct HI as (HL & HG & (used & HU & HR & HN) & HC).
    assert (Eg : nth_error gs (length pre) = Some g) by (apply HG; apply nth_mid_eq).
    split; [rewrite app_length in *; exact HL|]. split; [|split].
    + intros i g' Ei. destruct (Nat.eq_dec i (length pre)) as [->|Ne]; [rewrite nth_mid_eq in Ei; discriminate Ei|].
      apply HG. rewrite (nth_mid_ne _ _ _ _ (UComputed new)) by auto. exact Ei.
    + exists used. split; [exact HU|]. split; [intros i Hi; eapply ready_mono; [discriminate|apply HR; exact Hi]|].
      intros (i & Ei). apply HN. exists i. destruct (Nat.eq_dec i (length pre)) as [->|Ne]; [rewrite nth_mid_eq in Ei; discriminate Ei|].
      rewrite (nth_mid_ne _ _ _ _ (UComputed new)) by auto. exact Ei.
    + intros j new' Ej. destruct (Nat.eq_dec j (length pre)) as [->|Ne].
      * rewrite nth_mid_eq in Ej. injection Ej as <-. exists (used ++ [length pre]). split; [|split].
        -- eapply added_more; eauto. intros Hin. apply (HR _ Hin). exists g. apply nth_mid_eq.
        -- intros i Hi. apply in_app_iff in Hi as [Hi|[<-|[]]]; [eapply ready_mono; [discriminate|apply HR; exact Hi]|].
           intros (g' & X). rewrite nth_mid_eq in X. discriminate X.
        -- destruct used; discriminate.
      * destruct (HC j new') as (u & U1 & U2 & U3); [rewrite (nth_mid_ne _ _ _ _ (UComputed new)) by auto; exact Ej|].
        exists u. split; [exact U1|]. split; [|exact U3]. intros i Hi. eapply ready_mono; [discriminate|apply U2; exact Hi].
  - destruct HI as (HL & HG & (used & HU & HR & HN) & HC).
    split; [rewrite app_length in *; exact HL|]. split; [|split].
    + intros i g' Ei. destruct (Nat.eq_dec i (length pre)) as [->|Ne]; [rewrite nth_mid_eq in Ei; discriminate Ei|].
      apply HG. rewrite (nth_mid_ne _ _ _ _ UDone) by auto. exact Ei.
    + destruct (HC (length pre) new) as (u & U1 & U2 & U3); [apply nth_mid_eq|].
      exists u. split; [exact U1|]. split; [|intros _; exact U3]. intros i Hi. eapply ready_mono; [discriminate|apply U2; exact Hi].
    + intros j new' Ej. destruct (Nat.eq_dec j (length pre)) as [->|Ne]; [rewrite nth_mid_eq in Ej; discriminate Ej|].
      destruct (HC j new') as (u & U1 & U2 & U3); [rewrite (nth_mid_ne _ _ _ _ UDone) by auto; exact Ej|].
      exists u. split; [exact U1|]. split; [|exact U3]. intros i Hi. eapply ready_mono; [discriminate|apply U2; exact Hi].
Qed.

Lemma added_nil : added [] cell0.
Proof. split; [constructor|]. split; [intros i []|reflexivity]. Qed.

Lemma upd_inv_init : upd_inv (Some (cell0, map UReady gs)).
Proof.
  assert (R : forall i u, nth_error (map UReady gs) i = Some u -> exists g, nth_error gs i = Some g /\ u = UReady g).
  { intros i u E. rewrite nth_error_map in E. destruct (nth_error gs i) as [g|]; [|discriminate E]. injection E as <-. eauto. }
  split; [apply map_length|]. split; [|split].
  - intros i g E. apply R in E as (g' & E & X). injection X as <-. exact E.
  - exists []. split; [apply added_nil|]. split; [intros i []|]. intros (i & E). apply R in E as (g & _ & X). discriminate X.
  - intros j new E. apply R in E as (g & _ & X). discriminate X.
Qed.

Lemma upd_reach s : star update_step (Some (cell0, map UReady gs)) s -> upd_inv s.
Proof. intros R. eapply star_ind_inv; [apply upd_inv_init|intros; eapply upd_inv_step; eauto|exact R]. Qed.

(** ** One at a time *)
Definition ser_inv (s : option (option (raw T) * list (updater T))) : Prop :=
  match s with
  | None => True
  | Some (cell, ts) =>
    one_inside s /\ length ts = length gs /\ (forall i g, nth_error ts i = Some (UReady g) -> nth_error gs i = Some g) /\
    exists used, added used cell /\ (forall i, In i used <-> nth_error ts i = Some UDone) /\
      (forall j new, nth_error ts j = Some (UComputed new) -> added (used ++ [j]) (Some new))
  end.

Definition inside (u : updater T) : bool := match u with UComputed _ => true | _ => false end.
Lemma only_one ts i j a b : length (filter inside ts) <= 1 -> nth_error ts i = Some (UComputed a) -> nth_error ts j = Some (UComputed b) -> i = j.
Proof.
  revert i j. induction ts as [|t ts IH]; intros [|i] [|j] H Ei Ej; try discriminate; auto; cbn [nth_error] in *.
  - injection Ei as ->. cbn in H. apply nth_error_In in Ej. assert (In (UComputed b) (filter inside ts)) by (apply filter_In; auto). destruct (filter inside ts); [contradiction|cbn in H; lia].
  - injection Ej as ->. cbn in H. apply nth_error_In in Ei. assert (In (UComputed a) (filter inside ts)) by (apply filter_In; auto). destruct (filter inside ts); [contradiction|cbn in H; lia].
  - f_equal. apply IH; auto. cbn in H. destruct (inside t); cbn in H; lia.
Qed.

Lemma ser_inv_step s s' : ser_inv s -> serial_step s s' -> ser_inv s'.
Proof.
  intros HI [Q O]. inversion Q as [cell g new pre post E|cell g p pre post E|cell new pre post]; subst; [|exact I|].
  - destruct HI as (HO & HL & HG & used & HU & HD & HC).
    assert (Eg : nth_error gs (length pre) = Some g) by (apply HG; apply nth_mid_eq).
    split; [exact O|]. split; [rewrite app_length in *; exact HL|]. split.
    + intros i g' Ei. destruct (Nat.eq_dec i (length pre)) as [->|Ne]; [rewrite nth_mid_eq in Ei; discriminate Ei|].
      apply HG. rewrite (nth_mid_ne _ _ _ _ (UComputed new)) by auto. exact Ei.
    + exists used. split; [exact HU|]. split.
      * intros i. rewrite HD. destruct (Nat.eq_dec i (length pre)) as [->|Ne]; [rewrite !nth_mid_eq; split; discriminate|].
        rewrite (nth_mid_ne _ _ _ (UReady g) (UComputed new)) by auto. reflexivity.
      * intros j new' Ej. assert (j = length pre) by (eapply only_one; [exact O|exact Ej|apply nth_mid_eq]). subst j.
        rewrite nth_mid_eq in Ej. injection Ej as <-. eapply added_more; eauto. rewrite HD, nth_mid_eq. discriminate.
  - destruct HI as (HO & HL & HG & used & HU & HD & HC).
    split; [exact O|]. split; [rewrite app_length in *; exact HL|]. split.
    + intros i g' Ei. destruct (Nat.eq_dec i (length pre)) as [->|Ne]; [rewrite nth_mid_eq in Ei; discriminate Ei|].
      apply HG. rewrite (nth_mid_ne _ _ _ _ UDone) by auto. exact Ei.
    + exists (used ++ [length pre]). split; [apply HC; apply nth_mid_eq|]. split.
      * intros i. rewrite in_app_iff, HD. cbn [In]. destruct (Nat.eq_dec i (length pre)) as [->|Ne]; [rewrite !nth_mid_eq; split; auto|].
        rewrite (nth_mid_ne _ _ _ (UComputed new) UDone) by auto. split; [intros [X|[X|[]]]; [exact X|congruence]|auto].
      * intros j new' Ej. exfalso. destruct (Nat.eq_dec j (length pre)) as [->|Ne]; [rewrite nth_mid_eq in Ej; discriminate Ej|].
        apply Ne. rewrite (nth_mid_ne _ _ _ _ (UComputed new)) in Ej by auto. eapply only_one; [exact HO|exact Ej|apply nth_mid_eq].
Qed.

Lemma ser_reach s : star serial_step (Some (cell0, map UReady gs)) s -> ser_inv s.
Proof.
  intros R. eapply star_ind_inv; [|intros; eapply ser_inv_step; eauto|exact R].
  destruct upd_inv_init as (H1 & H2 & _).
  assert (R' : forall i u, nth_error (map UReady gs) i = Some u -> exists g, u = UReady g).
  { intros i u E. rewrite nth_error_map in E. destruct (nth_error gs i) as [g|]; [|discriminate E]. injection E as <-. eauto. }
  split; [|split; [exact H1|split; [exact H2|]]].
  - cbn. clear. induction gs as [|g l IH]; [cbn; lia|exact IH].
  - exists []. split; [apply added_nil|]. split.
    + intros i. split; [intros []|]. intros E. apply R' in E as (g & E). discriminate E.
    + intros j new E. apply R' in E as (g & E). discriminate E.
Qed.

Lemma pick_all : map pick (seq 0 (length gs)) = gs.
Proof.
  apply (nth_ext _ _ (mkRaw [] []) (mkRaw [] [])); [rewrite map_length, seq_length; reflexivity|]. intros i Hi. rewrite map_length, seq_length in Hi.
  rewrite (nth_indep _ _ (pick 0)) by (rewrite map_length, seq_length; exact Hi). rewrite map_nth, seq_nth by exact Hi. reflexivity.
Qed.

Lemma serial_all cell ts : star serial_step (Some (cell0, map UReady gs)) (Some (cell, ts)) -> Forall (fun u => u = UDone) ts ->
  exists gs', Permutation gs gs' /\ foldM add_alone gs' cell0 = Ret cell.
Proof.
  intros R F. apply ser_reach in R as (_ & HL & _ & used & (U1 & U2 & U3) & HD & _). exists (map pick used). split; [|exact U3].
  assert (P : Permutation (seq 0 (length gs)) used).
  { apply NoDup_Permutation; [apply seq_NoDup|exact U1|]. intros i. split; [|intros Hi; apply in_seq; apply U2 in Hi; lia].
    intros Hi. apply in_seq in Hi. apply HD. destruct (nth_error ts i) as [u|] eqn:E.
    - rewrite Forall_forall in F. rewrite (F u); [reflexivity|]. eapply nth_error_In; eauto.
    - apply nth_error_None in E. lia. }
  rewrite <- pick_all at 1. apply Permutation_map. exact P.
Qed.
End Upd.

(** ** The sum, entry by entry *)
Section Sum.
Context {T : Type} {NT : Num T}.
Lemma add_alone_sum s : positive s -> forall (gs : list (raw T)) o, wf o -> shape o = s -> Forall (fun g => wf g /\ shape g = s) gs ->
  exists t, foldM add_alone gs (Some o) = Ret (Some t) /\ wf t /\ shape t = s /\
    forall p, p < size s -> nth p (array t) n_zero = fold_left n_add (map (fun g => nth p (array g) n_zero) gs) (nth p (array o) n_zero).
Proof.
  intros HP. induction gs as [|g gs IH]; intros o Ho Es F.
  - exists o. repeat split; auto.
  - inversion F as [|? ? [Hg Eg] F']; subst. cbn [foldM add_alone]. rewrite add_same_shape by (auto; congruence). cbn [bind].
    destruct (IH (tabulate (shape o) (fun i => n_add (tval o i) (tval g i)))) as (t & E1 & E2 & E3 & E4); auto.
    + apply tabulate_wf.
    + exists t. split; [exact E1|]. split; [exact E2|]. split; [exact E3|]. intros p Hp. rewrite E4 by exact Hp. cbn [map fold_left]. f_equal.
      cbn [tabulate array]. rewrite (nth_indep _ _ (n_add (tval o []) (tval g []))) by (rewrite map_length, all_indices_length; exact Hp).
      rewrite (map_nth (fun i => n_add (tval o i) (tval g i))), nth_all_indices by exact Hp. unfold tval. rewrite Eg, !rm_unravel by exact Hp. reflexivity.
Qed.

Lemma sum_perm (comm : forall x y : T, n_add x y = n_add y x) (assoc : forall x y z : T, n_add (n_add x y) z = n_add x (n_add y z)) l l' :
  Permutation l l' -> forall z, fold_left n_add l z = fold_left n_add l' z.
Proof.
  induction 1 as [|x l l' P IH|x y l|l l' l'' P1 IH1 P2 IH2]; intros z; cbn [fold_left]; auto.
  - f_equal. rewrite !assoc. f_equal. apply comm.
  - rewrite IH1. apply IH2.
Qed.
End Sum.
