(** * DropFacts: what dropping a reference does to counts and to the tensors alive *)
From Coq Require Import Relation_Operators Operators_Properties.
From Verif Require Import Base Lists ModelIndex ModelTensor ModelOps ModelJvp ModelGraph ModelHandle ModelDrop
  SpecGraph SpecHandle SpecDrop FuelFacts HandleFacts HandleProg HandleCycle HandleTerm.

Lemma occ_app l l' i : occ (l ++ l') i = occ l i + occ l' i.
Proof. apply count_occ_app. Qed.

Lemma occ_cons a l i : occ (a :: l) i = (if a =? i then 1 else 0) + occ l i.
Proof. unfold occ. cbn. destruct (Nat.eq_dec a i), (Nat.eqb_spec a i); try congruence; lia. Qed.

Lemma occ_in l i : 0 < occ l i <-> In i l.
Proof. unfold occ. symmetry. apply (count_occ_In Nat.eq_dec). Qed.

Lemma occ_not_in l i : ~ In i l -> occ l i = 0.
Proof. intros H. destruct (Nat.eq_0_gt_0_cases (occ l i)) as [E|E]; auto. apply occ_in in E. tauto. Qed.

Lemma occ_flat_map A (f : A -> list nat) l i : occ (flat_map f l) i = list_sum (map (fun a => occ (f a) i) l).
Proof. unfold list_sum in *. induction l as [|a l IH]; cbn; [reflexivity|]. rewrite occ_app, IH. reflexivity. Qed.

Lemma occ_seq n m i : occ (seq n m) i = if (n <=? i) && (i <? n + m) then 1 else 0.
Proof.
  destruct (Nat.leb_spec n i); [destruct (Nat.ltb_spec i (n + m))|]; cbn [andb].
  - apply (NoDup_count_occ' Nat.eq_dec); [apply seq_NoDup|apply in_seq; lia].
  - apply occ_not_in. rewrite in_seq. lia.
  - apply occ_not_in. rewrite in_seq. lia.
Qed.

Lemma sum_ext A (f g : A -> nat) l : (forall a, In a l -> f a = g a) -> list_sum (map f l) = list_sum (map g l).
Proof. intros H. f_equal. apply map_ext_in, H. Qed.

Lemma sum_plus A (f g : A -> nat) l : list_sum (map (fun a => f a + g a) l) = list_sum (map f l) + list_sum (map g l).
Proof. unfold list_sum in *. induction l as [|a l IH]; cbn; lia. Qed.

Lemma sum_app l l' : list_sum (l ++ l') = list_sum l + list_sum l'.
Proof. unfold list_sum in *. induction l as [|a l IH]; cbn; lia. Qed.

Lemma sum_one (f g : nat -> nat) i : forall l, NoDup l -> In i l -> (forall j, j <> i -> f j = g j) -> g i = 0 ->
  list_sum (map f l) = list_sum (map g l) + f i.
Proof.
  unfold list_sum in *. induction l as [|a l IH]; intros ND Hin H G; [destruct Hin|]. inversion ND; subst. cbn. destruct Hin as [->|Hin].
  - rewrite G. pose proof (sum_ext _ f g l) as X. unfold list_sum in X. rewrite X; [lia|]. intros j Hj. apply H. intros ->. tauto.
  - rewrite IH by auto. rewrite (H a); [lia|]. intros ->. tauto.
Qed.

Lemma sum_pos A (f : A -> nat) l : 0 < list_sum (map f l) -> exists a, In a l /\ 0 < f a.
Proof.
  unfold list_sum in *. induction l as [|a l IH]; cbn; [lia|]. intros H. destruct (Nat.eq_0_gt_0_cases (f a)) as [E|E]; [|eauto].
  destruct IH as (b & Hb & Lb); [lia|eauto].
Qed.

Lemma sum_ge A (f : A -> nat) l a : In a l -> f a <= list_sum (map f l).
Proof. unfold list_sum in *. induction l as [|b l IH]; cbn; [tauto|]. intros [->|H]; [lia|]. apply IH in H. lia. Qed.

Section Facts.
Context {T : Type} {NT : Num T}.
Implicit Types (h : hheap T).

(** ** Counts are right *)

(** References to [i] from tensors alive *)
Definition inner h (cnt : nat -> nat) (i : nat) : nat :=
  list_sum (map (fun j => if cnt j =? 0 then 0 else occ (owned h j) i) (seq 0 (length (hnodes h)))).

Definition owned_ok h : Prop := forall j b, j < length (hnodes h) -> In b (owned h j) -> b < length (hnodes h).

(** [R]: the references held from outside *)
Definition right h (R : list nat) (cnt : nat -> nat) : Prop :=
  owned_ok h /\ Forall (fun i => i < length (hnodes h)) R /\ forall i, cnt i = occ R i + inner h cnt i.

Definition alive_count h (cnt : nat -> nat) : nat := list_sum (map (fun j => if cnt j =? 0 then 0 else 1) (seq 0 (length (hnodes h)))).

Lemma alive_le h cnt : alive_count h cnt <= length (hnodes h).
Proof.
  unfold alive_count, list_sum. rewrite <- (seq_length (length (hnodes h)) 0) at 2. induction (seq 0 (length (hnodes h))) as [|a l IH]; cbn; [lia|].
  destruct (cnt a =? 0); lia.
Qed.

Lemma inner_ext h cnt cnt' : (forall j, (cnt j =? 0) = (cnt' j =? 0)) -> forall i, inner h cnt i = inner h cnt' i.
Proof. intros H i. unfold inner. apply sum_ext. intros j _. rewrite H. reflexivity. Qed.

Lemma alive_ext h cnt cnt' : (forall j, (cnt j =? 0) = (cnt' j =? 0)) -> alive_count h cnt = alive_count h cnt'.
Proof. intros H. unfold alive_count. apply sum_ext. intros j _. rewrite H. reflexivity. Qed.

Lemma inner_free h cnt i : i < length (hnodes h) -> cnt i <> 0 -> forall k, inner h cnt k = inner h (upd cnt i 0) k + occ (owned h i) k.
Proof.
  intros L C k. unfold inner. rewrite (sum_one _ (fun j => if upd cnt i 0 j =? 0 then 0 else occ (owned h j) k) i).
  - apply Nat.eqb_neq in C. rewrite C. reflexivity.
  - apply seq_NoDup.
  - apply in_seq. lia.
  - intros j N. unfold upd. apply Nat.eqb_neq in N. rewrite N. reflexivity.
  - unfold upd. rewrite Nat.eqb_refl. reflexivity.
Qed.

Lemma alive_free h cnt i : i < length (hnodes h) -> cnt i <> 0 -> alive_count h cnt = S (alive_count h (upd cnt i 0)).
Proof.
  intros L C. unfold alive_count. rewrite (sum_one _ (fun j => if upd cnt i 0 j =? 0 then 0 else 1) i).
  - apply Nat.eqb_neq in C. rewrite C. lia.
  - apply seq_NoDup.
  - apply in_seq. lia.
  - intros j N. unfold upd. apply Nat.eqb_neq in N. rewrite N. reflexivity.
  - unfold upd. rewrite Nat.eqb_refl. reflexivity.
Qed.

(** Dropping one reference keeps the counts right, terminates, and is nested at most as deep as there
    are tensors alive. *)
Definition released h R cnt d m (r : outcome ((nat -> nat) * nat)) : Prop :=
  exists cnt' m', r = Ret (cnt', m') /\ right h R cnt' /\ alive_count h cnt' <= alive_count h cnt /\
    m <= m' <= Nat.max m (d - 1 + alive_count h cnt) /\ forall j, cnt' j <= cnt j.

Lemma release_list h R f d :
  (forall cnt m i R, right h (i :: R) cnt -> alive_count h cnt < f -> 0 < d -> released h R cnt d m (release f d h (cnt, m) i)) -> 0 < d ->
  forall l cnt m, right h (l ++ R) cnt -> alive_count h cnt < f ->
  released h R cnt d m (foldM (release f d h) l (cnt, m)).
Proof.
  intros H Hd. induction l as [|i l IH]; intros cnt m HR HF.
  - exists cnt, m. cbn. repeat split; auto; try apply HR; lia.
  - destruct (H cnt m i (l ++ R) HR HF Hd) as (c1 & m1 & E1 & R1 & A1 & M1 & D1).
    destruct (IH c1 m1 R1) as (c2 & m2 & E2 & R2 & A2 & M2 & D2); [lia|].
    exists c2, m2. cbn [foldM]. rewrite E1. cbn [bind]. split; [exact E2|]. split; [exact R2|]. split; [lia|]. split; [lia|].
    intros j. specialize (D1 j). specialize (D2 j). lia.
Qed.

Lemma release_ok h : forall f d cnt m i R, right h (i :: R) cnt -> alive_count h cnt < f -> 0 < d -> released h R cnt d m (release f d h (cnt, m) i).
Proof.
  induction f as [|f IH]; intros d cnt m i R (OK & HL & HC) HF Hd; [lia|]. inversion HL; subst. rename H1 into Li. rename H2 into HL'.
  assert (Ci : cnt i <> 0). { rewrite (HC i), occ_cons, Nat.eqb_refl. lia. }
  pose proof (alive_free h cnt i Li Ci) as AF.
  cbn [release]. destruct (Nat.eqb_spec (cnt i) 1) as [E|E].
  - assert (R1 : right h (owned h i ++ R) (upd cnt i 0)).
    { split; [exact OK|]. split.
      - apply Forall_app. split; [|exact HL']. apply Forall_forall. intros b Hb. eapply OK; eauto.
      - intros k. pose proof (inner_free h cnt i Li Ci k) as IF. specialize (HC k). rewrite occ_cons in HC. rewrite occ_app.
        unfold upd at 1. destruct (Nat.eqb_spec k i) as [->|N].
        + rewrite Nat.eqb_refl in HC. lia.
        + destruct (Nat.eqb_spec i k); [congruence|]. lia. }
    destruct (release_list h R f (S d) (fun cnt m i R => IH (S d) cnt m i R) ltac:(lia) (owned h i) (upd cnt i 0) (Nat.max m d) R1) as (c & m' & E1 & R2 & A & M & D); [lia|].
    exists c, m'. split; [exact E1|]. split; [exact R2|]. split; [lia|]. split; [lia|].
    intros j. specialize (D j). unfold upd in D. destruct (Nat.eqb_spec j i); subst; lia.
  - assert (Z : forall j, (cnt j =? 0) = (upd cnt i (cnt i - 1) j =? 0)).
    { intros j. unfold upd. destruct (Nat.eqb_spec j i) as [->|]; auto. destruct (Nat.eqb_spec (cnt i) 0), (Nat.eqb_spec (cnt i - 1) 0); auto; lia. }
    exists (upd cnt i (cnt i - 1)), (Nat.max m d). split; [reflexivity|]. split; [|split; [rewrite (alive_ext h _ _ Z); lia|split; [lia|]]].
    + split; [exact OK|]. split; [exact HL'|]. intros k. rewrite <- (inner_ext h _ _ Z k). specialize (HC k). rewrite occ_cons in HC.
      unfold upd. destruct (Nat.eqb_spec k i) as [->|N]; [rewrite Nat.eqb_refl in HC; lia|]. destruct (Nat.eqb_spec i k); [congruence|lia].
    + intros j. unfold upd. destruct (Nat.eqb_spec j i); subst; lia.
Qed.

Lemma release_all_ok h l R cnt m : right h (l ++ R) cnt -> released h R cnt 1 m (release_all h (cnt, m) l).
Proof.
  intros H. unfold release_all. apply release_list; auto.
  - intros. apply release_ok; auto.
  - pose proof (alive_le h cnt). lia.
Qed.

Lemma points_owned h a b : points h a b <-> a < length (hnodes h) /\ In b (owned h a).
Proof.
  unfold points, owned, owned_inputs. split.
  - intros [(nd & k & ins & En & Ef & Hin)|[L Eg]].
    + split; [eapply nth_lt; eauto|]. apply in_or_app. right. rewrite En, Ef. auto.
    + split; [auto|]. apply in_or_app. left. rewrite Eg. left; auto.
  - intros [L Hin]. apply in_app_or in Hin as [Hin|Hin].
    + right. split; auto. destruct (hgrads h a) as [j|]; [|destruct Hin]. destruct Hin as [->|[]]; auto.
    + left. destruct (nth_error (hnodes h) a) as [nd|] eqn:En; [|destruct Hin]. destruct (n_fn nd) as [[k ins]|] eqn:Ef; [|destruct Hin]. eauto 8.
Qed.

Lemma owned_closed h : owned_ok h <-> closed h.
Proof.
  split; intros H.
  - intros a b Hp. apply points_owned in Hp as [L Hin]. eapply H; eauto.
  - intros j b L Hin. apply (H j b). apply points_owned. auto.
Qed.

(** ** References always lead to tensors that exist *)

Ltac leaf := apply refers_alloc; let EE := fresh in intros ? ? EE; inversion EE; subst; repeat constructor; eapply hget_lt; eauto.
Ltac step := repeat (apply refers_bind; intros ? ?).
Ltac rop := intros; first
 [ apply refers_sub | apply refers_bmm_view
 | unfold op_new, op_filler, op_scalar, op_from, op_add, op_neg, op_mul, op_abs, op_relu, op_tanh, op_sum, op_bmm, op_dot, op_dot_method, op_deep_clone,
     op_grad, op_view_to_tensor, op_view_sum, op_mul_view; step; first [leaf | intros ? ? ?; discriminate] ].

Lemma update_closed h h' i j : closed h -> j < length (hnodes h) -> h_update_grad h i j = Ret h' -> closed h' /\ length (hnodes h) <= length (hnodes h').
Proof.
  intros C Lj E. unfold h_update_grad in E. destruct (hgrads h i) as [o|] eqn:Eo.
  - apply bind_inv in E as ([h1 s] & E1 & E). inversion E; subst. clear E. apply forward_newer in E1; [|rop]. destruct E1 as [N L].
    split; [apply (set_closed h1 i s); auto; eapply newer_closed; eauto|apply N].
  - inversion E; subst. split; [apply (set_closed h i j); auto|cbn; lia].
Qed.

Lemma compute_closed : forall fu h h' k ins outer, closed h -> h_compute_jvp fu h k ins outer = Ret h' -> closed h' /\ length (hnodes h) <= length (hnodes h').
Proof.
  induction fu as [|fu IH]; intros h h' k ins outer C E; cbn [h_compute_jvp] in E; [discriminate|].
  apply bind_inv in E as (nds & En & E). apply bind_inv in E as (sg & _ & E).
  revert E. apply (foldM_inv_in _ _ (fun h' => closed h' /\ length (hnodes h) <= length (hnodes h'))); [|auto].
  intros a [g [i nd]] a' Hin (Ca & La) E.
  apply bind_inv in E as (u0 & _ & E). apply bind_inv in E as (sgr & _ & E).
  set (h1 := fst (h_alloc a sgr None None)) in *. change (h_alloc a sgr None None) with (h1, length (hnodes a)) in E. cbn beta iota in E.
  apply bind_inv in E as (h2 & E2 & E).
  assert (N1 : newer a h1) by (apply newer_alloc; intros; discriminate).
  assert (L1 : length (hnodes h1) = S (length (hnodes a))) by (unfold h1; cbn; rewrite app_length; cbn; lia).
  apply update_closed in E2; [|eapply newer_closed; eauto|lia]. destruct E2 as (C2 & L2). destruct (n_fn nd) as [[k' ins']|].
  - apply IH in E; auto. destruct E. split; auto. lia.
  - inversion E; subst. split; auto. lia.
Qed.

Definition sound (s : hstate T) : Prop := closed (hhp s) /\ Forall (fun i => i < length (hnodes (hhp s))) (henv s).

Lemma exec_sound (s s' : hstate T) c : sound s -> h_exec s c = Ret s' -> sound s'.
Proof.
  intros (C & HE) E.
  assert (P0 : forall h i, newer (hhp s) h -> i < length (hnodes h) -> sound (mkHState h (henv s ++ [i]))).
  { intros h i N L. split; cbn; [eapply newer_closed; eauto|]. apply Forall_app. split; [|repeat constructor; auto].
    eapply Forall_impl; [|exact HE]. cbn. intros a Ha. destruct N as [N _]. lia. }
  assert (P1 : forall h, closed h -> length (hnodes (hhp s)) <= length (hnodes h) -> sound (mkHState h (henv s))).
  { intros h Ch L. split; cbn; auto. eapply Forall_impl; [|exact HE]. cbn. intros; lia. }
  assert (B : forall x i, vindex (henv s) x = Ret i -> i < length (hnodes (hhp s))).
  { intros x i Ex. unfold vindex in Ex. destruct (nth_error (henv s) x) eqn:En; inversion Ex; subst. rewrite Forall_forall in HE. apply HE. eapply nth_error_In; eauto. }
  destruct c; cbn [h_exec] in E; unfold h_push in E;
    repeat (match type of E with bind (vindex _ _) _ = _ => let a := fresh "a" in let Ea := fresh "Ea" in apply bind_inv in E as (a & Ea & E) end);
    try (match type of E with bind (h_forward ?op _) _ = _ => apply bind_inv in E as ([h i] & E1 & E); injection E as <-; apply forward_newer in E1; [destruct E1; apply P0; auto|rop] end).
  - apply bind_inv in E as ([h i] & E1 & E). injection E as <-. apply sum_newer in E1 as [N L]. auto.
  - apply bind_inv in E as (g & E1 & E). injection E as <-. unfold h_grad in E1. destruct (hgrads (hhp s) a) as [g'|] eqn:Eg; [|discriminate]. inversion E1; subst.
    apply P0; [apply newer_refl|]. apply (C a g). right. split; auto. eapply B; eauto.
  - apply bind_inv in E as (h & E1 & E). injection E as <-. apply update_closed in E1; [|auto|eapply B; eauto]. destruct E1; auto.
  - injection E as <-. apply P1; [|cbn; lia]. intros b d Pb. apply clear_points in Pb. apply (C _ _ Pb).
  - apply bind_inv in E as (h & E1 & E). injection E as <-. unfold h_backward in E1.
    apply bind_inv in E1 as (nd & _ & E1). apply bind_inv in E1 as (u & _ & E1). apply bind_inv in E1 as ([k ins] & _ & E1).
    apply compute_closed in E1; auto. destruct E1; auto.
Qed.

(** ** What a call touches *)

Section Touch.
Variable P : nat -> Prop.

Definition stays h : Prop := forall a b, P a -> a < length (hnodes h) -> In b (owned h a) -> P b.

(** Tensors outside [P] are left alone, and [P] is not left. *)
Definition touches h h' : Prop :=
  hext h h' /\ (stays h -> stays h') /\ forall a, a < length (hnodes h) -> ~ P a -> hgrads h' a = hgrads h a.

Lemma touches_refl h : touches h h.
Proof. split; [apply hext_refl|]. auto. Qed.

Lemma touches_trans a b c : touches a b -> touches b c -> touches a c.
Proof.
  intros (X1 & S1 & G1) (X2 & S2 & G2). split; [eapply hext_trans; eauto|]. split; [auto|].
  intros i L N. rewrite G2; auto. destruct X1 as [e X1]. rewrite X1, app_length. lia.
Qed.

Definition puts (h : heap T) (r : outcome (heap T * nat)) : Prop := forall (h' : heap T) i, r = Ret (h', i) ->
  P i /\ exists e, nodes h' = nodes h ++ e /\ Forall (fun nd : node T => forall k ins, n_fn nd = Some (k, ins) -> Forall P ins) e.

Lemma puts_bind A (h : heap T) (m : outcome A) F : (forall a, m = Ret a -> puts h (F a)) -> puts h (let* a := m in F a).
Proof. intros H h' i E. destruct m as [a|p|]; cbn in E; try discriminate. eapply H; eauto. Qed.

Lemma puts_alloc (h : heap T) v fn g : P (length (nodes h)) -> (forall k ins, fn = Some (k, ins) -> Forall P ins) -> puts h (Ret (alloc h v fn g)).
Proof.
  intros HP H h' i E. inversion E; subst. split; [exact HP|]. exists [mkNode v fn]. cbn. split; [reflexivity|]. repeat constructor. cbn. exact H.
Qed.

Lemma puts_trans (h h1 h2 : heap T) i j : puts h (Ret (h1, i)) -> puts h1 (Ret (h2, j)) -> puts h (Ret (h2, j)).
Proof.
  intros R1 R2 h' k E. inversion E; subst. destruct (R1 _ _ eq_refl) as (P1 & e1 & X1 & F1). destruct (R2 _ _ eq_refl) as (P2 & e2 & X2 & F2).
  split; [exact P2|]. exists (e1 ++ e2). split; [rewrite X2, X1, app_assoc; reflexivity|]. apply Forall_app. auto.
Qed.

Lemma forward_touches op h h' i : puts (mkHeap (hnodes h) (fun _ => None)) (op (mkHeap (hnodes h) (fun _ => None))) -> h_forward op h = Ret (h', i) -> touches h h' /\ P i.
Proof.
  intros R E. unfold h_forward in E. apply bind_inv in E as ([v a] & E1 & E). inversion E; subst. destruct (R _ _ E1) as (Pi & e & X & F). cbn [nodes] in *.
  split; [|exact Pi]. split; [exists e; exact X|]. split.
  - intros S a b Pa La Hb. cbn [hnodes] in La. unfold owned, owned_inputs in Hb. cbn [hnodes hgrads] in Hb. apply in_app_or in Hb.
    destruct (Nat.ltb_spec a (length (hnodes h))) as [L|L].
    + apply (S a b Pa L). unfold owned, owned_inputs. apply in_or_app. rewrite X, nth_error_app1 in Hb by lia. exact Hb.
    + destruct Hb as [[]|Hb]. rewrite X, nth_error_app2 in Hb by lia. destruct (nth_error e (a - length (hnodes h))) as [nd|] eqn:En; [|destruct Hb].
      rewrite Forall_forall in F. specialize (F nd (nth_error_In _ _ En)). destruct (n_fn nd) as [[k ins]|]; [|destruct Hb].
      specialize (F k ins eq_refl). rewrite Forall_forall in F. auto.
  - intros a La N. cbn [hgrads]. destruct (Nat.ltb_spec a (length (hnodes h))); [reflexivity|lia].
Qed.

Lemma alloc_touches h v g : (forall j, g = Some j -> P j) -> touches h (fst (h_alloc h v None g)).
Proof.
  intros Hg. split; [eexists; reflexivity|]. split.
  - intros S a b Pa La Hb. cbn in La. rewrite app_length in La. cbn in La. unfold owned, owned_inputs in Hb. cbn in Hb. unfold upd in Hb.
    destruct (Nat.eqb_spec a (length (hnodes h))) as [->|N].
    + rewrite nth_error_app2, Nat.sub_diag in Hb by lia. cbn in Hb. rewrite app_nil_r in Hb. destruct g as [j|]; [|destruct Hb]. destruct Hb as [<-|[]]. auto.
    + rewrite nth_error_app1 in Hb by lia. apply (S a b Pa); [lia|exact Hb].
  - intros a La N. cbn. unfold upd. destruct (Nat.eqb_spec a (length (hnodes h))); [lia|reflexivity].
Qed.

Lemma set_touches h i g : P i -> (forall j, g = Some j -> P j) -> touches h (mkHH (hnodes h) (upd (hgrads h) i g)).
Proof.
  intros Pi Hg. split; [exists []; cbn; symmetry; apply app_nil_r|]. split.
  - intros S a b Pa La Hb. cbn in La. unfold owned, owned_inputs in Hb. cbn in Hb. unfold upd in Hb.
    destruct (Nat.eqb_spec a i) as [->|N]; [|apply (S a b Pa La Hb)].
    apply in_app_or in Hb as [Hb|Hb].
    + destruct g as [j|]; [|destruct Hb]. destruct Hb as [<-|[]]; auto.
    + apply (S i b Pa La). unfold owned. apply in_or_app. right; exact Hb.
  - intros a La N. cbn. unfold upd. destruct (Nat.eqb_spec a i); [congruence|reflexivity].
Qed.

Variable n0 : nat.
Hypothesis New : forall i, n0 <= i -> P i.

Ltac leafp := apply puts_alloc; [apply New; cbn [nodes]; lia | let EE := fresh in intros ? ? EE; inversion EE; subst; repeat constructor; auto].
Ltac stepp := repeat (apply puts_bind; intros ? ?).

Lemma puts_sub (h : heap T) i j : n0 <= length (nodes h) -> P i -> P j -> puts h (op_sub h i j).
Proof.
  intros Hn Pi Pj. unfold op_sub. intros h' a E. apply bind_inv in E as ([h1 b] & E1 & E).
  assert (A1 : puts h (op_neg h j)) by (unfold op_neg; stepp; leafp). destruct (A1 _ _ E1) as (Pb & e & X & _).
  assert (A2 : puts h1 (op_add h1 i b)) by (assert (n0 <= length (nodes h1)) by (rewrite X, app_length; lia); unfold op_add; stepp; leafp).
  rewrite E1 in A1. rewrite E in A2. exact (puts_trans _ _ _ _ _ A1 A2 _ _ eq_refl).
Qed.

Lemma puts_bmm_view (h : heap T) i j o : n0 <= length (nodes h) -> P i -> P j -> puts h (op_bmm_view h i j o).
Proof.
  intros Hn Pi Pj. unfold op_bmm_view. stepp. cbn [alloc].
  eapply (puts_trans _ (fst (alloc h a3 None None)) _ (length (nodes h))).
  - apply (puts_alloc h a3 None None); [apply New; auto|intros; discriminate].
  - apply (puts_alloc (fst (alloc h a3 None None)) a2 (Some (KBmm, [i; length (nodes h)])) None).
    + apply New. cbn. rewrite app_length. lia.
    + intros k ins EE. inversion EE; subst. repeat constructor; auto.
Qed.

Ltac rpp Hn := cbn [nodes] in *; first
 [ apply puts_sub; auto | apply puts_bmm_view; auto
 | unfold op_new, op_filler, op_scalar, op_from, op_add, op_neg, op_mul, op_abs, op_relu, op_tanh, op_sum, op_bmm, op_dot, op_dot_method, op_deep_clone,
     op_view_to_tensor, op_view_sum, op_mul_view; stepp; first [leafp | intros ? ? ?; discriminate] ].

Lemma update_touches h h' i j : n0 <= length (hnodes h) -> i < length (hnodes h) -> stays h -> P i -> P j -> h_update_grad h i j = Ret h' -> touches h h'.
Proof.
  intros Hn Li S Pi Pj E. unfold h_update_grad in E. destruct (hgrads h i) as [o|] eqn:Eo.
  - apply bind_inv in E as ([h1 s] & E1 & E). inversion E; subst. clear E.
    assert (Po : P o). { apply (S i o Pi Li). unfold owned. rewrite Eo. left; reflexivity. }
    apply forward_touches in E1; [|rpp Hn]. destruct E1 as [T1 Ps].
    eapply touches_trans; [exact T1|]. apply set_touches; auto. intros k Ek. inversion Ek; subst; auto.
  - inversion E; subst. apply set_touches; auto. intros k Ek. inversion Ek; subst; auto.
Qed.

Lemma compute_touches : forall fu h h' k ins outer, n0 <= length (hnodes h) -> stays h -> Forall P ins -> h_compute_jvp fu h k ins outer = Ret h' -> touches h h'.
Proof.
  induction fu as [|fu IH]; intros h h' k ins outer Hn St HP E; cbn [h_compute_jvp] in E; [discriminate|].
  apply bind_inv in E as (nds & En & E). apply bind_inv in E as (sg & _ & E).
  revert E. apply (foldM_inv_in _ _ (fun h' => touches h h')); [|apply touches_refl].
  intros a [g [i nd]] a' Hin Ta E.
  assert (Hn1 : hext h a /\ stays a) by (destruct Ta as (X & Y & _); auto). destruct Hn1 as [[e Xe] Sa].
  assert (Hn1 : n0 <= length (hnodes a)) by (rewrite Xe, app_length; lia).
  pose proof (in_combine_r _ _ _ _ Hin) as Hi.
  destruct (in_inputs _ _ _ _ _ En Hi) as [Hii Hnd].
  assert (Pi : P i) by (rewrite Forall_forall in HP; auto).
  assert (Li : i < length (hnodes h)) by (apply nth_lt in Hnd; auto).
  apply bind_inv in E as (u0 & _ & E). apply bind_inv in E as (sgr & _ & E).
  set (h1 := fst (h_alloc a sgr None None)) in *. change (h_alloc a sgr None None) with (h1, length (hnodes a)) in E. cbn beta iota in E.
  apply bind_inv in E as (h2 & E2 & E).
  assert (T1 : touches a h1) by (apply alloc_touches; intros; discriminate).
  assert (S1 : stays h1) by (apply T1; auto).
  assert (L1 : length (hnodes h1) = S (length (hnodes a))) by (unfold h1; cbn; rewrite app_length; cbn; lia).
  assert (Lia : i < length (hnodes a)) by (rewrite Xe, app_length; lia).
  assert (Ln : n0 <= length (hnodes h1)) by lia.
  apply update_touches in E2; auto; [|lia].
  assert (S2 : stays h2) by (apply E2; auto).
  assert (L2 : n0 <= length (hnodes h2)) by (destruct E2 as ([e2 X2] & _); rewrite X2, app_length; lia).
  assert (T2 : touches h h2) by (eapply touches_trans; [exact Ta|]; eapply touches_trans; eauto).
  destruct (n_fn nd) as [[k' ins']|] eqn:Ef.
  - eapply touches_trans; [exact T2|]. eapply IH; [exact L2|exact S2| |exact E].
    apply Forall_forall. intros b Hb. apply (St i b Pi Li). unfold owned, owned_inputs. rewrite Hnd, Ef. apply in_or_app. right; auto.
  - inversion E; subst. exact T2.
Qed.

Lemma sum_touches h h' i s : n0 <= length (hnodes h) -> P i -> h_sum h i = Ret (h', s) -> touches h h' /\ P s.
Proof.
  intros Hn Pi E. unfold h_sum in E. apply bind_inv in E as (nd & Ei & E).
  set (h1 := fst (h_alloc h (raw_filler (shape (n_val nd)) n_one) None None)) in *.
  change (h_alloc h (raw_filler (shape (n_val nd)) n_one) None None) with (h1, length (hnodes h)) in E. cbn beta iota in E.
  apply bind_inv in E as ([h2 s2] & E2 & E). inversion E; subst. clear E.
  assert (T1 : touches h h1) by (apply alloc_touches; intros; discriminate).
  assert (L1 : n0 <= length (hnodes h1)) by (unfold h1; cbn; rewrite app_length; lia).
  apply forward_touches in E2; [|rpp L1]. destruct E2 as [T2 Ps]. split; [|exact Ps].
  eapply touches_trans; [exact T1|]. eapply touches_trans; [exact T2|]. apply set_touches; auto. intros k Ek. inversion Ek; subst. apply New. lia.
Qed.

Lemma exec_touches (s s' : hstate T) c : n0 <= length (hnodes (hhp s)) -> stays (hhp s) -> Forall (fun i => i < length (hnodes (hhp s))) (henv s) ->
  (forall x i, In x (operands c) -> nth_error (henv s) x = Some i -> P i) -> h_exec s c = Ret s' ->
  touches (hhp s) (hhp s') /\ exists e, henv s' = henv s ++ e /\ Forall P e.
Proof.
  intros Hn S HE HP E.
  assert (V : forall x i, vindex (henv s) x = Ret i -> nth_error (henv s) x = Some i).
  { unfold vindex. intros x i Ex. destruct (nth_error (henv s) x); inversion Ex; auto. }
  assert (B : forall x i, nth_error (henv s) x = Some i -> i < length (hnodes (hhp s))).
  { intros x i Ex. rewrite Forall_forall in HE. apply HE. eapply nth_error_In; eauto. }
  assert (Q0 : forall h i, touches (hhp s) h /\ P i -> touches (hhp s) (hhp (mkHState h (henv s ++ [i]))) /\ exists e, henv (mkHState h (henv s ++ [i])) = henv s ++ e /\ Forall P e).
  { intros h i [Th Pi]. split; [exact Th|]. exists [i]. cbn. repeat constructor; auto. }
  assert (Q1 : forall h', touches (hhp s) h' -> touches (hhp s) (hhp (mkHState h' (henv s))) /\ exists e, henv (mkHState h' (henv s)) = henv s ++ e /\ Forall P e).
  { intros h' Th. split; [exact Th|]. exists []. cbn. rewrite app_nil_r. auto. }
  destruct c; cbn [h_exec] in E; unfold h_push in E; cbn [operands In] in HP;
    repeat (match type of E with bind (vindex _ _) _ = _ => let a := fresh "a" in let Ea := fresh "Ea" in apply bind_inv in E as (a & Ea & E); apply V in Ea; let Pa := fresh "Pa" in pose proof (fun G => HP _ _ G Ea) as Pa; pose proof (B _ _ Ea); specialize (Pa ltac:(auto)) end);
    try (match type of E with bind (h_forward ?op _) _ = _ => apply bind_inv in E as ([h i] & E1 & E); injection E as <-; apply Q0;
      eapply forward_touches; [|exact E1]; rpp Hn end).
  - apply bind_inv in E as ([h i] & E1 & E). injection E as <-. apply Q0. eapply sum_touches; eauto.
  - apply bind_inv in E as (g & E1 & E). injection E as <-. unfold h_grad in E1. destruct (hgrads (hhp s) a) as [g'|] eqn:Eg; [|discriminate]. inversion E1; subst.
    apply Q0. split; [apply touches_refl|]. apply (S a g Pa H). unfold owned. rewrite Eg. left; reflexivity.
  - apply bind_inv in E as (h & E1 & E). injection E as <-. apply Q1. apply (update_touches _ _ a a0); auto.
  - injection E as <-. apply Q1. apply set_touches; auto. intros; discriminate.
  - apply bind_inv in E as (h & E1 & E). injection E as <-. apply Q1. unfold h_backward in E1.
    apply bind_inv in E1 as (nd & En & E1). apply bind_inv in E1 as (u & _ & E1). apply bind_inv in E1 as ([k ins] & Ef & E1).
    eapply compute_touches; [exact Hn|exact S| |exact E1].
    apply Forall_forall. intros b Hb. apply (S a b Pa H). unfold owned, owned_inputs. unfold vindex in En. destruct (nth_error (hnodes (hhp s)) a); inversion En; subst.
    destruct (n_fn nd) as [[k' ins']|]; inversion Ef; subst. apply in_or_app. right; auto.
Qed.

End Touch.

(** ** Programs *)

Implicit Types (s : dstate T).

(** The variables in scope *)
Definition roots (vs : list (option nat)) : list nat := flat_map cell vs.

Definition rightly (s : dstate T) (gone : list nat) : Prop :=
  sound (d_h s) /\ length (d_vars s) = length (henv (d_h s)) /\
  (forall x i, nth_error (henv (d_h s)) x = Some i -> nth_error (d_vars s) x = Some (if existsb (Nat.eqb x) gone then None else Some i)) /\
  Forall (fun x => x < length (henv (d_h s))) gone /\
  right (hhp (d_h s)) (roots (d_vars s)) (d_cnt s) /\ d_depth s <= length (hnodes (hhp (d_h s))).

Lemma roots_app l l' : roots (l ++ l') = roots l ++ roots l'.
Proof. apply flat_map_app. Qed.

Lemma roots_some l : roots (map Some l) = l.
Proof. induction l as [|a l IH]; cbn; [reflexivity|]. f_equal. exact IH. Qed.

Lemma roots_in vs i : In i (roots vs) <-> In (Some i) vs.
Proof.
  unfold roots. rewrite in_flat_map. split.
  - intros ([j|] & H & Hin); [|destruct Hin]. destruct Hin as [->|[]]. auto.
  - intros H. exists (Some i). split; [auto|left; auto].
Qed.

Lemma roots_set : forall vs x i k, nth_error vs x = Some (Some i) -> occ (roots vs) k = occ (i :: roots (list_set vs x None)) k.
Proof.
  induction vs as [|v vs IH]; intros [|x] i k E; cbn in E; try discriminate.
  - inversion E; subst. reflexivity.
  - cbn [list_set]. unfold roots in *. cbn [flat_map]. rewrite occ_cons, !occ_app, (IH x i k E), occ_cons. lia.
Qed.

Lemma inner_out h cnt i : owned_ok h -> length (hnodes h) <= i -> inner h cnt i = 0.
Proof.
  intros OK L. destruct (Nat.eq_0_gt_0_cases (inner h cnt i)) as [E|E]; auto. apply sum_pos in E as (j & Hj & E). apply in_seq in Hj.
  destruct (cnt j =? 0); [lia|]. apply occ_in in E. apply OK in E; lia.
Qed.

Lemma right_out h R cnt i : right h R cnt -> length (hnodes h) <= i -> cnt i = 0.
Proof.
  intros (OK & HL & HC) L. rewrite HC, inner_out by auto. rewrite occ_not_in; [reflexivity|].
  intros Hin. rewrite Forall_forall in HL. apply HL in Hin. lia.
Qed.

(** Tensors alive, and those made later, lead to such tensors only. *)
Lemma right_stays h R cnt : right h R cnt -> stays (fun i => length (hnodes h) <= i \/ cnt i <> 0) h.
Proof.
  intros (OK & HL & HC) a b [L|C] La Hb; [lia|]. right. rewrite (HC b). unfold inner.
  pose proof (sum_ge _ (fun j => if cnt j =? 0 then 0 else occ (owned h j) b) (seq 0 (length (hnodes h))) a) as S.
  specialize (S ltac:(apply in_seq; lia)). cbn beta in S. apply Nat.eqb_neq in C. rewrite C in S. apply occ_in in Hb. lia.
Qed.

Lemma right_root h R cnt i : right h R cnt -> In i R -> cnt i <> 0.
Proof. intros (OK & HL & HC) Hin. rewrite HC. apply occ_in in Hin. lia. Qed.

Lemma same_cell_spec a b : reflect (a = b) (same_cell a b).
Proof. destruct a as [i|], b as [j|]; cbn; try (constructor; congruence). destruct (Nat.eqb_spec i j); constructor; congruence. Qed.

Lemma owned_split h h' e i : hnodes h' = hnodes h ++ e -> i < length (hnodes h) -> owned_inputs h' i = owned_inputs h i.
Proof. intros X L. unfold owned_inputs. rewrite X, nth_error_app1 by lia. reflexivity. Qed.

(** The counts after a call, before its temporaries and the old gradients are dropped *)
Lemma call_counts h h' R res cnt : right h R cnt -> touches (fun i => length (hnodes h) <= i \/ cnt i <> 0) h h' -> closed h' ->
  Forall (fun i => length (hnodes h) <= i \/ cnt i <> 0) res -> Forall (fun i => i < length (hnodes h')) res ->
  let n := length (hnodes h) in
  let made := seq n (length (hnodes h') - n) in
  let changed i := negb (same_cell (hgrads h i) (hgrads h' i)) in
  let gained := made ++ flat_map (owned h') made ++ res ++ flat_map (fun i => if changed i then cell (hgrads h' i) else []) (seq 0 n) in
  let lost := flat_map (fun i => if changed i then cell (hgrads h i) else []) (seq 0 n) ++ made in
  right h' (lost ++ R ++ res) (fun i => cnt i + occ gained i).
Proof.
  intros HR ([e X] & S' & G) C' Hres Lres n made changed gained lost.
  pose proof (right_stays h R cnt HR) as St. specialize (S' St). pose proof HR as (OK & HL & HC).
  assert (Len : length (hnodes h') = n + length e) by (rewrite X, app_length; reflexivity).
  assert (Hmade : forall i, In i made <-> n <= i < length (hnodes h')) by (intros; unfold made; rewrite in_seq; lia).
  (* gained references lead to tensors alive or new *)
  assert (Hg : forall i, i < n -> In i gained -> cnt i <> 0).
  { intros i Li Hin. unfold gained in Hin. rewrite !in_app_iff, !in_flat_map in Hin.
    assert (Q : n <= i \/ cnt i <> 0); [|destruct Q; [lia|auto]].
    destruct Hin as [Hin|[(a & Ha & Hin)|[Hin|(a & Ha & Hin)]]].
    - apply Hmade in Hin. lia.
    - apply Hmade in Ha. apply (S' a i); [left; lia|lia|exact Hin].
    - rewrite Forall_forall in Hres. apply (Hres i Hin).
    - unfold changed in Hin. destruct (same_cell_spec (hgrads h a) (hgrads h' a)) as [Ee|Ne]; [destruct Hin|]. cbn [negb] in Hin. apply in_seq in Ha.
      apply (S' a i); [|lia|unfold owned; apply in_or_app; left; exact Hin].
      destruct (Nat.eq_dec (cnt a) 0) as [Z|]; [|auto]. exfalso. apply Ne. symmetry. apply G; [lia|]. intros [Q|Q]; [unfold n in *; lia|congruence]. }
  split; [apply owned_closed, C'|]. split.
  - unfold lost. rewrite !Forall_app. split; [split|split].
    + apply Forall_forall. intros i Hin. apply in_flat_map in Hin as (a & Ha & Hin). apply in_seq in Ha. destruct (changed a); [|destruct Hin].
      assert (i < n); [|lia]. apply (OK a i); [unfold n in *; lia|]. unfold owned. apply in_or_app. left. exact Hin.
    + apply Forall_forall. intros i Hin. apply Hmade in Hin. lia.
    + eapply Forall_impl; [|exact HL]. cbn. intros; unfold n in *; lia.
    + exact Lres.
  - intros k. unfold inner. rewrite Len, seq_app, map_app, sum_app. cbn [plus].
    (* the new tensors *)
    rewrite (sum_ext _ (fun j => if cnt j + occ gained j =? 0 then 0 else occ (owned h' j) k) (fun j => occ (owned h' j) k) (seq n (length e))).
    2: { intros j Hj. assert (Hj' : In j made) by (unfold made; rewrite Len; replace (n + length e - n) with (length e) by lia; exact Hj).
         assert (0 < occ gained j) by (apply occ_in; unfold gained; apply in_or_app; left; exact Hj').
         destruct (Nat.eqb_spec (cnt j + occ gained j) 0); [lia|reflexivity]. }
    (* the old ones *)
    rewrite (sum_ext _ (fun j => if cnt j + occ gained j =? 0 then 0 else occ (owned h' j) k) (fun j => if cnt j =? 0 then 0 else occ (owned h' j) k) (seq 0 n)).
    2: { intros j Hj. apply in_seq in Hj. destruct (Nat.eqb_spec (cnt j) 0) as [Z|Z].
         - rewrite Z. destruct (Nat.eqb_spec (0 + occ gained j) 0) as [Z'|Z']; [reflexivity|].
           exfalso. apply (Hg j); [lia| |exact Z]. apply occ_in. lia.
         - destruct (Nat.eqb_spec (cnt j + occ gained j) 0); [lia|reflexivity]. }
    assert (M : list_sum (map (fun j => if cnt j =? 0 then 0 else occ (owned h' j) k) (seq 0 n)) + occ (flat_map (fun i => if changed i then cell (hgrads h i) else []) (seq 0 n)) k =
                inner h cnt k + occ (flat_map (fun i => if changed i then cell (hgrads h' i) else []) (seq 0 n)) k).
    { rewrite !occ_flat_map. unfold inner. fold n. rewrite <- !sum_plus. apply sum_ext. intros j Hj. apply in_seq in Hj. unfold changed.
      destruct (same_cell_spec (hgrads h j) (hgrads h' j)) as [Ee|Ne]; cbn [negb].
      - unfold owned. rewrite Ee. rewrite (owned_split h h' e j X) by (unfold n in *; lia). cbn. lia.
      - assert (Cj : cnt j <> 0). { intros Z. apply Ne. symmetry. apply G; [unfold n in *; lia|]. intros [Q|Q]; [unfold n in *; lia|congruence]. }
        apply Nat.eqb_neq in Cj. rewrite Cj. unfold owned. rewrite !occ_app. rewrite (owned_split h h' e j X) by (unfold n in *; lia). lia. }
    rewrite (HC k). unfold gained, lost. rewrite !occ_app, !(occ_flat_map _ (owned h')).
    assert (Em : made = seq n (length e)) by (unfold made; f_equal; lia). rewrite Em. lia.
Qed.

Lemma skipn_ext A (l e : list A) : skipn (length l) (l ++ e) = e.
Proof. rewrite skipn_app, skipn_all, Nat.sub_diag. reflexivity. Qed.

Lemma in_gone x gone : existsb (Nat.eqb x) gone = true <-> In x gone.
Proof.
  rewrite existsb_exists. split.
  - intros (y & Hy & E). apply Nat.eqb_eq in E. subst. auto.
  - intros H. exists x. split; auto. apply Nat.eqb_refl.
Qed.

Lemma var_held s gone x i : rightly s gone -> ~ In x gone -> nth_error (henv (d_h s)) x = Some i -> In i (roots (d_vars s)) /\ d_cnt s i <> 0.
Proof.
  intros (_ & _ & HV & _ & HR & _) Hx Ex. assert (Hin : In i (roots (d_vars s))).
  { apply roots_in. specialize (HV x i Ex). destruct (existsb (Nat.eqb x) gone) eqn:Eg; [apply in_gone in Eg; tauto|]. eapply nth_error_In; eauto. }
  split; [exact Hin|]. eapply right_root; eauto.
Qed.

Lemma vars_app s gone env res : (forall x i, nth_error env x = Some i -> nth_error (d_vars s) x = Some (if existsb (Nat.eqb x) gone then None else Some i)) ->
  length (d_vars s) = length env -> Forall (fun x => x < length env) gone ->
  forall x i, nth_error (env ++ res) x = Some i -> nth_error (d_vars s ++ map Some res) x = Some (if existsb (Nat.eqb x) gone then None else Some i).
Proof.
  intros HV HLen HG x i Ex. destruct (Nat.lt_ge_cases x (length env)) as [L|L].
  - rewrite nth_error_app1 in * by lia. auto.
  - rewrite nth_error_app2 in * by lia. rewrite HLen, nth_error_map, Ex. cbn [option_map]. destruct (existsb (Nat.eqb x) gone) eqn:Eg; [|reflexivity].
    apply in_gone in Eg. rewrite Forall_forall in HG. apply HG in Eg. lia.
Qed.

Lemma call_right s gone c hs : rightly s gone -> (forall x, In x (operands c) -> ~ In x gone) -> h_exec (d_h s) c = Ret hs ->
  exists s', d_call s c = Ret s' /\ d_h s' = hs /\ rightly s' gone.
Proof.
  intros HS HO E. pose proof HS as (Snd & HLen & HV & HG & HR & HD). pose proof (exec_sound _ _ _ Snd E) as Snd'. pose proof Snd as [C HE]. pose proof Snd' as [C' HE'].
  pose proof (exec_touches (fun i => length (hnodes (hhp (d_h s))) <= i \/ d_cnt s i <> 0) (length (hnodes (hhp (d_h s)))) (fun i H => or_introl H)
    (d_h s) hs c (le_n _) (right_stays _ _ _ HR) HE) as TX.
  destruct TX as (TX & res & Ee & Pe); [|exact E|].
  { intros x i Hx Ex. right. apply (var_held s gone x i HS); auto. }
  assert (Lres : Forall (fun i => i < length (hnodes (hhp hs))) res) by (rewrite Ee in HE'; apply Forall_app in HE'; apply HE').
  pose proof (call_counts _ _ (roots (d_vars s)) res (d_cnt s) HR TX C' Pe Lres) as HC. cbv zeta in HC.
  unfold d_call. rewrite E. cbn [bind]. cbv zeta. rewrite Ee, skipn_ext.
  match goal with |- context [release_all ?h (?c0, ?m0) ?l] => destruct (release_all_ok h l (roots (d_vars s) ++ res) c0 m0 HC) as (cnt' & m' & E1 & R1 & A1 & M1 & D1) end.
  rewrite E1. cbn [bind]. eexists. split; [reflexivity|]. split; [reflexivity|].
  split; [exact Snd'|]. cbn [d_h d_vars d_cnt d_depth]. rewrite Ee.
  split; [rewrite !app_length, map_length; lia|]. split; [apply vars_app; auto|]. split.
  { eapply Forall_impl; [|exact HG]. cbn. intros. rewrite app_length. lia. }
  split; [rewrite roots_app, roots_some; exact R1|].
  match type of M1 with context [alive_count ?h ?c0] => pose proof (alive_le h c0) end. destruct TX as ([e X] & _). rewrite X, app_length in *. lia.
Qed.

Lemma list_set_none : forall (vs : list (option nat)) x y, nth_error (list_set vs x None) y = if Nat.eqb y x then (match nth_error vs y with Some _ => Some None | None => None end) else nth_error vs y.
Proof. induction vs as [|v vs IH]; intros [|x] [|y]; cbn; auto; destruct (y =? x); reflexivity. Qed.

Lemma list_set_len (vs : list (option nat)) : forall x v, length (list_set vs x v) = length vs.
Proof. induction vs as [|a vs IH]; intros [|x] v; cbn; auto. Qed.

Definition gone_after (c : dcmd T) (gone : list nat) : list nat := match c with DDrop x => x :: gone | _ => gone end.
Definition allowed (c : dcmd T) (gone : list nat) : Prop :=
  match c with DCall c => forall x, In x (operands c) -> ~ In x gone | DClone x | DDrop x => ~ In x gone end.

Lemma exec_right s gone c hs : rightly s gone -> allowed c gone -> (forall x, c = DDrop x -> x < length (henv (d_h s))) -> kept (d_h s) c = Ret hs ->
  exists s', d_exec s c = Ret s' /\ d_h s' = hs /\ rightly s' (gone_after c gone).
Proof.
  intros HS HA HX E. destruct c as [c|x|x]; cbn [kept d_exec gone_after allowed] in *.
  - apply call_right; auto.
  - apply bind_inv in E as (i & Ei & E). injection E as <-. rewrite Ei. cbn [bind]. eexists. split; [reflexivity|]. split; [reflexivity|].
    assert (Ex : nth_error (henv (d_h s)) x = Some i) by (unfold vindex in Ei; destruct (nth_error (henv (d_h s)) x); inversion Ei; auto).
    destruct (var_held s gone x i HS HA Ex) as [Hin Hc]. destruct HS as (Snd & HLen & HV & HG & HR & HD).
    assert (Li : i < length (hnodes (hhp (d_h s)))) by (destruct Snd as [_ HE]; rewrite Forall_forall in HE; apply HE; eapply nth_error_In; eauto).
    split; [split; cbn; [apply Snd|apply Forall_app; split; [apply Snd|repeat constructor; auto]]|]. cbn [d_h d_vars d_cnt d_depth henv hhp].
    split; [rewrite !app_length; cbn; lia|]. split; [apply (vars_app s gone (henv (d_h s)) [i]); auto|].
    split; [eapply Forall_impl; [|exact HG]; cbn; intros; rewrite app_length; lia|]. split; [|exact HD].
    rewrite roots_app. change (roots [Some i]) with [i]. destruct HR as (OK & HL & HC). split; [exact OK|]. split; [apply Forall_app; split; auto|].
    intros k. rewrite occ_app, occ_cons.
    rewrite <- (inner_ext (hhp (d_h s)) (d_cnt s)).
    + unfold upd. specialize (HC k). change (occ [] k) with 0. destruct (Nat.eqb_spec k i) as [->|N]; [rewrite Nat.eqb_refl; lia|]. destruct (Nat.eqb_spec i k); [congruence|lia].
    + intros j. unfold upd. destruct (Nat.eqb_spec j i) as [->|]; [|reflexivity]. apply Nat.eqb_neq in Hc. rewrite Hc. reflexivity.
  - injection E as <-. specialize (HX x eq_refl). destruct (nth_error (henv (d_h s)) x) as [i|] eqn:Ex; [|apply nth_error_None in Ex; lia].
    destruct HS as (Snd & HLen & HV & HG & HR & HD). pose proof (HV x i Ex) as Ev.
    destruct (existsb (Nat.eqb x) gone) eqn:Eg; [apply in_gone in Eg; tauto|]. rewrite Ev.
    assert (HR' : right (hhp (d_h s)) ([i] ++ roots (list_set (d_vars s) x None)) (d_cnt s)).
    { destruct HR as (OK & HL & HC). split; [exact OK|]. split.
      - apply Forall_forall. intros j Hj. rewrite Forall_forall in HL. apply HL. apply occ_in. rewrite (roots_set _ _ _ j Ev). apply occ_in. exact Hj.
      - intros k. change ([i] ++ roots (list_set (d_vars s) x None)) with (i :: roots (list_set (d_vars s) x None)). rewrite <- (roots_set _ _ _ k Ev). apply HC. }
    destruct (release_all_ok _ [i] _ (d_cnt s) (d_depth s) HR') as (cnt' & m' & E1 & R1 & A1 & M1 & D1). rewrite E1. cbn [bind].
    eexists. split; [reflexivity|]. split; [reflexivity|]. split; [exact Snd|]. cbn [d_h d_vars d_cnt d_depth].
    split; [rewrite list_set_len; auto|]. split.
    { intros y j Ey. rewrite list_set_none. cbn [existsb]. destruct (Nat.eqb_spec y x) as [->|N]; cbn [orb]; [rewrite Ev; reflexivity|auto]. }
    split; [constructor; auto|]. split; [exact R1|]. pose proof (alive_le (hhp (d_h s)) (d_cnt s)). lia.
Qed.

Lemma exec_binds (s s' : hstate T) c : h_exec s c = Ret s' -> length (henv s') = if binds c then S (length (henv s)) else length (henv s).
Proof.
  destruct c; cbn [h_exec binds]; unfold h_push; intros E;
    repeat (match type of E with bind _ _ = _ => apply bind_inv in E as (? & _ & E) | (let (_, _) := ?p in _) = _ => destruct p end);
    try discriminate; injection E as <-; cbn; rewrite ?app_length; cbn; lia.
Qed.

Definition exist_after (c : dcmd T) (n : nat) : nat := match c with DCall c => if binds c then S n else n | DClone _ => S n | DDrop _ => n end.

Lemma scope_cons n gone c p : in_scope n gone (c :: p) <->
  (match c with DCall c => forall x, In x (operands c) -> x < n /\ ~ In x gone | DClone x | DDrop x => x < n /\ ~ In x gone end) /\ in_scope (exist_after c n) (gone_after c gone) p.
Proof. destruct c; reflexivity. Qed.

Lemma keep_binds (s s' : hstate T) c : kept s c = Ret s' -> length (henv s') = exist_after c (length (henv s)).
Proof.
  destruct c as [c|x|x]; cbn [kept exist_after]; intros E.
  - apply exec_binds, E.
  - apply bind_inv in E as (i & _ & E). injection E as <-. cbn. rewrite app_length. cbn. lia.
  - injection E as <-. reflexivity.
Qed.

Lemma run_right : forall p s gone, rightly s gone -> in_scope (length (henv (d_h s))) gone p ->
  match foldM kept p (d_h s) with
  | Ret hs => exists s', d_run p s = Ret s' /\ d_h s' = hs /\ rightly s' (fold_left (fun g c => gone_after c g) p gone)
  | Panic e => d_run p s = Panic e
  | NoFuel => True
  end.
Proof.
  induction p as [|c p IH]; intros s gone HS HP; unfold d_run; cbn [foldM].
  - eauto.
  - apply scope_cons in HP as [HA HP].
    destruct (kept (d_h s) c) as [hs|e|] eqn:E; cbn [bind].
    + destruct (exec_right s gone c hs HS) as (s1 & E1 & H1 & HS1); [|intros x ->; apply HA|exact E|].
      { destruct c as [c|x|x]; cbn [allowed]; [intros x Hx|idtac..]; apply HA; auto. }
      rewrite E1. cbn [bind]. subst hs. rewrite <- (keep_binds _ _ _ E) in HP. apply (IH s1 _ HS1 HP).
    + destruct c as [c|x|x]; cbn [kept d_exec] in *; [unfold d_call; rewrite E; reflexivity| |discriminate].
      destruct (vindex (henv (d_h s)) x); cbn [bind] in *; try discriminate. inversion E; reflexivity.
    + exact I.
Qed.

Lemma rightly_init : rightly d_init [].
Proof.
  assert (C : closed (h_empty (T:=T))).
  { intros a b [(nd & k & ins & E & _)|[L _]]; [destruct a; discriminate|cbn in L; lia]. }
  split; [split; [exact C|constructor]|]. split; [reflexivity|]. split; [intros [|x] i E; discriminate|]. split; [constructor|]. split; [|cbn; lia].
  split; [apply owned_closed; exact C|]. split; [constructor|]. intros i. reflexivity.
Qed.

Lemma keep_back (s s' : hstate T) c : kept s c = Ret s' -> backrefs (hnodes (hhp s)) -> backrefs (hnodes (hhp s')).
Proof.
  destruct c as [c|x|x]; cbn [kept]; intros E.
  - eapply exec_back; eauto.
  - apply bind_inv in E as (i & _ & E). injection E as <-. auto.
  - injection E as <-. auto.
Qed.

Lemma keep_nf : forall p (s : hstate T), backrefs (hnodes (hhp s)) -> foldM kept p s <> NoFuel.
Proof.
  induction p as [|c p IH]; intros s B; cbn [foldM]; [discriminate|].
  destruct (kept s c) as [s'|e|] eqn:E; cbn [bind]; [|discriminate|].
  - apply IH. eapply keep_back; eauto.
  - destruct c as [c|x|x]; cbn [kept] in E; try discriminate.
    + exfalso. exact (nf_h_exec s c B E).
    + unfold vindex in E. destruct (nth_error (henv s) x); discriminate.
Qed.

Lemma run_keep p : in_scope 0 [] p ->
  match kept_all (T:=T) p with Ret hs => exists s, d_run p d_init = Ret s /\ d_h s = hs /\ rightly s (fold_left (fun g c => gone_after c g) p []) | Panic e => d_run p d_init = Panic e | NoFuel => False end.
Proof.
  intros HP. pose proof (run_right p d_init [] rightly_init HP) as H. unfold kept_all. cbn [d_h d_init] in H.
  destruct (foldM kept p h_init) eqn:E; auto. exfalso. revert E. apply keep_nf. intros i nd k ins En. destruct i; discriminate.
Qed.

Lemma run_rightly p s : in_scope 0 [] p -> d_run p d_init = Ret s -> kept_all p = Ret (d_h s) /\ exists gone, rightly s gone.
Proof.
  intros HP E. pose proof (run_keep p HP) as H. rewrite E in H. destruct (kept_all p) as [hs|e|]; [|discriminate|destruct H].
  destruct H as (s' & E1 & <- & HR). inversion E1; subst. eauto.
Qed.

Lemma count_vars vs i : length (filter (fun v => same_cell v (Some i)) vs) = occ (roots vs) i.
Proof.
  unfold roots. induction vs as [|v vs IH]; cbn [filter flat_map]; [reflexivity|]. rewrite occ_app, <- IH. destruct v as [j|]; cbn [same_cell cell].
  - rewrite occ_cons. change (occ [] i) with 0. destruct (j =? i); cbn; lia.
  - reflexivity.
Qed.

Lemma rightly_counts s gone : rightly s gone -> forall i, d_cnt s i = references s i.
Proof. intros (_ & _ & _ & _ & (_ & _ & HC) & _) i. unfold references. rewrite count_vars. apply HC. Qed.

Lemma rightly_safe s gone : rightly s gone -> (forall i, held s i -> alive s i) /\ (forall a b, alive s a -> points (hhp (d_h s)) a b -> alive s b).
Proof.
  intros (_ & _ & _ & _ & HR & _). unfold alive, held. split.
  - intros i Hi. apply roots_in in Hi. pose proof (right_root _ _ _ _ HR Hi). lia.
  - intros a b Ha Hp. apply points_owned in Hp as [La Hin]. destruct (right_stays _ _ _ HR a b) as [L|C]; auto; [right; lia| |lia].
    destruct HR as (OK & _). apply OK in Hin; auto. lia.
Qed.

(** Whatever is alive is held by a variable or by a tensor alive. *)
Lemma rightly_pred s gone i : rightly s gone -> alive s i -> held s i \/ exists j, alive s j /\ points (hhp (d_h s)) j i.
Proof.
  intros (_ & _ & _ & _ & HR & _) Hi. unfold alive in *. destruct HR as (OK & HL & HC). rewrite (HC i) in Hi.
  destruct (Nat.eq_0_gt_0_cases (occ (roots (d_vars s)) i)) as [Z|Z].
  - right. rewrite Z in Hi. cbn in Hi. apply sum_pos in Hi as (j & Hj & Hi). apply in_seq in Hj. exists j. destruct (Nat.eqb_spec (d_cnt s j) 0); [lia|].
    split; [lia|]. apply points_owned. split; [lia|]. apply occ_in, Hi.
  - left. apply roots_in, occ_in, Z.
Qed.

Lemma alive_lt s gone i : rightly s gone -> alive s i -> i < length (hnodes (hhp (d_h s))).
Proof.
  intros (_ & _ & _ & _ & HR & _) Hi. unfold alive in Hi. destruct (Nat.lt_ge_cases i (length (hnodes (hhp (d_h s))))) as [L|L]; auto.
  rewrite (right_out _ _ _ _ HR L) in Hi. lia.
Qed.

Lemma rightly_why s gone : rightly s gone -> forall m V i, length (hnodes (hhp (d_h s))) <= m + length V -> NoDup (i :: V) -> Forall (fun v => v < length (hnodes (hhp (d_h s)))) V ->
  Forall (holds (hhp (d_h s)) i) V -> alive s i -> exists j, (held s j \/ on_cycle s j) /\ holds (hhp (d_h s)) j i.
Proof.
  intros HS. induction m as [|m IH]; intros V i Hm ND HL HV Hi.
  - exfalso. assert (HI : incl (i :: V) (seq 0 (length (hnodes (hhp (d_h s)))))).
    { intros v Hv. apply in_seq. destruct Hv as [<-|Hv]; [pose proof (alive_lt _ _ _ HS Hi); lia|]. rewrite Forall_forall in HL. apply HL in Hv. lia. }
    apply NoDup_incl_length in HI; auto. rewrite seq_length in HI. cbn in *. lia.
  - destruct (rightly_pred s gone i HS Hi) as [Hh|(p & Hp & Hpi)]; [exists i; split; [auto|apply rt_refl]|].
    destruct (in_dec Nat.eq_dec p (i :: V)) as [Hin|Hin].
    + exists p. split; [|apply rt_step; auto]. right. exists i. split; [auto|]. destruct Hin as [->|Hin]; [apply rt_refl|]. rewrite Forall_forall in HV. auto.
    + destruct (IH (i :: V) p) as (j & Hj & Hh).
      * cbn. lia.
      * constructor; auto.
      * constructor; auto. eapply alive_lt; eauto.
      * constructor; [apply rt_step; auto|]. eapply Forall_impl; [|exact HV]. cbn. intros v Hv. eapply rt_trans; [apply rt_step; exact Hpi|exact Hv].
      * exact Hp.
      * exists j. split; auto. eapply rt_trans; [exact Hh|apply rt_step; auto].
Qed.

Lemma keep_good : forall p (s s' : hstate T), no_update p -> good s -> foldM kept p s = Ret s' -> good s'.
Proof.
  induction p as [|c p IH]; intros s s' HP G E; cbn [foldM] in E; [inversion E; subst; auto|].
  inversion HP; subst. apply bind_inv in E as (s1 & E1 & E). apply (IH s1 s'); auto.
  destruct c as [c|x|x]; cbn [kept] in E1.
  - eapply exec_acyclic; eauto.
  - apply bind_inv in E1 as (i & Ei & E1). injection E1 as <-. destruct G as (G1 & G2 & G3). split; [|split]; cbn; auto.
    apply Forall_app. split; auto. repeat constructor. unfold vindex in Ei. destruct (nth_error (henv s) x) eqn:Ex; inversion Ei; subst.
    rewrite Forall_forall in G3. apply G3. eapply nth_error_In; eauto.
  - injection E1 as <-. auto.
Qed.

Lemma alive_holds s gone : rightly s gone -> forall a b, holds (hhp (d_h s)) a b -> alive s a -> alive s b.
Proof.
  intros HS a b H. induction H as [a b H|a|a b c H1 IH1 H2 IH2]; auto. intros Ha. exact (proj2 (rightly_safe s gone HS) a b Ha H).
Qed.

(** ** A chain of tensors *)

(** x := tensor; then, [n] times: y := -x; x ends; x := y *)
Definition chain (x : T) (n : nat) : list (dcmd T) := DCall (CNew [x] [1]) :: flat_map (fun k => [DCall (CNeg k); DDrop k]) (seq 0 n).

Definition linked (n : nat) (hs : hstate T) : Prop :=
  length (hnodes (hhp hs)) = S n /\ henv hs = seq 0 (S n) /\ (forall i, hgrads (hhp hs) i = None) /\
  forall i nd, nth_error (hnodes (hhp hs)) i = Some nd -> (exists x, n_val nd = mkRaw [x] [1]) /\ n_fn nd = match i with 0 => None | S j => Some (KNeg, [j]) end.

Lemma chain_S x n : chain x (S n) = chain x n ++ [DCall (CNeg n); DDrop n].
Proof. unfold chain. rewrite seq_S, flat_map_app. reflexivity. Qed.

Lemma seq_nth_error : forall n k x, x < n -> nth_error (seq k n) x = Some (k + x).
Proof. induction n as [|n IH]; intros k [|x] L; cbn; try lia; [f_equal; lia|]. rewrite IH by lia. f_equal; lia. Qed.

Lemma chain_kept x : forall n, exists hs, kept_all (chain x n) = Ret hs /\ linked n hs.
Proof.
  induction n as [|n (hs & E & L0 & Ev & Eg & En)].
  - eexists. split; [reflexivity|]. split; [reflexivity|]. split; [reflexivity|]. split.
    + intros i. cbn. destruct i; reflexivity.
    + intros [|i] nd H; cbn in H; [|destruct i; discriminate]. inversion H; subst. cbn. eauto.
  - unfold kept_all in *. rewrite chain_S, foldM_app, E. cbn [bind foldM kept h_exec].
    unfold vindex. rewrite Ev, seq_nth_error by lia. cbn [bind plus].
    destruct (nth_error (hnodes (hhp hs)) n) as [nd|] eqn:Ex; [|apply nth_error_None in Ex; lia].
    destruct (En _ _ Ex) as [[v Hv] _]. unfold h_push, h_forward, op_neg, hget, vindex. cbn [nodes]. rewrite Ex. cbn [bind]. rewrite Hv.
    eexists. split; [reflexivity|]. cbn [hhp henv hnodes nodes alloc hgrads]. split; [cbn; rewrite app_length; cbn; lia|]. split; [rewrite Ev, (seq_S (S n)), L0; reflexivity|].
    split; [intros i; cbn [hhp hgrads]; destruct (i <? length (hnodes (hhp hs))); [apply Eg|reflexivity]|].
    intros i nd' H. cbn [hhp hnodes] in H. destruct (Nat.lt_ge_cases i (length (hnodes (hhp hs)))) as [L|L].
    + rewrite nth_error_app1 in H by lia. apply En, H.
    + rewrite nth_error_app2 in H by lia. destruct (i - length (hnodes (hhp hs))) as [|j] eqn:Ei; [|destruct j; discriminate].
      cbn in H. inversion H; subst. cbn [n_val n_fn]. split; [eauto|]. replace i with (S n) by lia. reflexivity.
Qed.

Lemma scope_app : forall p n gone q, in_scope n gone p -> in_scope (fold_left (fun n c => exist_after c n) p n) (fold_left (fun g c => gone_after c g) p gone) q -> in_scope n gone (p ++ q).
Proof.
  induction p as [|c p IH]; intros n gone q HP HQ; [exact HQ|]. cbn [app]. apply scope_cons. apply scope_cons in HP as [HA HP]. split; [exact HA|]. apply IH; auto.
Qed.

Lemma chain_counts x n : fold_left (fun k c => exist_after c k) (chain x n) 0 = S n.
Proof. induction n as [|n IH]; [reflexivity|]. rewrite chain_S, fold_left_app, IH. reflexivity. Qed.

Lemma chain_gone x n : fold_left (fun g c => gone_after c g) (chain x n) [] = rev (seq 0 n).
Proof. induction n as [|n IH]; [reflexivity|]. rewrite chain_S, fold_left_app, IH. cbn [fold_left gone_after]. rewrite seq_S, rev_app_distr. reflexivity. Qed.

Lemma chain_scope x : forall n, in_scope 0 [] (chain x n).
Proof.
  induction n as [|n IH]; [cbn; tauto|]. rewrite chain_S. apply scope_app; [exact IH|]. rewrite chain_counts, chain_gone.
  assert (N : ~ In n (rev (seq 0 n))) by (rewrite <- in_rev, in_seq; lia).
  cbn [in_scope operands In binds]. split; [intros y [<-|[]]; split; auto|]. split; [split; [lia|auto]|exact I].
Qed.

Lemma chain_no_update x n : no_update (chain x n).
Proof.
  induction n as [|n IH]; [repeat constructor|]. rewrite chain_S. apply Forall_app. split; [exact IH|repeat constructor].
Qed.

Lemma linked_owned n hs : linked n hs -> forall i, i <= n -> owned (hhp hs) i = match i with 0 => [] | S j => [j] end.
Proof.
  intros (L0 & _ & Eg & En) i Li. unfold owned, owned_inputs. rewrite Eg. cbn [cell app].
  destruct (nth_error (hnodes (hhp hs)) i) as [nd|] eqn:Ex; [|apply nth_error_None in Ex; lia]. destruct (En _ _ Ex) as [_ ->]. destruct i; reflexivity.
Qed.

Lemma chain_release h : forall k f d cnt m, (forall i, i <= k -> cnt i = 1) -> (forall i, i <= k -> owned h i = match i with 0 => [] | S j => [j] end) -> k < f ->
  exists cnt', release f d h (cnt, m) k = Ret (cnt', Nat.max m (d + k)).
Proof.
  induction k as [|k IH]; intros f d cnt m HC HO HF; (destruct f as [|f]; [lia|]); cbn [release]; rewrite HC, HO by lia; cbn [Nat.eqb foldM].
  - eexists. rewrite Nat.add_0_r. reflexivity.
  - destruct (IH f (S d) (upd cnt (S k) 0) (Nat.max m d)) as [c E].
    + intros i Li. unfold upd. destruct (Nat.eqb_spec i (S k)); [lia|]. apply HC. lia.
    + intros i Li. apply HO. lia.
    + lia.
    + exists c. rewrite E. cbn [bind]. do 2 f_equal. lia.
Qed.

Lemma chain_run x n : exists s, d_run (chain x n) d_init = Ret s /\ linked n (d_h s) /\ rightly s (rev (seq 0 n)).
Proof.
  pose proof (run_keep _ (chain_scope x n)) as H. destruct (chain_kept x n) as (hs & E & Lk). rewrite E, chain_gone in H.
  destruct H as (s & E1 & <- & HR). eauto.
Qed.

Lemma chain_vars n s : linked n (d_h s) -> rightly s (rev (seq 0 n)) -> d_vars s = repeat None n ++ [Some n].
Proof.
  intros (L0 & Ev & _) (_ & HLen & HV & _). rewrite Ev in *. rewrite seq_length in HLen.
  apply (nth_ext_len _ _ _ None); [rewrite HLen, app_length, repeat_length; cbn; lia|].
  intros i Li. rewrite HLen in Li. specialize (HV i i). rewrite seq_nth_error in HV by lia. specialize (HV eq_refl).
  apply nth_error_nth with (d := None) in HV. rewrite HV. destruct (Nat.eq_dec i n) as [->|N].
  - rewrite app_nth2, repeat_length, Nat.sub_diag by (rewrite repeat_length; lia). cbn [nth].
    destruct (existsb (Nat.eqb n) (rev (seq 0 n))) eqn:Eg; [|reflexivity]. apply in_gone in Eg. rewrite <- in_rev, in_seq in Eg. lia.
  - rewrite app_nth1 by (rewrite repeat_length; lia). rewrite nth_repeat. assert (Eg : In i (rev (seq 0 n))) by (rewrite <- in_rev, in_seq; lia).
    apply in_gone in Eg. rewrite Eg. reflexivity.
Qed.

Lemma chain_ones n s : linked n (d_h s) -> rightly s (rev (seq 0 n)) -> forall i, i <= n -> d_cnt s i = 1.
Proof.
  intros Lk HS. pose proof (linked_owned n _ Lk) as HO. pose proof (chain_vars n s Lk HS) as HV. pose proof Lk as (L0 & _).
  assert (A : forall k, k <= n -> alive s (n - k)).
  { induction k as [|k IH]; intros Lk'.
    - rewrite Nat.sub_0_r. apply (proj1 (rightly_safe _ _ HS)). unfold held. rewrite HV. apply in_or_app. right; left; reflexivity.
    - eapply (proj2 (rightly_safe _ _ HS)); [apply IH; lia|]. apply points_owned. split; [lia|]. rewrite HO by lia.
      replace (n - k) with (S (n - S k)) by lia. left; reflexivity. }
  assert (A' : forall j, j <= n -> d_cnt s j <> 0). { intros j Lj. specialize (A (n - j) ltac:(lia)). unfold alive in A. replace (n - (n - j)) with j in A by lia. lia. }
  intros i Li. rewrite (rightly_counts _ _ HS i). unfold references. rewrite count_vars, HV, roots_app, L0.
  assert (R0 : roots (repeat None n) = []) by (clear; induction n as [|n IH]; [reflexivity|exact IH]). rewrite R0. cbn [app].
  change (roots [Some n]) with [n]. rewrite occ_cons. change (occ [] i) with 0.
  rewrite (sum_ext _ _ (fun j => if j =? S i then 1 else 0)).
  2: { intros j Hj. apply in_seq in Hj. specialize (A' j ltac:(lia)). apply Nat.eqb_neq in A'. rewrite A', HO by lia.
       destruct j as [|j]; [reflexivity|]. rewrite occ_cons. change (occ [] i) with 0. destruct (Nat.eqb_spec j i), (Nat.eqb_spec (S j) (S i)); lia. }
  destruct (Nat.eq_dec i n) as [->|N].
  - rewrite Nat.eqb_refl. rewrite (sum_ext _ _ (fun _ => 0)); [|intros j Hj; apply in_seq in Hj; destruct (Nat.eqb_spec j (S n)); lia].
    assert (Z : forall l : list nat, list_sum (map (fun _ => 0) l) = 0) by (induction l; auto). rewrite Z. reflexivity.
  - destruct (Nat.eqb_spec n i); [congruence|]. rewrite (sum_one _ (fun _ => 0) (S i)); [|apply seq_NoDup|apply in_seq; lia|intros j Hj; apply Nat.eqb_neq in Hj; rewrite Hj; reflexivity|reflexivity].
    assert (Z : forall l : list nat, list_sum (map (fun _ => 0) l) = 0) by (induction l; auto). rewrite Z, Nat.eqb_refl. reflexivity.
Qed.

Lemma chain_depth x n : exists s, d_run (chain x n ++ [DDrop n]) d_init = Ret s /\ ended s /\ d_depth s = S n /\ (forall i, d_cnt s i = 0 ) /\ length (hnodes (hhp (d_h s))) = S n.
Proof.
  assert (SC : in_scope 0 [] (chain x n ++ [DDrop n])).
  { apply scope_app; [apply chain_scope|]. rewrite chain_counts, chain_gone. cbn. split; [|exact I]. split; [lia|]. rewrite <- in_rev, in_seq. lia. }
  destruct (chain_run x n) as (s & E & Lk & HS). pose proof (chain_vars n s Lk HS) as HV. pose proof Lk as (L0 & _).
  unfold d_run in *. destruct (chain_release (hhp (d_h s)) n (S (length (hnodes (hhp (d_h s))))) 1 (d_cnt s) (d_depth s) (chain_ones n s Lk HS) (linked_owned n _ Lk)) as [c Ec]; [lia|].
  assert (ES : exists s', foldM d_exec (chain x n ++ [DDrop n]) d_init = Ret s' /\ s' = mkD (d_h s) c (list_set (d_vars s) n None) (Nat.max (d_depth s) (1 + n))).
  { eexists. split; [|reflexivity]. rewrite foldM_app, E. cbn [bind foldM d_exec]. rewrite HV at 1. rewrite nth_error_app2, repeat_length, Nat.sub_diag by (rewrite repeat_length; lia).
    cbn [nth_error]. unfold release_all. cbn [foldM]. rewrite Ec. reflexivity. }
  destruct ES as (s' & E' & Es). exists s'. split; [exact E'|].
  assert (En : ended s').
  { subst s'. unfold ended. cbn [d_vars]. rewrite HV. generalize (Some n) as z. clear. induction n as [|n IH]; intros z; cbn; repeat constructor. apply IH. }
  split; [exact En|]. split; [|split; [|subst s'; exact L0]].
  - subst s'. cbn [d_depth]. destruct HS as (_ & _ & _ & _ & _ & HD). rewrite L0 in HD. lia.
  - destruct (run_rightly _ _ SC E') as [EK [gone HS']]. intros i. destruct (Nat.eq_0_gt_0_cases (d_cnt s' i)) as [Z|Z]; auto. exfalso.
    destruct (rightly_why s' gone HS' (length (hnodes (hhp (d_h s')))) [] i) as (j & Hj & _); auto; [lia|constructor; auto; constructor|].
    assert (G : good (d_h s')). { eapply (keep_good _ h_init); [|apply good_init|exact EK]. apply Forall_app. split; [apply chain_no_update|repeat constructor]. }
    destruct Hj as [Hj|(k & Hp & Hk)].
    + unfold held, ended in *. rewrite Forall_forall in En. apply En in Hj. discriminate.
    + destruct G as (_ & NC & _). exact (NC _ _ Hp Hk).
Qed.

End Facts.
