(** * HandleFacts: the heap with gradient tensors (ModelHandle) against the heap with gradient values
    (ModelGraph) *)
From Verif Require Import Base Lists ModelIndex ModelTensor ModelOps ModelJvp ModelGraph ModelHandle Spec SpecDual SpecGraph SpecHandle.

Local Arguments Nat.ltb _ _ : simpl never.

Lemma rel_bind A B C D (R : A -> B -> Prop) (Q : C -> D -> Prop) m m' (k : A -> outcome C) (k' : B -> outcome D) :
  rel_out R m m' -> (forall a b, m = Ret a -> m' = Ret b -> R a b -> rel_out Q (k a) (k' b)) -> rel_out Q (bind m k) (bind m' k').
Proof.
  intros H K. destruct m as [a|p|]; cbn in H; [destruct H as (b & -> & H)|subst m'|]; cbn; auto.
Qed.

Lemma rel_same A C D (Q : C -> D -> Prop) (m : outcome A) (k : A -> outcome C) (k' : A -> outcome D) :
  (forall a, m = Ret a -> rel_out Q (k a) (k' a)) -> rel_out Q (bind m k) (bind m k').
Proof. intros K. destruct m as [a|p|]; cbn; auto. Qed.

Lemma rel_weaken A B (R R' : A -> B -> Prop) m m' : rel_out R m m' -> (forall a b, R a b -> R' a b) -> rel_out R' m m'.
Proof. destruct m; cbn; auto. intros (b & E & H) K. eauto. Qed.

Lemma rel_foldM A B X Y (R : A -> B -> Prop) (S : X -> Y -> Prop) (f : A -> X -> outcome A) (g : B -> Y -> outcome B) l l' :
  Forall2 S l l' -> (forall a b x y, R a b -> S x y -> rel_out R (f a x) (g b y)) ->
  forall a b, R a b -> rel_out R (foldM f l a) (foldM g l' b).
Proof.
  intros H K. induction H; cbn; intros a b Hab; [eauto|]. eapply rel_bind; [apply K; eassumption|]. intros; auto.
Qed.

Section HandleFacts.
Context {T : Type} {NT : Num T}.
Implicit Types (ns hns : list (node T)) (f : nat -> nat) (st : nat -> Prop).

(** [f] sends tensors to tensors with the same value; those in [st] have corresponding histories. *)
Record simn ns hns f st : Prop := {
  s_node : forall i nd, nth_error ns i = Some nd -> exists hn, nth_error hns (f i) = Some hn /\ n_val hn = n_val nd /\
    (st i -> n_fn hn = hist f (n_fn nd));
  s_ins : forall i nd k ins, nth_error ns i = Some nd -> st i -> n_fn nd = Some (k, ins) -> Forall (fun j => j < length ns /\ st j) ins;
  s_dec : forall i nd k ins, nth_error ns i = Some nd -> st i -> n_fn nd = Some (k, ins) -> Forall (fun j => f j < f i) ins;
  s_inj : forall i j, i < length ns -> j < length ns -> st i -> st j -> f i = f j -> i = j }.

Definition cells ns (gr : nat -> option (raw T)) (h : hheap T) f st : Prop := forall i, i < length ns -> st i ->
  match gr i with
  | None => hgrads h (f i) = None
  | Some g => exists j hn, hgrads h (f i) = Some j /\ nth_error (hnodes h) j = Some hn /\ n_val hn = g
  end.

Definition sim ns gr (h : hheap T) f st : Prop := simn ns (hnodes h) f st /\ cells ns gr h f st.

Lemma nth_lt A (l : list A) i x : nth_error l i = Some x -> i < length l.
Proof. intros E. apply nth_error_Some. rewrite E; discriminate. Qed.

Lemma simn_app ns hns e f st : simn ns hns f st -> simn ns (hns ++ e) f st.
Proof.
  intros [H1 H2 H2' H3]. split; auto. intros i nd E. destruct (H1 i nd E) as (hn & E1 & H). exists hn. split; [|exact H].
  rewrite nth_error_app1; [exact E1|eapply nth_lt; eauto].
Qed.

Lemma f_lt ns hns f st i : simn ns hns f st -> i < length ns -> f i < length hns.
Proof.
  intros H Hi. destruct (nth_error ns i) as [nd|] eqn:E; [|apply nth_error_None in E; lia].
  destruct (s_node _ _ _ _ H i nd E) as (hn & E1 & _). eapply nth_lt; eauto.
Qed.

Lemma cells_app ns gr h e f st : cells ns gr h f st -> cells ns gr (mkHH (hnodes h ++ e) (hgrads h)) f st.
Proof.
  intros H i Hi Hs. specialize (H i Hi Hs). destruct (gr i); cbn; [|exact H]. destruct H as (j & hn & E & E1 & E2).
  exists j, hn. split; [exact E|]. split; [|exact E2]. rewrite nth_error_app1; [exact E1|eapply nth_lt; eauto].
Qed.

Lemma cells_ext ns gr h h' f st : hnodes h' = hnodes h -> (forall i, i < length ns -> st i -> hgrads h' (f i) = hgrads h (f i)) ->
  cells ns gr h f st -> cells ns gr h' f st.
Proof. intros En Eg H i Hi Hs. specialize (H i Hi Hs). rewrite Eg, En by assumption. exact H. Qed.

(** A tensor nobody refers to *)
Lemma sim_alloc_extra ns gr h f st v fn g : sim ns gr h f st -> sim ns gr (fst (h_alloc h v fn g)) f st.
Proof.
  intros [H1 H2]. split; [apply simn_app, H1|]. cbn.
  eapply cells_ext; [| |apply (cells_app ns gr h [mkNode v fn]); exact H2]; [reflexivity|]. cbn. intros i Hi _.
  unfold upd. pose proof (f_lt _ _ _ _ i H1 Hi). destruct (Nat.eqb_spec (f i) (length (hnodes h))); [lia|reflexivity].
Qed.

Lemma sim_set ns gr h f st i j hn g : sim ns gr h f st -> i < length ns -> st i -> nth_error (hnodes h) j = Some hn -> n_val hn = g ->
  sim ns (upd gr i (Some g)) (mkHH (hnodes h) (upd (hgrads h) (f i) (Some j))) f st.
Proof.
  intros [H1 H2] Hi Hs Ej Eg. split; [exact H1|]. intros a Ha Hsa. unfold upd. cbn.
  destruct (Nat.eqb_spec a i) as [->|Hn].
  - rewrite Nat.eqb_refl. eauto.
  - destruct (Nat.eqb_spec (f a) (f i)) as [E|_]; [exfalso; apply Hn, (s_inj _ _ _ _ H1 a i); auto|]. apply H2; auto.
Qed.

Lemma sim_clear ns gr h f st i : sim ns gr h f st -> i < length ns -> st i -> sim ns (upd gr i None) (h_zero_grad h (f i)) f st.
Proof.
  intros [H1 H2] Hi Hs. split; [exact H1|]. intros a Ha Hsa. unfold upd, h_zero_grad. cbn. unfold upd.
  destruct (Nat.eqb_spec a i) as [->|Hn].
  - rewrite Nat.eqb_refl. reflexivity.
  - destruct (Nat.eqb_spec (f a) (f i)) as [E|_]; [exfalso; apply Hn, (s_inj _ _ _ _ H1 a i); auto|]. apply H2; auto.
Qed.

Lemma hget_some ns g i (nd : node T) : nth_error ns i = Some nd -> hget (mkHeap ns g) i = Ret nd.
Proof. intros E. unfold hget, vindex. cbn. rewrite E. reflexivity. Qed.

Lemma h_add_eq (h : hheap T) o j hn hj : nth_error (hnodes h) o = Some hn -> nth_error (hnodes h) j = Some hj ->
  h_forward (fun h => op_add h o j) h =
  (let* t := add_raw (LRaw (n_val hn)) (LRaw (n_val hj)) in
   Ret (mkHH (hnodes h ++ [mkNode t (Some (KAdd, [o; j]))]) (fun i => if i <? length (hnodes h) then hgrads h i else None), length (hnodes h))).
Proof.
  intros E1 E2. unfold h_forward, op_add. rewrite (hget_some _ _ _ _ E1), (hget_some _ _ _ _ E2). cbn [bind].
  destruct (add_raw _ _); reflexivity.
Qed.

Lemma sim_update ns gr h f st i j hj g : sim ns gr h f st -> i < length ns -> st i -> nth_error (hnodes h) j = Some hj -> n_val hj = g ->
  rel_out (fun gr' h' => sim ns gr' h' f st) (update_grad gr i g) (h_update_grad h (f i) j).
Proof.
  intros HS Hi Hs Ej Eg. pose proof (proj2 HS i Hi Hs) as HC. unfold update_grad, h_update_grad. destruct (gr i) as [o|] eqn:Eo.
  - destruct HC as (jo & ho & E1 & E2 & E3). rewrite E1, (h_add_eq _ _ _ _ _ E2 Ej), E3, Eg.
    destruct (add_raw (LRaw o) (LRaw g)) as [t|p|]; cbn; auto. eexists; split; [reflexivity|].
    set (h1 := mkHH (hnodes h ++ [mkNode t (Some (KAdd, [jo; j]))]) (fun i0 => if i0 <? length (hnodes h) then hgrads h i0 else None)).
    assert (HS1 : sim ns gr h1 f st).
    { pose proof (sim_alloc_extra ns gr h f st t (Some (KAdd, [jo; j])) None HS) as HS1. destruct HS as [Hn _]. split; [apply HS1|].
      eapply cells_ext; [| |apply HS1]; [reflexivity|]. intros a Ha Hsa. unfold h1, h_alloc. cbn [hgrads fst]. unfold upd. pose proof (f_lt _ _ _ _ a Hn Ha).
      destruct (Nat.ltb_spec (f a) (length (hnodes h))); [|lia]. destruct (Nat.eqb_spec (f a) (length (hnodes h))); [lia|reflexivity]. }
    apply (sim_set ns gr h1 f st i (length (hnodes h)) (mkNode t (Some (KAdd, [jo; j])))); auto.
    cbn. rewrite nth_error_app2, Nat.sub_diag by lia. reflexivity.
  - rewrite HC. cbn. eexists; split; [reflexivity|]. eapply sim_set; eauto.
Qed.

(** [backward] *)
Lemma sim_inputs ns hns f st ins : simn ns hns f st -> Forall (fun j => j < length ns /\ st j) ins ->
  exists nds hnds, mapM (vindex ns) ins = Ret nds /\ mapM (vindex hns) (map f ins) = Ret hnds /\ length nds = length ins /\
    map n_val hnds = map n_val nds /\ Forall2 (fun nd hn => n_val hn = n_val nd /\ n_fn hn = hist f (n_fn nd)) nds hnds /\
    Forall2 (fun i nd => nth_error ns i = Some nd) ins nds.
Proof.
  intros HS. induction ins as [|i ins IH]; intros H; inversion H; subst; clear H.
  - exists [], []. cbn. repeat split; constructor.
  - destruct IH as (nds & hnds & E1 & E2 & EL & E3 & E4 & E5); [assumption|]. match goal with K : _ /\ _ |- _ => destruct K as [Hi Hs] end.
    destruct (nth_error ns i) as [nd|] eqn:E; [|apply nth_error_None in E; lia].
    destruct (s_node _ _ _ _ HS i nd E) as (hn & F1 & F2 & F3). exists (nd :: nds), (hn :: hnds).
    cbn [mapM map]. unfold vindex at 1 3. rewrite E, F1, E1, E2. cbn. repeat split; auto. rewrite F2, E3; reflexivity.
Qed.

Lemma sim_compute : forall fv fh ns gr h f st k ins outer, sim ns gr h f st -> Forall (fun j => j < length ns /\ st j) ins ->
  Forall (fun j => S (f j) < fh) ins -> 0 < fh ->
  rel_out (fun gr' h' => sim ns gr' h' f st) (compute_jvp fv ns k ins outer gr) (h_compute_jvp fh h k (map f ins) outer).
Proof.
  induction fv as [|fv IH]; intros fh ns gr h f st k ins outer HS Hin Hfu H0; [exact I|]. destruct fh as [|fh]; [lia|]. cbn [compute_jvp h_compute_jvp].
  destruct (sim_inputs _ _ _ _ _ (proj1 HS) Hin) as (nds & hnds & E1 & E2 & EL & E3 & E4 & E5). rewrite E1, E2. cbn [bind]. rewrite E3.
  apply rel_same. intros sg _.
  apply (rel_foldM _ _ _ _ (fun gr' h' => sim ns gr' h' f st)
    (fun x y => fst x = fst y /\ fst (snd y) = f (fst (snd x)) /\ (fst (snd x) < length ns /\ st (fst (snd x)) /\ S (f (fst (snd x))) < S fh) /\
       nth_error ns (fst (snd x)) = Some (snd (snd x)) /\
       n_val (snd (snd y)) = n_val (snd (snd x)) /\ n_fn (snd (snd y)) = hist f (n_fn (snd (snd x))))); [| |exact HS].
  - clear E1 E2 E3 HS IH. revert ins nds hnds Hin Hfu EL E4 E5. induction sg as [|g sg IHs]; intros ins nds hnds Hin Hfu EL E4 E5; [constructor|].
    destruct E5; [constructor|]. inversion Hin; subst. inversion E4; subst. inversion Hfu; subst. cbn. constructor; [|apply IHs; auto].
    cbn. tauto.
  - intros gr' h' [g [i nd]] [g' [i' hn]] HS' (Eg & Ei & (Hi & Hs & Hl) & En & Ev & Ef). cbn [fst snd] in *. subst g' i'. rewrite Ev.
    apply rel_same. intros u0 _. apply rel_same. intros sgr Er.
    destruct (h_alloc h' sgr None None) as [h1 j] eqn:EA.
    assert (HS1 : sim ns gr' h1 f st) by (replace h1 with (fst (h_alloc h' sgr None None)) by (rewrite EA; reflexivity); apply sim_alloc_extra, HS').
    assert (Ej : nth_error (hnodes h1) j = Some (mkNode sgr None)).
    { unfold h_alloc in EA. inversion EA; subst. cbn. rewrite nth_error_app2, Nat.sub_diag by lia. reflexivity. }
    eapply rel_bind; [eapply sim_update; eauto|]. intros gr2 h2 _ _ HS2.
    rewrite Ef. destruct (n_fn nd) as [[k' ins']|] eqn:Efn; cbn [hist]; [|cbn; eauto].
    apply IH; [exact HS2|eapply (s_ins _ _ _ _ (proj1 HS)); eauto| |lia].
    eapply Forall_impl; [|eapply (s_dec _ _ _ _ (proj1 HS)); eauto]. cbn. intros; lia.
Qed.

(** ** Forward operations *)

Record ext ns hns f st ns' hns' f' st' : Prop := {
  x_sim : simn ns' hns' f' st';
  x_ns : exists e, ns' = ns ++ e;
  x_hns : exists e, hns' = hns ++ e;
  x_old : forall i, i < length ns -> f' i = f i /\ (st' i <-> st i);
  x_new : forall i, length ns <= i < length ns' -> length hns <= f' i }.

Lemma ext_refl ns hns f st : simn ns hns f st -> ext ns hns f st ns hns f st.
Proof. intros H. split; auto; try (exists []; symmetry; apply app_nil_r); try tauto. intros; lia. Qed.

Lemma ext_trans ns hns f st ns1 hns1 f1 st1 ns2 hns2 f2 st2 :
  ext ns hns f st ns1 hns1 f1 st1 -> ext ns1 hns1 f1 st1 ns2 hns2 f2 st2 -> ext ns hns f st ns2 hns2 f2 st2.
Proof.
  intros [A1 [e ->] [e' ->] A4 A5] [B1 [g ->] [g' ->] B4 B5]. split; auto.
  - exists (e ++ g). symmetry; apply app_assoc.
  - exists (e' ++ g'). symmetry; apply app_assoc.
  - intros i Hi. destruct (A4 i Hi) as [Q1 Q2]. destruct (B4 i) as [R1 R2]; [rewrite app_length; lia|]. split; [congruence|tauto].
  - intros i Hi. rewrite !app_length in *. destruct (Nat.lt_ge_cases i (length ns + length e)) as [L|L].
    + destruct (B4 i) as [R1 _]; [lia|]. rewrite R1. apply A5. lia.
    + specialize (B5 i). lia.
Qed.

Lemma ext_alloc (P : Prop) ns hns f st t fn :
  simn ns hns f st -> (forall k ins, fn = Some (k, ins) -> Forall (fun j => j < length ns) ins /\ (P -> Forall st ins)) ->
  ext ns hns f st (ns ++ [mkNode t fn]) (hns ++ [mkNode t (hist f fn)]) (upd f (length ns) (length hns)) (fun i => i = length ns /\ P \/ st i /\ i <> length ns).
Proof.
  intros HS Hins. set (f' := upd f (length ns) (length hns)).
  assert (Eold : forall i, i < length ns -> f' i = f i) by (intros i Hi; unfold f', upd; destruct (Nat.eqb_spec i (length ns)); [lia|reflexivity]).
  assert (Enew : f' (length ns) = length hns) by (unfold f', upd; rewrite Nat.eqb_refl; reflexivity).
  assert (Ehist : forall h k ins, h = Some (k, ins) -> Forall (fun j => j < length ns) ins -> hist f' h = hist f h).
  { intros h k ins -> HF. cbn. f_equal. f_equal. apply map_ext_in. intros a Ha. rewrite Forall_forall in HF. apply Eold. apply HF. exact Ha. }
  split.
  - split.
    + intros i nd E. destruct (Nat.lt_ge_cases i (length ns)) as [L|L].
      * rewrite nth_error_app1 in E by lia. destruct (s_node _ _ _ _ HS i nd E) as (hn & E1 & E2 & E3). exists hn. rewrite Eold by lia.
        split; [rewrite nth_error_app1; [exact E1|eapply nth_lt; eauto]|]. split; [exact E2|]. intros [[-> _]|[K _]]; [lia|]. rewrite (E3 K).
        destruct (n_fn nd) as [[k ins]|] eqn:En; [|reflexivity]. symmetry. eapply Ehist; [reflexivity|].
        eapply Forall_impl; [|eapply s_ins; eauto]. cbn; tauto.
      * assert (i = length ns) as -> by (apply nth_lt in E; rewrite app_length in E; cbn in E; lia).
        rewrite nth_error_app2, Nat.sub_diag in E by lia. cbn in E. inversion E; subst nd. rewrite Enew.
        eexists. rewrite nth_error_app2, Nat.sub_diag by lia. split; [reflexivity|]. cbn. split; [reflexivity|]. intros _.
        destruct fn as [[k ins]|]; [|reflexivity]. symmetry. eapply Ehist; [reflexivity|]. eapply Hins; reflexivity.
    + intros i nd k ins E Hst En. rewrite app_length. cbn.
      assert (HF : Forall (fun j => j < length ns /\ st j) ins).
      { destruct (Nat.lt_ge_cases i (length ns)) as [L|L].
        - rewrite nth_error_app1 in E by lia. destruct Hst as [[-> _]|[K _]]; [lia|]. eapply s_ins; eauto.
        - assert (i = length ns) as -> by (apply nth_lt in E; rewrite app_length in E; cbn in E; lia).
          rewrite nth_error_app2, Nat.sub_diag in E by lia. cbn in E. inversion E; subst nd. destruct (Hins _ _ En) as [H1 H2].
          destruct Hst as [[_ K]|[_ K]]; [|lia]. specialize (H2 K). rewrite Forall_forall in *. auto. }
      eapply Forall_impl; [|exact HF]. cbn. intros a [H1 H2]. split; [lia|]. right. split; [exact H2|lia].
    + intros i nd k ins E Hst En. destruct (Nat.lt_ge_cases i (length ns)) as [L|L].
      * rewrite nth_error_app1 in E by lia. destruct Hst as [[-> _]|[K _]]; [lia|].
        pose proof (s_ins _ _ _ _ HS _ _ _ _ E K En) as HF. pose proof (s_dec _ _ _ _ HS _ _ _ _ E K En) as HD. rewrite Forall_forall in *.
        intros a Ha. rewrite !Eold; auto. apply (HF a Ha).
      * assert (i = length ns) as -> by (apply nth_lt in E; rewrite app_length in E; cbn in E; lia).
        rewrite nth_error_app2, Nat.sub_diag in E by lia. cbn in E. inversion E; subst nd. destruct (Hins _ _ En) as [H1 _].
        eapply Forall_impl; [|exact H1]. cbn. intros a Ha. rewrite Enew, Eold by lia. eapply f_lt; eauto.
    + intros i j Hi Hj Hsi Hsj E. rewrite app_length in Hi, Hj. cbn in Hi, Hj.
      destruct (Nat.eq_dec i (length ns)) as [->|Ni], (Nat.eq_dec j (length ns)) as [->|Nj]; auto.
      * rewrite Enew, Eold in E by lia. pose proof (f_lt _ _ _ _ j HS). lia.
      * rewrite Enew, Eold in E by lia. pose proof (f_lt _ _ _ _ i HS). lia.
      * rewrite !Eold in E by lia. apply (s_inj _ _ _ _ HS); auto; try lia; [destruct Hsi as [[]|[]]|destruct Hsj as [[]|[]]]; auto; lia.
  - eauto.
  - eauto.
  - intros i Hi. split; [apply Eold, Hi|]. split; [intros [[-> _]|[]]; [lia|assumption]|intros; right; split; [assumption|lia]].
  - intros i Hi. rewrite app_length in Hi. cbn in Hi. assert (i = length ns) as -> by lia. rewrite Enew. lia.
Qed.

Definition new_cells (h h' : heap T) : Prop := forall j, grads h' j = if j <? length (nodes h) then grads h j else
  if j <? length (nodes h') then None else grads h j.

Lemma new_cells_trans h1 h2 h3 : length (nodes h1) <= length (nodes h2) -> length (nodes h2) <= length (nodes h3) ->
  new_cells h1 h2 -> new_cells h2 h3 -> new_cells h1 h3.
Proof.
  intros L1 L2 A B j. rewrite (B j), (A j).
  destruct (Nat.ltb_spec j (length (nodes h1))), (Nat.ltb_spec j (length (nodes h2))), (Nat.ltb_spec j (length (nodes h3))); try lia; reflexivity.
Qed.

Lemma new_cells_alloc h v fn : new_cells h (fst (alloc h v fn None)).
Proof.
  intros j. unfold alloc. cbn [fst grads nodes]. unfold upd. rewrite app_length. cbn [length].
  destruct (Nat.ltb_spec j (length (nodes h))), (Nat.ltb_spec j (length (nodes h) + 1)), (Nat.eqb_spec j (length (nodes h))); try lia; reflexivity.
Qed.

(** What an operation has to do; the result is in [st'] if [P] *)
Definition op_rel (P : Prop) (v : heap T) hns f st (r r' : outcome (heap T * nat)) : Prop :=
  rel_out (fun vi wi => exists f' st', ext (nodes v) hns f st (nodes (fst vi)) (nodes (fst wi)) f' st' /\ new_cells v (fst vi) /\
    f' (snd vi) = snd wi /\ (P -> st' (snd vi)) /\ snd vi < length (nodes (fst vi))) r r'.

Lemma op_rel_alloc (P : Prop) v hns g f st t fn : simn (nodes v) hns f st ->
  (forall k ins, fn = Some (k, ins) -> Forall (fun j => j < length (nodes v)) ins /\ (P -> Forall st ins)) ->
  op_rel P v hns f st (Ret (alloc v t fn None)) (Ret (alloc (mkHeap hns g) t (hist f fn) None)).
Proof.
  intros HS Hins. cbn. eexists; split; [reflexivity|]. eexists _, _. cbn. split; [apply (ext_alloc P); eassumption|].
  split; [apply new_cells_alloc|]. split; [unfold upd; rewrite Nat.eqb_refl; reflexivity|]. split; [cbn; auto|]. rewrite app_length; cbn; lia.
Qed.

Lemma sim_hget v hns g f st i : simn (nodes v) hns f st -> i < length (nodes v) ->
  exists nd hn, hget v i = Ret nd /\ hget (mkHeap hns g) (f i) = Ret hn /\ n_val hn = n_val nd.
Proof.
  intros HS Hi. destruct (nth_error (nodes v) i) as [nd|] eqn:E; [|apply nth_error_None in E; lia].
  destruct (s_node _ _ _ _ HS i nd E) as (hn & F1 & F2 & _). exists nd, hn. unfold hget, vindex. cbn. rewrite E, F1. auto.
Qed.

(** From operations on tensors to the heaps *)
Lemma forward_rel (P : Prop) ns gr h f st op op' : sim ns gr h f st -> op_rel P (mkHeap ns gr) (hnodes h) f st (op (mkHeap ns gr)) (op' (mkHeap (hnodes h) (fun _ => None))) ->
  rel_out (fun vi hi => exists f' st', sim (nodes (fst vi)) (grads (fst vi)) (fst hi) f' st' /\ f' (snd vi) = snd hi /\ (P -> st' (snd vi)) /\
      snd vi < length (nodes (fst vi)) /\ (exists e, nodes (fst vi) = ns ++ e) /\ (forall i, i < length ns -> f' i = f i /\ (st' i <-> st i)))
    (op (mkHeap ns gr)) (h_forward op' h).
Proof.
  intros [HS HC] H. unfold h_forward, op_rel in *. destruct (op (mkHeap ns gr)) as [[v' i]|p|]; cbn in H; [|rewrite H; reflexivity|exact I].
  destruct H as ([w' i'] & E & f' & st' & X & N & Ei & Hs & Hi). cbn in *. rewrite E. cbn. eexists; split; [reflexivity|].
  exists f', st'. cbn. destruct X as [X1 X2 X3 X4 X5]. split; [|split; [exact Ei|split; [exact Hs|split; [exact Hi|split; [exact X2|exact X4]]]]].
  split; [exact X1|]. intros a Ha Hsa. cbn [hgrads hnodes]. rewrite (N a). cbn [nodes grads]. destruct (Nat.ltb_spec a (length ns)) as [L|L].
  - destruct (X4 a L) as [Ef Es]. rewrite Ef. specialize (HC a L (proj1 Es Hsa)). pose proof (f_lt _ _ _ _ a HS L).
    destruct (Nat.ltb_spec (f a) (length (hnodes h))); [|lia]. destruct (gr a); [|exact HC]. destruct HC as (j & hn & E1 & E2 & E3).
    exists j, hn. split; [exact E1|]. split; [|exact E3]. destruct X3 as [e ->]. rewrite nth_error_app1; [exact E2|eapply nth_lt; eauto].
  - destruct (Nat.ltb_spec a (length (nodes v'))); [|lia]. specialize (X5 a). destruct (Nat.ltb_spec (f' a) (length (hnodes h))); [lia|reflexivity].
Qed.

(** ** Each operation *)

Lemma op_rel_bind (P Q : Prop) v hns f st r r' (k k' : heap T * nat -> outcome (heap T * nat)) :
  op_rel P v hns f st r r' ->
  (forall v' i w' f' st', ext (nodes v) hns f st (nodes v') (nodes w') f' st' -> (P -> st' i) -> i < length (nodes v') ->
     op_rel Q v' (nodes w') f' st' (k (v', i)) (k' (w', f' i))) ->
  op_rel Q v hns f st (bind r k) (bind r' k').
Proof.
  intros H K. unfold op_rel in *. destruct r as [[v' i]|p|]; cbn in H; [|subst r'; reflexivity|exact I].
  destruct H as ([w' i'] & -> & f' & st' & X & N & Ei & Hs & Hi). cbn [fst snd] in *. subst i'. cbn [bind].
  specialize (K v' i w' f' st' X Hs Hi). destruct (k (v', i)) as [[v2 i2]|p|]; cbn in *; auto.
  destruct K as ([w2 i2'] & -> & f2 & st2 & X2 & N2 & E2 & Hs2 & Hi2). eexists; split; [reflexivity|]. exists f2, st2.
  split; [eapply ext_trans; eauto|]. split; [|auto]. eapply new_cells_trans; [| |exact N|exact N2].
  - destruct X as [_ [e ->] _ _ _]. rewrite app_length. lia.
  - cbn. destruct X2 as [_ [e ->] _ _ _]. rewrite app_length. lia.
Qed.

Section Ops.
Variables (v w : heap T) (f : nat -> nat) (st : nat -> Prop).
Hypothesis HS : simn (nodes v) (nodes w) f st.

Lemma hget_rel i : i < length (nodes v) -> exists nd hn, hget v i = Ret nd /\ hget w (f i) = Ret hn /\ n_val hn = n_val nd.
Proof. intros Hi. destruct w as [hns g]. eapply (sim_hget v hns g); eauto. Qed.

Lemma alloc_rel (P : Prop) t fn :
  (forall k ins, fn = Some (k, ins) -> Forall (fun j => j < length (nodes v)) ins /\ (P -> Forall st ins)) ->
  op_rel P v (nodes w) f st (Ret (alloc v t fn None)) (Ret (alloc w t (hist f fn) None)).
Proof. intros H. destruct w as [hns g]. apply op_rel_alloc; auto. Qed.

Lemma leaf_rel (P : Prop) t : op_rel P v (nodes w) f st (Ret (alloc v t None None)) (Ret (alloc w t None None)).
Proof. apply (alloc_rel P t None). intros; discriminate. Qed.

Lemma leaf_rel_m (P : Prop) (m : outcome (raw T)) :
  op_rel P v (nodes w) f st (let* t := m in Ret (alloc v t None None)) (let* t := m in Ret (alloc w t None None)).
Proof. apply rel_same. intros t _. apply leaf_rel. Qed.

Lemma node_rel_m (P : Prop) (m : outcome (raw T)) k ins : Forall (fun j => j < length (nodes v)) ins -> (P -> Forall st ins) ->
  op_rel P v (nodes w) f st (let* t := m in Ret (alloc v t (Some (k, ins)) None)) (let* t := m in Ret (alloc w t (Some (k, map f ins)) None)).
Proof. intros H1 H2. apply rel_same. intros t _. apply (alloc_rel P t (Some (k, ins))). intros k' ins' E. inversion E; subst; auto. Qed.

Ltac get i := let nd := fresh "nd" in let hn := fresh "hn" in let E := fresh "E" in let F := fresh "F" in let G := fresh "G" in
  destruct (hget_rel i) as (nd & hn & E & F & G); [assumption|]; rewrite E, F; cbn [bind]; rewrite ?G.

Lemma rel_add (P : Prop) i j : i < length (nodes v) -> j < length (nodes v) -> (P -> st i /\ st j) -> op_rel P v (nodes w) f st (op_add v i j) (op_add w (f i) (f j)).
Proof.
  intros Hi Hj Hs. unfold op_add. get i. get j. apply (node_rel_m P _ KAdd [i; j]); [repeat constructor; auto|].
  intros p; destruct (Hs p); repeat constructor; auto.
Qed.

Lemma rel_bmm (P : Prop) i j : i < length (nodes v) -> j < length (nodes v) -> (P -> st i /\ st j) -> op_rel P v (nodes w) f st (op_bmm v i j) (op_bmm w (f i) (f j)).
Proof.
  intros Hi Hj Hs. unfold op_bmm. get i. get j. apply (node_rel_m P _ KBmm [i; j]); [repeat constructor; auto|].
  intros p; destruct (Hs p); repeat constructor; auto.
Qed.

Lemma rel_dot (P : Prop) i j : i < length (nodes v) -> j < length (nodes v) -> (P -> st i /\ st j) -> op_rel P v (nodes w) f st (op_dot v i j) (op_dot w (f i) (f j)).
Proof.
  intros Hi Hj Hs. unfold op_dot. get i. get j. apply (node_rel_m P _ KDot [i; j]); [repeat constructor; auto|].
  intros p; destruct (Hs p); repeat constructor; auto.
Qed.

Lemma rel_neg (P : Prop) i : i < length (nodes v) -> (P -> st i) -> op_rel P v (nodes w) f st (op_neg v i) (op_neg w (f i)).
Proof. intros Hi Hs. unfold op_neg. get i. apply (node_rel_m P _ KNeg [i]); repeat constructor; auto. Qed.

Lemma rel_abs (P : Prop) i : i < length (nodes v) -> (P -> st i) -> op_rel P v (nodes w) f st (op_abs v i) (op_abs w (f i)).
Proof. intros Hi Hs. unfold op_abs. get i. apply (node_rel_m P _ KAbs [i]); repeat constructor; auto. Qed.

Lemma rel_relu (P : Prop) i : i < length (nodes v) -> (P -> st i) -> op_rel P v (nodes w) f st (op_relu v i) (op_relu w (f i)).
Proof. intros Hi Hs. unfold op_relu. get i. apply (node_rel_m P _ KRelu [i]); repeat constructor; auto. Qed.

Lemma rel_tanh (P : Prop) i : i < length (nodes v) -> (P -> st i) -> op_rel P v (nodes w) f st (op_tanh v i) (op_tanh w (f i)).
Proof. intros Hi Hs. unfold op_tanh. get i. apply (node_rel_m P _ KTanh [i]); repeat constructor; auto. Qed.

Lemma rel_mul (P : Prop) i j : i < length (nodes v) -> j < length (nodes v) -> op_rel P v (nodes w) f st (op_mul v i j) (op_mul w (f i) (f j)).
Proof. intros Hi Hj. unfold op_mul. get i. get j. apply leaf_rel_m. Qed.

Lemma rel_deep_clone (P : Prop) i : i < length (nodes v) -> op_rel P v (nodes w) f st (op_deep_clone v i) (op_deep_clone w (f i)).
Proof. intros Hi. unfold op_deep_clone. get i. apply leaf_rel_m. Qed.

Lemma rel_view_to_tensor (P : Prop) i o : i < length (nodes v) -> op_rel P v (nodes w) f st (op_view_to_tensor v i o) (op_view_to_tensor w (f i) o).
Proof. intros Hi. unfold op_view_to_tensor. get i. apply rel_same. intros u _. apply leaf_rel_m. Qed.

Lemma rel_view_sum (P : Prop) i o : i < length (nodes v) -> op_rel P v (nodes w) f st (op_view_sum v i o) (op_view_sum w (f i) o).
Proof. intros Hi. unfold op_view_sum. get i. apply rel_same. intros u _. apply leaf_rel_m. Qed.

Lemma rel_mul_view (P : Prop) i j o : i < length (nodes v) -> j < length (nodes v) -> op_rel P v (nodes w) f st (op_mul_view v i j o) (op_mul_view w (f i) (f j) o).
Proof. intros Hi Hj. unfold op_mul_view. get i. get j. apply rel_same. intros u _. apply leaf_rel_m. Qed.
End Ops.

Lemma rel_sub v w f st (P : Prop) i j : simn (nodes v) (nodes w) f st -> i < length (nodes v) -> j < length (nodes v) -> (P -> st i /\ st j) ->
  op_rel P v (nodes w) f st (op_sub v i j) (op_sub w (f i) (f j)).
Proof.
  intros HS Hi Hj Hs. unfold op_sub. eapply (op_rel_bind P); [apply rel_neg; auto; intros p; apply Hs, p|].
  intros v' a w' f' st' X Ha Hla. destruct (x_old _ _ _ _ _ _ _ _ X i Hi) as [Ef Es]. rewrite <- Ef. pose proof (x_ns _ _ _ _ _ _ _ _ X) as [e Ee].
  apply rel_add; [apply (x_sim _ _ _ _ _ _ _ _ X)| | |]; auto; [rewrite Ee, app_length; lia|].
  intros p. split; [apply Es, Hs, p|auto].
Qed.

Lemma rel_bmm_view v w f st (P : Prop) i j o : simn (nodes v) (nodes w) f st -> i < length (nodes v) -> j < length (nodes v) -> (P -> st i) ->
  op_rel P v (nodes w) f st (op_bmm_view v i j o) (op_bmm_view w (f i) (f j) o).
Proof.
  intros HS Hi Hj Hs. unfold op_bmm_view.
  destruct (hget_rel v w f st HS i Hi) as (ni & hi & -> & -> & Gi). destruct (hget_rel v w f st HS j Hj) as (nj & hj & -> & -> & Gj). cbn [bind].
  rewrite Gi, Gj. apply rel_same. intros u _. apply rel_same. intros t _. apply rel_same. intros r _.
  change (op_rel P v (nodes w) f st (let* vi := Ret (alloc v r None None) in Ret (alloc (fst vi) t (Some (KBmm, [i; snd vi])) None))
    (let* vi := Ret (alloc w r None None) in Ret (alloc (fst vi) t (Some (KBmm, [f i; snd vi])) None))).
  eapply (op_rel_bind P); [apply leaf_rel; auto|]. intros v' a w' f' st' X Ha Hla. cbn [fst snd].
  destruct (x_old _ _ _ _ _ _ _ _ X i Hi) as [Ef Es]. rewrite <- Ef. pose proof (x_ns _ _ _ _ _ _ _ _ X) as [e Ee].
  apply (alloc_rel v' w' f' st' (x_sim _ _ _ _ _ _ _ _ X) P t (Some (KBmm, [i; a]))). intros k ins E. inversion E; subst.
  assert (i < length (nodes v')) by (rewrite Ee, app_length; lia).
  split; [repeat constructor; auto|]. intros p. repeat constructor; [apply Es, Hs, p|auto].
Qed.

(** [sum] *)
Lemma rel_sum (P : Prop) ns gr h f st i : sim ns gr h f st -> i < length ns -> (P -> st i) ->
  rel_out (fun vi hi => exists f' st', sim (nodes (fst vi)) (grads (fst vi)) (fst hi) f' st' /\ f' (snd vi) = snd hi /\ (P -> st' (snd vi)) /\
      snd vi < length (nodes (fst vi)) /\ (exists e, nodes (fst vi) = ns ++ e) /\ (forall i, i < length ns -> f' i = f i /\ (st' i <-> st i)))
    (op_sum (mkHeap ns gr) i) (h_sum h (f i)).
Proof.
  intros HS Hi Hs. unfold op_sum, h_sum.
  destruct (sim_hget (mkHeap ns gr) (hnodes h) (fun _ => None) f st i (proj1 HS) Hi) as (nd & hn & E1 & E2 & E3).
  rewrite E1. cbn [bind]. unfold hget in E2. cbn [nodes] in E2. rewrite E2. cbn [bind].
  destruct (h_alloc h _ None None) as [h1 g] eqn:EA. rewrite E3 in EA.
  set (fl := raw_filler (shape (n_val nd)) n_one) in *.
  assert (Eh1 : h1 = fst (h_alloc h fl None None)) by (rewrite EA; reflexivity).
  assert (Eg : g = length (hnodes h)) by (inversion EA; reflexivity).
  assert (HS1 : sim ns gr h1 f st) by (rewrite Eh1; apply sim_alloc_extra, HS).
  assert (Enodes : hnodes h1 = hnodes h ++ [mkNode fl None]) by (rewrite Eh1; reflexivity).
  assert (En1 : nth_error (hnodes h1) (f i) = Some hn).
  { unfold vindex in E2. destruct (nth_error (hnodes h) (f i)) eqn:En; [|discriminate]. inversion E2; subst.
    rewrite Enodes, nth_error_app1; [exact En|eapply nth_lt; eauto]. }
  unfold h_forward, op_sum. rewrite (hget_some _ _ _ _ En1). cbn [bind]. rewrite E3. clear EA.
  destruct (tl_sum (LRaw (n_val nd))) as [t|p|]; cbn [bind]; cbn [rel_out]; [|reflexivity|exact I].
  eexists; split; [reflexivity|]. cbn [alloc fst snd nodes grads hnodes hgrads].
  pose proof (ext_alloc P ns (hnodes h1) f st t (Some (KSum, [i])) (proj1 HS1)) as X.
  match type of X with ?A -> _ => assert (HA : A) end.
  { intros k ins E. inversion E; subst. split; [repeat constructor; auto|]. intros p. repeat constructor; auto. }
  specialize (X HA). clear HA. cbn [hist map] in X. eexists _, _. split; [split|].
  - exact (x_sim _ _ _ _ _ _ _ _ X).
  - intros a Ha Hsa. cbn [hgrads hnodes]. unfold upd at 1. destruct (Nat.eqb_spec a (length ns)) as [->|Na].
    + unfold upd at 2. rewrite Nat.eqb_refl. unfold upd. rewrite Nat.eqb_refl. exists g, (mkNode fl None).
      split; [reflexivity|]. split; [|reflexivity]. rewrite Eg, Enodes, <- app_assoc, nth_error_app2, Nat.sub_diag by lia. reflexivity.
    + assert (La : a < length ns) by (rewrite app_length in Ha; cbn in Ha; lia).
      destruct (x_old _ _ _ _ _ _ _ _ X a La) as [Ef Es]. rewrite Ef. pose proof (f_lt _ _ _ _ a (proj1 HS1) La) as Lf.
      unfold upd. destruct (Nat.eqb_spec (f a) (length (hnodes h1))); [lia|]. destruct (Nat.ltb_spec (f a) (length (hnodes h1))); [|lia].
      pose proof (proj2 HS1 a La (proj1 Es Hsa)) as HC. destruct (gr a); [|exact HC]. destruct HC as (j & hj & F1 & F2 & F3).
      exists j, hj. split; [exact F1|]. split; [|exact F3]. rewrite nth_error_app1; [exact F2|eapply nth_lt; eauto].
  - split; [unfold upd; rewrite Nat.eqb_refl; reflexivity|]. split; [cbn; auto|]. split; [rewrite app_length; cbn; lia|].
    split; [eauto|]. exact (x_old _ _ _ _ _ _ _ _ X).
Qed.

(** [grad] *)
Lemma sim_weak ns gr h f st j hn u : sim ns gr h f st -> nth_error (hnodes h) j = Some hn -> n_val hn = u ->
  sim (ns ++ [mkNode u None]) (upd gr (length ns) None) h (upd f (length ns) j) (fun i => st i /\ i < length ns).
Proof.
  intros [HS HC] Ej Eu. set (f' := upd f (length ns) j).
  assert (Eold : forall i, i < length ns -> f' i = f i) by (intros i Hi; unfold f', upd; destruct (Nat.eqb_spec i (length ns)); [lia|reflexivity]).
  assert (Enew : f' (length ns) = j) by (unfold f', upd; rewrite Nat.eqb_refl; reflexivity).
  split; [split|].
  - intros i nd E. destruct (Nat.lt_ge_cases i (length ns)) as [L|L].
    + rewrite nth_error_app1 in E by lia. destruct (s_node _ _ _ _ HS i nd E) as (hn' & E1 & E2 & E3). exists hn'. rewrite Eold by lia.
      split; [exact E1|]. split; [exact E2|]. intros [K _]. rewrite (E3 K).
      destruct (n_fn nd) as [[k ins]|] eqn:En; [|reflexivity]. cbn. f_equal. f_equal. apply map_ext_in. intros a Ha. symmetry. apply Eold.
      pose proof (s_ins _ _ _ _ HS i nd k ins E K En) as HF. rewrite Forall_forall in HF. apply (HF a Ha).
    + assert (i = length ns) as -> by (apply nth_lt in E; rewrite app_length in E; cbn in E; lia).
      rewrite nth_error_app2, Nat.sub_diag in E by lia. cbn in E. inversion E; subst nd. rewrite Enew. exists hn. split; [exact Ej|].
      split; [cbn; exact Eu|]. intros [_ K]. lia.
  - intros i nd k ins E [Hst L] En. rewrite nth_error_app1 in E by lia. rewrite app_length. cbn.
    eapply Forall_impl; [|eapply (s_ins _ _ _ _ HS i nd); eauto]. cbn. intros a [A1 A2]. repeat split; auto; lia.
  - intros i nd k ins E [Hst L] En. rewrite nth_error_app1 in E by lia.
    pose proof (s_ins _ _ _ _ HS _ _ _ _ E Hst En) as HF. pose proof (s_dec _ _ _ _ HS _ _ _ _ E Hst En) as HD. rewrite Forall_forall in *.
    intros a Ha. rewrite !Eold; auto. apply (HF a Ha).
  - intros a b _ _ [Ha La] [Hb Lb] E. rewrite !Eold in E by lia. eapply (s_inj _ _ _ _ HS); eauto.
  - intros a _ [Ha La]. rewrite Eold by lia. unfold upd. destruct (Nat.eqb_spec a (length ns)); [lia|]. apply HC; auto.
Qed.

(** ** Programs *)

Record srel (m : list bool) (s : state T) (hs : hstate T) f st : Prop := {
  r_sim : sim (nodes (hp s)) (grads (hp s)) (hhp hs) f st;
  r_env : henv hs = map f (env s);
  r_lt : Forall (fun i => i < length (nodes (hp s))) (env s);
  r_len : length m = length (env s);
  r_st : forall x i, nth_error (env s) x = Some i -> marked m x = false -> st i }.

Lemma rel_var m s hs f st x : srel m s hs f st ->
  rel_out (fun i j => j = f i /\ i < length (nodes (hp s)) /\ (marked m x = false -> st i)) (vindex (env s) x) (vindex (henv hs) x).
Proof.
  intros R. rewrite (r_env _ _ _ _ _ R). unfold vindex. rewrite nth_error_map. destruct (nth_error (env s) x) as [i|] eqn:E; cbn; [|reflexivity].
  eexists; split; [reflexivity|]. split; [reflexivity|]. split; [|apply (r_st _ _ _ _ _ R x i E)].
  pose proof (r_lt _ _ _ _ _ R) as HF. rewrite Forall_forall in HF. apply HF. eapply nth_error_In; eauto.
Qed.

Lemma rel_push b m s hs f st r r' : srel m s hs f st ->
  rel_out (fun vi hi => exists f' st', sim (nodes (fst vi)) (grads (fst vi)) (fst hi) f' st' /\ f' (snd vi) = snd hi /\ (b = false -> st' (snd vi)) /\
      snd vi < length (nodes (fst vi)) /\ (exists e, nodes (fst vi) = nodes (hp s) ++ e) /\
      (forall i, i < length (nodes (hp s)) -> f' i = f i /\ (st' i <-> st i))) r r' ->
  rel_out (fun s' hs' => exists f' st', srel (m ++ [b]) s' hs' f' st') (push s r) (h_push hs r').
Proof.
  intros R H. unfold push, h_push. eapply rel_bind; [exact H|]. intros [v' i] [h' j] _ _ (f' & st' & HS & Ej & Hs & Hi & [e He] & Hold).
  cbn [fst snd] in *. cbn. eexists; split; [reflexivity|]. exists f', st'. subst j.
  assert (HF := r_lt _ _ _ _ _ R). split; cbn [hp env hhp henv].
  - exact HS.
  - rewrite map_app. cbn. f_equal. rewrite (r_env _ _ _ _ _ R). apply map_ext_in. intros a Ha. symmetry. rewrite Forall_forall in HF. apply Hold, HF, Ha.
  - apply Forall_app. split; [|repeat constructor; auto]. eapply Forall_impl; [|exact HF]. cbn. intros a Ha. rewrite He, app_length. lia.
  - rewrite !app_length, (r_len _ _ _ _ _ R). reflexivity.
  - intros x a E M. destruct (Nat.lt_ge_cases x (length (env s))) as [L|L].
    + rewrite nth_error_app1 in E by lia. unfold marked in M. rewrite app_nth1 in M by (rewrite (r_len _ _ _ _ _ R); lia).
      apply Hold; [|apply (r_st _ _ _ _ _ R x); auto]. rewrite Forall_forall in HF. apply HF. eapply nth_error_In; eauto.
    + assert (x = length (env s)) as -> by (apply nth_lt in E; rewrite app_length in E; cbn in E; lia).
      rewrite nth_error_app2, Nat.sub_diag in E by lia. cbn in E. inversion E; subst. apply Hs.
      unfold marked in M. rewrite app_nth2, (r_len _ _ _ _ _ R), Nat.sub_diag in M by (rewrite (r_len _ _ _ _ _ R); lia). exact M.
Qed.

Lemma rel_push_forward b m s hs f st (op op' : heap T -> outcome (heap T * nat)) : srel m s hs f st ->
  (forall v w, simn (nodes v) (nodes w) f st -> nodes v = nodes (hp s) -> op_rel (b = false) v (nodes w) f st (op v) (op' w)) ->
  rel_out (fun s' hs' => exists f' st', srel (m ++ [b]) s' hs' f' st') (push s (op (hp s))) (h_push hs (h_forward op' (hhp hs))).
Proof.
  intros R H. eapply rel_push; [exact R|]. destruct s as [[ns gr] en]. cbn [hp nodes grads] in *.
  pose proof (r_sim _ _ _ _ _ R) as HS. cbn [hp nodes grads] in HS. apply (forward_rel (b = false)); [exact HS|].
  apply (H (mkHeap ns gr) (mkHeap (hnodes (hhp hs)) (fun _ => None))); [exact (proj1 HS)|reflexivity].
Qed.

Lemma marked1 (m : list bool) x : existsb (marked m) [x] = false -> marked m x = false.
Proof. cbn. rewrite Bool.orb_false_r. auto. Qed.
Lemma marked2 (m : list bool) x y : existsb (marked m) [x; y] = false -> marked m x = false /\ marked m y = false.
Proof. cbn. rewrite Bool.orb_false_r, Bool.orb_false_iff. auto. Qed.

Lemma keep m (s : state T) hs f st gr h' : srel m s hs f st -> sim (nodes (hp s)) gr h' f st ->
  srel m (mkState (mkHeap (nodes (hp s)) gr) (env s)) (mkHState h' (henv hs)) f st.
Proof. intros R HS. destruct R as [R1 R2 R3 R4 R5]. split; cbn; auto. Qed.

Lemma exec_rel m s hs f st c : srel m s hs f st -> existsb (marked m) (cell_ops c) = false ->
  rel_out (fun s' hs' => exists f' st', srel (mark m c) s' hs' f' st') (exec s c) (h_exec hs c).
Proof.
  intros R HC.
  destruct c; cbn [exec h_exec mark recorded_ops cell_ops] in *;
    repeat (eapply rel_bind; [eapply rel_var; exact R|]; intros ? ? _ _ (-> & ? & ?));
    try (match goal with |- rel_out _ (push s ?X) (h_push hs (h_forward ?op _)) =>
      let g := eval pattern (hp s) in X in match g with ?op0 _ => apply (rel_push_forward _ _ _ _ _ _ op0 op R) end end;
      intros v w HS En; repeat match goal with K : _ < length (nodes (hp s)) |- _ => rewrite <- En in K end).
  - unfold op_new. apply leaf_rel_m, HS.
  - unfold op_filler. apply leaf_rel, HS.
  - unfold op_scalar. apply leaf_rel, HS.
  - unfold op_from. apply leaf_rel_m, HS.
  - apply rel_add; auto. intros p. apply marked2 in p. tauto.
  - apply rel_sub; auto. intros p. apply marked2 in p. tauto.
  - apply rel_neg; auto. intros p. apply marked1 in p. tauto.
  - apply rel_mul; auto.
  - apply rel_abs; auto. intros p. apply marked1 in p. tauto.
  - apply rel_relu; auto. intros p. apply marked1 in p. tauto.
  - apply rel_tanh; auto. intros p. apply marked1 in p. tauto.
  - eapply rel_push; [exact R|]. pose proof (r_sim _ _ _ _ _ R) as HS. destruct s as [[ns gr] en]. cbn [hp nodes grads] in *.
    apply rel_sum; auto. intros p. apply marked1 in p. tauto.
  - apply rel_bmm; auto. intros p. apply marked2 in p. tauto.
  - apply rel_dot; auto. intros p. apply marked2 in p. tauto.
  - reflexivity.
  - apply rel_deep_clone; auto.
  - (* grad *) apply marked1 in HC. destruct R as [HS R2 R3 R4 R5]. unfold op_grad, h_grad.
    match goal with K : marked m x = false -> _ |- _ => specialize (K HC) end.
    pose proof (proj2 HS a ltac:(assumption) ltac:(assumption)) as HG. destruct (grads (hp s) a) as [g|]; [|rewrite HG; reflexivity].
    destruct HG as (j & hn & E1 & E2 & E3). rewrite E1. cbn [unwrap_opt bind push rel_out alloc]. eexists; split; [reflexivity|].
    exists (upd f (length (nodes (hp s))) j), (fun i => st i /\ i < length (nodes (hp s))). split; cbn [hp env hhp henv nodes grads].
    + apply (sim_weak _ _ _ _ _ _ hn); auto.
    + rewrite map_app. cbn. unfold upd at 2. rewrite Nat.eqb_refl. f_equal. rewrite R2. apply map_ext_in. intros b Hb.
      rewrite Forall_forall in R3. specialize (R3 b Hb). unfold upd. destruct (Nat.eqb_spec b (length (nodes (hp s)))); [lia|reflexivity].
    + rewrite app_length. cbn. apply Forall_app. split; [eapply Forall_impl; [|exact R3]; cbn; lia|repeat constructor; lia].
    + rewrite !app_length, R4. reflexivity.
    + intros y b E M. destruct (Nat.lt_ge_cases y (length (env s))) as [L|L].
      * rewrite nth_error_app1 in E by lia. unfold marked in M. rewrite app_nth1 in M by lia. split; [apply (R5 y); auto|].
        rewrite Forall_forall in R3. apply R3. eapply nth_error_In; eauto.
      * exfalso. assert (y = length (env s)) as -> by (apply nth_lt in E; rewrite app_length in E; cbn in E; lia).
        unfold marked in M. rewrite app_nth2, R4, Nat.sub_diag in M by lia. discriminate.
  - apply rel_view_to_tensor; auto.
  - apply rel_view_sum; auto.
  - apply rel_mul_view; auto.
  - apply rel_bmm_view; auto. intros p. apply marked1 in p. tauto.
  - (* update_grad *) apply marked1 in HC. pose proof (r_sim _ _ _ _ _ R) as HS. unfold op_update_grad.
    destruct (sim_hget (hp s) (hnodes (hhp hs)) (fun _ => None) f st a0 (proj1 HS) ltac:(assumption)) as (nd & hn & E1 & E2 & E3). rewrite E1. cbn [bind].
    assert (E4 : nth_error (hnodes (hhp hs)) (f a0) = Some hn).
    { unfold hget, vindex in E2. cbn in E2. destruct (nth_error (hnodes (hhp hs)) (f a0)); [congruence|discriminate]. }
    pose proof (sim_update _ _ _ _ _ a (f a0) hn (n_val nd) HS ltac:(assumption) ltac:(auto) E4 E3) as HU.
    destruct (update_grad (grads (hp s)) a (n_val nd)) as [gr'|p|]; cbn [rel_out] in HU; [|rewrite HU; reflexivity|exact I].
    destruct HU as (h' & -> & HU). cbn. eexists; split; [reflexivity|]. exists f, st. apply keep; auto.
  - (* zero_grad *) apply marked1 in HC. pose proof (r_sim _ _ _ _ _ R) as HS. cbn. eexists; split; [reflexivity|]. exists f, st. apply keep; auto.
    apply sim_clear; auto.
  - (* backward *) apply marked1 in HC. pose proof (r_sim _ _ _ _ _ R) as HS. unfold backward, h_backward.
    match goal with K : marked m x = false -> _ |- _ => specialize (K HC) end.
    destruct (nth_error (nodes (hp s)) a) as [nd|] eqn:En; [|apply nth_error_None in En; lia].
    destruct (s_node _ _ _ _ (proj1 HS) a nd En) as (hn & E1 & E2 & E3). unfold hget, vindex. rewrite En, E1. cbn [bind]. rewrite E2, E3 by assumption.
    destruct (length (array (n_val nd)) =? 1); cbn [assert bind]; [|reflexivity].
    destruct (n_fn nd) as [[k ins]|] eqn:Ef; cbn [hist unwrap_opt bind]; [|reflexivity].
    pose proof (s_ins _ _ _ _ (proj1 HS) a nd k ins En ltac:(assumption) Ef) as Hins.
    pose proof (f_lt _ _ _ _ a (proj1 HS) ltac:(assumption)) as Lf.
    assert (Hdec : Forall (fun j => S (f j) < S (length (hnodes (hhp hs)))) ins).
    { eapply Forall_impl; [|exact (s_dec _ _ _ _ (proj1 HS) a nd k ins En ltac:(assumption) Ef)]. cbn. intros; lia. }
    pose proof (sim_compute (S (length (nodes (hp s)))) _ _ _ _ _ _ k ins [raw_scalar n_one] HS Hins Hdec ltac:(lia)) as HU.
    destruct (compute_jvp (S (length (nodes (hp s)))) _ _ _ _ _) as [gr'|p|]; cbn [rel_out bind] in *; [|rewrite HU; reflexivity|exact I].
    destruct HU as (h' & -> & HU). cbn. eexists; split; [reflexivity|]. exists f, st. apply keep; auto.
Qed.

End HandleFacts.
