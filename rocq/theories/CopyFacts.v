(** * CopyFacts: gradients when the same tensor occurs several times in a history, and which calls record one *)
From Coq Require Import Ring.
From Verif Require Import Base ModelIndex ModelTensor ModelOps ModelJvp ModelGraph ModelApi Spec SpecDual SpecGraph SpecApi
  Lists IndexFacts TensorFacts OpsFacts Sums JvpFacts FuelFacts GraphFacts ProgFacts BackFacts ApiFacts.

Section Trace.
Context {T : Type} {NT : Num T}.
Implicit Types us : list (nat * raw T).

(** Two runs that make the same updates, of [i] in the one and of [f i] in the other *)
Definition ren (f : nat -> nat) us : list (nat * raw T) := map (fun u => (f (fst u), snd u)) us.
Definition paired (f : nat -> nat) (P : nat * raw T -> Prop) (F2 F1 : (nat -> option (raw T)) -> outcome (nat -> option (raw T))) : Prop :=
  exists us (st : outcome unit), Forall P us /\ (forall gr, F2 gr = (let* gr' := upd_all us gr in st ;; Ret gr')) /\
    forall gr, F1 gr = (let* gr' := upd_all (ren f us) gr in st ;; Ret gr').

Lemma paired_ret f P : paired f P (fun gr => Ret gr) (fun gr => Ret gr).
Proof. exists [], (Ret tt). repeat split; constructor. Qed.
Lemma paired_const f P A (m : outcome A) F2 F1 : (forall x, m = Ret x -> paired f P (F2 x) (F1 x)) -> paired f P (fun gr => let* x := m in F2 x gr) (fun gr => let* x := m in F1 x gr).
Proof.
  intros H. destruct m as [x|p|]; cbn [bind]; [apply H; reflexivity|exists [], (Panic p); repeat split; constructor|exists [], NoFuel; repeat split; constructor].
Qed.
Lemma paired_update f (P : nat * raw T -> Prop) i (g : raw T) : P (i, g) -> paired f P (fun gr => update_grad gr i g) (fun gr => update_grad gr (f i) g).
Proof.
  intros H. exists [(i, g)], (Ret tt). split; [auto|]. split; intros gr; unfold upd_all, ren; cbn [foldM map fst snd].
  - destruct (update_grad gr i g); reflexivity.
  - destruct (update_grad gr (f i) g); reflexivity.
Qed.
Lemma paired_bind f P F2 F1 G2 G1 : paired f P F2 F1 -> paired f P G2 G1 -> paired f P (fun gr => let* gr' := F2 gr in G2 gr') (fun gr => let* gr' := F1 gr in G1 gr').
Proof.
  intros (u1 & s1 & H1 & E1 & E1') (u2 & s2 & H2 & E2 & E2'). destruct s1 as [[]|p|].
  - exists (u1 ++ u2), s2. split; [apply Forall_app; auto|]. split; intros gr.
    + rewrite E1. unfold upd_all. rewrite foldM_app. fold (upd_all u1 gr). destruct (upd_all u1 gr); cbn [bind]; [apply E2|reflexivity|reflexivity].
    + rewrite E1'. unfold ren, upd_all. rewrite map_app, foldM_app. fold (ren f u1). fold (upd_all (ren f u1) gr).
      destruct (upd_all (ren f u1) gr); cbn [bind]; [apply E2'|reflexivity|reflexivity].
  - exists u1, (Panic p). split; [auto|]. split; intros gr; [rewrite E1; destruct (upd_all u1 gr)|rewrite E1'; destruct (upd_all (ren f u1) gr)]; reflexivity.
  - exists u1, NoFuel. split; [auto|]. split; intros gr; [rewrite E1; destruct (upd_all u1 gr)|rewrite E1'; destruct (upd_all (ren f u1) gr)]; reflexivity.
Qed.
Lemma paired_foldM f P B B' (F2 : (nat -> option (raw T)) -> B -> outcome (nat -> option (raw T))) (F1 : (nat -> option (raw T)) -> B' -> outcome (nat -> option (raw T))) (R : B -> B' -> Prop) :
  forall l l', Forall2 R l l' -> (forall b b', R b b' -> paired f P (fun gr => F2 gr b) (fun gr => F1 gr b')) ->
  paired f P (fun gr => foldM F2 l gr) (fun gr => foldM F1 l' gr).
Proof.
  intros l l' H HF. induction H as [|b b' l l' Hb H IH]; cbn [foldM]; [apply paired_ret|].
  apply (paired_bind f P (fun gr => F2 gr b) (fun gr => F1 gr b') (fun gr => foldM F2 l gr) (fun gr => foldM F1 l' gr)); [apply HF, Hb|exact IH].
Qed.

Lemma Forall2_weaken A B (R R' : A -> B -> Prop) l l' : (forall x y, R x y -> R' x y) -> Forall2 R l l' -> Forall2 R' l l'.
Proof. intros H. induction 1; constructor; auto. Qed.

Lemma unshares_inputs f (ns2 ns1 : list (node T)) ins : unshares f ns2 ns1 -> Forall (fun i => i < length ns2) ins ->
  exists nds nds1, mapM (vindex ns2) ins = Ret nds /\ mapM (vindex ns1) (map f ins) = Ret nds1 /\ map n_val nds1 = map n_val nds /\
    Forall2 (fun x y => nth_error ns2 (fst x) = Some (snd x) /\ In (fst x) ins /\ fst y = f (fst x) /\ n_val (snd y) = n_val (snd x) /\
      n_fn (snd y) = match n_fn (snd x) with Some (k, i') => Some (k, map f i') | None => None end) (combine ins nds) (combine (map f ins) nds1).
Proof.
  intros HS. induction ins as [|i ins IH]; intros H.
  - exists [], []. repeat split; constructor.
  - apply Forall_cons_iff in H as [Hi H]. destruct (IH H) as (nds & nds1 & E1 & E2 & E3 & E4).
    destruct (nth_error ns2 i) as [nd|] eqn:E; [|apply nth_error_None in E; lia]. destruct (HS i nd E) as (nd1 & F1 & F2 & F3).
    exists (nd :: nds), (nd1 :: nds1). cbn [mapM map]. unfold vindex at 1 3. rewrite E, F1, E1, E2. cbn [bind map combine]. split; [reflexivity|split; [reflexivity|split]].
    + rewrite F2, E3. reflexivity.
    + constructor; [cbn [fst snd]; repeat split; auto; left; reflexivity|]. revert E4. apply Forall2_weaken. intros x y (A & B & C). split; [exact A|split; [right; exact B|exact C]].
Qed.

Lemma combine_pairs A B C (l : list A) : forall (m : list B) (m' : list C) (R : B -> C -> Prop), Forall2 R m m' ->
  Forall2 (fun x y => fst x = fst y /\ R (snd x) (snd y)) (combine l m) (combine l m').
Proof.
  induction l as [|a l IH]; intros m m' R H; [constructor|]. destruct H; cbn [combine]; [constructor|]. constructor; auto.
Qed.

Lemma compute_paired f (ns2 ns1 : list (node T)) : unshares f ns2 ns1 -> backrefs ns2 -> backrefs ns1 -> forall f2 f1 k ins outer,
  Forall (fun i => i < length ns2) ins -> Forall (fun i => S i < f2) ins -> Forall (fun i => S (f i) < f1) ins -> 0 < f2 -> 0 < f1 ->
  paired f (upd_ok ns2 ins) (compute_jvp f2 ns2 k ins outer) (compute_jvp f1 ns1 k (map f ins) outer).
Proof.
  intros HS B2 B1. induction f2 as [|f2 IH]; intros f1 k ins outer Hin H2 H1 P2 P1; [lia|]. destruct f1 as [|f1]; [lia|]. cbn [compute_jvp].
  destruct (unshares_inputs f ns2 ns1 ins HS Hin) as (nds & nds1 & E1 & E2 & E3 & E4). rewrite E1, E2. cbn [bind]. rewrite E3.
  apply paired_const. intros gs _. eapply paired_foldM; [apply combine_pairs, E4|].
  intros [g [i nd]] [g' [i' nd1]] (Eg & En & Hi & Ei & Ev & Ef). cbn [fst snd] in *. subst g' i'. rewrite Ev, Ef.
  apply paired_const. intros _ _. apply paired_const. intros sg Es. apply raw_new_inv in Es as [-> Ls].
  apply (paired_bind f _ (fun gr => update_grad gr i (mkRaw (array g) (shape (n_val nd)))) (fun gr => update_grad gr (f i) (mkRaw (array g) (shape (n_val nd))))
    (fun gr' => match n_fn nd with Some (k', ins') => compute_jvp f2 ns2 k' ins' [g] gr' | None => Ret gr' end)
    (fun gr' => match (match n_fn nd with Some (k', ins') => Some (k', map f ins') | None => None end) with Some (k', ins') => compute_jvp f1 ns1 k' ins' [g] gr' | None => Ret gr' end)).
  - apply paired_update. assert (Hlt : i < length ns2) by (apply nth_error_Some; congruence). split; [exists i; split; [exact Hi|apply uses_refl]|].
    cbn [fst snd shape]. unfold vof. rewrite En. auto.
  - destruct (n_fn nd) as [[k' ins']|] eqn:Efn; [|apply paired_ret].
    destruct (HS i nd En) as (nd' & A1 & A2 & A3). rewrite Efn in A3.
    pose proof (B2 i nd k' ins' En Efn) as Q2. pose proof (B1 (f i) nd' k' _ A1 A3) as Q1.
    assert (L2 : i < length ns2) by (apply nth_error_Some; congruence).
    rewrite Forall_forall in H2, H1. pose proof (H2 i Hi). pose proof (H1 i Hi). rewrite Forall_forall in Q1, Q2.
    destruct (IH f1 k' ins' [g]) as (us & st & Hu & F2 & F1).
    + apply Forall_forall. intros j Hj. specialize (Q2 j Hj). lia.
    + apply Forall_forall. intros j Hj. specialize (Q2 j Hj). lia.
    + apply Forall_forall. intros j Hj. specialize (Q1 (f j) (in_map f _ _ Hj)). lia.
    + lia.
    + lia.
    + exists us, st. split; [|split; [exact F2|exact F1]]. eapply Forall_impl; [|exact Hu]. intros [m gm] ((j & Hj & U) & W). split; [|exact W].
      exists i. split; [exact Hi|]. eapply uses_step; [|exact Hj|exact U]. unfold fn_of. rewrite En. exact Efn.
Qed.

(** The updates made by the two calls of [backward] *)
Lemma backward_paired f (ns2 ns1 : list (node T)) i : unshares f ns2 ns1 -> recorded ns2 -> recorded ns1 -> i < length ns2 ->
  exists us (st : outcome unit),
    Forall (fun u => wf (snd u) /\ shape (snd u) = shape (vof ns2 (fst u)) /\ uses ns2 i (fst u)) us /\
    (forall gr, backward (mkHeap ns2 gr) i = (let* gr' := upd_all us gr in st ;; Ret (mkHeap ns2 gr'))) /\
    (forall gr, backward (mkHeap ns1 gr) (f i) = (let* gr' := upd_all (ren f us) gr in st ;; Ret (mkHeap ns1 gr'))).
Proof.
  intros HS R2 R1 Hi. destruct (nth_error ns2 i) as [nd|] eqn:E; [|apply nth_error_None in E; lia]. destruct (HS i nd E) as (nd1 & E1 & Ev & Ef).
  unfold backward, hget. cbn [nodes grads]. rewrite (vindex_some _ _ _ _ E), (vindex_some _ _ _ _ E1). cbn [bind]. rewrite Ev, Ef.
  destruct (assert (length (array (n_val nd)) =? 1)) as [[]|p|]; cbn [bind];
    [|exists [], (Panic p); repeat split; constructor|exists [], NoFuel; repeat split; constructor].
  destruct (n_fn nd) as [[k ins]|] eqn:Efn; cbn [unwrap_opt bind]; [|exists [], (Panic PUnwrap); repeat split; constructor].
  pose proof (recorded_backrefs _ R2) as B2. pose proof (recorded_backrefs _ R1) as B1.
  pose proof (B2 i nd k ins E Efn) as Q2. pose proof (B1 (f i) nd1 k _ E1 Ef) as Q1. rewrite Forall_forall in Q1, Q2.
  assert (L1 : f i < length ns1) by (apply nth_error_Some; congruence).
  destruct (compute_paired f ns2 ns1 HS B2 B1 (S (length ns2)) (S (length ns1)) k ins [raw_scalar n_one]) as (us & st & Hu & F2 & F1).
  - apply Forall_forall. intros j Hj. specialize (Q2 j Hj). lia.
  - apply Forall_forall. intros j Hj. specialize (Q2 j Hj). lia.
  - apply Forall_forall. intros j Hj. specialize (Q1 (f j) (in_map f _ _ Hj)). lia.
  - lia.
  - lia.
  - exists us, st. split; [|split].
    + eapply Forall_impl; [|exact Hu]. intros [m g] ((j & Hj & U) & W & S & _). split; [exact W|]. split; [exact S|].
      eapply uses_step; [|exact Hj|exact U]. unfold fn_of. rewrite E. exact Efn.
    + intros gr. rewrite F2. destruct (upd_all us gr); cbn [bind]; auto. destruct st; reflexivity.
    + intros gr. rewrite F1. destruct (upd_all (ren f us) gr); cbn [bind]; auto. destruct st; reflexivity.
Qed.

(** One cell at a time *)
Definition cell (us : list (nat * raw T)) (n : nat) (o : option (raw T)) : outcome (option (raw T)) :=
  foldM (fun o u => match o with None => Ret (Some (snd u)) | Some g => let* s := add_raw (LRaw g) (LRaw (snd u)) in Ret (Some s) end) (filter (fun u => fst u =? n) us) o.

Lemma upd_all_cell us : forall gr gr' n, upd_all us gr = Ret gr' -> cell us n (gr n) = Ret (gr' n).
Proof.
  unfold upd_all, cell. induction us as [|[j g] us IH]; intros gr gr' n E; cbn [foldM filter fst] in *; [injection E as <-; reflexivity|].
  destruct (update_grad gr j g) as [gr1| |] eqn:E1; cbn [bind] in E; try discriminate. specialize (IH gr1 gr' n E).
  apply update_grad_inv in E1 as [Eo Ej]. destruct (Nat.eqb_spec j n) as [->|Hne].
  - cbn [foldM snd]. destruct Ej as [[E0 Ej]|(o & s & E0 & Es & Ej)].
    + rewrite E0. cbn [bind]. rewrite Ej in IH. exact IH.
    + rewrite E0, Es. cbn [bind]. rewrite Ej in IH. exact IH.
  - rewrite Eo in IH by auto. exact IH.
Qed.

Lemma filter_ren f us n m : (forall u, In u us -> (f (fst u) = n <-> fst u = m)) -> forall o, cell (ren f us) n o = cell us m o.
Proof.
  intros H. unfold cell, ren.
  assert (E : map snd (filter (fun u => fst u =? n) (map (fun u => (f (fst u), snd u)) us)) = map snd (filter (fun u => fst u =? m) us)).
  { induction us as [|[j g] us IH]; [reflexivity|]. cbn [map filter fst snd]. pose proof (H (j, g) (or_introl eq_refl)) as Q. cbn [fst] in Q.
    destruct (Nat.eqb_spec (f j) n), (Nat.eqb_spec j m); try tauto; cbn [map snd]; rewrite IH; auto; intros u Hu; apply H; right; exact Hu. }
  set (l1 := filter _ _) in *. set (l2 := filter (fun u => fst u =? m) us) in *. clearbody l1 l2. clear H us.
  assert (G : forall o, foldM (fun o u => match o with None => Ret (Some (snd u)) | Some g => let* s := add_raw (LRaw g) (LRaw (snd u)) in Ret (Some s) end) l1 o =
    foldM (fun o u => match o with None => Ret (Some (snd u)) | Some g => let* s := add_raw (LRaw g) (LRaw (snd u)) in Ret (Some s) end) l2 o).
  { revert l2 E. induction l1 as [|u l1 IH]; intros [|u' l2] E o; try discriminate; [reflexivity|]. injection E as E1 E2. cbn [foldM]. rewrite E1.
    destruct o as [g|]; [|apply IH, E2]. destruct (add_raw _ _); cbn [bind]; [apply IH, E2|reflexivity|reflexivity]. }
  exact G.
Qed.

Lemma unshared_exact f (h2 h1 h2' h1' : heap T) i m : unshares f (nodes h2) (nodes h1) -> heap_inv h2 -> heap_inv h1 ->
  backward h2 i = Ret h2' -> backward h1 (f i) = Ret h1' -> m < length (nodes h2) ->
  (forall m', m' < length (nodes h2) -> f m' = f m -> m' = m) -> grads h1 (f m) = grads h2 m -> grads h1' (f m) = grads h2' m.
Proof.
  intros HS [R2 G2] [R1 G1] E2 E1 Hm Hu Hg. assert (Hi : i < length (nodes h2)).
  { apply backward_unfold in E2 as (nd & k & ins & E & _). apply nth_error_Some. congruence. }
  destruct (backward_paired f _ _ i HS R2 R1 Hi) as (us & st & HU & F2 & F1). specialize (F2 (grads h2)). specialize (F1 (grads h1)).
  destruct h2 as [ns2 gr2], h1 as [ns1 gr1]. cbn [nodes grads] in *. rewrite E2 in F2. rewrite E1 in F1.
  destruct (upd_all us gr2) as [gr2'| |] eqn:U2; cbn [bind] in F2; try discriminate. destruct (upd_all (ren f us) gr1) as [gr1'| |] eqn:U1; cbn [bind] in F1; try discriminate.
  destruct st as [[]| |]; cbn [bind] in F1, F2; try discriminate. apply Ret_inj in F1, F2. subst h1' h2'. cbn [grads].
  apply (upd_all_cell _ _ _ m) in U2. apply (upd_all_cell _ _ _ (f m)) in U1. rewrite Hg in U1. rewrite (filter_ren f us (f m) m) in U1.
  - rewrite U2 in U1. apply Ret_inj in U1. symmetry. exact U1.
  - intros u Hin. rewrite Forall_forall in HU. destruct (HU u Hin) as (_ & _ & U). apply uses_lt in U; [|exact R2]. split; [apply Hu; lia|congruence].
Qed.

Lemma copy_backward (h h' : heap T) i j : op_copy h i = Ret (h', j) -> backward h' j = backward h' i.
Proof.
  unfold op_copy. intros E. apply bind_Ret_inv in E as (nd & En & E). injection E as <- <-. unfold backward, hget in *. cbn [nodes alloc].
  apply vindex_ret in En. assert (E1 : nth_error (nodes h ++ [mkNode (n_val nd) (n_fn nd)]) (length (nodes h)) = Some (mkNode (n_val nd) (n_fn nd))).
  { rewrite nth_error_app2, Nat.sub_diag by lia. reflexivity. }
  assert (E2 : nth_error (nodes h ++ [mkNode (n_val nd) (n_fn nd)]) i = Some nd) by (rewrite nth_error_app1; [exact En|apply nth_error_Some; congruence]).
  rewrite (vindex_some _ _ _ _ E1), (vindex_some _ _ _ _ E2). reflexivity.
Qed.

End Trace.

Section Sum.
Context {T : Type} {NT : Num T} (RT : is_ring T).
Let RT' : ring_theory n_zero n_one n_add n_mul n_sub n_neg (@eq T) := RT.
Add Ring CopyRing : RT'.

Lemma lsum_app (a b : list T) : lsum (a ++ b) = n_add (lsum a) (lsum b).
Proof. induction a as [|x a IH]; cbn [app]; [unfold lsum at 2; cbn; ring|]. rewrite !(lsum_cons RT), IH. ring. Qed.
Lemma lsum_plus A (F G : A -> T) l : lsum (map (fun x => n_add (F x) (G x)) l) = n_add (lsum (map F l)) (lsum (map G l)).
Proof. induction l as [|x l IH]; cbn [map]; [unfold lsum; cbn; ring|]. rewrite !(lsum_cons RT), IH. ring. Qed.
Lemma lsum_zero A (F : A -> T) l : (forall x, In x l -> F x = n_zero) -> lsum (map F l) = n_zero.
Proof. induction l as [|x l IH]; intros H; cbn [map]; [reflexivity|]. rewrite (lsum_cons RT), IH, (H x (or_introl eq_refl)) by (intros; apply H; right; auto). ring. Qed.
Lemma lsum_one (F : nat -> T) l j : NoDup l -> In j l -> (forall x, In x l -> x <> j -> F x = n_zero) -> lsum (map F l) = F j.
Proof.
  intros ND. induction ND as [|x l Hx ND IH]; intros Hj H; [destruct Hj|]. cbn [map]. rewrite (lsum_cons RT). destruct Hj as [->|Hj].
  - rewrite lsum_zero; [ring|]. intros y Hy. apply H; [right; exact Hy|]. intros ->. contradiction.
  - rewrite IH by (auto; intros; apply H; auto; right; auto). rewrite (H x (or_introl eq_refl)); [ring|]. intros ->. contradiction.
Qed.

Lemma contrib_ren f (ns2 : list (node T)) n p us : Forall (fun u => fst u < length ns2) us ->
  contrib (ren f us) n p = lsum (map (fun m => contrib us m p) (occurrences f ns2 n)).
Proof.
  induction us as [|[j g] us IH]; intros H.
  - symmetry. apply lsum_zero. reflexivity.
  - apply Forall_cons_iff in H as [Hj H]. specialize (IH H). cbn [fst] in Hj.
    set (x := nth p (array g) n_zero).
    assert (Q : forall m, contrib ((j, g) :: us) m p = n_add (if j =? m then x else n_zero) (contrib us m p)).
    { intros m. unfold contrib. cbn [filter fst]. destruct (j =? m); [cbn [map snd]; rewrite (lsum_cons RT); reflexivity|ring]. }
    erewrite map_ext by (intros m; apply Q). rewrite lsum_plus, <- IH. unfold contrib at 1, ren. cbn [map filter fst snd]. fold (ren f us).
    destruct (Nat.eqb_spec (f j) n) as [E|E].
    + cbn [map snd]. rewrite (lsum_cons RT). fold (contrib (ren f us) n p). f_equal. symmetry.
      rewrite (lsum_one _ _ j); [rewrite Nat.eqb_refl; reflexivity|apply NoDup_filter, seq_NoDup| |].
      * apply filter_In. split; [apply in_seq; lia|apply Nat.eqb_eq, E].
      * intros y _ Hy. destruct (Nat.eqb_spec j y); [congruence|reflexivity].
    + fold (contrib (ren f us) n p). rewrite lsum_zero; [ring|]. intros y Hy. apply filter_In in Hy as [_ Hy]. apply Nat.eqb_eq in Hy.
      destruct (Nat.eqb_spec j y); [congruence|reflexivity].
Qed.

Lemma unshared_sum f (h2 h1 h2' h1' : heap T) i n nd : unshares f (nodes h2) (nodes h1) -> heap_inv h2 -> heap_inv h1 ->
  backward h2 i = Ret h2' -> backward h1 (f i) = Ret h1' -> nth_error (nodes h1) n = Some nd ->
  grads h1 n = None -> (forall m, In m (occurrences f (nodes h2) n) -> grads h2 m = None) ->
  (grads h1' n = None <-> forall m, In m (occurrences f (nodes h2) n) -> grads h2' m = None) /\
  forall p, p < size (shape (n_val nd)) -> gentry (grads h1') n p = lsum (map (fun m => gentry (grads h2') m p) (occurrences f (nodes h2) n)).
Proof.
  intros HS [R2 G2] [R1 G1] E2 E1 En Hn Hm. assert (Hi : i < length (nodes h2)).
  { apply backward_unfold in E2 as (x & k & ins & E & _). apply nth_error_Some. congruence. }
  destruct (backward_paired f _ _ i HS R2 R1 Hi) as (us & st & HU & F2 & F1). specialize (F2 (grads h2)). specialize (F1 (grads h1)).
  destruct h2 as [ns2 gr2], h1 as [ns1 gr1]. cbn [nodes grads] in *. rewrite E2 in F2. rewrite E1 in F1.
  destruct (upd_all us gr2) as [gr2'| |] eqn:U2; cbn [bind] in F2; try discriminate. destruct (upd_all (ren f us) gr1) as [gr1'| |] eqn:U1; cbn [bind] in F1; try discriminate.
  destruct st as [[]| |]; cbn [bind] in F1, F2; try discriminate. apply Ret_inj in F1, F2. subst h1' h2'. cbn [grads].
  rewrite Forall_forall in HU.
  assert (HL : Forall (fun u => fst u < length ns2) us).
  { apply Forall_forall. intros u Hin. destruct (HU u Hin) as (_ & _ & U). apply uses_lt in U; [lia|exact R2]. }
  assert (Ev : forall u, In u us -> f (fst u) = n -> shape (vof ns2 (fst u)) = shape (n_val nd)).
  { intros u Hin E. rewrite Forall_forall in HL. specialize (HL u Hin). destruct (nth_error ns2 (fst u)) as [x|] eqn:Ex; [|apply nth_error_None in Ex; lia].
    destruct (HS _ _ Ex) as (y & Ey & Eyv & _). rewrite E, En in Ey. injection Ey as <-. unfold vof. rewrite Ex, Eyv. reflexivity. }
  split.
  - rewrite (upd_all_presence n _ _ _ U1). split.
    + intros [_ H] m Hin. apply (upd_all_presence m _ _ _ U2). split; [apply Hm, Hin|]. apply Forall_forall. intros u Hu E. apply filter_In in Hin as [_ Hin]. apply Nat.eqb_eq in Hin.
      unfold ren in H. rewrite Forall_map, Forall_forall in H. apply (H u Hu). cbn [fst]. congruence.
    + intros H. split; [exact Hn|]. unfold ren. rewrite Forall_map. apply Forall_forall. intros u Hu. cbn [fst]. intros E.
      rewrite Forall_forall in HL. assert (Hin : In (fst u) (occurrences f ns2 n)) by (apply filter_In; split; [apply in_seq; specialize (HL u Hu); lia|apply Nat.eqb_eq, E]).
      specialize (H _ Hin). apply (upd_all_presence (fst u) _ _ _ U2) in H as [_ H]. rewrite Forall_forall in H. apply (H u Hu eq_refl).
  - intros p Hp.
    destruct (upd_all_entry RT (shape (n_val nd)) n (ren f us) gr1 gr1') as [_ Q1]; [| |exact U1|].
    { unfold ren. rewrite Forall_map. apply Forall_forall. intros u Hu. cbn [fst snd]. intros E. destruct (HU u Hu) as (W & S & _). split; [exact W|]. rewrite S. apply Ev; auto. }
    { intros g Eg. congruence. }
    rewrite Q1 by exact Hp. unfold gentry at 1. rewrite Hn. rewrite (contrib_ren f ns2 n p us HL).
    transitivity (lsum (map (fun m => contrib us m p) (occurrences f ns2 n))); [ring|]. f_equal. apply map_ext_in. intros m Hin.
    assert (Hf : f m = n) by (apply filter_In in Hin as [_ Hin]; apply Nat.eqb_eq in Hin; exact Hin).
    destruct (upd_all_entry RT (shape (n_val nd)) m us gr2 gr2') as [_ Q2]; [| |exact U2|].
    { apply Forall_forall. intros u Hu E. destruct (HU u Hu) as (W & S & _). split; [exact W|]. rewrite S. apply Ev; [exact Hu|congruence]. }
    { intros g Eg. rewrite (Hm m Hin) in Eg. discriminate. }
    rewrite Q2 by exact Hp. unfold gentry at 1. rewrite (Hm m Hin). ring.
Qed.

End Sum.

Section History.
Context {T : Type} {NT : Num T}.
Implicit Types a : astate T.

Lemma fn_old h v fn (g : option (raw T)) i : i < length (nodes h) -> fn_of (nodes (fst (alloc h v fn g))) i = fn_of (nodes h) i.
Proof. intros H. unfold fn_of, alloc. cbn [fst nodes]. rewrite nth_error_app1 by exact H. reflexivity. Qed.
Lemma fn_new h v fn (g : option (raw T)) : fn_of (nodes (fst (alloc h v fn g))) (length (nodes h)) = fn.
Proof. unfold fn_of, alloc. cbn [fst nodes]. rewrite nth_error_app2, Nat.sub_diag by lia. reflexivity. Qed.

(** What a call that makes a value says about the history of that value *)
Definition hist_is (F : heap T -> nat -> Prop) (r : outcome (heap T * nat)) : Prop := forall h' j, r = Ret (h', j) -> F h' j.
Definition has (h : heap T) (i : nat) : Prop := fn_of (nodes h) i <> None.
Definition hasnt (h : heap T) (i : nat) : Prop := fn_of (nodes h) i = None.

Lemma hi_bind A (m : outcome A) F G : (forall x, m = Ret x -> hist_is G (F x)) -> hist_is G (let* x := m in F x).
Proof. intros H h' j E. apply bind_Ret_inv in E as (x & Ex & E). exact (H x Ex h' j E). Qed.
Lemma hi_leaf h m : hist_is hasnt (leaf h m).
Proof. apply hi_bind. intros t _ h' j E. injection E as <- <-. apply fn_new. Qed.
Lemma hi_some h v k ins g : hist_is has (Ret (alloc h v (Some (k, ins)) g)).
Proof. intros h' j E. injection E as <- <-. unfold has. pose proof (fn_new h v (Some (k, ins)) g) as Q. cbn [alloc fst] in Q. rewrite Q. discriminate. Qed.
Lemma hi_none h v g : hist_is hasnt (Ret (alloc h v None g)).
Proof. intros h' j E. injection E as <- <-. apply fn_new. Qed.
Lemma hi_copy h i : hist_is (fun h' j => fn_of (nodes h') j = fn_of (nodes h) i) (op_copy h i).
Proof.
  apply hi_bind. intros nd En h' j E. injection E as <- <-. pose proof (fn_new h (n_val nd) (n_fn nd) (grads h i)) as Q. cbn [alloc fst] in Q. rewrite Q.
  unfold hget in En. apply vindex_ret in En. unfold fn_of. rewrite En. reflexivity.
Qed.

Definition goal3 a (c : call T) a' : Prop :=
  exists v', aenv a' = aenv a ++ [v'] /\
    (tracked a c -> has (ahp a') (tensor_of v')) /\
    (forall v, passes_on a c = Some v -> fn_of (nodes (ahp a')) (tensor_of v') = fn_of (nodes (ahp a)) (tensor_of v)) /\
    (~ tracked a c -> passes_on a c = None -> hasnt (ahp a') (tensor_of v')).

Ltac hist_go := repeat first
  [ apply hi_leaf | apply hi_some | apply hi_none | apply hi_bind; intros ? ?
  | progress (unfold op_new, op_filler, op_scalar, op_from, op_add, op_neg, op_sub, op_two, op_bmm_any, op_raw_sum, op_sum, op_dot, op_relu, op_tanh, op_abs, op_grad)
  | match goal with |- context [match ?p with (_, _) => _ end] => destruct p end ].

Lemma exec_history a c a' : a_exec a c = Some (Ret a') -> changes_grads c = false ->
  exists v', aenv a' = aenv a ++ [v'] /\
    (tracked a c -> has (ahp a') (tensor_of v')) /\
    (forall v, passes_on a c = Some v -> fn_of (nodes (ahp a')) (tensor_of v') = fn_of (nodes (ahp a)) (tensor_of v)) /\
    (~ tracked a c -> passes_on a c = None -> hasnt (ahp a') (tensor_of v')).
Proof.
  assert (Kt : forall r, bind_rc a r = Some (Ret a') -> hist_is has r -> passes_on a c = None -> tracked a c -> goal3 a c a').
  { intros r E H Hp Ht. unfold bind_rc in E. injection E as E. apply bind_Ret_inv in E as ([h j] & Er & E). apply Ret_inj in E. subst a'. exists (VRc j). cbn [aenv ahp tensor_of].
    split; [reflexivity|]. split; [intros _; exact (H h j Er)|]. split; [congruence|tauto]. }
  assert (Ku : forall r, bind_rc a r = Some (Ret a') \/ bind_raw a r = Some (Ret a') -> hist_is hasnt r -> ~ tracked a c -> passes_on a c = None -> goal3 a c a').
  { intros r E H Hp Ht. destruct E as [E|E]; [unfold bind_rc in E|unfold bind_raw in E]; injection E as E; apply bind_Ret_inv in E as ([h j] & Er & E); apply Ret_inj in E; subst a';
      [exists (VRc j)|exists (VRaw j)]; cbn [aenv ahp tensor_of]; (split; [reflexivity|]); (split; [tauto|]); (split; [congruence|]); intros _ _; exact (H h j Er). }
  change (a_exec a c = Some (Ret a') -> changes_grads c = false -> goal3 a c a'). intros E Hc.
  assert (Kp : forall v0 h v', a' = mkA h (aenv a ++ [v']) -> ~ tracked a c -> fn_of (nodes h) (tensor_of v') = fn_of (nodes (ahp a)) (tensor_of v0) -> passes_on a c = Some v0 -> goal3 a c a').
  { intros v0 h v' Ea Ht Hf Hp. exists v'. rewrite Ea. cbn [ahp aenv]. split; [reflexivity|]. split; [tauto|]. split; [|congruence].
    intros v Hv. rewrite Hp in Hv. injection Hv as <-. exact Hf. }
  destruct c; cbn [a_exec] in E; try discriminate Hc;
    repeat match type of E with context [match ?x with _ => _ end] => match x with bind_rc _ _ => fail 1 | bind_raw _ _ => fail 1 | bind_val _ _ => fail 1 | nth_error _ _ => destruct x eqn:? | _ => destruct x end end;
    try discriminate E;
    try (eapply Ku; [left; exact E|hist_go|cbn [tracked]; solve [tauto | intros [? ?]; congruence]|cbn [passes_on]; solve [reflexivity | rewrite Heqo; reflexivity]]);
    try (eapply Ku; [right; exact E|hist_go|cbn [tracked]; solve [tauto | intros [? ?]; congruence]|cbn [passes_on]; solve [reflexivity | rewrite Heqo; reflexivity]]);
    try (eapply Kt; [exact E|hist_go|reflexivity|cbn [tracked]; eexists; eassumption]).
  all: try (unfold bind_rc, bind_raw, bind_val in E; cbn [bind] in E; injection E as <-; eapply Kp; [reflexivity|cbn [tracked]; tauto| |cbn [passes_on]; rewrite Heqo; reflexivity]; reflexivity).
  - (* copy of a RawTensor *) unfold bind_raw in E. injection E as E. apply bind_Ret_inv in E as ([h j] & Er & E). apply Ret_inj in E.
    eapply Kp; [symmetry; exact E|cbn [tracked]; tauto| |cbn [passes_on]; exact Heqo]; exact (hi_copy _ _ _ _ Er).
  - (* to_tensor *) unfold bind_rc in E. injection E as E. apply bind_Ret_inv in E as ([h j] & Er & E). apply Ret_inj in E. destruct v as [i|i|i s o0]; cbn [op_to_tensor] in Er.
    + apply Ret_inj in Er. injection Er as <- <-. eapply Kp; [symmetry; exact E|cbn [tracked]; tauto| |cbn [passes_on]; rewrite Heqo; reflexivity]; reflexivity.
    + eapply Kp; [symmetry; exact E|cbn [tracked]; tauto| |cbn [passes_on]; rewrite Heqo; reflexivity]; exact (hi_copy _ _ _ _ Er).
    + exists (VRc j). rewrite <- E. cbn [aenv ahp tensor_of tracked passes_on]. rewrite Heqo. split; [reflexivity|]. split; [tauto|]. split; [discriminate|]. intros _ _.
      apply bind_Ret_inv in Er as (l & _ & Er). exact (hi_leaf _ _ _ _ Er).
  - (* slice *) unfold bind_val in E. injection E as E. apply bind_Ret_inv in E as ([h v'] & Er & E). apply Ret_inj in E.
    eapply Kp; [symmetry; exact E|cbn [tracked]; tauto| |cbn [passes_on]; exact Heqo0]. clear E. destruct v as [i|i|i s o1]; cbn [op_slice] in Er.
    + apply bind_Ret_inv in Er as (nd & _ & Er). apply bind_Ret_inv in Er as (w & _ & Er). injection Er as <- <-. reflexivity.
    + apply bind_Ret_inv in Er as ([h1 j] & Ec & Er). apply bind_Ret_inv in Er as (nd & _ & Er). apply bind_Ret_inv in Er as (w & _ & Er). injection Er as <- <-. exact (hi_copy _ _ _ _ Ec).
    + apply bind_Ret_inv in Er as (nd & _ & Er). apply bind_Ret_inv in Er as (w & _ & Er). injection Er as <- <-. reflexivity.
  - (* reshape *) unfold bind_val in E. injection E as E. apply bind_Ret_inv in E as ([h v'] & Er & E). apply Ret_inj in E.
    eapply Kp; [symmetry; exact E|cbn [tracked]; tauto| |cbn [passes_on]; exact Heqo].
    apply bind_Ret_inv in Er as (nd & _ & Er). apply bind_Ret_inv in Er as (w & _ & Er). injection Er as <- <-. reflexivity.
Qed.
End History.
