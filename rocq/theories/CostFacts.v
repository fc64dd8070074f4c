(** * CostFacts: counting the paths that [backward] takes *)
From Verif Require Import Base ModelIndex ModelTensor ModelOps ModelJvp ModelGraph ModelCost Spec SpecDual SpecGraph SpecCost
  Lists IndexFacts TensorFacts OpsFacts Sums JvpFacts Dual ClaimsMat Adjoint GradRing FuelFacts GraphFacts ProgFacts BackFacts ClaimsGraph ClaimsProg GradReal SimFacts SpecNN.

Section CostFacts.
Context {T : Type} {NT : Num T}.
Implicit Types ns : list (node T).

(** ** The counters change nothing *)

Lemma foldM_proj A B C (p : C -> A) (f : A -> B -> outcome A) (g : C -> B -> outcome C) l : forall c,
  (forall c b, (let* c' := g c b in Ret (p c')) = f (p c) b) -> (let* c' := foldM g l c in Ret (p c')) = foldM f l (p c).
Proof.
  induction l as [|b l IH]; intros c H; cbn [foldM]; [reflexivity|].
  rewrite <- (H c b). destruct (g c b) as [c'| |]; cbn [bind]; auto.
Qed.

Lemma work_agrees ns : forall f d k ins outer (st : (nat -> option (raw T)) * work),
  (let* st' := compute_jvp_work f d ns k ins outer st in Ret (fst st')) = compute_jvp f ns k ins outer (fst st).
Proof.
  induction f as [|f IH]; intros d k ins outer st; cbn [compute_jvp_work compute_jvp]; [reflexivity|].
  destruct (mapM (vindex ns) ins) as [nds| |]; cbn [bind]; try reflexivity.
  destruct (jvp k (map n_val nds) outer) as [gs| |]; cbn [bind]; try reflexivity.
  rewrite (foldM_proj _ _ _ fst (fun gr '(g, (i, nd)) =>
             assert (length (array g) =? length (array (n_val nd))) ;;
             let* shaped_grad := raw_new (array g) (shape (n_val nd)) in
             let* gr' := update_grad gr i shaped_grad in
             match n_fn nd with
             | Some (k', inputs') => compute_jvp f ns k' inputs' [g] gr'
             | None => Ret gr'
             end)); [reflexivity|].
  intros [gr w] [g [i nd]]. cbn [fst]. destruct (assert _); cbn [bind]; try reflexivity.
  destruct (raw_new _ _) as [sg| |]; cbn [bind]; try reflexivity. destruct (update_grad _ _ _) as [gr'| |]; cbn [bind]; try reflexivity.
  destruct (n_fn nd) as [[k' ins']|]; [|reflexivity]. rewrite IH. reflexivity.
Qed.

Lemma backward_work_agrees (h : heap T) i : (let* (h', _) := backward_work h i in Ret h') = backward h i.
Proof.
  unfold backward_work, backward. destruct (hget h i) as [nd| |]; cbn [bind]; try reflexivity.
  destruct (assert _); cbn [bind]; try reflexivity. destruct (unwrap_opt _) as [[k ins]| |]; cbn [bind]; try reflexivity.
  pose proof (work_agrees (nodes h) (S (length (nodes h))) 1 k ins [raw_scalar n_one] (grads h, mkWork 0 0)) as H. cbn [fst] in H.
  destruct (compute_jvp_work _ _ _ _ _ _ _) as [[gr w]| |]; cbn [bind fst] in H |- *; rewrite <- H; reflexivity.
Qed.

(** ** The paths, one after the other *)

Fixpoint npaths (ns : list (node T)) (f n : nat) : list (list nat) :=
  match f with
  | O => []
  | S f => match fn_of ns n with
           | None => []
           | Some (_, ins) => flat_map (fun '(p, i) => [p] :: map (cons p) (npaths ns f i)) (combine (seq 0 (length ins)) ins)
           end
  end.

Lemma in_combine_seq A (l : list A) : forall s p x, In (p, x) (combine (seq s (length l)) l) <-> s <= p /\ nth_error l (p - s) = Some x.
Proof.
  induction l as [|a l IH]; intros s p x; cbn [length seq combine In].
  - split; [tauto|]. intros [_ H]. destruct (p - s); discriminate.
  - rewrite IH. split.
    + intros [H|[H1 H2]]; [injection H as <- <-; rewrite Nat.sub_diag; auto|].
      split; [lia|]. replace (p - s) with (S (p - S s)) by lia. exact H2.
    + intros [H1 H2]. destruct (Nat.eq_dec s p) as [->|N]; [rewrite Nat.sub_diag in H2; injection H2 as ->; auto|].
      right. split; [lia|]. replace (p - s) with (S (p - S s)) in H2 by lia. exact H2.
Qed.

Lemma backrefs_fn ns n k ins i : backrefs ns -> fn_of ns n = Some (k, ins) -> In i ins -> i < n.
Proof.
  unfold fn_of. intros B E H. destruct (nth_error ns n) as [nd|] eqn:En; [|discriminate]. specialize (B n nd k ins En E).
  rewrite Forall_forall in B. auto.
Qed.

Lemma npaths_in ns : backrefs ns -> forall f n, n < f -> forall l, In l (npaths ns f n) <-> l <> [] /\ exists m, walk ns n l m.
Proof.
  intros B. induction f as [|f IH]; intros n Hn l; [lia|]. cbn [npaths]. destruct (fn_of ns n) as [[k ins]|] eqn:E.
  - rewrite in_flat_map. split.
    + intros ([p i] & H1 & H2). apply in_combine_seq in H1 as [_ H1]. rewrite Nat.sub_0_r in H1.
      destruct H2 as [<-|H2]; [split; [discriminate|]; exists i; eapply walk_cons; eauto; constructor|].
      apply in_map_iff in H2 as (l' & <- & H2). assert (i < n) by (eapply backrefs_fn; eauto; eapply nth_error_In; eauto).
      apply IH in H2 as (_ & m & H2); [|lia]. split; [discriminate|]. exists m. eapply walk_cons; eauto.
    + intros (H1 & m & H2). inversion H2 as [|n' k' ins' p i l' m' E' Ep W]; subst; [tauto|]. rewrite E in E'. injection E' as <- <-.
      exists (p, i). split; [apply in_combine_seq; rewrite Nat.sub_0_r; split; [lia|exact Ep]|].
      assert (i < n) by (eapply backrefs_fn; eauto; eapply nth_error_In; eauto).
      destruct l' as [|q l']; [left; reflexivity|]. right. apply in_map. apply IH; [lia|]. split; [discriminate|eauto].
  - split; [intros []|]. intros (H1 & m & H2). inversion H2; subst; [tauto|congruence].
Qed.

Lemma NoDup_app_disj A (u v : list A) : NoDup u -> NoDup v -> (forall x, In x u -> ~ In x v) -> NoDup (u ++ v).
Proof.
  induction u as [|a u IH]; intros H1 H2 H; cbn; [exact H2|]. inversion H1; subst. constructor.
  - rewrite in_app_iff. intros [Q|Q]; [auto|]. apply (H a); cbn; auto.
  - apply IH; auto. intros x Hx. apply H. cbn. auto.
Qed.

Lemma npaths_nodup_aux (F : nat -> list (list nat)) (ins : list nat) : (forall i, In i ins -> NoDup (F i) /\ ~ In [] (F i)) -> forall s,
  NoDup (flat_map (fun '(p, i) => [p] :: map (cons p) (F i)) (combine (seq s (length ins)) ins)).
Proof.
  induction ins as [|i ins IH]; intros HF s; cbn [length seq combine flat_map]; [constructor|].
  destruct (HF i (or_introl eq_refl)) as [H1 H2]. apply NoDup_app_disj.
  - constructor.
    + rewrite in_map_iff. intros (l & Q & Hl). injection Q as ->. tauto.
    + apply FinFun.Injective_map_NoDup; [|exact H1]. intros a b Q. injection Q. auto.
  - apply IH. intros j Hj. apply HF. cbn. auto.
  - intros x Hx Hy. assert (Q : exists l, x = s :: l) by (destruct Hx as [<-|Hx]; [eauto|apply in_map_iff in Hx as (l & <- & _); eauto]).
    destruct Q as [l ->]. apply in_flat_map in Hy as ([p j] & Hp & Hy). apply in_combine_seq in Hp as [Hp _].
    destruct Hy as [Hy|Hy]; [injection Hy; intros; lia|]. apply in_map_iff in Hy as (l' & Q & _). injection Q. intros. lia.
Qed.

Lemma npaths_nodup ns : backrefs ns -> forall f n, n < f -> NoDup (npaths ns f n).
Proof.
  intros B. induction f as [|f IH]; intros n Hn; [lia|]. cbn [npaths]. destruct (fn_of ns n) as [[k ins]|] eqn:E; [|constructor].
  apply npaths_nodup_aux. intros i Hi. assert (i < n) by (eapply backrefs_fn; eauto). split; [apply IH; lia|].
  intros HX. apply (npaths_in ns B f i) in HX as [HX _]; [tauto|lia].
Qed.

Lemma npaths_paths ns f n : backrefs ns -> n < f -> paths_from ns n (npaths ns f n).
Proof. intros B H. split; [apply npaths_nodup; auto|apply npaths_in; auto]. Qed.

(** ** Counting *)

Lemma longest_app u v : longest (u ++ v) = Nat.max (longest u) (longest v).
Proof. induction u as [|l u IH]; cbn [app longest fold_right]; [reflexivity|]. unfold longest in IH |- *. rewrite IH. lia. Qed.
Lemma longest_first p L : longest ([p] :: map (cons p) L) = S (longest L).
Proof.
  cbn [longest fold_right length]. induction L as [|l L IH]; [reflexivity|]. cbn [map longest fold_right length] in *. unfold longest in *. lia.
Qed.

Lemma npaths_some ns f r k ins : recorded ns -> fn_of ns r = Some (k, ins) -> 1 <= longest (npaths ns (S f) r).
Proof.
  intros HG Hr. cbn [npaths]. rewrite Hr. unfold fn_of in Hr. destruct (nth_error ns r) as [nd|] eqn:Er; [|discriminate].
  destruct (HG r nd Er) as [_ F]. destruct (F _ _ Hr) as [_ F']. destruct ins as [|i ins].
  - destruct k; discriminate.
  - cbn [length seq combine flat_map]. rewrite longest_app, longest_first. lia.
Qed.

Lemma work_count ns : recorded ns -> forall f d k ins outer (st st' : (nat -> option (raw T)) * work) r,
  compute_jvp_work f d ns k ins outer st = Ret st' -> fn_of ns r = Some (k, ins) -> 0 < d ->
  w_updates (snd st') = w_updates (snd st) + length (npaths ns f r) /\
  w_depth (snd st') = Nat.max (w_depth (snd st)) (Nat.max d (d - 1 + longest (npaths ns f r))).
Proof.
  intros HG. induction f as [|f IH]; intros d k ins outer st st' r E Hr Hd; [discriminate|]. cbn [compute_jvp_work npaths] in *.
  rewrite Hr. apply bind_Ret_inv in E as (nds & En & E). apply bind_Ret_inv in E as (gs & Eg & E).
  destruct (nodes_of ns ins nds En) as (Q1 & Q2 & _). pose proof (mapM_length _ _ _ _ _ En) as F2. clear En.
  assert (LEN : length gs = length ins).
  { unfold fn_of in Hr. destruct (nth_error ns r) as [nd|] eqn:Er; [|discriminate]. destruct (HG r nd Er) as [_ F]. destruct (F _ _ Hr) as [_ F'].
    rewrite Q1 in Eg. rewrite (jvp_len _ _ _ _ _ F' Eg), map_length. reflexivity. }
  clear Eg Q1 Hr. set (st0 := (fst st, mkWork (w_updates (snd st)) (Nat.max d (w_depth (snd st))))) in E.
  assert (G : w_updates (snd st') = w_updates (snd st0) + length (flat_map (fun '(p, i) => [p] :: map (cons p) (npaths ns f i)) (combine (seq 0 (length ins)) ins)) /\
    w_depth (snd st') = Nat.max (w_depth (snd st0)) (d - 1 + longest (flat_map (fun '(p, i) => [p] :: map (cons p) (npaths ns f i)) (combine (seq 0 (length ins)) ins)))).
  { assert (D0 : d <= w_depth (snd st0)) by (cbn; lia).
    clearbody st0. clear st. remember (d - 1) as d1 eqn:Ed1. revert gs nds st0 LEN Q2 F2 D0 E. generalize 0 at 1 2 as s.
    induction ins as [|i ins IHi]; intros s [|g gs] [|nd nds] st0 LEN Q2 F2 D0 E; cbn [length] in LEN, Q2; try lia; cbn [combine foldM seq flat_map] in *.
    - injection E as <-. split; cbn; lia.
    - inversion F2 as [|? ? ? ? Ei F2']; subst. unfold vindex in Ei. destruct (nth_error ns i) as [nd'|] eqn:Eni; [|discriminate]. injection Ei as <-.
      destruct st0 as [gr w]. cbn [snd] in *. apply bind_Ret_inv in E as (st1 & E1 & E).
      apply bind_Ret_inv in E1 as (u & _ & E1). apply bind_Ret_inv in E1 as (sg & _ & E1). apply bind_Ret_inv in E1 as (gr' & _ & E1).
      cbn [length seq combine flat_map]. rewrite longest_app, longest_first, app_length. cbn [length]. rewrite map_length.
      assert (K : w_updates (snd st1) = w_updates w + S (length (npaths ns f i)) /\ w_depth (snd st1) = Nat.max (w_depth w) (d + longest (npaths ns f i))).
      { destruct (n_fn nd') as [[k' ins']|] eqn:Ef.
        - assert (Fi : fn_of ns i = Some (k', ins')) by (unfold fn_of; rewrite Eni; exact Ef). destruct f as [|f]; [discriminate|].
          pose proof (npaths_some ns f i k' ins' HG Fi) as L1.
          apply (IH _ _ _ _ _ _ i) in E1 as [E1 E2]; [|exact Fi|lia]. rewrite E1, E2. cbn [snd w_updates w_depth].
          replace (S d - 1) with d by lia. split; lia.
        - injection E1 as <-. cbn [snd w_updates w_depth]. assert (Z : npaths ns f i = []).
          { destruct f; cbn [npaths]; [reflexivity|]. unfold fn_of. rewrite Eni, Ef. reflexivity. }
          rewrite Z. cbn. split; lia. }
      destruct K as [K1 K2]. destruct (IHi (S s) gs nds st1) as [J1 J2]; [lia|lia|assumption|lia|exact E|]. rewrite J1, J2, K1, K2. split; lia. }
  destruct G as [G1 G2]. rewrite G1, G2. unfold st0. cbn [snd w_updates w_depth]. split; lia.
Qed.

Lemma backward_work_npaths (h h' : heap T) w r : recorded (nodes h) -> backward_work h r = Ret (h', w) ->
  r < length (nodes h) /\ w = mkWork (length (npaths (nodes h) (S (length (nodes h))) r)) (longest (npaths (nodes h) (S (length (nodes h))) r)).
Proof.
  intros HG E. unfold backward_work in E. apply bind_Ret_inv in E as (nd & En & E). apply bind_Ret_inv in E as (u & _ & E).
  destruct (n_fn nd) as [[k ins]|] eqn:Ef; [|discriminate]. cbn [unwrap_opt bind] in E. apply bind_Ret_inv in E as ([gr w'] & Ew & E). injection E as _ ->.
  unfold hget, vindex in En. destruct (nth_error (nodes h) r) as [nd'|] eqn:Er; [|discriminate]. injection En as ->.
  assert (Hr : r < length (nodes h)) by (apply nth_error_Some; congruence). split; [exact Hr|].
  assert (Efn : fn_of (nodes h) r = Some (k, ins)) by (unfold fn_of; rewrite Er; exact Ef).
  pose proof (work_count (nodes h) HG _ _ _ _ _ _ _ r Ew Efn) as H. cbn [snd w_updates w_depth] in H. destruct H as [H1 H2]; [lia|].
  pose proof (npaths_some (nodes h) (length (nodes h)) r k ins HG Efn) as L1.
  destruct w as [u' d']. cbn [w_updates w_depth] in *. subst u' d'. f_equal. lia.
Qed.

Lemma backward_work_count (h h' : heap T) w r : recorded (nodes h) -> backward_work h r = Ret (h', w) ->
  exists L, paths_from (nodes h) r L /\ w = mkWork (length L) (longest L).
Proof.
  intros HG E. apply backward_work_npaths in E as [Hr E]; [|exact HG]. eexists. split; [|exact E].
  apply npaths_paths; [apply recorded_backrefs; exact HG|lia].
Qed.

(** At most two inputs, so at most twice as many paths plus two *)
Lemma two_inputs k (xs : list (raw T)) y : fwd k xs = Ret y -> length xs <= 2.
Proof. destruct k; destruct xs as [|a [|b [|c xs]]]; cbn; try lia; try discriminate. Qed.

Lemma npaths_bound ns : recorded ns -> forall f n, length (npaths ns f n) + 2 <= 2 ^ S n.
Proof.
  intros HG. induction f as [|f IH]; intros n; cbn [npaths].
  - cbn [length]. assert (2 ^ 1 <= 2 ^ S n) by (apply Nat.pow_le_mono_r; lia). cbn in *. lia.
  - assert (P1 : 2 ^ 1 <= 2 ^ S n) by (apply Nat.pow_le_mono_r; lia). change (2 ^ 1) with 2 in P1.
    destruct (fn_of ns n) as [[k ins]|] eqn:E; [|cbn [length]; lia].
    assert (L2 : length ins <= 2 /\ Forall (fun i => i < n) ins).
    { unfold fn_of in E. destruct (nth_error ns n) as [nd|] eqn:En; [|discriminate]. destruct (HG n nd En) as [_ F]. destruct (F _ _ E) as [F1 F2].
      apply two_inputs in F2. rewrite map_length in F2. auto. }
    destruct L2 as [L2 LT].
    assert (P : forall i, i < n -> S (length (npaths ns f i)) + 1 <= 2 ^ n).
    { intros i Hi. specialize (IH i). assert (2 ^ S i <= 2 ^ n) by (apply Nat.pow_le_mono_r; lia). lia. }
    assert (P2 : 2 ^ S n = 2 ^ n + 2 ^ n) by (cbn [Nat.pow]; lia).
    destruct ins as [|i [|j [|? ins]]]; cbn [length] in L2; try lia; cbn [length seq combine flat_map]; rewrite ?app_nil_r, ?app_length; cbn [length]; rewrite ?map_length.
    + lia.
    + inversion LT; subst. specialize (P i ltac:(assumption)). lia.
    + inversion LT as [|? ? Hi LT']; subst. inversion LT' as [|? ? Hj _]; subst. pose proof (P i Hi). pose proof (P j Hj). lia.
Qed.

(** ** The doubling program *)

Definition chain_node (n : nat) : option (opk * list nat) := match n with O => None | S i => Some (KAdd, [i; i]) end.
Definition doubled (n : nat) (s : state T) : Prop :=
  env s = seq 0 (S n) /\ length (nodes (hp s)) = S n /\
  forall i, i <= n -> exists v, nth_error (nodes (hp s)) i = Some (mkNode (mkRaw [v] [1]) (chain_node i)).

Lemma doubling_runs (x : T) : forall n, exists s, run (doubling x n) init_state = Ret s /\ doubled n s.
Proof.
  induction n as [|n (s & E & H1 & H2 & H3)].
  - eexists. split; [reflexivity|]. split; [reflexivity|]. split; [reflexivity|]. intros i Hi. assert (i = 0) as -> by lia. exists x. reflexivity.
  - unfold doubling in *. rewrite seq_S, map_app. cbn [map]. change (0 + n) with n.
    replace (CNew [x] [1] :: map (fun i => CAdd i i) (seq 0 n) ++ [CAdd n n]) with ((CNew [x] [1] :: map (fun i => CAdd i i) (seq 0 n)) ++ [CAdd n n]) by reflexivity.
    unfold run in *. rewrite foldM_app, E. cbn [bind foldM exec].
    assert (V : vindex (env s) n = Ret n).
    { unfold vindex. rewrite H1. rewrite nth_error_nth' with (d := 0) by (rewrite seq_length; lia). rewrite seq_nth by lia. reflexivity. }
    rewrite V. cbn [bind]. destruct (H3 n (le_n n)) as [v Hv].
    unfold op_add, hget. rewrite (vindex_some _ _ _ _ Hv). cbn [bind n_val].
    change (add_raw (LRaw (mkRaw [v] [1])) (LRaw (mkRaw [v] [1]))) with (Ret (mkRaw [n_add v v] [1]) : outcome (raw T)).
    cbn [bind push alloc]. eexists. split; [reflexivity|]. split; [|split]; cbn [env hp nodes].
    + rewrite H1, H2, <- seq_S. reflexivity.
    + rewrite app_length, H2. cbn. lia.
    + intros i Hi. destruct (Nat.eq_dec i (S n)) as [->|N].
      * rewrite nth_error_app2 by lia. rewrite H2, Nat.sub_diag. cbn [nth_error]. eexists. reflexivity.
      * rewrite nth_error_app1 by lia. apply H3. lia.
Qed.

Lemma doubled_paths n s : doubled n s -> forall f i, i < f -> i <= n -> length (npaths (nodes (hp s)) f i) + 2 = 2 ^ S i /\ longest (npaths (nodes (hp s)) f i) = i.
Proof.
  intros (_ & _ & H). induction f as [|f IH]; intros i Hf Hi; [lia|]. cbn [npaths]. unfold fn_of. destruct (H i Hi) as [v ->]. cbn [n_fn].
  destruct i as [|i]; cbn [chain_node length seq combine flat_map]; [split; reflexivity|].
  destruct (IH i ltac:(lia) ltac:(lia)) as [E1 E2]. rewrite app_nil_r, longest_app, !longest_first, app_length. cbn [length]. rewrite !map_length, E2.
  split; [|lia]. cbn [Nat.pow] in *. lia.
Qed.

Lemma doubling_tidy (x : T) n : Forall tidy (doubling x n).
Proof.
  unfold doubling. constructor; [intros ? ?; discriminate|]. apply Forall_forall. intros c Hc. apply in_map_iff in Hc as (i & <- & _). intros ? ?. discriminate.
Qed.

Lemma doubling_reach (x : T) n s : run (doubling x n) init_state = Ret s -> reach tidy s.
Proof.
  intros E. apply (run_reach T NT tidy (doubling x n) init_state); [apply reach_init|apply doubling_tidy| |exact E].
  unfold doubling. constructor; [intros; discriminate|]. apply Forall_forall. intros c Hc. apply in_map_iff in Hc as (i & <- & _). intros. discriminate.
Qed.

Lemma doubling_backward (x : T) n s : 0 < n -> run (doubling x n) init_state = Ret s -> doubled n s -> exists h', backward (hp s) n = Ret h'.
Proof.
  intros Hn E (H1 & H2 & H3). pose proof (doubling_reach x n s E) as R.
  apply c41_elementwise_succeeds; auto.
  - intros i Hi. destruct (H3 i ltac:(lia)) as [v Hv]. unfold vof. rewrite Hv. cbn. repeat constructor.
  - intros i ins Hi. exfalso. unfold fn_of in Hi. destruct (nth_error (nodes (hp s)) i) as [nd|] eqn:En; [|discriminate].
    assert (i < length (nodes (hp s))) by (apply nth_error_Some; congruence). destruct (H3 i ltac:(lia)) as [v Hv]. rewrite Hv in En. injection En as <-.
    cbn [n_fn] in Hi. destruct i; discriminate.
  - destruct (H3 n (le_n n)) as [v Hv]. unfold vof. rewrite Hv. reflexivity.
  - destruct (H3 n (le_n n)) as [v Hv]. unfold fn_of. rewrite Hv. destruct n; [lia|discriminate].
  - intros m k ins _ Hm. left. unfold fn_of in Hm. destruct (nth_error (nodes (hp s)) m) as [nd|] eqn:En; [|discriminate].
    assert (m < length (nodes (hp s))) by (apply nth_error_Some; congruence). destruct (H3 m ltac:(lia)) as [v Hv]. rewrite Hv in En. injection En as <-.
    cbn [n_fn] in Hm. destruct m; [discriminate|]. injection Hm as <- _. reflexivity.
Qed.

(** ** Histories in which nothing is used twice *)

Lemma walk_snoc ns l p : forall n m, walk ns n (l ++ [p]) m <-> exists a k ins, walk ns n l a /\ fn_of ns a = Some (k, ins) /\ nth_error ins p = Some m.
Proof.
  induction l as [|q l IH]; intros n m; cbn [app].
  - split.
    + intros H. inversion H as [|? k ins ? i ? ? E Ep W]; subst. inversion W; subst. exists n, k, ins. split; [constructor|auto].
    + intros (a & k & ins & W & E & Ep). inversion W; subst. eapply walk_cons; [eassumption|eassumption|constructor].
  - split.
    + intros H. inversion H as [|? k ins ? i ? ? E Ep W]; subst. apply IH in W as (a & k' & ins' & W & E' & Ep'). exists a, k', ins'. split; auto. eapply walk_cons; [eassumption|eassumption|exact W].
    + intros (a & k & ins & W & E & Ep). inversion W as [|? k' ins' ? i ? ? E' Ep' W']; subst. eapply walk_cons; [eassumption|eassumption|]. apply IH. exists a, k, ins. auto.
Qed.

Lemma walk_le ns : backrefs ns -> forall l n m, walk ns n l m -> m + length l <= n.
Proof.
  intros B. induction l as [|p l IH]; intros n m W; inversion W; subst; cbn [length]; [lia|].
  assert (i < n) by (eapply backrefs_fn; eauto; eapply nth_error_In; eauto). match goal with H : walk ns i l m |- _ => apply IH in H end. lia.
Qed.

Lemma walk_once ns : backrefs ns -> used_once ns -> forall l l' n m, walk ns n l m -> walk ns n l' m -> l = l'.
Proof.
  intros B U l. remember (length l) as k eqn:Ek. revert l Ek. induction k as [|k IH]; intros l Ek l' n m W W'.
  - destruct l; [|discriminate]. inversion W; subst. apply (walk_le ns B) in W'. destruct l'; [reflexivity|cbn in W'; lia].
  - destruct (exists_last (l := l)) as (l0 & p & ->); [destruct l; discriminate|].
    destruct (list_eq_dec Nat.eq_dec l' []) as [->|N'].
    { inversion W'; subst. apply (walk_le ns B) in W. rewrite app_length in W. cbn in W. lia. }
    destruct (exists_last (l := l')) as (l1 & q & ->); [exact N'|].
    apply walk_snoc in W as (a & ka & ia & W & E & Ep). apply walk_snoc in W' as (b & kb & ib & W' & E' & Ep').
    destruct (U _ _ _ _ _ _ _ _ _ E E' Ep Ep') as [-> ->]. f_equal. eapply IH; eauto. rewrite app_length in Ek. cbn in Ek. lia.
Qed.

Lemma NoDup_choose A B (R : A -> B -> Prop) (L : list A) : NoDup L -> (forall a, In a L -> exists b, R a b) ->
  (forall a a' b, In a L -> In a' L -> R a b -> R a' b -> a = a') ->
  exists M, length M = length L /\ NoDup M /\ forall b, In b M -> exists a, In a L /\ R a b.
Proof.
  induction L as [|a L IH]; intros N E I.
  - exists []. split; [reflexivity|]. split; [constructor|]. intros b [].
  - inversion N; subst. destruct IH as (M & HM & NM & RM); [assumption|intros; apply E; cbn; auto|intros; eapply I; cbn; eauto|].
    destruct (E a (or_introl eq_refl)) as [b Hb]. exists (b :: M). split; [cbn; lia|]. split.
    + constructor; [|exact NM]. intros Hin. destruct (RM b Hin) as (a' & Ha' & R'). assert (a = a') by (eapply I; cbn; eauto). subst. contradiction.
    + intros b' [<-|Hb']; [exists a; cbn; auto|]. destruct (RM b' Hb') as (a' & Ha' & R'). exists a'. cbn. auto.
Qed.

Lemma paths_once ns n L : backrefs ns -> used_once ns -> paths_from ns n L -> length L <= n.
Proof.
  intros B U [N H]. destruct (NoDup_choose _ _ (fun l m => walk ns n l m) L N) as (M & HM & NM & RM).
  - intros l Hl. apply H in Hl. tauto.
  - intros l l' m _ _ W W'. eapply walk_once; eauto.
  - rewrite <- HM, <- (seq_length n 0). apply NoDup_incl_length; [exact NM|]. intros m Hm. destruct (RM m Hm) as (l & Hl & W).
    apply H in Hl as [Hl _]. apply (walk_le ns B) in W. apply in_seq. destruct l; [tauto|]. cbn in W. lia.
Qed.

Lemma paths_longest ns n L : backrefs ns -> paths_from ns n L -> longest L <= n.
Proof.
  intros B [_ H]. assert (Q : forall l, In l L -> length l <= n).
  { intros l Hl. apply H in Hl as (_ & m & W). apply (walk_le ns B) in W. lia. }
  clear H. induction L as [|l L IH]; cbn [longest fold_right]; [lia|]. pose proof (Q l (or_introl eq_refl)).
  specialize (IH (fun l' Hl => Q l' (or_intror Hl))). unfold longest in IH. lia.
Qed.

(** ** Long histories *)

Lemma walk_app ns l l' : forall n m q, walk ns n l m -> walk ns m l' q -> walk ns n (l ++ l') q.
Proof.
  induction l as [|p l IH]; intros n m q W W'; inversion W; subst; cbn [app]; [exact W'|]. eapply walk_cons; [eassumption|eassumption|]. eapply IH; eauto.
Qed.
Lemma walk_prefix ns l l' : forall n q, walk ns n (l ++ l') q -> exists m, walk ns n l m.
Proof.
  induction l as [|p l IH]; intros n q W; [exists n; constructor|]. cbn [app] in W. inversion W; subst.
  match goal with H : walk ns _ (l ++ l') q |- _ => apply IH in H as [m H]; exists m end. eapply walk_cons; eassumption.
Qed.
Lemma uses_walk ns n m : uses ns n m -> exists l, walk ns n l m.
Proof.
  induction 1 as [n|n k ins i m E Hin _ [l W]]; [exists []; constructor|]. apply In_nth_error in Hin as [p Hp]. exists (p :: l). eapply walk_cons; eassumption.
Qed.
Lemma chain_walk ns k p r : chain ns k p r -> exists l, walk ns r l p /\ k <= length l.
Proof.
  induction 1 as [p|k p q r _ (l & W & Hl) Hq U]; [exists []; split; [constructor|cbn; lia]|].
  apply uses_walk in U as [l' W']. exists (l' ++ l). split; [eapply walk_app; eauto|]. rewrite app_length. destruct l'; cbn [length]; [|lia].
  inversion W'; subst. lia.
Qed.

Lemma longest_in L l : In l L -> length l <= longest L.
Proof. induction L as [|a L IH]; [intros []|]. intros [->|H]; cbn [longest fold_right]; [lia|]. apply IH in H. unfold longest in H. lia. Qed.
Lemma longest_has L : L <> [] -> exists l, In l L /\ length l = longest L.
Proof.
  induction L as [|a L IH]; [tauto|]. intros _. destruct L as [|b L]; [exists a; cbn; split; [auto|lia]|].
  destruct IH as (l & Hl & El); [discriminate|]. change (longest (a :: b :: L)) with (Nat.max (length a) (longest (b :: L))).
  destruct (Nat.max_spec (length a) (longest (b :: L))) as [[_ ->]|[_ ->]]; [exists l|exists a]; cbn [In] in *; auto.
Qed.

(** At least as many paths as steps on the longest *)
Lemma paths_longest_le ns n L : paths_from ns n L -> longest L <= length L.
Proof.
  intros [N H]. destruct L as [|a L]; [cbn; lia|]. destruct (longest_has (a :: L)) as (l & Hl & <-); [discriminate|]. set (L' := a :: L) in *.
  assert (Q : incl (map (fun i => firstn i l) (seq 1 (length l))) L').
  { intros x Hx. apply in_map_iff in Hx as (i & <- & Hi). apply in_seq in Hi. apply H in Hl as (_ & m & W). apply H. split.
    - destruct i as [|i]; [lia|]. destruct l as [|y l]; [cbn in Hi; lia|]. discriminate.
    - rewrite <- (firstn_skipn i l) in W. eapply walk_prefix; exact W. }
  apply NoDup_incl_length in Q; [rewrite map_length, seq_length in Q; exact Q|].
  assert (G : forall s k, s + k <= S (length l) -> NoDup (map (fun i => firstn i l) (seq s k))); [|apply G; lia].
  intros s k. revert s. induction k as [|k IH]; intros s Hs; cbn [seq map]; [constructor|]. constructor; [|apply IH; lia].
  rewrite in_map_iff. intros (i & HQ & Hi). apply in_seq in Hi. apply (f_equal (@length nat)) in HQ. rewrite !firstn_length in HQ. lia.
Qed.

Lemma chain_depth ns k p r loss L : chain ns k p r -> uses ns loss r -> paths_from ns loss L -> k <= longest L.
Proof.
  intros C U H. destruct k as [|k]; [lia|]. apply chain_walk in C as (l & W & Hl). apply uses_walk in U as [l' W'].
  transitivity (length (l' ++ l)); [rewrite app_length; lia|]. apply longest_in. apply H. split; [destruct l', l; cbn in *; try discriminate; lia|].
  exists p. eapply walk_app; eauto.
Qed.

End CostFacts.
