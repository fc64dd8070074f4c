(** * ClaimsShape: a program fails exactly if its shapes do not fit *)
From Coq Require Import ZArith.
From Verif Require Import Base ModelIndex ModelTensor ModelOps ModelJvp ModelGraph Spec SpecGraph SpecShape
  Lists IndexFacts TensorFacts OpsFacts FuelFacts GraphFacts HandleProg ApiFacts Instances ClaimsTensor ClaimsOps ClaimsMat.

Section Shapes.
Context {T : Type} {NT : Num T}.

(** The value a call makes of the values of its operands *)
Definition cmd_value (vs : list (raw T)) (c : cmd T) : outcome (raw T) :=
  let v := vindex vs in
  match c with
  | CNew a s => raw_new a s
  | CFiller s x => Ret (raw_filler s x)
  | CScalar x => Ret (raw_scalar x)
  | CFrom n => raw_from n
  | CAdd x y => let* a := v x in let* b := v y in add_raw (LRaw a) (LRaw b)
  | CSub x y => let* a := v x in let* b := v y in sub_raw a b
  | CNeg x => let* a := v x in neg_raw (LRaw a)
  | CMul x y => let* a := v x in let* b := v y in mul_raw a (LRaw b)
  | CAbs x => let* a := v x in abs_raw (LRaw a)
  | CRelu x => let* a := v x in relu_raw (LRaw a)
  | CTanh x => let* a := v x in tanh_raw (LRaw a)
  | CSum x => let* a := v x in tl_sum (LRaw a)
  | CBmm x y => let* a := v x in let* b := v y in bmm_raw (LRaw a) (LRaw b)
  | CDot x y => let* a := v x in let* b := v y in dot_raw (LRaw a) (LRaw b)
  | CDotMethod x y => let* a := v x in let* b := v y in Panic PTodo
  | CDeepClone x => let* a := v x in tl_deep_clone (LRaw a)
  | CViewToTensor x o => let* a := v x in let* w := view_new a o in tl_to_tensor (LView w)
  | CViewSum x o => let* a := v x in let* w := view_new a o in tl_sum (LView w)
  | CBmmView x y o => let* a := v x in let* b := v y in let* w := view_new b o in
    let* t := bmm_raw (LRaw a) (LView w) in let* _ := tl_to_tensor (LView w) in Ret t
  | _ => Panic PTodo
  end.

Definition holds_values (s : state T) (vs : list (raw T)) : Prop :=
  Forall2 (fun i t => exists nd, nth_error (nodes (hp s)) i = Some nd /\ n_val nd = t) (env s) vs.

Lemma values_grow (s : state T) vs h' i t nd : holds_values s vs -> (exists ext, nodes h' = nodes (hp s) ++ ext) -> nth_error (nodes h') i = Some nd -> n_val nd = t ->
  holds_values (mkState h' (env s ++ [i])) (vs ++ [t]).
Proof.
  intros H [ext E] Hn Ht. unfold holds_values. cbn [hp env]. apply Forall2_app; [|repeat constructor; eauto].
  induction H as [|j u l l' (nd' & En & Ev) H IH]; constructor; auto. exists nd'. split; [|exact Ev]. rewrite E. rewrite nth_error_app1; [exact En|]. apply nth_error_Some. congruence.
Qed.

Lemma values_var (s : state T) vs x : holds_values s vs ->
  (exists i nd, vindex (env s) x = Ret i /\ hget (hp s) i = Ret nd /\ nth_error (nodes (hp s)) i = Some nd /\ vindex vs x = Ret (n_val nd)) \/
  (vindex (env s) x = Panic PIndex /\ vindex vs x = Panic PIndex).
Proof.
  intros H. unfold vindex. revert x. unfold holds_values in H. induction H as [|j u l l' (nd & En & Ev) H IH]; intros [|x]; cbn [nth_error].
  - right; auto.
  - right; auto.
  - left. exists j, nd. split; [reflexivity|]. unfold hget, vindex. rewrite En. subst u. auto 6.
  - apply IH.
Qed.

Lemma alloc_new (h : heap T) t f g : exists nd, nth_error (nodes (fst (alloc h t f g))) (snd (alloc h t f g)) = Some nd /\ n_val nd = t.
Proof. unfold alloc. cbn [fst snd nodes]. eexists. rewrite nth_error_app2, Nat.sub_diag by lia. split; reflexivity. Qed.

Lemma exec_value (s : state T) vs c : holds_values s vs -> tame c ->
  match cmd_value vs c with
  | Ret t => exists s', exec s c = Ret s' /\ holds_values s' (vs ++ [t])
  | Panic p => exec s c = Panic p
  | NoFuel => exec s c = NoFuel
  end.
Proof.
  intros H HT.
  assert (New : forall h t f g, (exists ext, nodes h = nodes (hp s) ++ ext) -> exists s', push s (Ret (alloc h t f g)) = Ret s' /\ holds_values s' (vs ++ [t])).
  { intros h t f g [ext E]. destruct (alloc_new h t f g) as (nd & En & Ev). unfold alloc in *. cbn [push bind fst snd] in *. eexists. split; [reflexivity|].
    eapply values_grow; eauto. cbn [nodes]. rewrite E, <- app_assoc. eauto. }
  assert (Self : exists ext, nodes (hp s) = nodes (hp s) ++ ext) by (exists []; rewrite app_nil_r; reflexivity).
  destruct c; cbn [tame] in HT; try contradiction; cbn [cmd_value exec].
  all: try (unfold op_new, op_filler, op_scalar, op_from; repeat match goal with |- context [let* _ := ?m in _] => match m with raw_new _ _ => destruct m | raw_from _ => destruct m end; cbn [bind] end;
            first [apply New; exact Self | reflexivity]; fail).
  all: try (destruct (values_var s vs x H) as [(i & a & Ei & Ea & Na & Vx)|[Ei Vx]]; rewrite Ei, Vx; cbn [bind]; [|reflexivity]).
  all: try (destruct (values_var s vs y H) as [(j & b & Ej & Eb & Nb & Vy)|[Ej Vy]]; rewrite Ej, Vy; cbn [bind]; [|reflexivity]).
  all: try (unfold op_add, op_neg, op_mul, op_abs, op_relu, op_tanh, op_sum, op_bmm, op_dot, op_dot_method, op_deep_clone; rewrite ?Ea, ?Eb; cbn [bind];
            first [reflexivity | match goal with |- context [match ?m with Ret _ => _ | _ => _ end] => destruct m end; cbn [bind]; [apply New; exact Self|reflexivity|reflexivity]]; fail).
  - unfold sub_raw, op_sub, op_neg. rewrite Eb. cbn [bind]. destruct (neg_raw (LRaw (n_val b))) as [nb|p|]; cbn [bind]; [|reflexivity|reflexivity].
    unfold alloc at 1 2 3. unfold op_add, hget. cbn [nodes].
    assert (E1 : nth_error (nodes (hp s) ++ [mkNode nb (Some (KNeg, [j]))]) i = Some a) by (rewrite nth_error_app1; [exact Na|apply nth_error_Some; congruence]).
    assert (E2 : nth_error (nodes (hp s) ++ [mkNode nb (Some (KNeg, [j]))]) (length (nodes (hp s))) = Some (mkNode nb (Some (KNeg, [j])))) by (rewrite nth_error_app2, Nat.sub_diag by lia; reflexivity).
    unfold vindex. rewrite E1, E2. cbn [bind n_val]. destruct (add_raw (LRaw (n_val a)) (LRaw nb)); cbn [bind]; [|reflexivity|reflexivity]. apply New. cbn [nodes]. eauto.
  - unfold op_view_to_tensor. rewrite Ea. cbn [bind]. destruct (view_new (n_val a) o) as [w|p|]; cbn [bind]; [|reflexivity|reflexivity].
    destruct (tl_to_tensor (LView w)); cbn [bind]; [apply New; exact Self|reflexivity|reflexivity].
  - unfold op_view_sum. rewrite Ea. cbn [bind]. destruct (view_new (n_val a) o) as [w|p|]; cbn [bind]; [|reflexivity|reflexivity].
    destruct (tl_sum (LView w)); cbn [bind]; [apply New; exact Self|reflexivity|reflexivity].
  - unfold op_bmm_view. rewrite Ea, Eb. cbn [bind]. destruct (view_new (n_val b) o) as [w|p|]; cbn [bind]; [|reflexivity|reflexivity].
    destruct (bmm_raw (LRaw (n_val a)) (LView w)); cbn [bind]; [|reflexivity|reflexivity]. destruct (tl_to_tensor (LView w)); cbn [bind]; [|reflexivity|reflexivity].
    unfold alloc at 1 2. apply New. cbn [nodes]. eauto.
Qed.

Definition fits (m : outcome (raw T)) (P : list nat -> Prop) : Prop :=
  (forall sh, P sh -> exists t, m = Ret t /\ shape t = sh /\ wf t /\ positive sh) /\ (forall t, m = Ret t -> exists sh, P sh).

Lemma fits_iff m (P Q : list nat -> Prop) : (forall sh, P sh <-> Q sh) -> fits m P -> fits m Q.
Proof. intros H [H1 H2]. split; [intros sh Hs; apply H1, H, Hs|]. intros t E. destruct (H2 t E) as [sh Hs]. exists sh. apply H, Hs. Qed.

Definition good (t : raw T) : Prop := wf t /\ positive (shape t).

Lemma fits_binop a b op : good a -> good b -> fits (generic_binop_raw (LRaw a) (LRaw b) op) (bcast (shape a) (shape b)).
Proof.
  intros [Wa Pa] [Wb Pb]. split.
  - intros sh B. eexists. split; [apply (binop_raw_ok a b sh op Wa Wb Pa Pb B)|]. split; [reflexivity|]. split; [apply tabulate_wf|]. exact (bcast_positive _ _ _ Pa Pb B).
  - intros t E. destruct (bcast_dec_eq (shape a) (shape b) Pa Pb) as [[s Hs]|N]; [eauto|]. rewrite binop_raw_refused in E by auto. discriminate.
Qed.

Lemma fits_ret t : good t -> fits (Ret t) (eq (shape t)).
Proof. intros [W P]. split; [intros sh <-; exists t; auto|]. intros t' _. eauto. Qed.

Lemma fits_unary a op : good a -> fits (generic_unary_op (LRaw a) op) (eq (shape a)).
Proof. intros [W P]. rewrite unary_ok_raw by auto. apply (fits_ret (tabulate (shape a) (fun i => op (tval a i)))). split; [apply tabulate_wf|exact P]. Qed.

Lemma fits_sub a b : good a -> good b -> fits (sub_raw a b) (bcast (shape a) (shape b)).
Proof.
  intros Ha [Wb Pb]. unfold sub_raw, neg_raw. rewrite unary_ok_raw by auto. cbn [bind].
  apply (fits_binop a (tabulate (shape b) (fun i => n_neg (tval b i)))); [exact Ha|split; [apply tabulate_wf|exact Pb]].
Qed.

Lemma fits_mul a b : good a -> good b -> fits (mul_raw a (LRaw b)) (fun sh => (shape a = [] /\ shape b = sh) \/ (shape a = sh /\ shape b = []) \/ (shape a = sh /\ shape b = sh)).
Proof.
  intros [Wa Pa] [Wb Pb]. destruct (shape a) as [|d s] eqn:Es.
  - destruct (scalar_shape a Wa Es) as [c ->]. rewrite mul_scalar_l by exact Wb. split.
    + intros sh H. assert (sh = shape b) as -> by (destruct H as [[_ H]|[[H1 H2]|[H1 H2]]]; congruence). eexists. split; [reflexivity|]. split; [reflexivity|]. split; [apply tabulate_wf|exact Pb].
    + intros t _. exists (shape b). auto.
  - destruct (shape b) as [|d' s'] eqn:Eb.
    + destruct (scalar_shape b Wb Eb) as [c ->]. rewrite mul_scalar_r by (auto; congruence). split.
      * intros sh H. assert (sh = d :: s) as -> by (destruct H as [[H _]|[[H1 H2]|[H1 H2]]]; congruence). eexists. split; [reflexivity|]. split; [exact Es|]. split; [apply tabulate_wf|exact Pa].
      * intros t _. exists (d :: s). auto.
    + destruct (list_eq_dec Nat.eq_dec (shape a) (shape b)) as [E|N].
      * rewrite mul_same; [|exact Wa|split; [exact Wb|cbn; rewrite Eb; exact Pb]|exact E|congruence]. split.
        -- intros sh H. assert (sh = d :: s) as -> by (destruct H as [[H _]|[[H1 H2]|[H1 H2]]]; congruence). eexists. split; [reflexivity|]. split; [exact Es|]. split; [apply tabulate_wf|exact Pa].
        -- intros t _. exists (d :: s). right; right. split; congruence.
      * rewrite mul_refused by (cbn; congruence). split; [|discriminate]. intros sh H. exfalso. apply N. destruct H as [[H _]|[[H1 H2]|[H1 H2]]]; congruence.
Qed.

Lemma fits_dot a b : good a -> good b -> fits (dot_raw (LRaw a) (LRaw b)) (fun sh => shape a = shape b /\ sh = [1]).
Proof.
  intros [Wa Pa] [Wb Pb]. split.
  - intros sh [E ->]. rewrite dot_ok by auto. eexists. split; [reflexivity|]. split; [reflexivity|]. split; [reflexivity|]. repeat constructor.
  - intros t E. exists [1]. split; [|reflexivity]. unfold dot_raw in E. apply bind_Ret_inv in E as (u & E & _). apply assert_inv in E. unfold same_shape in E. cbn [tl_shape] in E.
    revert E. generalize (shape a) (shape b). clear. induction l as [|x l IH]; intros [|y l'] E; cbn in E; try discriminate; [reflexivity|].
    apply andb_prop in E as [E1 E2]. apply Nat.eqb_eq in E1. f_equal; auto.
Qed.

Lemma fits_bmm a b : good a -> good b -> fits (bmm_raw (LRaw a) (LRaw b)) (matmul (shape a) (shape b)).
Proof.
  intros [Wa Pa] [Wb Pb]. split.
  - intros sh H. remember (shape a) as sa eqn:Ea. remember (shape b) as sb eqn:Eb. destruct H as [n k m|b0 n k m|ones n k m Hl Hf].
    + rewrite (bmm2_ok (LRaw a) (LRaw b) n k m) by (cbn; auto). eexists. split; [reflexivity|]. split; [reflexivity|]. split; [apply tabulate_wf|].
      inversion Pa; inversion Pb; subst. repeat constructor; auto. inversion H6; auto.
    + rewrite (bmm3_ok (LRaw a) (LRaw b) b0 n k m) by (cbn; auto). eexists. split; [reflexivity|]. split; [reflexivity|]. split; [apply tabulate_wf|].
      inversion Pa as [|? ? P1 Q1]; inversion Q1 as [|? ? P2 Q2]; inversion Pb as [|? ? P3 Q3]; inversion Q3; subst. repeat constructor; auto.
    + destruct (c28_bmm_high_rank T NT a b ones n k m Wa Wb) as [_ H]; auto; try congruence. destruct (H Hf) as (t & row & E & Es & Er & Lr & _). exists t. split; [exact E|]. split; [exact Es|].
      split; [unfold wf; rewrite Es, Er, Lr; cbn; lia|]. inversion Pb as [|? ? P3 Q3]; inversion Q3; subst. repeat constructor; auto.
  - intros t E.
    destruct (le_lt_dec 2 (length (shape a))) as [L2|L2]; [|rewrite bmm_refused_rank in E by (cbn; auto); discriminate].
    destruct (Nat.eq_dec (length (shape b)) 2) as [R2|R2]; [|rewrite bmm_refused_rank in E by (cbn; auto); discriminate].
    destruct (shape b) as [|k' [|m [|? ?]]] eqn:Eb; try discriminate.
    assert (Hl : exists ls n k, shape a = ls ++ [n; k]).
    { clear - L2. rewrite <- (rev_involutive (shape a)). assert (L : 2 <= length (rev (shape a))) by (rewrite rev_length; exact L2). destruct (rev (shape a)) as [|x [|y l]]; cbn in L; try lia.
      exists (rev l), y, x. cbn [rev]. rewrite <- app_assoc. reflexivity. }
    destruct Hl as (ls & n & k & Ea). destruct (Nat.eq_dec k k') as [<-|N].
    + destruct ls as [|d0 [|d1 ls]]; cbn [app] in Ea.
      * rewrite Ea. eexists. constructor.
      * rewrite Ea. eexists. constructor.
      * assert (Pb' : positive (shape b)) by (rewrite Eb; exact Pb). assert (Hl : 2 <= length (d0 :: d1 :: ls)) by (cbn; lia).
        destruct (c28_bmm_high_rank T NT a b (d0 :: d1 :: ls) n k m Wa Wb Pa Pb' Hl Ea Eb) as [Hp Hr].
        destruct (Exists_dec (fun d => 2 <= d) (d0 :: d1 :: ls) (fun d => le_dec 2 d)) as [X|X]; [rewrite (Hp X) in E; discriminate|].
        exists [1; 1; m]. rewrite Ea. change (d0 :: d1 :: ls ++ [n; k]) with ((d0 :: d1 :: ls) ++ [n; k]). constructor; [cbn; lia|].
        apply Forall_Exists_neg in X. rewrite Ea in Pa. change (d0 :: d1 :: ls ++ [n; k]) with ((d0 :: d1 :: ls) ++ [n; k]) in Pa. apply Forall_app in Pa as [Pa _].
        rewrite Forall_forall in *. intros d Hd. specialize (X d Hd). specialize (Pa d Hd). cbn in *. lia.
    + rewrite (bmm_refused_inner (LRaw a) (LRaw b) k k' m (ls ++ [n])) in E; [discriminate| | | |exact N]; cbn [tl_shape]; [rewrite Ea, <- app_assoc; reflexivity|destruct ls; discriminate|exact Eb].
Qed.

Lemma window_positive o : Forall (fun r => sr_start r <> sr_end r) o -> valid_ranges o -> positive (window_shape o).
Proof. intros H V. induction V as [|r o Hr V IH]; [constructor|]. inversion H as [|? ? Hn Ho]; subst. constructor; [cbv beta in *; lia|exact (IH Ho)]. Qed.

Lemma fits_view a o (F : view T -> outcome (raw T)) (P : list nat -> Prop) : good a -> Forall (fun r => sr_start r <> sr_end r) o ->
  (forall w, view_new a o = Ret w -> tl_wf (LView w) -> v_shape w = window_shape o -> fits (F w) P) ->
  fits (let* w := view_new a o in F w) (fun sh => window_ok (shape a) o /\ valid_ranges o /\ P sh).
Proof.
  intros [Wa Pa] Ho H. split.
  - intros sh (W & V & HP). assert (E := view_new_ok a o W V). destruct (H _ E) as [H1 _]; [eapply view_tl_wf; [exact Wa|exact E|apply window_positive; auto]|reflexivity|]. rewrite E. cbn [bind]. auto.
  - intros t E. apply bind_Ret_inv in E as (w & E & Et). destruct (view_new_inv _ _ _ E) as (W & V & ->). destruct (H _ E) as [_ H2]; [eapply view_tl_wf; [exact Wa|exact E|apply window_positive; auto]|reflexivity|].
    destruct (H2 t Et) as [sh Hs]. eauto.
Qed.

Lemma rect_positive : forall (n : nest T) s, rect n s -> positive s.
Proof.
  fix IH 3. intros n s [x|l s' Hl Hf]; [constructor|]. constructor; [destruct l; [congruence|cbn; lia]|].
  destruct Hf as [|m l Hm _]; [congruence|]. exact (IH m s' Hm).
Qed.

Lemma value_shape vs c : Forall good vs -> tame c -> fits (cmd_value vs c) (shaped (map shape vs) c).
Proof.
  intros HG HT.
  assert (G1 : forall x, (exists a, nth_error vs x = Some a /\ good a /\ vindex vs x = Ret a /\ nth_error (map shape vs) x = Some (shape a)) \/ (vindex vs x = Panic PIndex /\ nth_error (map shape vs) x = None)).
  { intros x. unfold vindex. rewrite nth_error_map. destruct (nth_error vs x) as [a|] eqn:E; [left; exists a; rewrite Forall_forall in HG; auto using (nth_error_In _ _ E)|right; auto]. }
  assert (None_ : forall p, (forall sh, ~ shaped (map shape vs) c sh) -> fits (Panic p) (shaped (map shape vs) c)).
  { intros p N. split; [intros sh H; destruct (N sh H)|discriminate]. }
  destruct c; cbn [tame] in HT; try contradiction; cbn [cmd_value].
  - split.
    + intros sh H. inversion H; subst. rewrite raw_new_ok by auto. eexists. split; [reflexivity|]. auto.
    + intros t E. apply raw_new_inv in E as [-> E]. exists s. constructor. exact E.
  - eapply fits_iff; [|apply (fits_ret (raw_filler s x))]; [|rewrite raw_filler_tab; split; [apply tabulate_wf|exact HT]].
    rewrite raw_filler_tab. intros sh. split; [intros <-; constructor|intros H; inversion H; reflexivity].
  - eapply fits_iff; [|apply (fits_ret (raw_scalar x))]; [|split; [reflexivity|constructor]]. intros sh. split; [intros <-; constructor|intros H; inversion H; reflexivity].
  - destruct (c08_from_nested T NT n) as (H1 & H2 & _). split.
    + intros sh H. inversion H; subst. destruct (H2 sh H3) as (t & E & Es). exists t. destruct (H1 t E) as (_ & W & _). split; [exact E|]. split; [exact Es|]. split; [exact W|].
      exact (rect_positive n sh H3).
    + intros t E. destruct (H1 t E) as (R & _). eexists. constructor. exact R.
  - (* add *) destruct (G1 x) as [(a & Ea & Ga & Va & Sa)|[Va Sa]]; rewrite Va; cbn [bind]; [|apply None_; intros sh H; inversion H; congruence].
    destruct (G1 y) as [(b & Eb & Gb & Vb & Sb)|[Vb Sb]]; rewrite Vb; cbn [bind]; [|apply None_; intros sh H; inversion H; congruence].
    eapply fits_iff; [|apply (fits_binop a b n_add Ga Gb)]. intros sh. split; [intros B; econstructor; eauto|intros H; inversion H; congruence].
  - (* sub *) destruct (G1 x) as [(a & Ea & Ga & Va & Sa)|[Va Sa]]; rewrite Va; cbn [bind]; [|apply None_; intros sh H; inversion H; congruence].
    destruct (G1 y) as [(b & Eb & Gb & Vb & Sb)|[Vb Sb]]; rewrite Vb; cbn [bind]; [|apply None_; intros sh H; inversion H; congruence].
    eapply fits_iff; [|apply (fits_sub a b Ga Gb)]. intros sh. split; [intros B; econstructor; eauto|intros H; inversion H; congruence].
  - (* neg *) destruct (G1 x) as [(a & Ea & Ga & Va & Sa)|[Va Sa]]; rewrite Va; cbn [bind]; [|apply None_; intros sh H; inversion H; congruence].
    eapply fits_iff; [|apply (fits_unary a _ Ga)]. intros sh. split; [intros <-; constructor; exact Sa|intros H; inversion H; congruence].
  - (* mul *) destruct (G1 x) as [(a & Ea & Ga & Va & Sa)|[Va Sa]]; rewrite Va; cbn [bind]; [|apply None_; intros sh H; inversion H; congruence].
    destruct (G1 y) as [(b & Eb & Gb & Vb & Sb)|[Vb Sb]]; rewrite Vb; cbn [bind]; [|apply None_; intros sh H; inversion H; congruence].
    eapply fits_iff; [|apply (fits_mul a b Ga Gb)]. intros sh. split.
    + intros [[H1 H2]|[[H1 H2]|[H1 H2]]]; [apply sh_scale_l|apply sh_scale_r|apply sh_mul]; congruence.
    + intros H. inversion H; subst; [left|right; left|right; right]; split; congruence.
  - (* abs *) destruct (G1 x) as [(a & Ea & Ga & Va & Sa)|[Va Sa]]; rewrite Va; cbn [bind]; [|apply None_; intros sh H; inversion H; congruence].
    eapply fits_iff; [|apply (fits_unary a _ Ga)]. intros sh. split; [intros <-; constructor; exact Sa|intros H; inversion H; congruence].
  - destruct (G1 x) as [(a & Ea & Ga & Va & Sa)|[Va Sa]]; rewrite Va; cbn [bind]; [|apply None_; intros sh H; inversion H; congruence].
    eapply fits_iff; [|apply (fits_unary a _ Ga)]. intros sh. split; [intros <-; constructor; exact Sa|intros H; inversion H; congruence].
  - destruct (G1 x) as [(a & Ea & Ga & Va & Sa)|[Va Sa]]; rewrite Va; cbn [bind]; [|apply None_; intros sh H; inversion H; congruence].
    eapply fits_iff; [|apply (fits_unary a _ Ga)]. intros sh. split; [intros <-; constructor; exact Sa|intros H; inversion H; congruence].
  - (* sum *) destruct (G1 x) as [(a & Ea & Ga & Va & Sa)|[Va Sa]]; rewrite Va; cbn [bind]; [|apply None_; intros sh H; inversion H; congruence].
    rewrite (tl_sum_ok (LRaw a)) by exact Ga. eapply fits_iff; [|apply fits_ret; split; [reflexivity|constructor]]. intros sh. split; [intros <-; econstructor; eauto|intros H; inversion H; reflexivity].
  - (* bmm *) destruct (G1 x) as [(a & Ea & Ga & Va & Sa)|[Va Sa]]; rewrite Va; cbn [bind]; [|apply None_; intros sh H; inversion H; congruence].
    destruct (G1 y) as [(b & Eb & Gb & Vb & Sb)|[Vb Sb]]; rewrite Vb; cbn [bind]; [|apply None_; intros sh H; inversion H; congruence].
    eapply fits_iff; [|apply (fits_bmm a b Ga Gb)]. intros sh. split; [intros B; econstructor; eauto|intros H; inversion H; congruence].
  - (* dot *) destruct (G1 x) as [(a & Ea & Ga & Va & Sa)|[Va Sa]]; rewrite Va; cbn [bind]; [|apply None_; intros sh H; inversion H; congruence].
    destruct (G1 y) as [(b & Eb & Gb & Vb & Sb)|[Vb Sb]]; rewrite Vb; cbn [bind]; [|apply None_; intros sh H; inversion H; congruence].
    eapply fits_iff; [|apply (fits_dot a b Ga Gb)]. intros sh. split; [intros [B ->]; econstructor; [exact Sa|congruence]|intros H; inversion H; split; congruence].
  - (* the method dot *) destruct (G1 x) as [(a & Ea & Ga & Va & Sa)|[Va Sa]]; rewrite Va; cbn [bind]; [|apply None_; intros sh H; inversion H].
    destruct (G1 y) as [(b & Eb & Gb & Vb & Sb)|[Vb Sb]]; rewrite Vb; cbn [bind]; apply None_; intros sh H; inversion H.
  - (* deep_clone *) destruct (G1 x) as [(a & Ea & Ga & Va & Sa)|[Va Sa]]; rewrite Va; cbn [bind]; [|apply None_; intros sh H; inversion H; congruence].
    eapply fits_iff; [|apply (fits_ret a Ga)]. intros sh. split; [intros <-; constructor; exact Sa|intros H; inversion H; congruence].
  - (* to_tensor of a view *) destruct (G1 x) as [(a & Ea & Ga & Va & Sa)|[Va Sa]]; rewrite Va; cbn [bind]; [|apply None_; intros sh H; inversion H; congruence].
    eapply fits_iff; [|apply (fits_view a o _ (eq (window_shape o)) Ga HT)].
    + intros sh. split; [intros (W & V & <-); econstructor; eauto|intros H; inversion H; subst; assert (a0 = shape a) as -> by congruence; auto].
    + intros w Ew Ww Sw. rewrite tl_to_tensor_ok by exact Ww. rewrite <- Sw. apply (fits_ret (tabulate (tl_shape (LView w)) (tl_val (LView w)))). split; [apply tabulate_wf|apply Ww].
  - (* sum of a view *) destruct (G1 x) as [(a & Ea & Ga & Va & Sa)|[Va Sa]]; rewrite Va; cbn [bind]; [|apply None_; intros sh H; inversion H; congruence].
    eapply fits_iff; [|apply (fits_view a o _ (eq []) Ga HT)].
    + intros sh. split; [intros (W & V & <-); econstructor; eauto|intros H; inversion H; subst; assert (a0 = shape a) as -> by congruence; auto].
    + intros w Ew Ww Sw. rewrite tl_sum_ok by exact Ww. apply (fits_ret (raw_scalar _)). split; [reflexivity|constructor].
  - (* bmm with a view *) destruct (G1 x) as [(a & Ea & Ga & Va & Sa)|[Va Sa]]; rewrite Va; cbn [bind]; [|apply None_; intros sh H; inversion H; congruence].
    destruct (G1 y) as [(b & Eb & Gb & Vb & Sb)|[Vb Sb]]; rewrite Vb; cbn [bind]; [|apply None_; intros sh H; inversion H; congruence].
    eapply fits_iff; [|apply (fits_view b o _ (matmul (shape a) (window_shape o)) Gb HT)].
    + intros sh. split; [intros (W & V & M); econstructor; eauto|intros H; inversion H; subst; assert (a0 = shape a) as -> by congruence; assert (b0 = shape b) as -> by congruence; auto].
    + intros w Ew Ww Sw. assert (Et := tl_to_tensor_ok (LView w) Ww). rewrite (bmm_view_any a _ w Et), Et. cbn [bind].
      assert (Gr : good (tabulate (tl_shape (LView w)) (tl_val (LView w)))) by (split; [apply tabulate_wf|apply Ww]).
      destruct (fits_bmm a _ Ga Gr) as [F1 F2]. cbn [shape tabulate tl_shape] in F1, F2. rewrite Sw in F1, F2. split.
      * intros sh M. destruct (F1 sh M) as (t & E & Ht). exists t. cbn [tl_shape]. rewrite Sw, E. cbn [bind]. auto.
      * intros t E. cbn [tl_shape] in E. rewrite Sw in E. apply bind_Ret_inv in E as (t' & E & _). eauto.
Qed.

Definition values_fit (s : state T) (G : list (list nat)) : Prop := exists vs, holds_values s vs /\ Forall good vs /\ map shape vs = G.

Lemma exec_shape (s : state T) G c : values_fit s G -> tame c ->
  (forall sh, shaped G c sh -> exists s', exec s c = Ret s' /\ values_fit s' (G ++ [sh])) /\
  (forall s', exec s c = Ret s' -> exists sh, shaped G c sh).
Proof.
  intros (vs & Hv & Hg & <-) HT. pose proof (exec_value s vs c Hv HT) as HE. destruct (value_shape vs c Hg HT) as [F1 F2]. split.
  - intros sh H. destruct (F1 sh H) as (t & E & Es & W & P). rewrite E in HE. destruct HE as (s' & Es' & Hv'). exists s'. split; [exact Es'|]. exists (vs ++ [t]). split; [exact Hv'|].
    split; [apply Forall_app; split; [exact Hg|constructor; [split; [exact W|rewrite Es; exact P]|constructor]]|]. rewrite map_app. cbn. rewrite Es. reflexivity.
  - intros s' E. destruct (cmd_value vs c) as [t|p|] eqn:Ev; [eauto|congruence|congruence].
Qed.

Lemma run_shape : forall p (s : state T) G, values_fit s G -> Forall tame p ->
  (forall G', prog_shaped G p G' -> exists s', run p s = Ret s' /\ values_fit s' G') /\
  (forall s', run p s = Ret s' -> exists G', prog_shaped G p G').
Proof.
  induction p as [|c p IH]; intros s G HV HT; unfold run; cbn [foldM].
  - split; [intros G' H; inversion H; subst; eauto|]. intros s' _. exists G. constructor.
  - change (foldM exec p) with (run p). inversion HT as [|? ? Hc Hp]; subst. destruct (exec_shape s G c HV Hc) as [E1 E2]. split.
    + intros G' H. inversion H; subst. destruct (E1 _ H3) as (s1 & Es1 & HV1). rewrite Es1. cbn [bind]. apply (IH s1 _ HV1 Hp). exact H5.
    + intros s' E. apply bind_Ret_inv in E as (s1 & Es1 & E). destruct (E2 s1 Es1) as [sh Hsh]. destruct (E1 sh Hsh) as (s1' & Es1' & HV1). rewrite Es1 in Es1'. injection Es1' as <-.
      destruct (IH s1 _ HV1 Hp) as [_ I2]. destruct (I2 s' E) as [G' HG']. exists G'. econstructor; eauto.
Qed.

Lemma values_shapes (s : state T) G : values_fit s G -> var_shapes s = map Ret G.
Proof.
  intros (vs & Hv & _ & <-). unfold var_shapes. unfold holds_values in Hv. induction Hv as [|i t l l' (nd & En & <-) H IH]; [reflexivity|]. cbn [map]. unfold hget at 1, vindex. rewrite En. cbn [bind]. f_equal. exact IH.
Qed.
End Shapes.

(** C76: a program of calls that compute tensors runs without a panic exactly if its shapes follow the rules, and then its
    tensors have the shapes the rules say ... *)
Lemma c76_shapes_decide :
  forall (T : Type) (NT : Num T) (p : list (cmd T)), Forall tame p ->
    (forall G, prog_shaped [] p G -> exists s, run p init_state = Ret s /\ var_shapes s = map Ret G) /\
    (forall s, run p init_state = Ret s -> exists G, prog_shaped [] p G /\ var_shapes s = map Ret G) /\
    ((forall G, ~ prog_shaped [] p G) -> exists e, run p init_state = Panic e).
Proof.
  intros T NT p HT. assert (H0 : values_fit (init_state (T := T)) []) by (exists []; split; [constructor|auto]). destruct (run_shape p init_state [] H0 HT) as [R1 R2].
  split; [|split].
  - intros G H. destruct (R1 G H) as (s & E & V). exists s. split; [exact E|apply values_shapes, V].
  - intros s E. destruct (R2 s E) as [G HG]. exists G. split; [exact HG|]. destruct (R1 G HG) as (s' & E' & V). rewrite E in E'. injection E' as <-. apply values_shapes, V.
  - intros N. destruct (run p init_state) as [s|e|] eqn:E; [destruct (R2 s eq_refl) as [G HG]; destruct (N G HG)|eauto|].
    exfalso. revert E. apply run_nf. intros i nd k ins E. destruct i; discriminate.
Qed.
Example c76_shapes_decide_ex :
  let p : list (cmd Z) := [CNew [1; 2; 3; 4; 5; 6]%Z [3; 2]; CNew [1; 1]%Z [2; 1]; CBmm 0 1; CFiller [1; 4] 1%Z; CAdd 2 3; CViewToTensor 4 [mkSR 1 3; mkSR 0 2]; CSum 5] in
  Forall tame p /\ prog_shaped [] p [[3; 2]; [2; 1]; [3; 1]; [1; 4]; [3; 4]; [2; 2]; []] /\
  run [CNew [1; 2; 3; 4; 5; 6]%Z [3; 2]; CBmm 0 0] init_state = Panic PAssert.
Proof.
  cbv zeta. split; [repeat constructor; cbn; lia|]. split; [|vm_compute; reflexivity].
  eapply ps_cons; [apply sh_new; reflexivity|]. eapply ps_cons; [apply sh_new; reflexivity|].
  eapply ps_cons; [eapply sh_bmm; [reflexivity|reflexivity|constructor]|]. eapply ps_cons; [apply sh_filler|].
  apply (ps_cons _ _ [3; 4]); [eapply sh_add; [reflexivity|reflexivity|unfold bcast; cbn; repeat constructor]|].
  eapply ps_cons; [eapply sh_view; [reflexivity|repeat constructor; cbn; lia|repeat constructor; cbn; lia]|].
  eapply ps_cons; [eapply sh_sum; reflexivity|]. cbn. constructor.
Qed.

(** ... the rules leave no choice, and the data do not occur in them: whether and with what shapes a program runs depends on
    its calls and shapes only. *)
Lemma c76_shapes_unique :
  forall (T : Type) (NT : Num T) (p : list (cmd T)) (G G' : list (list nat)), Forall tame p -> prog_shaped [] p G -> prog_shaped [] p G' -> G = G'.
Proof.
  intros T NT p G G' HT H H'. destruct (c76_shapes_decide T NT p HT) as [R _]. destruct (R G H) as (s & E & V). destruct (R G' H') as (s' & E' & V').
  rewrite E in E'. injection E' as <-. rewrite V in V'. clear - V'. revert G' V'. induction G as [|a G IH]; intros [|b G'] V'; cbn in V'; try discriminate; [reflexivity|]. injection V' as -> V'. f_equal. auto.
Qed.
Example c76_shapes_unique_ex : prog_shaped (T := Z) [] [CScalar 2%Z; CScalar 3%Z; CMul 0 1] [[]; []; []].
Proof. do 3 (eapply ps_cons; [econstructor; reflexivity|]). constructor. Qed.
