(** * ClaimsGrad: backward computes derivatives (C31) *)
From Coq Require Import Reals Lra.
From Verif Require Import Base ModelIndex ModelTensor ModelOps ModelJvp ModelGraph Spec SpecDual SpecGraph
  Lists IndexFacts TensorFacts OpsFacts Sums JvpFacts Dual ClaimsMat Adjoint GradRing RealInst SpecReal OpDeriv GradReal
  FuelFacts GraphFacts ProgFacts BackFacts ClaimsGraph ClaimsProg ClaimsVjp SimFacts.
Local Open Scope R_scope.

Lemma one_element (x : raw R) : wf x -> size (shape x) = 1%nat -> x = mkRaw [nth 0 (array x) 0] (shape x).
Proof.
  intros W S. unfold wf in W. rewrite S in W. destruct x as [a s]. cbn in *. destruct a as [|e [|e' a]]; cbn in W; try lia. reflexivity.
Qed.

Lemma nth_error_vnth (vs : list (raw R)) n : (n < length vs)%nat -> nth_error vs n = Some (vnth vs n).
Proof. intros H. unfold vnth. apply nth_error_nth'. exact H. Qed.

(** C31, for any recorded computation: the root is one that [backward] handles exactly ([root_ok]:
    a [sum], or a one-element combination of sums, or [dot], of tensors computed with [+], [-],
    [neg], [relu], [tanh], [abs] and [bmm] of matrices of at most 32 entries), and tensor [l] is any
    other tensor that is not itself the result of a [sum].  [backward] adds the partial derivative to
    every entry of the gradient of [l], and no other number. *)
Lemma c31_backward_is_gradient :
  forall (s : state R) (r l : nat), reach tidy s -> nonempty (nodes (hp s)) -> matrices_only (nodes (hp s)) ->
    root_ok (nodes (hp s)) r -> no_kinks (nodes (hp s)) r ->
    (l < length (nodes (hp s)))%nat -> l <> r -> (forall ins, fn_of (nodes (hp s)) l <> Some (KSum, ins)) ->
    exists h', backward (hp s) r = Ret h' /\
      forall p, (p < size (shape (vof (nodes (hp s)) l)))%nat -> forall d,
        partial_derivative (nodes (hp s)) r l p d <-> gentry (grads h') l p = gentry (grads (hp s)) l p + d.
Proof.
  intros s r l HR HN HM Hroot HK Hl Hlr Hsum. set (ns := nodes (hp s)) in *.
  pose proof (reach_inv _ _ HR) as [HI _].
  assert (HG : graph_ok ns) by (apply graph_ok_of; auto; apply HI).
  assert (HGR : gr_ok ns (grads (hp s))) by (apply gr_ok_of; auto; apply shapes_reach; auto).
  assert (H1 := Hroot). destruct H1 as (Hsz & k & ins & Ef & _).
  destruct (backward_real ns (grads (hp s)) r k ins l HG HGR Hroot HK Ef Hl Hlr Hsum) as (gr' & Ec & HGR' & Hd).
  assert (Hr : (r < length ns)%nat).
  { unfold fn_of in Ef. destruct (nth_error ns r) eqn:En; [|discriminate]. apply nth_error_Some. congruence. }
  assert (Wn : forall n, (n < length ns)%nat -> wf (vof ns n)).
  { intros n Hn. unfold vof. destruct (nth_error ns n) as [nd|] eqn:En; [apply (HG n nd En)|apply nth_error_None in En; lia]. }
  exists (mkHeap ns gr'). split.
  { apply (backward_compute (hp s) r k ins gr'); auto. unfold wf in Wn. fold ns. rewrite (Wn r Hr). exact Hsz. }
  intros p Hp. cbn [grads]. destruct (Hd p Hp) as (d0 & E0 & HV).
  (* the family of re-evaluations *)
  set (vs t := match reeval ns l (bump (vof ns l) p t) with Ret v => v | _ => [] end).
  assert (RE : forall t, reeval ns l (bump (vof ns l) p t) = Ret (vs t) /\ length (vs t) = length ns /\
    (forall n, (n < length ns)%nat -> same_form (vof ns n) (vnth (vs t) n)) /\ vnth (vs t) l = bump (vof ns l) p t /\
    (forall n, (n < length ns)%nat -> n <> l -> fn_of ns n = None -> vnth (vs t) n = vof ns n) /\
    (forall n k ins, n <> l -> fn_of ns n = Some (k, ins) -> opspec k (map (vnth (vs t)) ins) (vnth (vs t) n))).
  { intros t. destruct (reeval_ok ns HG l (bump (vof ns l) p t) Hl (bump_form _ p t (Wn l Hl))) as (v & E & Q). unfold vs. rewrite E. auto. }
  assert (D : derivable_pt_lim (fun t => nth 0 (array (vnth (vs t) r)) 0) 0 d0).
  { apply (HV (fun t n => vnth (vs t) n)).
    - destruct (RE 0) as (_ & _ & _ & Q4 & Q5 & Q6). rewrite bump_zero in Q4.
      intros n. induction n as [n IH] using lt_wf_ind. intros Hn. destruct (Nat.eq_dec n l) as [->|Hne]; [exact Q4|].
      destruct (fn_of ns n) as [[k' ins']|] eqn:Ef'; [|apply Q5; auto].
      specialize (Q6 n k' ins' Hne Ef'). destruct (op_ok ns HG n k' ins' Ef') as (_ & Hlt & O).
      assert (EQ : map (vnth (vs 0)) ins' = map (vof ns) ins').
      { apply map_ext_in. intros i Hi. rewrite Forall_forall in Hlt. specialize (Hlt i Hi). apply IH; lia. }
      rewrite EQ in Q6. apply opspec_fwd in Q6, O. rewrite O in Q6. injection Q6 as ->. reflexivity.
    - intros t. apply RE.
    - intros t. apply RE.
    - intros t. apply RE. }
  assert (HD : partial_derivative ns r l p d0).
  { exists vs. split; [intros t; apply RE|]. exists (fun t => nth 0 (array (vnth (vs t) r)) 0). split; [|exact D].
    intros t. destruct (RE t) as (_ & Q2 & Q3 & _). exists (shape (vnth (vs t) r)). rewrite nth_error_vnth by lia. f_equal.
    destruct (Q3 r Hr) as [W S]. apply one_element; [exact W|]. rewrite S. exact Hsz. }
  intros d. split.
  - intros (vs' & R' & f & Hf & Df). rewrite E0. f_equal. symmetry. eapply uniqueness_limite; [exact Df|].
    eapply derivable_pt_lim_ext; [|exact D]. intros t. destruct (Hf t) as (sh & Hf'). specialize (R' t). destruct (RE t) as (R2 & L & _). rewrite R2 in R'. injection R' as R'. rewrite <- R' in Hf'.
    rewrite nth_error_vnth in Hf' by lia. injection Hf' as ->. reflexivity.
  - intros E. rewrite E0 in E. assert (d0 = d) by lra. subst. exact HD.
Qed.
Example c31_backward_is_gradient_ex : exists (s : state R), reach tidy s /\ nonempty (nodes (hp s)) /\ matrices_only (nodes (hp s)) /\
  root_ok (nodes (hp s)) 3%nat /\ no_kinks (nodes (hp s)) 3%nat /\ (1 < length (nodes (hp s)))%nat.
Proof.
  eexists. split; [eapply (run_reach R RNum tidy [CNew [1; 2] [1; 2]%nat; CScalar (-5); CAdd 0%nat 1%nat; CSum 2%nat] init_state); [apply reach_init| | |reflexivity]|].
  - repeat constructor; intros x y; discriminate.
  - repeat constructor; intros x y o; discriminate.
  - set (ns := nodes _). split; [|split; [|split; [|split]]].
    + intros n Hn. destruct n as [|[|[|[|n]]]]; [..|cbn in Hn; lia]; cbn; repeat constructor; lia.
    + intros n ins E. destruct n as [|[|[|[|n]]]]; cbn in E; try discriminate. destruct n; discriminate.
    + split; [reflexivity|]. exists KSum, [2%nat]. split; [reflexivity|]. apply (top_sum _ _ 2); [cbn; lia|reflexivity|].
      eapply (plain_op _ _ KAdd); [cbn; lia|reflexivity|discriminate|discriminate|discriminate|].
      intros i [<-|[<-|[]]]; apply plain_leaf; cbn; auto; lia.
    + intros n k ins i _ E Hk Hin. destruct n as [|[|[|[|n]]]]; cbn in E; try discriminate; try (injection E as <- <-; destruct Hk; discriminate).
      destruct n; discriminate.
    + cbn. lia.
Qed.

(** ** Programs *)
Section Program.
Variables (p1 p2 : list (cmd R)) (a : list R) (sh : list nat) (st : state R) (y r : nat).
Let prog (a' : list R) : list (cmd R) := p1 ++ CNew a' sh :: p2.
Hypotheses (HD : forallb differentiable (prog a) = true) (HRun : run (prog a) init_state = Ret st)
  (HN : nonempty (nodes (hp st))) (HM : matrices_only (nodes (hp st))).

Lemma diff_tidy p : forallb (@differentiable R) p = true -> Forall tidy p /\ Forall (fun c : cmd R => forall x y o, c <> CMulView x y o) p.
Proof.
  intros H. rewrite forallb_forall in H. split; apply Forall_forall; intros c Hc; specialize (H c Hc).
  - intros x z ->. discriminate H.
  - intros x z o ->. discriminate H.
Qed.
Lemma st_reach : reach tidy st.
Proof. destruct (diff_tidy _ HD). eapply run_reach; eauto. apply reach_init. Qed.
Lemma st_inv : inv st.
Proof. eapply reach_inv, st_reach. Qed.
Lemma st_good : good (hp st).
Proof. split; [apply st_inv|auto]. Qed.

Lemma run_app (p q : list (cmd R)) s : run (p ++ q) s = let* s' := run p s in run q s'.
Proof. unfold run. revert s. induction p as [|c p IH]; intros s; [reflexivity|]. cbn [foldM app]. destruct (exec s c); cbn [bind]; auto. Qed.

(** The run on bumped data *)
Lemma bumped_run : exists l, nth_error (env st) (length p1) = Some l /\ (l < length (nodes (hp st)))%nat /\
  vof (nodes (hp st)) l = mkRaw a sh /\ fn_of (nodes (hp st)) l = None /\
  forall q t, exists st', run (prog (list_set a q (nth q a 0 + t))) init_state = Ret st' /\ ssim l st st' /\ inv st' /\
    vof (nodes (hp st')) l = bump (mkRaw a sh) q t.
Proof.
  assert (HD' := HD). unfold prog in HD'. rewrite forallb_app in HD'. apply andb_prop in HD' as [D1 D2]. cbn [forallb] in D2.
  assert (R' := HRun). unfold prog in R'. rewrite run_app in R'. apply bind_Ret_inv in R' as (s1 & E1 & R').
  unfold run in R'. cbn [foldM] in R'. apply bind_Ret_inv in R' as (s2 & E2 & E3). fold (run p2 s2) in E3. cbn [differentiable] in D2. rewrite andb_true_l in D2.
  destruct (run_diff_inv p1 _ _ inv_init D1 E1) as (I1 & L1 & _). cbn [env init_state length] in L1.
  assert (E2' := E2). cbn [exec] in E2'. unfold push in E2'. apply bind_Ret_inv in E2' as ([h2 i2] & En & E2'). apply Ret_inj in E2'.
  unfold op_new in En. apply bind_Ret_inv in En as (x & Ex & En). apply Ret_inj in En. unfold alloc in En. injection En as Eh Ei.
  assert (Exf := Ex). unfold raw_new, assert in Exf. destruct (product sh =? length a)%nat eqn:EL; cbn [bind] in Exf; [|discriminate]. apply Ret_inj in Exf. subst x.
  set (l := length (nodes (hp s1))) in *. exists l.
  destruct (exec_diff_inv s1 (CNew a sh) s2 I1 eq_refl E2) as (I2 & _).
  destruct (run_diff_inv p2 s2 st I2 D2 E3) as (I3 & L3 & (e & Ee) & _).
  assert (N2 : nodes (hp s2) = nodes (hp s1) ++ [mkNode (mkRaw a sh) None]) by (subst s2 h2; reflexivity).
  assert (Ll : (l < length (nodes (hp s2)))%nat) by (rewrite N2, app_length; cbn; unfold l; lia).
  assert (V2 : nth_error (nodes (hp s2)) l = Some (mkNode (mkRaw a sh) None)) by (rewrite N2, nth_error_app2, Nat.sub_diag by auto; reflexivity).
  destruct (run_extends p2 s2 st E3) as [ext X].
  assert (V3 : nth_error (nodes (hp st)) l = Some (mkNode (mkRaw a sh) None)) by (rewrite X, nth_error_app1 by auto; exact V2).
  split. { rewrite Ee. subst s2. cbn [env]. rewrite <- app_assoc, nth_error_app2 by lia. rewrite L1, Nat.add_0_l, Nat.sub_diag. cbn. congruence. }
  split. { apply nth_error_Some. congruence. }
  split. { unfold vof. rewrite V3. reflexivity. }
  split. { unfold fn_of. rewrite V3. reflexivity. }
  intros q t. set (a' := list_set a q (nth q a 0 + t)).
  assert (La : length a' = length a) by (unfold a'; apply list_set_length).
  assert (En' : raw_new a' sh = Ret (mkRaw a' sh)) by (unfold raw_new, assert; rewrite La, EL; reflexivity).
  destruct (exec s1 (CNew a' sh)) as [s2'| |] eqn:E2b; [|cbn [exec] in E2b; unfold op_new in E2b; rewrite En' in E2b; discriminate..].
  assert (S2 : ssim l s2 s2').
  { cbn [exec] in E2b. unfold op_new in E2b. rewrite En' in E2b. cbn [bind] in E2b. unfold push in E2b.
    destruct (alloc (hp s1) (mkRaw a' sh) None None) as [h2' i2'] eqn:Eal. cbn [bind] in E2b. apply Ret_inj in E2b.
    destruct (alloc_sim l (hp s1) (hp s1) (mkRaw a sh) (mkRaw a' sh) None None None h2 i2 h2' i2') as [HS ->].
    - apply hsim_refl. apply I1.
    - split; [|reflexivity]. unfold wf. cbn. rewrite La. apply Nat.eqb_eq in EL. rewrite product_size in EL. symmetry. exact EL.
    - intros _ Hne. exfalso. apply Hne. reflexivity.
    - unfold alloc. subst h2 i2. reflexivity.
    - exact Eal.
    - subst s2 s2'. split; [reflexivity|exact HS]. }
  destruct (run_sim l p2 s2 s2' st Ll I2 st_good S2 D2 E3) as (st' & E3' & S3).
  exists st'. split. { unfold prog. rewrite run_app, E1. cbn [bind]. unfold run at 1. cbn [foldM]. rewrite E2b. cbn [bind]. exact E3'. }
  split; [exact S3|].
  destruct (exec_diff_inv s1 (CNew a' sh) s2' I1 eq_refl E2b) as (I2' & _). destruct (run_diff_inv p2 s2' st' I2' D2 E3') as (I3' & _).
  split; [exact I3'|].
  destruct (run_extends p2 s2' st' E3') as [ext' X'].
  assert (N2' : nodes (hp s2') = nodes (hp s1) ++ [mkNode (mkRaw a' sh) None]).
  { cbn [exec] in E2b. unfold op_new in E2b. rewrite En' in E2b. cbn [bind] in E2b. unfold push, alloc in E2b. cbn [bind] in E2b. apply Ret_inj in E2b. subst s2'. reflexivity. }
  unfold vof. rewrite X', N2', <- app_assoc, nth_error_app2, Nat.sub_diag by (unfold l; lia). reflexivity.
Qed.

Lemma program_gradient : nth_error (env st) y = Some r -> root_ok (nodes (hp st)) r -> no_kinks (nodes (hp st)) r ->
  exists st', exec st (CBackward y) = Ret st' /\
    (forall l, nth_error (env st) (length p1) = Some l -> (var_grad st' (length p1) = None <-> ~ uses (nodes (hp st)) r l)) /\
    forall q, (q < length a)%nat -> program_derivative (fun t => prog (list_set a q (nth q a 0 + t))) y (grad_entry st' (length p1) q).
Proof.
  intros Ey Hroot HK. destruct bumped_run as (l & El & Hl & Vl & Fl & HB).
  set (ns := nodes (hp st)) in *.
  pose proof st_inv as [HI HE]. pose proof st_reach as HR.
  assert (HG : graph_ok ns) by (apply graph_ok_of; auto; apply HI).
  assert (HGR : gr_ok ns (grads (hp st))) by (apply gr_ok_of; auto; apply shapes_reach; auto).
  assert (H1 := Hroot). destruct H1 as (Hsz & k & ins & Ef & _).
  assert (Hlr : l <> r) by congruence.
  assert (Hr : (r < length ns)%nat).
  { unfold fn_of in Ef. destruct (nth_error ns r) eqn:En; [|discriminate]. apply nth_error_Some. congruence. }
  assert (Wn : forall n, (n < length ns)%nat -> wf (vof ns n)).
  { intros n Hn. unfold vof. destruct (nth_error ns n) as [nd|] eqn:En; [apply (HG n nd En)|apply nth_error_None in En; lia]. }
  destruct (backward_real ns (grads (hp st)) r k ins l HG HGR Hroot HK Ef Hl Hlr) as (gr' & Ec & HGR' & Hd); [congruence|].
  assert (EB : backward (hp st) r = Ret (mkHeap ns gr')).
  { apply (backward_compute (hp st) r k ins gr'); auto. fold ns. specialize (Wn r Hr). unfold wf in Wn. rewrite Wn. exact Hsz. }
  assert (G0 : grads (hp st) l = None).
  { destruct (grads (hp st) l) as [g|] eqn:Eg; [|reflexivity]. exfalso.
    destruct (run_diff_inv (prog a) _ _ inv_init HD HRun) as (_ & _ & _ & Q). destruct (Q ltac:(intros j g' H; discriminate H) l g Eg) as (i & Ei). fold ns in Ei. congruence. }
  exists (mkState (mkHeap ns gr') (env st)). split.
  { cbn [exec]. rewrite (vindex_some _ _ _ _ Ey). cbn [bind]. rewrite EB. reflexivity. }
  split.
  { intros l0 El0. rewrite El in El0. injection El0 as <-. unfold var_grad. cbn [env hp]. rewrite El.
    pose proof (backward_presence (hp st) (mkHeap ns gr') r l HI EB Hlr) as Q. cbn [grads] in Q |- *. fold ns in Q. tauto. }
  intros q Hq. destruct (Hd q) as (d & Ed & HV).
  { rewrite Vl. cbn. assert (W := Wn l Hl). rewrite Vl in W. unfold wf in W. cbn in W. lia. }
  unfold program_derivative.
  set (S t := match run (prog (list_set a q (nth q a 0 + t))) init_state with Ret s => s | _ => init_state end).
  assert (HS : forall t, run (prog (list_set a q (nth q a 0 + t))) init_state = Ret (S t) /\ ssim l st (S t) /\ inv (S t) /\ vof (nodes (hp (S t))) l = bump (mkRaw a sh) q t).
  { intros t. destruct (HB q t) as (s' & E & Q). unfold S. rewrite E. auto. }
  set (V t n := vof (nodes (hp (S t))) n).
  assert (HF : forall t n, (n < length ns)%nat -> same_form (vof ns n) (V t n) /\ fn_of (nodes (hp (S t))) n = fn_of ns n /\ (fn_of ns n = None -> n <> l -> V t n = vof ns n)).
  { intros t n Hn. destruct (HS t) as (_ & [_ [_ HN']] & _). destruct (nth_error ns n) as [nd|] eqn:En; [|apply nth_error_None in En; lia].
    destruct (HN' n nd En) as (nd' & E' & F & SF & LF). unfold V, vof, fn_of. rewrite E', En. auto. }
  assert (D : derivable_pt_lim (fun t => nth 0 (array (V t r)) 0) 0 d).
  { apply HV.
    - intros n Hn. unfold V, S. rewrite Rplus_0_r, list_set_nth_same, HRun. reflexivity.
    - intros t. rewrite Vl. apply HS.
    - intros t n Hn Hne Fn. apply HF; auto.
    - intros t n k' ins' Hne Fn. destruct (HS t) as (_ & [_ [HL' _]] & [[HRec _] _] & _).
      destruct (op_ok ns HG n k' ins' Fn) as (Hn & Hlt & O). destruct (HF t n Hn) as (SF & Fn' & _). rewrite Fn in Fn'.
      assert (Q := Fn'). unfold fn_of in Q. destruct (nth_error (nodes (hp (S t))) n) as [nd|] eqn:En; [|discriminate]. destruct (HRec n nd En) as [_ HRec']. destruct (HRec' _ _ Q) as [_ F].
      assert (EV : V t n = n_val nd) by (unfold V, vof; rewrite En; reflexivity). rewrite EV. rewrite Forall_forall in Hlt.
      destruct (opspec_form k' (map (vof ns) ins') (map (V t) ins') _ O) as (y' & O' & _).
      { clear - Hlt HF Hn. induction ins' as [|i ins' IH]; cbn [map]; constructor; [|apply IH; intros; apply Hlt; right; auto].
        specialize (Hlt i ltac:(left; reflexivity)). apply HF. lia. }
      pose proof (opspec_fwd _ _ _ O') as O2. fold (V t) in F. change (vof (nodes (hp (S t)))) with (V t) in F. rewrite F in O2. injection O2 as ->. exact O'. }
  exists (fun t => nth 0 (array (V t r)) 0). split.
  - intros t. exists (S t), (shape (V t r)). destruct (HS t) as (E & [Ee [HL _]] & _). split; [exact E|].
    unfold var_value. rewrite Ee, (vindex_some _ _ _ _ Ey). cbn [bind]. destruct (HF t r Hr) as ([W Sh] & _).
    unfold hget. destruct (nth_error (nodes (hp (S t))) r) as [nd|] eqn:En; [|apply nth_error_None in En; fold ns in HL; lia]. rewrite (vindex_some _ _ _ _ En). cbn [bind].
    f_equal. assert (EV : V t r = n_val nd) by (unfold V, vof; rewrite En; reflexivity). rewrite <- EV. apply one_element; [exact W|]. rewrite Sh. exact Hsz.
  - assert (EG : grad_entry (mkState (mkHeap ns gr') (env st)) (length p1) q = d).
    { unfold grad_entry, var_grad. cbn [env hp grads]. rewrite El. unfold gentry in Ed. rewrite G0 in Ed. cbn [n_zero RNum] in Ed. destruct (gr' l); rewrite Ed; lra. }
    rewrite EG. exact D.
Qed.

End Program.

(** C31, for programs of leaf constructors, [+], [-], [neg], [relu], [tanh], [abs], [bmm], [sum] and
    [dot], with a root that [backward] handles exactly ([root_ok]).  After [backward] the gradient of
    the leaf [CNew a sh] is the list of derivatives of the root's value with respect to the entries
    of [a], when the whole program is run again on changed data; it is missing exactly for leaves the
    root does not use. *)
Lemma c31_program_gradient :
  forall (p1 p2 : list (cmd R)) (a : list R) (sh : list nat) (st : state R) (y r : nat),
    forallb differentiable (p1 ++ CNew a sh :: p2) = true -> run (p1 ++ CNew a sh :: p2) init_state = Ret st ->
    nonempty (nodes (hp st)) -> matrices_only (nodes (hp st)) ->
    nth_error (env st) y = Some r -> root_ok (nodes (hp st)) r -> no_kinks (nodes (hp st)) r ->
    exists st', exec st (CBackward y) = Ret st' /\
      (forall l, nth_error (env st) (length p1) = Some l ->
         (var_grad st' (length p1) = None <-> ~ uses (nodes (hp st)) r l)) /\
      forall q, (q < length a)%nat ->
        program_derivative (fun t => p1 ++ CNew (list_set a q (nth q a 0 + t)) sh :: p2) y (grad_entry st' (length p1) q).
Proof.
  intros p1 p2 a sh st y r HD HR HN HM. exact (program_gradient p1 p2 a sh st y r HD HR HN HM).
Qed.

Example c31_program_gradient_ex : exists st : state R,
  forallb differentiable ([] ++ CNew [1; 2] [1; 2]%nat :: [CScalar (-5); CAdd 0 1; CTanh 2; CSum 3; CNeg 0; CSum 5; CAdd 4 6]) = true /\
  run ([] ++ CNew [1; 2] [1; 2]%nat :: [CScalar (-5); CAdd 0 1; CTanh 2; CSum 3; CNeg 0; CSum 5; CAdd 4 6]) init_state = Ret st /\
  nonempty (nodes (hp st)) /\ matrices_only (nodes (hp st)) /\ nth_error (env st) 7 = Some 7%nat /\ root_ok (nodes (hp st)) 7 /\ no_kinks (nodes (hp st)) 7.
Proof.
  eexists. split; [reflexivity|]. split; [vm_compute; reflexivity|]. cbn [hp nodes env]. split; [|split; [|split; [|split]]].
  - intros n Hn. do 8 (destruct n as [|n]; [cbn; repeat constructor; lia|]). cbn in Hn. lia.
  - intros n ins F. do 8 (destruct n as [|n]; [cbn in F; try discriminate F|]). destruct n; discriminate F.
  - reflexivity.
  - split; [reflexivity|]. exists KAdd, [4; 6]%nat. split; [reflexivity|]. apply (top_add _ _ 4 6); [cbn; lia|reflexivity|reflexivity| |].
    + apply (top_sum _ _ 3); [cbn; lia|reflexivity|]. apply (plain_op _ _ KTanh [2%nat]); [cbn; lia|reflexivity|discriminate..|].
      intros i [<-|[]]. apply (plain_op _ _ KAdd [0; 1]%nat); [cbn; lia|reflexivity|discriminate..|].
      intros i [<-|[<-|[]]]; apply plain_leaf; cbn; auto; lia.
    + apply (top_sum _ _ 5); [cbn; lia|reflexivity|]. apply (plain_op _ _ KNeg [0%nat]); [cbn; lia|reflexivity|discriminate..|].
      intros i [<-|[]]; apply plain_leaf; cbn; auto; lia.
  - intros n k ins i _ F Hk Hin. do 8 (destruct n as [|n]; [cbn in F; try discriminate F; injection F as <- <-; try (destruct Hk; discriminate)|]).
    destruct n; discriminate F.
Qed.

Definition no_sum_dot (ns : list (node R)) : Prop := forall n k ins, fn_of ns n = Some (k, ins) -> k <> KSum /\ k <> KDot.

Lemma nsd_alloc h v fn (g : option (raw R)) : no_sum_dot (nodes h) -> (forall k ins, fn = Some (k, ins) -> k <> KSum /\ k <> KDot) ->
  no_sum_dot (nodes (fst (alloc h v fn g))).
Proof.
  intros H Hf n k ins E. unfold alloc in E. cbn [fst nodes] in E. destruct (Nat.lt_ge_cases n (length (nodes h))) as [Hlt|Hge].
  - rewrite fn_app_old in E by auto. eauto.
  - unfold fn_of in E. rewrite nth_error_app2 in E by auto. destruct (n - length (nodes h))%nat as [|m]; cbn in E; [eauto|]. destruct m; discriminate.
Qed.

Definition nsd (r : outcome (heap R * nat)) : Prop := forall h i, r = Ret (h, i) -> no_sum_dot (nodes h).
Lemma nsd_bind A (m : outcome A) F : (forall a, m = Ret a -> nsd (F a)) -> nsd (let* a := m in F a).
Proof. intros H h i E. apply bind_Ret_inv in E as (a & Ea & E). exact (H a Ea h i E). Qed.
Lemma nsd_ret h v fn (g : option (raw R)) : no_sum_dot (nodes h) -> (forall k ins, fn = Some (k, ins) -> k <> KSum /\ k <> KDot) -> nsd (Ret (alloc h v fn g)).
Proof. intros H Hf h' i E. apply Ret_inj in E. pose proof (nsd_alloc h v fn g H Hf) as Q. rewrite E in Q. exact Q. Qed.
Lemma push_nsd (s s' : state R) r : nsd r -> push s r = Ret s' -> no_sum_dot (nodes (hp s')).
Proof. intros H E. unfold push in E. apply bind_Ret_inv in E as ([h i] & Er & E). apply Ret_inj in E. subst s'. exact (H h i Er). Qed.

Lemma exec_nsd (s s' : state R) c : graph_cmd c = true -> exec s c = Ret s' -> no_sum_dot (nodes (hp s)) -> no_sum_dot (nodes (hp s')).
Proof.
  intros Hc E H.
  assert (N : forall h i, no_sum_dot (nodes h) -> nsd (op_neg h i)).
  { intros h i Hh. unfold op_neg. apply nsd_bind; intros ? _. apply nsd_bind; intros ? _. apply nsd_ret; auto. intros k ins [= <- <-]. split; discriminate. }
  assert (A : forall h i j, no_sum_dot (nodes h) -> nsd (op_add h i j)).
  { intros h i j Hh. unfold op_add. do 3 (apply nsd_bind; intros ? _). apply nsd_ret; auto. intros k ins [= <- <-]. split; discriminate. }
  destruct c; try discriminate Hc; cbn [exec] in E;
    repeat (match type of E with (let* _ := vindex _ _ in _) = _ => apply bind_Ret_inv in E as (? & _ & E) end);
    apply (push_nsd _ _ _) in E; auto;
    try (unfold op_new, op_filler, op_scalar, op_from, op_abs, op_relu, op_tanh, op_bmm;
         repeat (apply nsd_bind; intros ? _); apply nsd_ret; auto; intros k ins; try discriminate; intros [= <- <-]; split; discriminate).
  unfold op_sub. apply nsd_bind. intros [h1 n1] E1. apply A. eapply N; eauto.
Qed.

Lemma run_nsd p : forall s s' : state R, forallb graph_cmd p = true -> run p s = Ret s' -> no_sum_dot (nodes (hp s)) -> no_sum_dot (nodes (hp s')).
Proof.
  unfold run. induction p as [|c p IH]; intros s s' Hp E H; cbn [foldM] in E; [injection E as <-; exact H|].
  cbn [forallb] in Hp. apply andb_prop in Hp as [Hc Hp]. apply bind_Ret_inv in E as (s0 & E0 & E). eapply IH; eauto. eapply exec_nsd; eauto.
Qed.

Lemma graph_diff p : forallb graph_cmd p = true -> forallb differentiable p = true.
Proof.
  rewrite !forallb_forall. intros H c Hc. specialize (H c Hc). destruct c; try discriminate H; reflexivity.
Qed.

Lemma sum_root (p : list (cmd R)) x st : forallb graph_cmd p = true -> run (p ++ [CSum x]) init_state = Ret st -> small_bmm (nodes (hp st)) ->
  exists r, nth_error (env st) (length p) = Some r /\ root_ok (nodes (hp st)) r.
Proof.
  intros Hp E HS. rewrite run_app in E. apply bind_Ret_inv in E as (s1 & E1 & E). unfold run in E. cbn [foldM] in E. apply bind_Ret_inv in E as (s2 & E2 & E). apply Ret_inj in E. subst s2.
  destruct (run_diff_inv p _ _ inv_init (graph_diff p Hp) E1) as (I1 & L1 & _). cbn [env init_state length] in L1.
  assert (N1 : no_sum_dot (nodes (hp s1))) by (eapply run_nsd; eauto; intros n k ins H; destruct n; discriminate H).
  destruct (exec_diff_inv s1 (CSum x) st I1 eq_refl E2) as (I2 & X & _).
  cbn [exec] in E2. apply bind_Ret_inv in E2 as (i & Ei & E2). pose proof (inv_env s1 x i I1 Ei) as Hi.
  unfold push in E2. apply bind_Ret_inv in E2 as ([h2 r] & Es & E2). apply Ret_inj in E2.
  unfold op_sum in Es. apply bind_Ret_inv in Es as (nd & End & Es). apply bind_Ret_inv in Es as (v & Ev & Es). apply Ret_inj in Es.
  unfold alloc in Es. injection Es as Eh Er.
  assert (NE : nodes (hp st) = nodes (hp s1) ++ [mkNode v (Some (KSum, [i]))]) by (subst st h2; reflexivity).
  assert (Fr : fn_of (nodes (hp st)) r = Some (KSum, [i])).
  { unfold fn_of. rewrite NE, nth_error_app2 by lia. rewrite Er, Nat.sub_diag. reflexivity. }
  assert (Vr : vof (nodes (hp st)) r = v).
  { unfold vof. rewrite NE, nth_error_app2 by lia. rewrite Er, Nat.sub_diag. reflexivity. }
  exists r. split. { subst st. cbn [env]. rewrite nth_error_app2 by lia. rewrite L1, Nat.add_0_l, Nat.sub_diag. reflexivity. }
  assert (PL : forall n, (n < length (nodes (hp s1)))%nat -> plain (nodes (hp st)) n).
  { intros n. induction n as [n IH] using lt_wf_ind. intros Hn. assert (Hn2 : (n < length (nodes (hp st)))%nat) by (rewrite NE, app_length; lia).
    destruct (fn_of (nodes (hp st)) n) as [[k ins]|] eqn:Ef; [|apply plain_leaf; auto].
    assert (Ef1 : fn_of (nodes (hp s1)) n = Some (k, ins)) by (rewrite NE, fn_app_old in Ef by auto; exact Ef).
    destruct (N1 n k ins Ef1) as [K1 K2]. eapply plain_op; eauto.
    - intros ->. exact (HS n ins Ef).
    - intros j Hj. unfold fn_of in Ef1. destruct (nth_error (nodes (hp s1)) n) as [nd'|] eqn:En; [|discriminate].
      destruct (proj1 (proj1 I1) n nd' En) as [_ F]. destruct (F _ _ Ef1) as [Hlt _]. rewrite Forall_forall in Hlt. specialize (Hlt j Hj). apply IH; lia. }
  split.
  - rewrite Vr. pose proof (fwd_sum_shape [n_val nd] v Ev) as ->. reflexivity.
  - exists KSum, [i]. split; [exact Fr|]. apply (top_sum _ _ i); auto. rewrite NE, app_length. cbn. subst r. lia.
Qed.

(** C31 for programs that build a tensor from leaves with [+], [-], [neg], [relu], [tanh], [abs] and
    [bmm] of matrices of at most 32 entries and then take its [sum]. *)
Lemma c31_sum_programs :
  forall (p1 p2 : list (cmd R)) (a : list R) (sh : list nat) (x : nat) (st : state R),
    forallb graph_cmd (p1 ++ CNew a sh :: p2) = true -> run ((p1 ++ CNew a sh :: p2) ++ [CSum x]) init_state = Ret st ->
    nonempty (nodes (hp st)) -> matrices_only (nodes (hp st)) -> small_bmm (nodes (hp st)) ->
    exists r, nth_error (env st) (length (p1 ++ CNew a sh :: p2)) = Some r /\
      (no_kinks (nodes (hp st)) r ->
       exists st', exec st (CBackward (length (p1 ++ CNew a sh :: p2))) = Ret st' /\
         (forall l, nth_error (env st) (length p1) = Some l ->
            (var_grad st' (length p1) = None <-> ~ uses (nodes (hp st)) r l)) /\
         forall q, (q < length a)%nat ->
           program_derivative (fun t => (p1 ++ CNew (list_set a q (nth q a 0 + t)) sh :: p2) ++ [CSum x])
             (length (p1 ++ CNew a sh :: p2)) (grad_entry st' (length p1) q)).
Proof.
  intros p1 p2 a sh x st Hp E HN HM HS. destruct (sum_root _ x st Hp E HS) as (r & Er & Hroot). exists r. split; [exact Er|]. intros HK.
  assert (AS : forall a' : list R, (p1 ++ CNew a' sh :: p2) ++ [CSum x] = p1 ++ CNew a' sh :: (p2 ++ [CSum x])) by (intros a'; rewrite <- app_assoc; reflexivity).
  rewrite AS in E.
  assert (HD : forallb differentiable (p1 ++ CNew a sh :: p2 ++ [CSum x]) = true).
  { rewrite <- AS, forallb_app, (graph_diff _ Hp). reflexivity. }
  destruct (c31_program_gradient p1 (p2 ++ [CSum x]) a sh st _ r HD E HN HM Er Hroot HK) as (st' & E1 & E2 & E3).
  exists st'. split; [exact E1|]. split; [exact E2|]. intros q Hq. destruct (E3 q Hq) as (f & Hf & Df). exists f. split; [|exact Df].
  intros t. rewrite AS. apply Hf.
Qed.

Example c31_sum_programs_ex : exists st : state R,
  forallb graph_cmd ([CScalar 3] ++ CNew [1; 2] [1; 2]%nat :: [CNew [1; 4] [2; 1]%nat; CRelu 1; CBmm 3 2; CSub 4 0]) = true /\
  run (([CScalar 3] ++ CNew [1; 2] [1; 2]%nat :: [CNew [1; 4] [2; 1]%nat; CRelu 1; CBmm 3 2; CSub 4 0]) ++ [CSum 5]) init_state = Ret st /\
  nonempty (nodes (hp st)) /\ matrices_only (nodes (hp st)) /\ small_bmm (nodes (hp st)) /\ no_kinks (nodes (hp st)) 7.
Proof.
  eexists. split; [reflexivity|]. split; [vm_compute; reflexivity|]. cbn [hp nodes]. split; [|split; [|split]].
  - intros n Hn. do 8 (destruct n as [|n]; [cbn; repeat constructor; lia|]). cbn in Hn. lia.
  - intros n ins F. do 8 (destruct n as [|n]; [cbn in F; try discriminate F; injection F as <-; repeat constructor|]). destruct n; discriminate F.
  - intros n ins F. do 8 (destruct n as [|n]; [cbn in F; try discriminate F; injection F as <-; repeat constructor; cbn; lia|]). destruct n; discriminate F.
  - intros n k ins i _ F Hk Hin. do 8 (destruct n as [|n]; [cbn in F; try discriminate F; injection F as <- <-; first [destruct Hk; discriminate|destruct Hin as [<-|[]]; repeat constructor; cbn; lra]|]).
    destruct n; discriminate F.
Qed.

(** C31 as stated, without the bound on the matrices: false. *)
Lemma c31_all_sizes_refuted :
  ~ (forall (p1 p2 : list (cmd R)) (a : list R) (sh : list nat) (x : nat) (st : state R),
       forallb graph_cmd (p1 ++ CNew a sh :: p2) = true -> run ((p1 ++ CNew a sh :: p2) ++ [CSum x]) init_state = Ret st ->
       nonempty (nodes (hp st)) -> matrices_only (nodes (hp st)) ->
       exists r, nth_error (env st) (length (p1 ++ CNew a sh :: p2)) = Some r /\
         (no_kinks (nodes (hp st)) r ->
          exists st', exec st (CBackward (length (p1 ++ CNew a sh :: p2))) = Ret st' /\
            forall q, (q < length a)%nat ->
              program_derivative (fun t => (p1 ++ CNew (list_set a q (nth q a 0 + t)) sh :: p2) ++ [CSum x])
                (length (p1 ++ CNew a sh :: p2)) (grad_entry st' (length p1) q))).
Proof.
  intros H. set (a := repeat 0 33). set (b := repeat 0 32 ++ [1]).
  destruct (c33_bmm_gradient_shuffled R RNum R_is_ring a b 1 33 1 eq_refl eq_refl ltac:(lia) ltac:(lia) ltac:(lia)) as (s' & ga & gb & E & E0 & _ & _ & _ & HA & _).
  change (run (([] ++ CNew a [1; 33]%nat :: [CNew b [33; 1]%nat; CBmm 0 1]) ++ [CSum 2] ++ [CBackward 3]) init_state = Ret s') in E. rewrite app_assoc, run_app in E. apply bind_Ret_inv in E as (st & E & EB).
  destruct (H [] [CNew b [33; 1]%nat; CBmm 0 1] a [1; 33]%nat 2%nat st eq_refl E) as (r & Er & Q).
  - pose proof E as E'. vm_compute in E'. apply Ret_inj in E'. subst st. intros n Hn. do 4 (destruct n as [|n]; [cbn; repeat constructor; lia|]). cbn in Hn. lia.
  - pose proof E as E'. vm_compute in E'. apply Ret_inj in E'. subst st. intros n ins F. do 4 (destruct n as [|n]; [cbn in F; try discriminate F; injection F as <-; repeat constructor|]). destruct n; discriminate F.
  - destruct Q as (st' & E' & Q).
    { pose proof E as E'. vm_compute in E'. apply Ret_inj in E'. subst st. intros n k ins i _ F Hk. do 4 (destruct n as [|n]; [cbn in F; try discriminate F; injection F as <- <-; destruct Hk; discriminate|]). destruct n; discriminate F. }
    unfold run in EB. cbn [foldM] in EB. cbn [length app] in E'. rewrite E' in EB. cbn [bind] in EB. apply Ret_inj in EB. subst st'.
    destruct (Q 0%nat ltac:(cbn; lia)) as (f & Hf & Df).
    assert (G : grad_entry s' 0 0 = 1).
    { unfold grad_entry. rewrite E0. cbn [array]. specialize (HA 0%nat 32%nat ltac:(lia) ltac:(lia)). change (nth 0 ga 0 = sumn 1 (fun j => nth (32 + j) b 0)) in HA. rewrite HA. cbn. lra. }
    cbn [length app] in Df. rewrite G in Df.
    assert (F0 : forall t, f t = 0).
    { intros t. destruct (Hf t) as (s2 & sh2 & R2 & V2).
      assert (C : (let* s2 := run ([] ++ CNew (list_set a 0 (nth 0 a 0 + t)) [1; 33]%nat :: [CNew b [33; 1]%nat; CBmm 0 1] ++ [CSum 2]) init_state in var_value s2 3) = Ret (mkRaw [f t] sh2)).
      { cbn [app length] in R2, V2 |- *. rewrite R2. exact V2. }
      clear - C. vm_compute in C. injection C as C _. rewrite <- C. ring. }
    assert (D0 : derivable_pt_lim f 0 0).
    { eapply derivable_pt_lim_ext; [|apply (derivable_pt_lim_const 0)]. intros t. rewrite F0. reflexivity. }
    pose proof (uniqueness_limite _ _ _ _ Df D0). lra.
Qed.
