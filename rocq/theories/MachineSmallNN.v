(** * MachineSmallNN: training and main.rs on words of a given length *)
From Coq Require String.
From Verif Require Import Base ModelIndex ModelTensor ModelOps ModelJvp ModelGraph ModelNN ModelMain ModelUsize ModelRust ModelKernel ModelMachine ModelMachineNN Spec SpecGraph SpecRust Lists
  IndexFacts TensorFacts OpsFacts GraphFacts FuelFacts BackFacts ProgFacts UsizeFacts UsizeSmall MachineNN.
From Verif Require MachineSmall.
Import String.StringSyntax.
Local Open Scope string_scope.

Section Small.
Variables M D : nat.
Hypothesis HD : (D * D) * (D * D) < M.
Hypothesis H5 : 5 <= M.
#[local] Instance W1 : usize_ops := checked M.
Context {T : Type} {NT : Num T}.
Implicit Types (h : heap T) (t : raw T).

(** A scalar, or a matrix with at most [D] rows and columns *)
Definition sm (s : list nat) : Prop := s = [] \/ exists a b, s = [a; b] /\ 0 < a <= D /\ 0 < b <= D.
Definition sq (ns : list (node T)) : Prop := Forall (fun nd => sm (shape (n_val nd))) ns.
Definition good h : Prop := heap_inv h /\ shapes_ok h /\ sq (nodes h).
Definition st h : state T := mkState h (seq 0 (length (nodes h))).

Lemma sm_rank s : sm s -> length s <= M - 2.
Proof. intros [-> | (a & b & -> & _)]; cbn; lia. Qed.
Lemma sm_fit s : 0 < D -> sm s -> fit (D * D) s.
Proof. intros H [-> | (a & b & -> & Ha & Hb)]; split; try (repeat constructor; lia); cbn; nia. Qed.
Lemma sq_get h i nd : sq (nodes h) -> hget h i = Ret nd -> sm (shape (n_val nd)).
Proof. unfold hget, vindex. intros H. destruct (nth_error (nodes h) i) eqn:Q; [|discriminate]. intros E. apply Ret_inj in E. subst. exact (proj1 (Forall_forall _ _) H _ (nth_error_In _ _ Q)). Qed.
Lemma hget_lt h i nd : hget h i = Ret nd -> i < length (nodes h).
Proof. unfold hget, vindex. destruct (nth_error (nodes h) i) eqn:Q; [|discriminate]. intros _. apply nth_error_Some. congruence. Qed.
Lemma st_var h i : i < length (nodes h) -> vindex (ModelGraph.env (st h)) i = Ret i.
Proof. intros H. unfold vindex, st. cbn [ModelGraph.env]. rewrite (nth_error_nth' _ 0) by (rewrite seq_length; exact H). rewrite seq_nth by exact H. reflexivity. Qed.
Lemma st_inv h : heap_inv h -> inv (st h).
Proof. intros H. split; [exact H|]. cbn [st ModelGraph.env hp]. apply Forall_forall. intros i Hi. apply in_seq in Hi. lia. Qed.
Lemma sq_vof h n : sq (nodes h) -> n < length (nodes h) -> sm (shape (vof (nodes h) n)).
Proof. intros H L. unfold vof. destruct (nth_error (nodes h) n) eqn:Q; [|apply nth_error_None in Q; lia]. exact (proj1 (Forall_forall _ _) H _ (nth_error_In _ _ Q)). Qed.
Lemma good_grad h n g : good h -> grads h n = Some g -> sm (shape g).
Proof.
  intros (H1 & H2 & H3) E. pose proof (proj2 (proj2 H1 n g E)) as L. destruct (H2 n g E) as [-> | (i & _ & Li & ->)]; apply sq_vof; auto; lia.
Qed.
Lemma good_hrk h : good h -> MachineSmall.hrk (M - 2) h.
Proof.
  intros H. split.
  - eapply Forall_impl; [|exact (proj2 (proj2 H))]. intros nd. apply sm_rank.
  - intros n g E. apply sm_rank. exact (good_grad h n g H E).
Qed.
Lemma shapes_step (s s' : state T) c : inv s -> shapes_ok (hp s) -> tidy c -> exec s c = Ret s' ->
  (forall x y o, c = CMulView x y o -> exists v, var_value s x = Ret v /\ shape v <> []) -> shapes_ok (hp s').
Proof.
  intros Hi IH Hok E Hm. destruct (forward c) eqn:Hf.
  - destruct (exec_forward s s' c Hi Hf Hm E) as (H1 & X & K & P & _). intros n g Eg.
    destruct (Nat.lt_ge_cases n (length (nodes (hp s)))) as [Hlt|Hge].
    + rewrite K in Eg by auto. destruct X as [e ->]. rewrite vof_app_old, fn_app_old by auto.
      destruct (IH n g Eg) as [Q|(i & Q1 & Q2 & Q3)]; [left; exact Q|]. right. exists i. rewrite vof_app_old by lia. auto.
    + destruct (P n g Hge Eg) as (i & P1 & P2 & ->). right. exists i. split; [exact P1|]. split; [exact P2|apply MachineSmall.filler_rank].
  - destruct c as [a sh|sh x|x|n|x y|x y|x|x y|x|x|x|x|x y|x y|x y|x|x|x o|x o|x y o|x y o|x y|x|x]; try discriminate Hf; cbn [exec] in E.
    + destruct (Hok x y eq_refl).
    + apply bind_Ret_inv in E as (i & Ei & E). apply Ret_inj in E. subst s'. cbn [hp]. intros n g Eg. cbn [grads zero_grad nodes] in *.
      unfold upd in Eg. destruct (n =? i); [discriminate|]. apply IH; auto.
    + apply bind_Ret_inv in E as (i & Ei & E). apply bind_Ret_inv in E as (h' & Eh & E). apply Ret_inj in E. subst s'. cbn [hp].
      destruct (backward_effect (hp s) h' i (proj1 Hi) Eh) as (Q1 & Q2 & _ & _ & Q3). intros n g Eg. rewrite Q2.
      apply (Q3 (fun sh => sh = shape (vof (nodes (hp s)) n) \/ exists i, fn_of (nodes (hp s)) n = Some (KSum, [i]) /\ i < n /\ sh = shape (vof (nodes (hp s)) i)) n); auto.
      intros sh [->|(i0 & E1 & E2 & E3)]; [left; apply max_shape_self|]. right. exists i0. split; [exact E1|]. split; [exact E2|].
      assert (En : shape (vof (nodes (hp s)) n) = []).
      { unfold fn_of in E1. unfold vof. destruct (nth_error (nodes (hp s)) n) as [nd|] eqn:En; [|discriminate].
        destruct (proj1 (proj1 Hi) n nd En) as [_ W]. destruct (W _ _ E1) as [_ W2]. eapply fwd_sum_shape; eauto. }
      rewrite En, max_shape_nil_r. exact E3.
Qed.

(** ** One call *)
Definition plain (c : cmd T) : Prop := tidy c /\ forall x y o, c <> CMulView x y o.
Hypothesis HP : 0 < D.
Lemma leaf c h s1 : good h -> plain c -> exec (st h) c = Ret s1 -> sq (nodes (hp s1)) ->
  good (hp s1) /\ exists N0, forall N, N0 <= N -> m_exec N (st h) c = Ret s1.
Proof.
  intros G [Ht Hv] E Hq. destruct G as (G1 & G2 & G3).
  assert (HV : forall x y o, c = CMulView x y o -> exists v, var_value (st h) x = Ret v /\ shape v <> []) by (intros x y o Hc; destruct (Hv x y o Hc)).
  pose proof (st_inv h G1) as I. split.
  - split; [apply (exec_inv (st h) s1 c I HV E)|]. split; [|exact Hq]. exact (shapes_step (st h) s1 c I G2 Ht E HV).
  - refine (MachineSmall.x_exec M (M - 2) _ _ (st h) c (good_hrk h (conj G1 (conj G2 G3))) s1 _); try lia.
    apply (@s_exec (checked M) M) with (B := D * D); auto.
    + intros a b H. cbn [u_add u_mul u_sub checked]. rewrite (proj2 (Nat.ltb_lt _ _) H). reflexivity.
    + intros a b H. cbn [u_add u_mul u_sub checked]. rewrite (proj2 (Nat.ltb_lt _ _) H). reflexivity.
    + intros a b H. cbn [u_add u_mul u_sub checked]. rewrite (proj2 (Nat.leb_le _ _) H). reflexivity.
    + eapply Forall_impl; [|exact Hq]. intros nd. apply sm_fit. exact HP.
Qed.

(** ** Several calls *)
Definition tri {A} (m : nat -> outcome (heap T * A)) (m' : outcome (heap T * A)) h : Prop :=
  good h -> forall h' a, m' = Ret (h', a) -> good h' /\ exists N0, forall N, N0 <= N -> m N = Ret (h', a).
Lemma tri_ret A h (a : A) : tri (fun _ => Ret (h, a)) (Ret (h, a)) h.
Proof. intros G h' a' E. apply Ret_inj in E. injection E as <- <-. split; [exact G|]. exists 0. reflexivity. Qed.
Lemma tri_bind A B (m : nat -> outcome (heap T * A)) m' (f : nat -> heap T -> A -> outcome (heap T * B)) f' h :
  tri m m' h -> (forall h1 a, m' = Ret (h1, a) -> tri (fun N => f N h1 a) (f' h1 a) h1) ->
  tri (fun N => let* (h1, a) := m N in f N h1 a) (let* (h1, a) := m' in f' h1 a) h.
Proof.
  intros H K G h' b E. apply bind_Ret_inv in E as ([h1 a] & E1 & E2). destruct (H G h1 a E1) as (G1 & N1 & A1). destruct (K h1 a E1 G1 h' b E2) as (G2 & N2 & A2).
  split; [exact G2|]. exists (N1 + N2). intros N HN. rewrite A1 by lia. apply A2. lia.
Qed.
Lemma tri_const A B (m : outcome B) (f : nat -> B -> outcome (heap T * A)) f' h : (forall b, m = Ret b -> tri (fun N => f N b) (f' b) h) ->
  tri (fun N => let* b := m in f N b) (let* b := m in f' b) h.
Proof. intros K G h' a E. destruct m as [b| |]; try discriminate. exact (K b eq_refl G h' a E). Qed.
Lemma tri_fold A B (f : nat -> heap T * A -> B -> outcome (heap T * A)) f' l : (forall h a b, tri (fun N => f N (h, a) b) (f' (h, a) b) h) ->
  forall h a, tri (fun N => foldM (f N) l (h, a)) (foldM f' l (h, a)) h.
Proof.
  intros H. induction l as [|b l IH]; intros h a; cbn [foldM]; [apply tri_ret|]. intros G h' a' E. apply bind_Ret_inv in E as ([h1 a1] & E1 & E2).
  destruct (H h a b G h1 a1 E1) as (G1 & N1 & A1). destruct (IH h1 a1 G1 h' a' E2) as (G2 & N2 & A2). split; [exact G2|].
  exists (N1 + N2). intros N HN. rewrite A1 by lia. apply A2. lia.
Qed.
Lemma tri_push c h op mop : plain c -> (forall h' i, op = Ret (h', i) -> sq (nodes h) ->
    exec (st h) c = push (st h) op /\ (forall N, m_exec N (st h) c = push (st h) (mop N)) /\ sq (nodes h')) -> tri mop op h.
Proof.
  intros Hc K G h' i E. destruct (K h' i E (proj2 (proj2 G))) as (K1 & K2 & K3). rewrite E in K1. cbn [push bind] in K1.
  destruct (leaf c h _ G Hc K1 K3) as (G1 & N0 & A). split; [exact G1|]. exists N0. intros N HN. specialize (A N HN). rewrite K2 in A. unfold push in A.
  apply bind_Ret_inv in A as ([h1 j] & A1 & A2). apply Ret_inj in A2. injection A2 as -> Q. apply app_inv_head in Q. injection Q as ->. exact A1.
Qed.
Lemma sq_alloc h t fn g : sq (nodes h) -> sm (shape t) -> sq (nodes (fst (alloc h t fn g))).
Proof. intros H1 H2. cbn. apply Forall_app. split; [exact H1|]. constructor; [exact H2|constructor]. Qed.
Ltac plain_c := split; [intros ? ? Q; discriminate Q|intros ? ? ? Q; discriminate Q].
Ltac unary c := apply (tri_push c); [plain_c|]; intros h' q E Hq;
  apply bind_Ret_inv in E as (a & Ea & E); apply bind_Ret_inv in E as (t & Et & E); apply Ret_inj in E;
  assert (S : sq (nodes h')) by (change h' with (fst (h', q)); rewrite <- E; apply sq_alloc; [exact Hq|]; rewrite (proj2 (unary_form _ _ _ Et)); exact (sq_get _ _ _ Hq Ea));
  split; [|split; [|exact S]]; [|intros N]; cbn [exec m_exec]; rewrite st_var by exact (hget_lt _ _ _ Ea); reflexivity.
Lemma t_neg h i : tri (fun N => m_op1 N KNeg h i) (op_neg h i) h.
Proof. unary (@CNeg T i). Qed.
Lemma t_abs h i : tri (fun N => m_op1 N KAbs h i) (op_abs h i) h.
Proof. unary (@CAbs T i). Qed.
Lemma t_relu h i : tri (fun N => m_op1 N KRelu h i) (op_relu h i) h.
Proof. unary (@CRelu T i). Qed.
Lemma t_tanh h i : tri (fun N => m_op1 N KTanh h i) (op_tanh h i) h.
Proof. unary (@CTanh T i). Qed.
Lemma sm_max s s' : sm s -> sm s' -> sm (max_shape s s').
Proof.
  intros [-> | (a & b & -> & Ha & Hb)] [-> | (c & d & -> & Hc & Hd)]; [left; reflexivity|right; exists c, d; auto|right; exists a, b; auto|].
  right. exists (Nat.max a c), (Nat.max b d). split; [reflexivity|]. lia.
Qed.
Lemma t_add h i j : tri (fun N => m_op2 N KAdd h i j) (op_add h i j) h.
Proof.
  apply (tri_push (@CAdd T i j)); [plain_c|]; intros h' q E Hq. apply bind_Ret_inv in E as (a & Ea & E); apply bind_Ret_inv in E as (b & Eb & E); apply bind_Ret_inv in E as (t & Et & E); apply Ret_inj in E.
  assert (S : sq (nodes h')).
  { change h' with (fst (h', q)). rewrite <- E. apply sq_alloc; [exact Hq|]. rewrite (proj2 (binop_form _ _ _ _ Et)). apply sm_max; [exact (sq_get _ _ _ Hq Ea)|exact (sq_get _ _ _ Hq Eb)]. }
  split; [|split; [|exact S]]; [|intros N]; cbn [exec m_exec]; rewrite (st_var h i) by exact (hget_lt _ _ _ Ea); rewrite (st_var h j) by exact (hget_lt _ _ _ Eb); reflexivity.
Qed.
Lemma t_bmm h i j : tri (fun N => m_op2 N KBmm h i j) (op_bmm h i j) h.
Proof.
  apply (tri_push (@CBmm T i j)); [plain_c|]; intros h' q E Hq. apply bind_Ret_inv in E as (a & Ea & E); apply bind_Ret_inv in E as (b & Eb & E); apply bind_Ret_inv in E as (t & Et & E); apply Ret_inj in E.
  assert (S : sq (nodes h')).
  { change h' with (fst (h', q)). rewrite <- E. apply sq_alloc; [exact Hq|]. destruct (UsizeSmall.bmm_shape _ _ _ Et) as (l0 & l1 & r1 & V0 & V1 & V2 & ->). cbn [tl_shape] in *.
    destruct (sq_get _ _ _ Hq Ea) as [Q|(x & y & Q & Hx & Hy)]; rewrite Q in *; [discriminate V0|]. destruct (sq_get _ _ _ Hq Eb) as [Q'|(z & w & Q' & Hz & Hw)]; rewrite Q' in *; [discriminate V2|].
    injection V0 as <-. injection V1 as <-. injection V2 as <-. cbn. right. exists x, w. auto. }
  split; [|split; [|exact S]]; [|intros N]; cbn [exec m_exec]; rewrite (st_var h i) by exact (hget_lt _ _ _ Ea); rewrite (st_var h j) by exact (hget_lt _ _ _ Eb); reflexivity.
Qed.
Lemma t_sum h i : tri (fun N => m_sum N h i) (op_sum h i) h.
Proof.
  apply (tri_push (@CSum T i)); [plain_c|]; intros h' q E Hq. apply bind_Ret_inv in E as (a & Ea & E); apply bind_Ret_inv in E as (t & Et & E); apply Ret_inj in E.
  assert (S : sq (nodes h')).
  { change h' with (fst (h', q)). rewrite <- E. apply sq_alloc; [exact Hq|]. left. exact (fwd_sum_shape [n_val a] t Et). }
  split; [|split; [|exact S]]; [|intros N]; cbn [exec m_exec]; rewrite (st_var h i) by exact (hget_lt _ _ _ Ea); reflexivity.
Qed.
Lemma t_new h a s : sm s -> tri (fun N => m_new N h a s) (op_new h a s) h.
Proof.
  intros Hs. apply (tri_push (@CNew T a s)); [plain_c|]; intros h' q E Hq. apply bind_Ret_inv in E as (t & Et & E); apply Ret_inj in E.
  assert (S : sq (nodes h')). { change h' with (fst (h', q)). rewrite <- E. apply sq_alloc; [exact Hq|]. rewrite (MachineSmall.rk_new _ _ _ Et). exact Hs. }
  split; [reflexivity|]. split; [|exact S]. intros N. reflexivity.
Qed.
Lemma t_filler h s x : sm s -> tri (fun N => let* t := m_raw_filler N s x in Ret (alloc h t None None)) (op_filler h s x) h.
Proof.
  intros Hs. apply (tri_push (@CFiller T s x)); [plain_c|]; intros h' q E Hq. apply Ret_inj in E.
  assert (S : sq (nodes h')). { change h' with (fst (h', q)). rewrite <- E. apply sq_alloc; [exact Hq|]. rewrite MachineSmall.filler_rank. exact Hs. }
  split; [reflexivity|]. split; [|exact S]. intros N. reflexivity.
Qed.
Lemma t_sub h i j : tri (fun N => m_sub N h i j) (op_sub h i j) h.
Proof. unfold m_sub, op_sub. apply (tri_bind _ _ (fun N => m_op1 N KNeg h j) _ (fun N h' nj => m_op2 N KAdd h' i nj)); [apply t_neg|]. intros h1 a _. apply t_add. Qed.
Lemma t_activate a h i : tri (fun N => m_activate N a h i) (g_activate a h i) h.
Proof. destruct a; unfold m_activate, g_activate, act_of; [apply tri_ret|apply t_relu|apply t_tanh|apply t_abs|apply t_neg]. Qed.
Lemma t_forward m h x : tri (fun N => m_mlp_forward N m h x) (g_forward m h x) h.
Proof.
  unfold m_mlp_forward, g_forward, m_linear_forward. match goal with |- tri (fun N => foldM (@?g N) ?l ?a) (foldM ?g' _ _) _ => apply (tri_fold _ _ g g') end.
  intros h1 p l. cbv beta iota.
  eapply (tri_bind _ _ (fun N => m_op2 N KBmm _ _ _)); [apply t_bmm|]. intros h2 y _.
  eapply (tri_bind _ _ (fun N => m_op2 N KAdd _ _ _)); [apply t_add|]. intros h3 z _. apply t_activate.
Qed.
Lemma good_zero h i : good h -> good (zero_grad h i).
Proof.
  intros ((G1 & G2) & G3 & G4). split; [split; [exact G1|]|split; [|exact G4]].
  - intros n g. cbn [zero_grad grads nodes]. unfold upd. destruct (n =? i); [discriminate|]. apply G2.
  - intros n g. cbn [zero_grad grads nodes]. unfold upd. destruct (n =? i); [discriminate|]. apply G3.
Qed.
Lemma t_zero A h i (a : A) : good h -> tri (fun _ => Ret (zero_grad h i, a)) (Ret (zero_grad h i, a)) h.
Proof. intros _ G h' a' E. apply Ret_inj in E. injection E as <- <-. split; [apply good_zero; exact G|]. exists 0. reflexivity. Qed.
Lemma t_backward A h i (f : nat -> heap T -> outcome (heap T * A)) f' : (forall h1, backward h i = Ret h1 -> tri (fun N => f N h1) (f' h1) h1) ->
  tri (fun N => let* h1 := m_backward N h i in f N h1) (let* h1 := backward h i in f' h1) h.
Proof.
  intros K G h' a E. apply bind_Ret_inv in E as (h1 & E1 & E2).
  assert (L : i < length (nodes h)). { unfold backward in E1. apply bind_Ret_inv in E1 as (nd & En & _). exact (hget_lt _ _ _ En). }
  assert (Nd : nodes h1 = nodes h). { unfold backward in E1. repeat (apply bind_Ret_inv in E1 as (? & _ & E1)). destruct x1 as [k ins]. apply bind_Ret_inv in E1 as (gr & _ & E1). apply Ret_inj in E1. subst h1. reflexivity. }
  assert (Ex : exec (st h) (CBackward i) = Ret (mkState h1 (ModelGraph.env (st h)))). { cbn [exec]. rewrite st_var by exact L. cbn [bind st hp]. rewrite E1. reflexivity. }
  assert (Hq : sq (nodes h1)) by (rewrite Nd; apply G).
  destruct (leaf (CBackward i) h _ G ltac:(plain_c) Ex Hq) as (G1 & N1 & A1). destruct (K h1 E1 G1 h' a E2) as (G2 & N2 & A2). split; [exact G2|].
  exists (N1 + N2). intros N HN. specialize (A1 N ltac:(lia)). cbn [m_exec] in A1. rewrite st_var in A1 by exact L. cbn [bind st hp] in A1.
  apply bind_Ret_inv in A1 as (h2 & A1 & Q). apply Ret_inj in Q. injection Q as ->. rewrite A1. cbn [bind]. apply A2. lia.
Qed.
Lemma t_sgd_param x h p : tri (fun N => m_sgd_param N (raw_scalar x) h p) (sgd_param (raw_scalar x) h p) h.
Proof.
  unfold m_sgd_param, sgd_param. apply (tri_const _ _ (unwrap_opt (grads h p))). intros g Eg G h' a E.
  assert (Eg' : grads h p = Some g). { destruct (grads h p); [|discriminate]. apply Ret_inj in Eg. now subst. }
  apply bind_Ret_inv in E as (pr & Ep & E). pose proof (good_grad h p g G Eg') as Sg.
  assert (Hx : exists N0, forall N, N0 <= N -> m_mul_raw N (raw_scalar x) (LRaw g) = Ret pr).
  { refine (MachineSmall.x_mul_raw M (M - 2) _ _ (raw_scalar x) (LRaw g) _ _ pr _); try lia; [unfold MachineSmall.rk; cbn; lia|exact (sm_rank _ Sg)|].
    apply (@s_mul (checked M) M); [..|exact Ep].
    - intros u v H. cbn [u_add u_mul u_sub checked]. rewrite (proj2 (Nat.ltb_lt _ _) H). reflexivity.
    - intros u v H. cbn [u_add u_mul u_sub checked]. rewrite (proj2 (Nat.ltb_lt _ _) H). reflexivity.
    - intros u v H. cbn [u_add u_mul u_sub checked]. rewrite (proj2 (Nat.leb_le _ _) H). reflexivity.
    - split; [constructor|]. cbn. lia.
    - apply (fit_ok M (D * D) HD). apply sm_fit; assumption. }
  assert (Sp : shape pr = shape g /\ wf pr).
  { split; [unfold mul_raw in Ep; cbn in Ep; apply Ret_inj in Ep; subst pr; reflexivity|]. eapply mul_form; [| |exact Ep]; [reflexivity|]. apply (proj2 (proj1 G) p g Eg'). }
  destruct Sp as [Sp Wp]. assert (Er : raw_new (array pr) (shape pr) = Ret pr).
  { unfold raw_new. destruct pr as [ar sh]. cbn [array shape] in *. unfold wf in Wp. cbn [array shape] in Wp. rewrite product_size, Wp, Nat.eqb_refl. reflexivity. }
  destruct (alloc h pr None None) as [h1 ip] eqn:Ea.
  assert (Ex : exec (st h) (CNew (array pr) (shape pr)) = Ret (mkState h1 (ModelGraph.env (st h) ++ [ip])%list)). { cbn [exec]. unfold op_new. rewrite Er. cbn [bind st hp]. rewrite Ea. reflexivity. }
  assert (Hq : sq (nodes h1)). { change h1 with (fst (h1, ip)). rewrite <- Ea. apply sq_alloc; [apply G|]. rewrite Sp. exact Sg. }
  destruct (leaf (CNew (array pr) (shape pr)) h _ G ltac:(plain_c) Ex Hq) as (G1 & _). cbn [hp] in G1.
  destruct Hx as (N1 & A1). apply bind_Ret_inv in E as ([h2 new] & E2 & E). destruct (t_sub h1 p ip G1 h2 new E2) as (G2 & N2 & A2). apply Ret_inj in E. injection E as <- <-.
  split; [apply good_zero; exact G2|]. exists (N1 + N2). intros N HN. rewrite A1 by lia. cbn [bind]. rewrite Ea, A2 by lia. reflexivity.
Qed.
Lemma t_sgd m x h : tri (fun N => m_sgd_step N m (raw_scalar x) h) (g_sgd m (raw_scalar x) h) h.
Proof.
  unfold m_sgd_step, g_sgd, sgd_new_params.
  match goal with |- tri (fun N => bind (foldM (@?g N) ?l ?a) (@?k N)) (bind (foldM ?g' _ _) _) _ => eapply (tri_bind _ _ (fun N => foldM (g N) l a)); [apply (tri_fold _ _ g g')|] end.
  - intros h1 acc p. cbv beta iota. eapply (tri_bind _ _ (fun N => m_sgd_param N _ _ _)); [apply t_sgd_param|]. intros h2 new _. apply tri_ret.
  - intros h1 ps _. apply (tri_const _ _ (layer_update_params m ps)). intros m' _. apply tri_ret.
Qed.
Lemma t_step m x h i j : tri (fun N => m_train_step N m (raw_scalar x) h i j) (g_step m (raw_scalar x) h i j) h.
Proof.
  unfold m_train_step, g_step.
  eapply (tri_bind _ _ (fun N => m_mlp_forward N _ _ _)); [apply t_forward|]. intros h1 res _.
  eapply (tri_bind _ _ (fun N => m_sub N _ _ _)); [apply t_sub|]. intros h2 diff _.
  eapply (tri_bind _ _ (fun N => m_op1 N KAbs _ _)); [apply t_abs|]. intros h3 ab _.
  eapply (tri_bind _ _ (fun N => m_sum N _ _)); [apply t_sum|]. intros h4 loss _.
  apply t_backward. intros h5 _. apply t_sgd.
Qed.
Lemma t_train m x h xs : tri (fun N => m_train N m (raw_scalar x) h xs) (g_train m (raw_scalar x) h xs) h.
Proof.
  unfold m_train, g_train. match goal with |- tri (fun N => foldM (@?g N) ?l ?a) (foldM ?g' _ _) _ => apply (tri_fold _ _ g g') end.
  intros h1 m1 [i j]. apply t_step.
Qed.
Lemma good_empty : good (mkHeap [] (fun _ => None)).
Proof. split; [split|split]; [|intros i g E; discriminate|intros i g E; discriminate|constructor]. intros n nd E. destruct n; discriminate. Qed.
Lemma t_main inp hid out r one step w1 b1 w2 b2 w3 b3 input : 0 < inp <= D -> 0 < hid <= D -> 0 < out <= D ->
  tri (fun N => m_main N inp hid out r one step w1 b1 w2 b2 w3 b3 input) (g_main inp hid out r one step w1 b1 w2 b2 w3 b3 input) (mkHeap [] (fun _ => None)).
Proof.
  intros Hi Hh Ho. assert (K : forall a b, 0 < a <= D -> 0 < b <= D -> sm [a; b]) by (intros a b Ha Hb; right; exists a, b; auto). assert (K1 : 0 < 1 <= D) by lia.
  unfold m_main, g_main. do 7 (eapply (tri_bind _ _ (fun N => m_new N _ _ _)); [apply t_new; apply K; assumption|]; intros ? ? _).
  intros G h' m E.
  match type of E with bind _ (fun t => let (h, y) := alloc ?h0 t None None in @?k h y) = _ =>
    assert (E0 : exists h8 y, op_filler h0 [1; out] one = Ret (h8, y) /\ k h8 y = Ret (h', m)) by (eexists; eexists; split; [reflexivity|exact E]);
    destruct E0 as (h8 & y & E1 & E2); clear E; destruct (t_filler h0 [1; out] one (K 1 out K1 Ho) G h8 y E1) as (G8 & N1 & A1) end.
  cbv beta in E2.
  match type of E2 with foldM ?g' ?l ?a = _ =>
    assert (F : tri (fun N => foldM (fun '(h, m) (_ : unit) => let* (h1, m1) := m_train_step N m (raw_scalar step) h a5 y in Ret (zero_grad (zero_grad h1 y) a5, m1)) l a) (foldM g' l a) h8) end.
  { match goal with |- tri (fun N => foldM (@?g N) ?l ?a) (foldM ?g' _ _) _ => apply (tri_fold _ _ g g') end. intros h9 m9 _. cbv beta iota.
    eapply (tri_bind _ _ (fun N => m_train_step N _ _ _ _ _)); [apply t_step|]. intros h10 m10 _ G10 h11 m11 E11. apply Ret_inj in E11. injection E11 as <- <-.
    split; [apply good_zero, good_zero; exact G10|]. exists 0. reflexivity. }
  destruct (F G8 h' m E2) as (G' & N2 & A2). split; [exact G'|]. exists (N1 + N2). intros N HN. specialize (A1 N ltac:(lia)).
  apply bind_Ret_inv in A1 as (t & A1 & A3). rewrite A1. cbn [bind]. apply Ret_inj in A3. rewrite A3. apply A2. lia.
Qed.
End Small.
