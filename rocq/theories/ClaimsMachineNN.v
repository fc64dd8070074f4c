(** * ClaimsMachineNN: training carried out by the source's statements (C89) *)
From Coq Require Import ZArith Reals Lra.
From Coq Require String.
From Verif Require Import Base ModelIndex ModelTensor ModelOps ModelJvp ModelGraph ModelNN ModelMain ModelUsize ModelRust ModelKernel ModelMachine ModelMachineNN Spec SpecDual SpecGraph SpecNN SpecReal SpecTrain Lists
  RealInst FuelFacts NNFacts UsizeFacts RustRel MachineFacts RustLim MachineLim RustMono MachineNN ClaimsTrain ClaimsLoop ClaimsUsize ClaimsRust ClaimsMachine Instances UsizeSmall.

Section Checked.
Context {T : Type} {NT : Num T}.
Notation dev := (fun A (o o' : outcome A) => o = o' \/ o = Panic PArith).
Lemma train_checked M N m st h xs :
  (m_train (U := checked M) N m st h xs = m_train (U := unbounded) N m st h xs \/ m_train (U := checked M) N m st h xs = Panic PArith) /\
  (forall x, m_train (U := checked M) N m st h xs = Ret x -> m_train (U := wrapping M) N m st h xs = Ret x).
Proof.
  split.
  - apply (ro_train dev).
    + intros; left; reflexivity.
    + apply dev_bind.
    + intros b. left. reflexivity.
    + intros c f args. apply (proj1 (run_checked T NT M N c f args)).
  - change (pres (m_train (U := checked M) N m st h xs) (m_train (U := wrapping M) N m st h xs)). apply (ro_train (fun A o o' => pres o o')).
    + intros; apply p_refl.
    + intros A B o o' f f' H1 H2. apply p_bind; auto.
    + intros b [] _. reflexivity.
    + intros c f args. exact (proj2 (run_checked T NT M N c f args)).
Qed.
Lemma main_checked M N i hd o r one st w1 b1 w2 b2 w3 b3 inp :
  (m_main (U := checked M) N i hd o r one st w1 b1 w2 b2 w3 b3 inp = m_main (U := unbounded) N i hd o r one st w1 b1 w2 b2 w3 b3 inp \/
   m_main (U := checked M) N i hd o r one st w1 b1 w2 b2 w3 b3 inp = Panic PArith) /\
  (forall x, m_main (U := checked M) N i hd o r one st w1 b1 w2 b2 w3 b3 inp = Ret x -> m_main (U := wrapping M) N i hd o r one st w1 b1 w2 b2 w3 b3 inp = Ret x).
Proof.
  split.
  - apply (ro_main dev).
    + intros; left; reflexivity.
    + apply dev_bind.
    + intros b. left. reflexivity.
    + intros c f args. apply (proj1 (run_checked T NT M N c f args)).
  - change (pres (m_main (U := checked M) N i hd o r one st w1 b1 w2 b2 w3 b3 inp) (m_main (U := wrapping M) N i hd o r one st w1 b1 w2 b2 w3 b3 inp)). apply (ro_main (fun A o o' => pres o o')).
    + intros; apply p_refl.
    + intros A B o1 o' f f' H1 H2. apply p_bind; auto.
    + intros b [] _. reflexivity.
    + intros c f args. exact (proj2 (run_checked T NT M N c f args)).
Qed.
Lemma less_train U N N' m st h xs : N <= N' -> less (m_train (U := U) (NT := NT) N m st h xs) (m_train N' m st h xs).
Proof. intros HN. apply (ro_train (fun A => @less A) less_refl less_bind U U); [intros b; apply less_refl|exact (less_run N N' HN)]. Qed.
Lemma less_main U N N' i hd o r one st w1 b1 w2 b2 w3 b3 inp : N <= N' ->
  less (m_main (U := U) (NT := NT) N i hd o r one st w1 b1 w2 b2 w3 b3 inp) (m_main N' i hd o r one st w1 b1 w2 b2 w3 b3 inp).
Proof. intros HN. apply (ro_main (fun A => @less A) less_refl less_bind U U); [intros b; apply less_refl|exact (less_run N N' HN)]. Qed.
Lemma named_ret (r : outcome (heap T * list layer)) h m : named r = Ret (h, m) -> exists m', r = Ret (h, m') /\ m = to_mlp m'.
Proof. unfold named. destruct r as [[h' m']| |]; cbn [bind]; try discriminate. intros [= -> <-]. eauto. Qed.
End Checked.

(** C89: the training loop with any network of named activations, any step, heap and samples.  With enough turns the statements
    return exactly when the model's loop does, and the same heap and network; with overflow checks they return that or panic
    because a [usize] overflowed, and on words wide enough they return it. *)
Lemma c89_training :
  forall (T : Type) (NT : Num T) (m : list layer) (step : raw T) (h : heap T) (samples : list (nat * nat)),
    exists N0 : nat, forall N : nat, N0 <= N ->
      (forall h' m', m_train (U := unbounded) N m step h samples = Ret (h', m') -> train (to_mlp m) step h samples = Ret (h', to_mlp m')) /\
      (forall h' net, train (to_mlp m) step h samples = Ret (h', net) ->
         exists m', net = to_mlp m' /\
           (forall M, m_train (U := checked M) N m step h samples = Ret (h', m') \/ m_train (U := checked M) N m step h samples = Panic PArith) /\
           (exists M0, forall M, M0 <= M -> m_train (U := checked M) N m step h samples = Ret (h', m') /\ m_train (U := wrapping M) N m step h samples = Ret (h', m'))).
Proof.
  intros T NT m step h xs. destruct (e_train m step h xs) as (N0 & E). exists N0. intros N HN. specialize (E N HN). split.
  - intros h' m' H. rewrite g_train_eq. apply (alike_ret _ _ _ _ E) in H. rewrite H. reflexivity.
  - intros h' net H. rewrite g_train_eq in H. apply named_ret in H as (m' & H & ->). exists m'. split; [reflexivity|].
    apply (alike_ret _ _ _ _ E) in H. split.
    + intros M. destruct (train_checked M N m step h xs) as [[A|A] _]; [left; rewrite A; exact H|right; exact A].
    + destruct (li_train N m step h xs) as (M0 & L). exists M0. intros M HM.
      assert (Q : m_train (U := checked M) N m step h xs = Ret (h', m')) by (rewrite (L M HM); exact H).
      split; [exact Q|]. exact (proj2 (train_checked M N m step h xs) _ Q).
Qed.
Definition two_layers : list layer := [mkLayer 2 3 ARelu; mkLayer 4 5 AAbs].
Definition start_z : outcome (state Z) := ModelGraph.run [CNew [1; 2]%Z [1; 2]; CNew [3]%Z [1; 1]; CNew [1; -1; 2; 1]%Z [2; 2]; CNew [1; 1]%Z [1; 2]; CNew [2; -1]%Z [2; 1]; CNew [1]%Z [1; 1]] init_state.
Definition with_z {A} (d : A) (f : heap Z -> A) : A := match start_z with Ret s => f (hp s) | _ => d end.
Example c89_training_ex : with_z False (fun h =>
  match m_train (U := checked 64) 20 two_layers (raw_scalar 1%Z) h [(0, 1); (0, 1)], train (to_mlp two_layers) (raw_scalar 1%Z) h [(0, 1); (0, 1)] with
  | Ret (h1, m1), Ret (h2, m2) => nodes h1 = nodes h2 /\ layer_params m1 = mlp_params m2 /\ layer_params m1 <> [2; 3; 4; 5]
  | _, _ => False
  end).
Proof. vm_compute. repeat split; discriminate. Qed.

(** C89: whatever the statements return with overflow checks, however many turns their loops had, is what they return without
    the checks and what the model's loop returns. *)
Lemma c89_never_wrong :
  forall (T : Type) (NT : Num T) (M N : nat) (m : list layer) (step : raw T) (h : heap T) (samples : list (nat * nat)) (h' : heap T) (m' : list layer),
    m_train (U := checked M) N m step h samples = Ret (h', m') ->
    m_train (U := wrapping M) N m step h samples = Ret (h', m') /\ train (to_mlp m) step h samples = Ret (h', to_mlp m').
Proof.
  intros T NT M N m step h xs h' m' H. destruct (train_checked M N m step h xs) as [A B]. split; [exact (B _ H)|].
  destruct (c89_training T NT m step h xs) as (N0 & C). destruct (C (N0 + N) ltac:(lia)) as [I _]. apply I.
  destruct A as [A|A]; [|rewrite H in A; discriminate A].
  destruct (less_train unbounded N (N0 + N) m step h xs ltac:(lia)) as [F|F]; [rewrite <- A, H in F; discriminate F|].
  rewrite <- F, <- A. exact H.
Qed.
Example c89_never_wrong_ex : with_z False (fun h =>
  match m_train (U := checked 64) 20 two_layers (raw_scalar 1%Z) h [(0, 1)] with Ret (h', m') => layer_params m' = [18; 21; 24; 27] | _ => False end /\
  m_train (U := checked 4) 20 two_layers (raw_scalar 1%Z) h [(0, 1)] = Panic PArith).
Proof. vm_compute. split; reflexivity. Qed.

(** C89: so over the real numbers the statements of the source, run with overflow checks, do gradient descent: if they return,
    they return the network whose parameters descent leads to. *)
Lemma c89_descent :
  forall (M N : nat) (step : R) (samples : list (nat * nat)) (data : list nat) (i : nat) (h h' : heap R) (m m' : list layer) (ls ls' : net),
    ready h data (to_mlp m) i ls -> (forall x y, In (x, y) samples -> In x data /\ In y data) ->
    descent step i (vof (nodes h)) samples ls ls' ->
    m_train (U := checked M) N m (raw_scalar step) h samples = Ret (h', m') ->
    ready h' data (to_mlp m') i ls'.
Proof.
  intros M N step xs data i h h' m m' ls ls' RD HD DS H. destruct (c89_never_wrong R _ M N _ _ _ _ _ _ H) as [_ E].
  destruct (c53_training step xs data i h (to_mlp m) ls ls' RD HD DS) as (h2 & m2 & E2 & RD2). rewrite E in E2. injection E2 as <- <-. exact RD2.
Qed.
Example c89_descent_ex : exists (h : heap R) (ls ls' : net), ready h [0; 1] (to_mlp [mkLayer 2 3 ANone]) 2 ls /\
  descent (1/8) 2 (vof (nodes h)) [(0, 1); (0, 1)] ls ls' /\ net_parameters ls = [[1; 1]; [1]]%R /\
  exists h' m', m_train (U := checked 64) 20 [mkLayer 2 3 ANone] (raw_scalar (1/8)%R) h [(0, 1); (0, 1)] = Ret (h', m').
Proof.
  destruct (layer_ready _ _ [1; 2]%R [1; 1]%R 1%R 0%R 2 act_none eq_refl eq_refl ltac:(lia)) as (s & E & HR & EN & EG & RD).
  exists (hp s), [(1%nat, [1; 1], [1], fun x => x)]%R. exists [(1%nat, [1 - 1/8 - 1/8; 1 - 2/8 - 2/8], [1 - 1/8 - 1/8], fun x => x)]%R.
  split; [exact RD|]. split; [|split; [reflexivity|]].
  - rewrite EN.
    assert (SM : forall w1 w2 b, (0 < w1 + 2 * w2 + b)%R -> smooth 1 2 [(1%nat, [w1; w2], [b], fun x => x)] (entries 2 [1; 2]%R) (entries 1 [0]%R)).
    { intros w1 w2 b HP. split.
      - cbn [smooth_net]. split; [|exact I]. intros. exists 1%R. apply derivable_pt_lim_id.
      - intros r c Hr Hc. cbn in Hc. assert (r = 0) by lia. assert (c = 0) by lia. subst. cbv -[Rplus Rmult Rminus Ropp Rabs IZR]. lra. }
    eapply (descent_cons _ _ _ 0 1 1); [reflexivity|reflexivity|lia|cbn; lia|apply SM; lra|apply tiny_step; lra|].
    eapply (descent_cons _ _ _ 0 1 1); [reflexivity|reflexivity|lia|cbn; lia|apply SM; lra|apply tiny_step; lra|]. constructor.
  - clear - E. vm_compute in E. injection E as <-. eexists. eexists. vm_compute. reflexivity.
Qed.

(** C89: [main.rs] as it stands, statement by statement: for all numbers the generator delivers, in any arithmetic, on words wide
    enough for its sizes it runs to its end with overflow checks and without, and ends as the model's [main] does. *)
Lemma c89_main :
  forall (T : Type) (NT : Num T) (inp hid out rounds : nat) (one step : T) (w1 b1 w2 b2 w3 b3 input : list T),
    0 < inp -> 0 < hid -> 0 < out ->
    length w1 = inp * hid -> length b1 = hid -> length w2 = hid * hid -> length b2 = hid -> length w3 = hid * out -> length b3 = out ->
    length input = inp ->
    exists (h : heap T) (m : list layer) (N0 : nat),
      main_program inp hid out rounds one step w1 b1 w2 b2 w3 b3 input = Ret (h, to_mlp m) /\
      map l_activation m = [ARelu; ATanh; ATanh] /\
      forall N, N0 <= N ->
        (forall M, m_main (U := checked M) N inp hid out rounds one step w1 b1 w2 b2 w3 b3 input = Ret (h, m) \/
                   m_main (U := checked M) N inp hid out rounds one step w1 b1 w2 b2 w3 b3 input = Panic PArith) /\
        exists M0, forall M, M0 <= M ->
          m_main (U := checked M) N inp hid out rounds one step w1 b1 w2 b2 w3 b3 input = Ret (h, m) /\
          m_main (U := wrapping M) N inp hid out rounds one step w1 b1 w2 b2 w3 b3 input = Ret (h, m).
Proof.
  intros T NT inp hid out rounds one step w1 b1 w2 b2 w3 b3 input H1 H2 H3 H4 H5 H6 H7 H8 H9 H10.
  destruct (c60_main_sizes T NT inp hid out rounds one step w1 b1 w2 b2 w3 b3 input H1 H2 H3 H4 H5 H6 H7 H8 H9 H10) as (h & net & E & _).
  pose proof E as E'. rewrite g_main_eq in E'. apply named_ret in E' as (m & G & ->).
  destruct (e_main inp hid out rounds one step w1 b1 w2 b2 w3 b3 input) as (N0 & H). exists h, m, N0. split; [exact E|]. split; [exact (main_activs _ _ _ _ _ _ _ _ _ _ _ _ _ _ _ G)|].
  intros N HN. specialize (H N HN). apply (alike_ret _ _ _ _ H) in G. split.
  - intros M. destruct (main_checked M N inp hid out rounds one step w1 b1 w2 b2 w3 b3 input) as [[A|A] _]; [left; rewrite A; exact G|right; exact A].
  - destruct (li_main N inp hid out rounds one step w1 b1 w2 b2 w3 b3 input) as (M0 & L). exists M0. intros M HM.
    assert (Q : m_main (U := checked M) N inp hid out rounds one step w1 b1 w2 b2 w3 b3 input = Ret (h, m)) by (rewrite (L M HM); exact G).
    split; [exact Q|]. exact (proj2 (main_checked M N inp hid out rounds one step w1 b1 w2 b2 w3 b3 input) _ Q).
Qed.
Example c89_main_ex :
  match m_main (U := checked 64) 20 2 3 1 2 1%Z 1%Z (repeat 1 6)%Z (repeat 2 3)%Z (repeat (-1) 9)%Z (repeat 3 3)%Z (repeat 1 3)%Z [1]%Z [5; 7]%Z,
        main_program 2 3 1 2 1%Z 1%Z (repeat 1 6)%Z (repeat 2 3)%Z (repeat (-1) 9)%Z (repeat 3 3)%Z (repeat 1 3)%Z [1]%Z [5; 7]%Z with
  | Ret (h, m), Ret (h', m') => map (fun p => array (vof (nodes h) p)) (layer_params m) = map (fun p => array (vof (nodes h') p)) (mlp_params m') /\ map l_activation m = [ARelu; ATanh; ATanh]
  | _, _ => False end.
Proof. vm_compute. split; reflexivity. Qed.
