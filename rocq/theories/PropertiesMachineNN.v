(** * PropertiesMachineNN: the theorems of ClaimsMachineNN.v, restated (generated by tools/genprops.py) *)
From Coq Require Import ZArith Reals Lra.
From Coq Require String.
From Verif Require Import Base ModelIndex ModelTensor ModelOps ModelJvp ModelGraph ModelNN ModelMain ModelUsize ModelRust ModelKernel ModelMachine ModelMachineNN Spec SpecDual SpecGraph SpecNN SpecReal SpecTrain Lists
  RealInst FuelFacts NNFacts UsizeFacts RustRel MachineFacts RustLim MachineLim RustMono MachineNN ClaimsTrain ClaimsLoop ClaimsUsize ClaimsRust ClaimsMachine Instances UsizeSmall.
From Verif Require Import ClaimsMachineNN.


(** C89: the training loop with any network of named activations, any step, heap and samples.  With enough turns the statements
    return exactly when the model's loop does, and the same heap and network; with overflow checks they return that or panic
    because a [usize] overflowed, and on words wide enough they return it. *)
Theorem C89_training :
  forall (T : Type) (NT : Num T) (m : list layer) (step : raw T) (h : heap T) (samples : list (nat * nat)),
    exists N0 : nat, forall N : nat, N0 <= N ->
      (forall h' m', m_train (U := unbounded) N m step h samples = Ret (h', m') -> train (to_mlp m) step h samples = Ret (h', to_mlp m')) /\
      (forall h' net, train (to_mlp m) step h samples = Ret (h', net) ->
         exists m', net = to_mlp m' /\
           (forall M, m_train (U := checked M) N m step h samples = Ret (h', m') \/ m_train (U := checked M) N m step h samples = Panic PArith) /\
           (exists M0, forall M, M0 <= M -> m_train (U := checked M) N m step h samples = Ret (h', m') /\ m_train (U := wrapping M) N m step h samples = Ret (h', m'))).
Proof. exact c89_training. Qed.
Print Assumptions C89_training.
Example C89_training_ex : with_z False (fun h =>
  match m_train (U := checked 64) 20 two_layers (raw_scalar 1%Z) h [(0, 1); (0, 1)], train (to_mlp two_layers) (raw_scalar 1%Z) h [(0, 1); (0, 1)] with
  | Ret (h1, m1), Ret (h2, m2) => nodes h1 = nodes h2 /\ layer_params m1 = mlp_params m2 /\ layer_params m1 <> [2; 3; 4; 5]
  | _, _ => False
  end).
Proof. exact c89_training_ex. Qed.

(** C89: whatever the statements return with overflow checks, however many turns their loops had, is what they return without
    the checks and what the model's loop returns. *)
Theorem C89_never_wrong :
  forall (T : Type) (NT : Num T) (M N : nat) (m : list layer) (step : raw T) (h : heap T) (samples : list (nat * nat)) (h' : heap T) (m' : list layer),
    m_train (U := checked M) N m step h samples = Ret (h', m') ->
    m_train (U := wrapping M) N m step h samples = Ret (h', m') /\ train (to_mlp m) step h samples = Ret (h', to_mlp m').
Proof. exact c89_never_wrong. Qed.
Print Assumptions C89_never_wrong.
Example C89_never_wrong_ex : with_z False (fun h =>
  match m_train (U := checked 64) 20 two_layers (raw_scalar 1%Z) h [(0, 1)] with Ret (h', m') => layer_params m' = [18; 21; 24; 27] | _ => False end /\
  m_train (U := checked 4) 20 two_layers (raw_scalar 1%Z) h [(0, 1)] = Panic PArith).
Proof. exact c89_never_wrong_ex. Qed.

(** C89: so over the real numbers the statements of the source, run with overflow checks, do gradient descent: if they return,
    they return the network whose parameters descent leads to. *)
Theorem C89_descent :
  forall (M N : nat) (step : R) (samples : list (nat * nat)) (data : list nat) (i : nat) (h h' : heap R) (m m' : list layer) (ls ls' : net),
    ready h data (to_mlp m) i ls -> (forall x y, In (x, y) samples -> In x data /\ In y data) ->
    descent step i (vof (nodes h)) samples ls ls' ->
    m_train (U := checked M) N m (raw_scalar step) h samples = Ret (h', m') ->
    ready h' data (to_mlp m') i ls'.
Proof. exact c89_descent. Qed.
Print Assumptions C89_descent.
Example C89_descent_ex : exists (h : heap R) (ls ls' : net), ready h [0; 1] (to_mlp [mkLayer 2 3 ANone]) 2 ls /\
  descent (1/8) 2 (vof (nodes h)) [(0, 1); (0, 1)] ls ls' /\ net_parameters ls = [[1; 1]; [1]]%R /\
  exists h' m', m_train (U := checked 64) 20 [mkLayer 2 3 ANone] (raw_scalar (1/8)%R) h [(0, 1); (0, 1)] = Ret (h', m').
Proof. exact c89_descent_ex. Qed.

(** C89: [main.rs] as it stands, statement by statement: for all numbers the generator delivers, in any arithmetic, on words wide
    enough for its sizes it runs to its end with overflow checks and without, and ends as the model's [main] does. *)
Theorem C89_main :
  forall (T : Type) (NT : Num T) (inp hid out rounds : nat) (one step : T) (w1 b1 w2 b2 w3 b3 input : list T),
    0 < inp -> 0 < hid -> 0 < out ->
    length w1 = inp * hid -> length b1 = hid -> length w2 = hid * hid -> length b2 = hid -> length w3 = hid * out -> length b3 = out ->
    length input = inp ->
    exists (h : heap T) (m : list layer) (N0 : nat),
      main_program inp hid out rounds one step w1 b1 w2 b2 w3 b3 input = Ret (h, to_mlp m) /\
      map l_activation m = [ARelu; ATanh; ATanh] /\
      forall N, N0 <= N ->
        (forall M, m_main (U := checked M) N inp hid out rounds one step w1 b1 w2 b2 w3 b3 input = Ret (h, m) \/
                   m_main (U := checked M) N inp hid out rounds one step w1 b1 w2 b2 w3 b3 input = Panic PArith) /\
        exists M0, forall M, M0 <= M ->
          m_main (U := checked M) N inp hid out rounds one step w1 b1 w2 b2 w3 b3 input = Ret (h, m) /\
          m_main (U := wrapping M) N inp hid out rounds one step w1 b1 w2 b2 w3 b3 input = Ret (h, m).
Proof. exact c89_main. Qed.
Print Assumptions C89_main.
Example C89_main_ex :
  match m_main (U := checked 64) 20 2 3 1 2 1%Z 1%Z (repeat 1 6)%Z (repeat 2 3)%Z (repeat (-1) 9)%Z (repeat 3 3)%Z (repeat 1 3)%Z [1]%Z [5; 7]%Z,
        main_program 2 3 1 2 1%Z 1%Z (repeat 1 6)%Z (repeat 2 3)%Z (repeat (-1) 9)%Z (repeat 3 3)%Z (repeat 1 3)%Z [1]%Z [5; 7]%Z with
  | Ret (h, m), Ret (h', m') => map (fun p => array (vof (nodes h) p)) (layer_params m) = map (fun p => array (vof (nodes h') p)) (mlp_params m') /\ map l_activation m = [ARelu; ATanh; ATanh]
  | _, _ => False end.
Proof. exact c89_main_ex. Qed.

