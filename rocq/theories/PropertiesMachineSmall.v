(** * PropertiesMachineSmall: the theorems of ClaimsMachineSmall.v, restated (generated by tools/genprops.py) *)
From Coq Require Import ZArith.
From Coq Require String.
From Verif Require Import Base ModelIndex ModelTensor ModelOps ModelJvp ModelGraph ModelNN ModelMain ModelUsize ModelRust ModelKernel ModelMachine ModelMachineNN Spec SpecGraph Lists
  GraphFacts FuelFacts TensorFacts OpsFacts ProgFacts UsizeFacts UsizeSmall MachineNN ClaimsLoop ClaimsUsize ClaimsMachine ClaimsMachineNN Instances.
From Verif Require MachineSmall MachineSmallNN.
From Verif Require Import ClaimsMachineSmall.


(** C88: as long as no tensor has more than B elements (none is empty), B * B is below the number of words and so is every number
    of dimensions (plus one), the statements of the source run a program to the end the model gives it, with or without overflow
    checks. *)
Theorem C88_small :
  forall (M B : nat) (T : Type) (NT : Num T) (p : list (cmd T)) (s : state T),
    B * B < M -> 5 <= M -> Forall tidy p -> Forall (fun c => forall x y o, c <> CMulView x y o) p ->
    ModelGraph.run p init_state = Ret s ->
    Forall (fun nd => positive (shape (n_val nd)) /\ size (shape (n_val nd)) <= B /\ length (shape (n_val nd)) + 2 <= M) (nodes (hp s)) ->
    exists N0 : nat, forall N : nat, N0 <= N ->
      m_run (U := checked M) N p init_state = Ret s /\ m_run (U := wrapping M) N p init_state = Ret s.
Proof. exact c88_small. Qed.
Print Assumptions C88_small.
Example C88_small_ex : exists s, 4 * 4 < 17 /\ 5 <= 17 /\
  ModelGraph.run (T := Z) [CNew [1; 2; 3; 4]%Z [2; 2]; CBmm 0 0; CTanh 1; CSum 2; CBackward 3; CViewSum 0 [mkSR 0 1; mkSR 1 2]] init_state = Ret s /\
  Forall (fun nd => positive (shape (n_val nd)) /\ size (shape (n_val nd)) <= 4 /\ length (shape (n_val nd)) + 2 <= 17) (nodes (hp s)) /\ grads (hp s) 0 <> None.
Proof. exact c88_small_ex. Qed.

(** C88: so with words of w bits the statements of the source handle tensors of up to 2^b elements if 2 * b < w: up to 2^31
    elements on a 64-bit machine. *)
Theorem C88_bits :
  forall (w b : nat) (T : Type) (NT : Num T) (p : list (cmd T)) (s : state T),
    2 * b < w -> 3 <= w -> Forall tidy p -> Forall (fun c => forall x y o, c <> CMulView x y o) p ->
    ModelGraph.run p init_state = Ret s ->
    Forall (fun nd => positive (shape (n_val nd)) /\ size (shape (n_val nd)) <= 2 ^ b /\ length (shape (n_val nd)) + 2 <= 2 ^ w) (nodes (hp s)) ->
    exists N0 : nat, forall N : nat, N0 <= N ->
      m_run (U := checked (2 ^ w)) N p init_state = Ret s /\ m_run (U := wrapping (2 ^ w)) N p init_state = Ret s.
Proof. exact c88_bits. Qed.
Print Assumptions C88_bits.
Example C88_bits_ex : exists s, 2 * 2 < 5 /\ 3 <= 5 /\ ModelGraph.run (T := Z) [CNew [1; -2; 3]%Z [3]; CAbs 0; CAdd 0 1; CSum 2; CBackward 3] init_state = Ret s /\
  Forall (fun nd => positive (shape (n_val nd)) /\ size (shape (n_val nd)) <= 2 ^ 2 /\ length (shape (n_val nd)) + 2 <= 2 ^ 5) (nodes (hp s)).
Proof. exact c88_bits_ex. Qed.

(** C89: the word length on which training agrees with the model.  If every tensor a program made is a scalar or a matrix with
    1 to D rows and columns, and D^4 is below the number of words, then a training loop that succeeds in the model succeeds when
    the statements of the source carry it out, for any number of rounds, with or without overflow checks. *)
Theorem C89_small :
  forall (M D : nat) (T : Type) (NT : Num T) (p : list (cmd T)) (s : state T) (m : list layer) (step : T) (samples : list (nat * nat))
      (h' : heap T) (net : mlp T),
    (D * D) * (D * D) < M -> 5 <= M -> 0 < D -> Forall tidy p -> Forall (fun c => forall x y o, c <> CMulView x y o) p ->
    ModelGraph.run p init_state = Ret s ->
    Forall (fun nd => shape (n_val nd) = [] \/ exists r c, shape (n_val nd) = [r; c] /\ 0 < r <= D /\ 0 < c <= D) (nodes (hp s)) ->
    train (to_mlp m) (raw_scalar step) (hp s) samples = Ret (h', net) ->
    exists (m' : list layer) (N0 : nat), net = to_mlp m' /\ forall N : nat, N0 <= N ->
      m_train (U := checked M) N m (raw_scalar step) (hp s) samples = Ret (h', m') /\
      m_train (U := wrapping M) N m (raw_scalar step) (hp s) samples = Ret (h', m').
Proof. exact c89_small. Qed.
Print Assumptions C89_small.
Example C89_small_ex : exists s, (2 * 2) * (2 * 2) < 17 /\
  ModelGraph.run (T := Z) [CNew [1; 2]%Z [1; 2]; CNew [3]%Z [1; 1]; CNew [1; -1; 2; 1]%Z [2; 2]; CNew [1; 1]%Z [1; 2]; CNew [2; -1]%Z [2; 1]; CNew [1]%Z [1; 1]] init_state = Ret s /\
  Forall (fun nd => shape (n_val nd) = [] \/ exists r c, shape (n_val nd) = [r; c] /\ 0 < r <= 2 /\ 0 < c <= 2) (nodes (hp s)) /\
  match train (to_mlp two_layers) (raw_scalar 1%Z) (hp s) [(0, 1); (0, 1)] with Ret (h', net) => mlp_params net <> [2; 3; 4; 5] | _ => False end.
Proof. exact c89_small_ex. Qed.

(** C89: [main.rs] with all its sizes between 1 and D, on words of any number above D^4: the statements of the source run it to
    its end with overflow checks and without, whatever numbers the generator delivers and however many rounds there are. *)
Theorem C89_main_small :
  forall (M D : nat) (T : Type) (NT : Num T) (inp hid out rounds : nat) (one step : T) (w1 b1 w2 b2 w3 b3 input : list T),
    (D * D) * (D * D) < M -> 5 <= M -> 0 < inp <= D -> 0 < hid <= D -> 0 < out <= D ->
    length w1 = inp * hid -> length b1 = hid -> length w2 = hid * hid -> length b2 = hid -> length w3 = hid * out -> length b3 = out ->
    length input = inp ->
    exists (h : heap T) (m : list layer) (N0 : nat),
      main_program inp hid out rounds one step w1 b1 w2 b2 w3 b3 input = Ret (h, to_mlp m) /\
      forall N, N0 <= N ->
        m_main (U := checked M) N inp hid out rounds one step w1 b1 w2 b2 w3 b3 input = Ret (h, m) /\
        m_main (U := wrapping M) N inp hid out rounds one step w1 b1 w2 b2 w3 b3 input = Ret (h, m).
Proof. exact c89_main_small. Qed.
Print Assumptions C89_main_small.
Example C89_main_small_ex : (3 * 3) * (3 * 3) < 82 /\
  match m_main (U := checked 82) 20 2 3 1 2 1%Z 1%Z (repeat 1 6)%Z (repeat 2 3)%Z (repeat (-1) 9)%Z (repeat 3 3)%Z (repeat 1 3)%Z [1]%Z [5; 7]%Z with
  | Ret (h, m) => length (layer_params m) = 6 | _ => False end /\
  m_main (U := checked 9) 20 2 3 1 2 1%Z 1%Z (repeat 1 6)%Z (repeat 2 3)%Z (repeat (-1) 9)%Z (repeat 3 3)%Z (repeat 1 3)%Z [1]%Z [5; 7]%Z = Panic PArith.
Proof. exact c89_main_small_ex. Qed.

(** C89: [main.rs] as it stands, 8 -> 8192 -> 8192 -> 8 and two rounds, on words of more than 52 bits, so on a 64-bit machine. *)
Theorem C89_main_bits :
  forall (w : nat) (T : Type) (NT : Num T) (one step : T) (w1 b1 w2 b2 w3 b3 input : list T),
    52 < w ->
    length w1 = 8 * 2 ^ 13 -> length b1 = 2 ^ 13 -> length w2 = 2 ^ 13 * 2 ^ 13 -> length b2 = 2 ^ 13 ->
    length w3 = 2 ^ 13 * 8 -> length b3 = 8 -> length input = 8 ->
    exists (h : heap T) (m : list layer) (N0 : nat),
      main_program 8 (2 ^ 13) 8 2 one step w1 b1 w2 b2 w3 b3 input = Ret (h, to_mlp m) /\
      forall N, N0 <= N ->
        m_main (U := checked (2 ^ w)) N 8 (2 ^ 13) 8 2 one step w1 b1 w2 b2 w3 b3 input = Ret (h, m) /\
        m_main (U := wrapping (2 ^ w)) N 8 (2 ^ 13) 8 2 one step w1 b1 w2 b2 w3 b3 input = Ret (h, m).
Proof. exact c89_main_bits. Qed.
Print Assumptions C89_main_bits.
Example C89_main_bits_ex : 52 < 64 /\ exists w1 b1 w2 b2 w3 b3 input : list Z,
  length w1 = 8 * 2 ^ 13 /\ length b1 = 2 ^ 13 /\ length w2 = 2 ^ 13 * 2 ^ 13 /\ length b2 = 2 ^ 13 /\
  length w3 = 2 ^ 13 * 8 /\ length b3 = 8 /\ length input = 8 /\ input <> repeat 0%Z 8.
Proof. exact c89_main_bits_ex. Qed.

