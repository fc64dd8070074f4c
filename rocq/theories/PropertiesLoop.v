(** * PropertiesLoop: the theorems of ClaimsLoop.v, restated (generated by tools/genprops.py) *)
From Coq Require Import ZArith.
From Verif Require Import Base ModelIndex ModelTensor ModelOps ModelJvp ModelGraph ModelNN ModelMain Spec SpecDual SpecGraph SpecNN SpecLoop
  Lists GraphFacts ProgFacts NNFacts Instances LoopFacts.
From Verif Require Import ClaimsLoop.


(** C60: for any arithmetic, network with library activations, sizes, step and list of batches, the training loop
    runs without panic; shapes and activations stay, and the heap is again one from which it can go on. *)
Theorem C60_training_runs :
  forall (T : Type) (NT : Num T) (step : T) (i : nat) (os : list nat) (samples : list (nat * nat)) (h : heap T) (m : mlp T),
    sound_heap h -> net_in h m i os -> Forall (sample_in h i os) samples ->
    exists h' m', train m (raw_scalar step) h samples = Ret (h', m') /\ sound_heap h' /\ extends h h' /\ net_in h' m' i os /\
      map activation m' = map activation m /\ param_shapes h' m' = param_shapes h m.
Proof. exact c60_training_runs. Qed.
Print Assumptions C60_training_runs.
Example C60_training_runs_ex : exists (h : heap Z) (m : mlp Z) (x y : nat),
  sound_heap h /\ net_in h m 2 [6; 6; 1] /\ Forall (sample_in h 2 [6; 6; 1]) [(x, y); (x, y)] /\
  match train m (raw_scalar 1%Z) h [(x, y); (x, y)] with Ret (h', m') => param_shapes h' m' = [[2; 6]; [1; 6]; [6; 6]; [1; 6]; [6; 1]; [1; 1]] | _ => False end.
Proof. exact c60_training_runs_ex. Qed.

(** C60: the program in main.rs runs to its end for all values its random generator can deliver, in any arithmetic,
    for all positive sizes in place of its 8 and 8192 and any number of rounds in place of its 2. *)
Theorem C60_main_sizes :
  forall (T : Type) (NT : Num T) (inp hid out rounds : nat) (one step : T) (w1 b1 w2 b2 w3 b3 input : list T),
    0 < inp -> 0 < hid -> 0 < out ->
    length w1 = inp * hid -> length b1 = hid -> length w2 = hid * hid -> length b2 = hid -> length w3 = hid * out -> length b3 = out ->
    length input = inp ->
    exists h m, main_program inp hid out rounds one step w1 b1 w2 b2 w3 b3 input = Ret (h, m) /\ sound_heap h /\
      map activation m = [op_relu; op_tanh; op_tanh] /\
      param_shapes h m = [[inp; hid]; [1; hid]; [hid; hid]; [1; hid]; [hid; out]; [1; out]].
Proof. exact c60_main_sizes. Qed.
Print Assumptions C60_main_sizes.
Example C60_main_sizes_ex :
  match main_program 2 6 1 2 1%Z 1%Z (repeat 1 12)%Z (repeat 2 6)%Z (repeat (-1) 36)%Z (repeat 3 6)%Z (repeat 1 6)%Z [1]%Z [5; 7]%Z with
  | Ret (h, m) => map (fun p => array (vof (nodes h) p)) (mlp_params m) <> [] /\ grads h 6 = None
  | _ => False end.
Proof. exact c60_main_sizes_ex. Qed.

(** C60: the program as it stands: [8 -> 8192 -> 8192 -> 8], two rounds. *)
Theorem C60_main :
  forall (T : Type) (NT : Num T) (one step : T) (w1 b1 w2 b2 w3 b3 input : list T),
    length w1 = 8 * 2 ^ 13 -> length b1 = 2 ^ 13 -> length w2 = 2 ^ 13 * 2 ^ 13 -> length b2 = 2 ^ 13 ->
    length w3 = 2 ^ 13 * 8 -> length b3 = 8 -> length input = 8 ->
    exists h m, main_program 8 (2 ^ 13) 8 2 one step w1 b1 w2 b2 w3 b3 input = Ret (h, m).
Proof. exact c60_main. Qed.
Print Assumptions C60_main.
Example C60_main_ex : exists w1 b1 w2 b2 w3 b3 input : list Z,
  length w1 = 8 * 2 ^ 13 /\ length b1 = 2 ^ 13 /\ length w2 = 2 ^ 13 * 2 ^ 13 /\ length b2 = 2 ^ 13 /\
  length w3 = 2 ^ 13 * 8 /\ length b3 = 8 /\ length input = 8 /\ input <> repeat 0%Z 8.
Proof. exact c60_main_ex. Qed.

