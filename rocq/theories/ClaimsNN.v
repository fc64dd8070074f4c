(** * ClaimsNN: layers, networks, parameter lists and sgd_step (C47 - C50) *)
From Coq Require Import ZArith.
From Verif Require Import Base ModelIndex ModelTensor ModelOps ModelJvp ModelGraph ModelNN Spec SpecDual SpecGraph SpecNN
  Lists IndexFacts TensorFacts OpsFacts Sums JvpFacts Dual ClaimsMat Adjoint GradRing FuelFacts GraphFacts ProgFacts BackFacts Instances
  ClaimsProg SimFacts NNFacts.

Section Helpers.
Context {T : Type} {NT : Num T}.

Lemma tval_entries (t : raw T) n o r c : shape t = [n; o] -> tval t [r; c] = entries o (array t) r c.
Proof. intros S. unfold tval, entries. rewrite S. cbn. f_equal. lia. Qed.

Lemma net_params_acts v i (m : mlp T) ls : net_params v i m ls -> Forall2 act_fn (map activation m) (map snd ls).
Proof. induction 1; cbn [map]; constructor; auto. Qed.
Lemma net_params_combine v i (m : mlp T) ls : net_params v i m ls ->
  map (fun '(l, F) => (weights l, bias l, F)) (combine m (map snd ls)) = map (fun '(l, (_, _, _, F)) => (weights l, bias l, F)) (combine m ls).
Proof. induction 1; cbn [map combine snd]; [reflexivity|]. rewrite IHnet_params. reflexivity. Qed.
Lemma net_params_ext h h' i (m : mlp T) ls : extends h h' -> Forall (fun l => weights l < length (nodes h) /\ bias l < length (nodes h)) m ->
  net_params (vof (nodes h)) i m ls -> net_params (vof (nodes h')) i m ls.
Proof.
  intros X HL. induction 1 as [i|i l m o F ls HF WW SW WB SB Hi Ho NP IH]; [constructor|]. inversion HL as [|? ? [L1 L2] HL2]; subst.
  rewrite <- (vof_ext h h') in WW, SW, WB, SB by auto.
  rewrite <- (vof_ext h h' (weights l)) by auto. rewrite <- (vof_ext h h' (bias l)) by auto. apply np_cons; auto.
Qed.

Lemma net_positive v i (m : mlp T) ls : net_params v i m ls -> 0 < i -> 0 < net_out i (map (fun '(o, _, _, _) => o) ls).
Proof. induction 1; cbn [map net_out]; auto. Qed.

(** Every value of the forward pass obeys the operations on tensors without zero dimensions. *)
Lemma netnode_opspec h' lo (m : mlp T) : heap_inv h' -> forall ls i n x out,
  net_params (vof (nodes h')) i m ls ->
  netnode (nodes h') lo (map (fun '(l, (_, _, _, F)) => (weights l, bias l, F)) (combine m ls)) x out ->
  wf (vof (nodes h') x) -> shape (vof (nodes h') x) = [n; i] -> 0 < n ->
  shape (vof (nodes h') out) = [n; net_out i (map (fun '(o, _, _, _) => o) ls)] /\ wf (vof (nodes h') out) /\
  forall r c, r < n -> c < net_out i (map (fun '(o, _, _, _) => o) ls) ->
    tval (vof (nodes h') out) [r; c] = net_val i ls (entries i (array (vof (nodes h') x))) r c.
Proof.
  intros HI.
  assert (HV : forall n0 k ins, fn_of (nodes h') n0 = Some (k, ins) -> fwd k (map (vof (nodes h')) ins) = Ret (vof (nodes h') n0)).
  { intros n0 k ins E. unfold fn_of in E. destruct (nth_error (nodes h') n0) as [nd|] eqn:En; [|discriminate].
    destruct (proj1 HI n0 nd En) as [_ Q]. destruct (Q _ _ E) as [_ Q']. rewrite Q'. unfold vof. rewrite En. reflexivity. }
  set (V := vof (nodes h')) in *.
  assert (MAIN : forall ls i, net_params V i m ls -> forall n x out, netnode (nodes h') lo (map (fun '(l, (_, _, _, F)) => (weights l, bias l, F)) (combine m ls)) x out ->
    wf (V x) -> shape (V x) = [n; i] -> 0 < n -> 
    shape (V out) = [n; net_out i (map (fun '(o, _, _, _) => o) ls)] /\ wf (V out) /\
    forall X, (forall r c, r < n -> c < i -> X r c = tval (V x) [r; c]) -> forall r c, r < n -> c < net_out i (map (fun '(o, _, _, _) => o) ls) ->
    tval (V out) [r; c] = net_val i ls X r c).
  { intros ls i NP. induction NP as [i|i l m o F ls HF WW SW WB SB Hi Ho NP IH]; intros n x out NN Wx Sx Hn; cbn [combine map] in *.
    - inversion NN; subst. cbn [net_out net_val]. split; [exact Sx|]. split; [exact Wx|]. intros X HX r c Hr Hc. symmetry. auto.
    - inversion NN as [|w b F' ls' x' y z a out' Ly Ey Lz Ez A NN']; subst.
      pose proof (HV y _ _ Ey) as Fy. pose proof (HV z _ _ Ez) as Fz. cbn [map] in Fy, Fz.
      assert (Oy : opspec KBmm [V x; V (weights l)] (V y)).
      { apply fwd_opspec; [exact Fy| |constructor; [rewrite Sx; reflexivity|constructor; [rewrite SW; reflexivity|constructor]]].
        constructor; [split; auto; rewrite Sx; repeat constructor; auto|]. constructor; [|constructor]. split; auto. rewrite SW. repeat constructor; auto. }
      destruct (bmm_value _ _ _ n i o Oy Sx SW) as (Sy & Wy & Vy).
      assert (Oz : opspec KAdd [V y; V (bias l)] (V z)).
      { apply fwd_opspec; [exact Fz| |exact I]. constructor; [split; auto; rewrite Sy; repeat constructor; auto|]. constructor; [|constructor]. split; auto. destruct SB as [-> | ->]; repeat constructor; auto. }
      destruct (bias_value _ _ _ n o Oz WB Sy SB) as (Sz & Wz & Vz).
      assert (HA : shape (V a) = [n; o] /\ wf (V a) /\ forall r c, r < n -> c < o -> tval (V a) [r; c] = F (tval (V z) [r; c])).
      { clear NN' IH. inversion A; subst; auto;
          match goal with H : fn_of _ a = Some _ |- _ => pose proof (HV a _ _ H) as Fa end; cbn [map] in Fa;
          (eassert (Oa : opspec _ [V z] (V a)) by (apply fwd_opspec; [exact Fa|constructor; [split; [exact Wz|rewrite Sz; repeat constructor; auto]|constructor]|exact I]));
          inversion Oa; subst; (split; [exact Sz|]; split; [apply tabulate_wf|]; intros r c Hr Hc; rewrite tval_tabulate by (rewrite Sz; apply in_range_pair; auto); reflexivity). }
      destruct HA as (Sa & Wa & Va).
      destruct (IH n a out NN' Wa Sa Hn) as (S1 & W1 & V1). cbn [net_out net_val]. split; [exact S1|]. split; [exact W1|].
      intros X HX r c Hr Hc. apply V1; auto. intros r' c' Hr' Hc'. rewrite Va, Vz, Vy by auto. unfold layer_val. f_equal. f_equal.
      apply sumn_ext. intros t Ht. rewrite HX by auto. f_equal. unfold tval. rewrite SW. cbn. f_equal. lia. }
  intros ls i n x out NP NN Wx Sx Hn. destruct (MAIN ls i NP n x out NN Wx Sx Hn) as (S1 & W1 & V1). split; [exact S1|]. split; [exact W1|].
  intros r c Hr Hc. apply V1; auto. intros r' c' Hr' Hc'. symmetry. apply tval_entries with (n := n). exact Sx.
Qed.

End Helpers.

(** C47: a whole network, any number of layers, with the activations of the library: [forward] succeeds
    on every batch of matching width, and every element of the result is the network function. *)
Lemma c47_mlp_forward :
  forall (T : Type) (NT : Num T) (h : heap T) (m : mlp T) (ls : list (nat * list T * list T * (T -> T))) (x n i : nat),
    heap_inv h -> net_params (vof (nodes h)) i m ls ->
    Forall (fun l => weights l < length (nodes h) /\ bias l < length (nodes h)) m ->
    x < length (nodes h) -> shape (vof (nodes h) x) = [n; i] -> 0 < n -> 
    exists h' out, mlp_forward m h x = Ret (h', out) /\ extends h h' /\ grads_kept h h' /\
      shape (vof (nodes h') out) = [n; net_out i (map (fun '(o, _, _, _) => o) ls)] /\
      forall r c, r < n -> c < net_out i (map (fun '(o, _, _, _) => o) ls) ->
        entries (net_out i (map (fun '(o, _, _, _) => o) ls)) (array (vof (nodes h') out)) r c =
        net_val i ls (entries i (array (vof (nodes h) x))) r c.
Proof.
  intros T NT h m ls x n i HI NP HL Hx Sx Hn.
  destruct (mlp_succeeds m ls h i x n NP HI Hx HL Sx Hn) as (h' & out & E). exists h', out. split; [exact E|].
  destruct (mlp_run m (map snd ls) h x h' out (net_params_acts _ _ _ _ NP) HI Hx E) as (G & _ & NN).
  rewrite (net_params_combine _ _ _ _ NP) in NN. destruct G as (G1 & G2 & G3 & G4). split; [exact G2|]. split; [exact G3|].
  assert (Wx : wf (vof (nodes h') x)) by (rewrite (vof_ext h h') by auto; destruct (hget_vof h x Hx) as (nd & En & <-); exact (hget_wf h x nd HI En)).
  assert (Sx' : shape (vof (nodes h') x) = [n; i]) by (rewrite (vof_ext h h') by auto; exact Sx).
  destruct (netnode_opspec h' _ m G1 ls i n x out (net_params_ext h h' i m ls G2 HL NP) NN Wx Sx' Hn) as (S1 & W1 & V1).
  split; [exact S1|]. intros r c Hr Hc. rewrite <- (tval_entries _ n) by exact S1. rewrite V1 by auto. rewrite (vof_ext h h') by auto. reflexivity.
Qed.
Example c47_mlp_forward_ex :
  exists (h : heap Z) x m ls, heap_inv h /\ net_params (vof (nodes h)) 2 m ls /\
    Forall (fun l => weights l < length (nodes h) /\ bias l < length (nodes h)) m /\ x < length (nodes h) /\
    shape (vof (nodes h) x) = [2; 2] /\ length m = 2 /\
    forall r c, net_val 2 ls (entries 2 (array (vof (nodes h) x))) r c = net_val 2 ls (entries 2 [1; 2; 3; 4]%Z) r c /\
    net_val 2 ls (entries 2 [1; 2; 3; 4]%Z) 1 0 = 13%Z.
Proof.
  destruct (run [CNew [1; 2; 3; 4]%Z [2; 2]; CNew [1; -2; 1; 1]%Z [2; 2]; CNew [0; 1]%Z [1; 2]; CNew [1; 2]%Z [2; 1]; CNew [6]%Z [1]] init_state) as [s| |] eqn:E; [|vm_compute in E; discriminate E..].
  assert (R : reach any s) by (eapply run_reach; [apply reach_init| | |exact E]; repeat constructor; intros; discriminate).
  pose proof (reach_inv _ _ R) as [HI _].
  exists (hp s), 0, [linear_new 1 2 (Some op_relu); linear_new 3 4 None]. eexists.
  vm_compute in E. apply Ret_inj in E. subst s. cbn [hp nodes] in *.
  split; [exact HI|]. split.
  - eapply (np_cons _ 2 _ _ 2); [apply act_relu|reflexivity|reflexivity|reflexivity|left; reflexivity|lia|lia|].
    eapply (np_cons _ 2 _ _ 1); [apply act_none|reflexivity|reflexivity|reflexivity|right; reflexivity|lia|lia|]. apply np_nil.
  - split; [repeat constructor; cbn; lia|]. split; [cbn; lia|]. split; [reflexivity|]. split; [reflexivity|]. intros r c. split; [reflexivity|]. vm_compute. reflexivity.
Qed.

(** C47: one layer without activation, element by element *)
Lemma c47_linear_forward :
  forall (T : Type) (NT : Num T) (h : heap T) (w b x n i o : nat),
    heap_inv h -> w < length (nodes h) -> b < length (nodes h) -> x < length (nodes h) -> 0 < n -> 0 < i -> 0 < o ->
    shape (vof (nodes h) x) = [n; i] -> shape (vof (nodes h) w) = [i; o] ->
    shape (vof (nodes h) b) = [1; o] \/ shape (vof (nodes h) b) = [o] ->
    exists h' out, linear_forward (linear_new w b None) h x = Ret (h', out) /\ extends h h' /\ grads_kept h h' /\
      shape (vof (nodes h') out) = [n; o] /\
      forall r c, r < n -> c < o ->
        entries o (array (vof (nodes h') out)) r c =
        n_add (sumn i (fun t => n_mul (entries i (array (vof (nodes h) x)) r t) (entries o (array (vof (nodes h) w)) t c)))
              (nth c (array (vof (nodes h) b)) n_zero).
Proof.
  intros T NT h w b x n i o HI Hw Hb Hx Hn Hi Ho Sx Sw Sb.
  assert (W : forall j, j < length (nodes h) -> wf (vof (nodes h) j)).
  { intros j Hj. destruct (hget_vof h j Hj) as (nd & En & <-). eapply hget_wf; eauto. }
  destruct (c47_mlp_forward T NT h [linear_new w b None] [(o, array (vof (nodes h) w), array (vof (nodes h) b), fun x => x)] x n i HI) as (h' & out & E & X & G & S & V); auto.
  { apply (np_cons (vof (nodes h)) i (linear_new w b None) [] o (fun x => x)); cbn; auto. apply act_none. constructor. }
  exists h', out. unfold mlp_forward in E. cbn [foldM] in E. apply bind_Ret_inv in E as ([h1 o1] & E & E'). injection E' as -> ->. cbn [map net_out] in *. auto 6.
Qed.
Example c47_linear_forward_ex : exists (h' : heap Z) out,
  (let* s := run [CNew [1; 2]%Z [1; 2]; CNew [1; -2; -11; 7]%Z [2; 2]; CNew [1; 1]%Z [2]] init_state in
   linear_forward (linear_new 1 2 None) (hp s) 0) = Ret (h', out) /\ vof (nodes h') out = mkRaw [-20; 13]%Z [1; 2].
Proof. eexists _, _. split; [vm_compute; reflexivity|]. vm_compute. reflexivity. Qed.

(** C47: with an activation - any function the user passes *)
Lemma c47_activation :
  forall (T : Type) (NT : Num T) (h : heap T) (w b x : nat) (f : act T),
    linear_forward (linear_new w b (Some f)) h x =
    (let* (h1, z) := linear_forward (linear_new w b None) h x in f h1 z).
Proof.
  intros. unfold linear_forward. cbn [linear_new weights bias activation]. destruct (op_bmm h x w) as [[h1 y]| |]; cbn [bind]; auto.
  destruct (op_add h1 y b) as [[h2 z]| |]; reflexivity.
Qed.
Example c47_activation_ex : exists (h' : heap Z) out,
  (let* s := run [CNew [1; 2]%Z [1; 2]; CNew [1; -2; -11; 7]%Z [2; 2]; CNew [1; 1]%Z [2]] init_state in
   linear_forward (linear_new 1 2 (Some op_relu)) (hp s) 0) = Ret (h', out) /\ vof (nodes h') out = mkRaw [0; 13]%Z [1; 2].
Proof. eexists _, _. split; [vm_compute; reflexivity|]. vm_compute. reflexivity. Qed.

(** C47: networks compose from left to right, whatever the activations. *)
Lemma c47_mlp_composition :
  forall (T : Type) (NT : Num T) (h : heap T) (m1 m2 : mlp T) (l : linear T) (x : nat),
    mlp_forward (m1 ++ m2) h x = (let* (h1, y) := mlp_forward m1 h x in mlp_forward m2 h1 y) /\
    mlp_forward [l] h x = linear_forward l h x /\ mlp_forward [] h x = Ret (h, x).
Proof.
  intros T NT h m1 m2 l x. split; [|split; [|reflexivity]].
  - unfold mlp_forward. generalize (h, x). induction m1 as [|k m1 IH]; intros [h0 x0]; [reflexivity|]. cbn [app foldM]. destruct (linear_forward k h0 x0); cbn [bind]; auto.
  - unfold mlp_forward. cbn [foldM]. destruct (linear_forward l h x); reflexivity.
Qed.
Example c47_mlp_composition_ex : exists (h' : heap Z) out,
  (let* s := run [CNew [1; 2]%Z [1; 2]; CNew [1; -2; -11; 7]%Z [2; 2]; CNew [1; 1]%Z [2]] init_state in
   mlp_forward [linear_new 1 2 (Some op_relu); linear_new 1 2 None] (hp s) 0) = Ret (h', out) /\ vof (nodes h') out = mkRaw [-142; 92]%Z [1; 2].
Proof. eexists _, _. split; [vm_compute; reflexivity|]. vm_compute. reflexivity. Qed.

(** ** C48 *)
Section Update.
Context {T : Type} {NT : Num T}.
Lemma update_one (l : linear T) w b : linear_update_params l [w; b] = Ret (mkLinear w b (activation l)).
Proof. reflexivity. Qed.

(** The loop, on a list of pairs *)
Definition pairs (qs : list (nat * nat)) : list nat := flat_map (fun '(w, b) => [w; b]) qs.
Definition with_params (ls : list (linear T)) (qs : list (nat * nat)) : list (linear T) :=
  map (fun '(l, (w, b)) => mkLinear w b (activation l)) (combine ls qs).

Lemma update_loop (rl : list (linear T)) : forall qs extra acc, length qs = length rl ->
  mlp_update_loop rl (flat_map (fun '(w, b) => [b; w]) qs ++ extra) acc = Ret (rev (with_params rl qs) ++ acc).
Proof.
  induction rl as [|l rl IH]; intros [|[w b] qs] extra acc HL; cbn in HL; try lia; [reflexivity|].
  cbn [flat_map app mlp_update_loop]. rewrite update_one. cbn [bind]. rewrite IH by lia. unfold with_params. cbn [combine map rev]. rewrite <- app_assoc. reflexivity.
Qed.

Lemma rev_pairs qs : rev (pairs qs) = flat_map (fun '(w, b) => [b; w]) (rev qs).
Proof.
  induction qs as [|[w b] qs IH]; [reflexivity|]. change (pairs ((w, b) :: qs)) with ([w; b] ++ pairs qs). rewrite rev_app_distr, IH. cbn [rev].
  rewrite flat_map_app. reflexivity.
Qed.

Lemma to_pairs : forall n (ps : list nat), length ps = 2 * n -> exists qs, ps = pairs qs /\ length qs = n.
Proof.
  induction n as [|n IH]; intros ps HL.
  - destruct ps; [|cbn in HL; lia]. exists []. auto.
  - destruct ps as [|w [|b ps]]; cbn in HL; try lia. destruct (IH ps ltac:(lia)) as (qs & -> & HQ). exists ((w, b) :: qs). cbn. split; [reflexivity|lia].
Qed.

Lemma combine_rev A B : forall (l : list A) (l' : list B), length l = length l' -> combine (rev l) (rev l') = rev (combine l l').
Proof.
  induction l as [|a l IH]; intros [|b l'] HL; cbn in HL; try lia; [reflexivity|]. cbn [rev combine].
  rewrite combine_app by (rewrite !rev_length; lia). cbn [combine]. rewrite IH by lia. reflexivity.
Qed.

Lemma update_pairs (m : mlp T) qs extra : length qs = length m -> mlp_update_params m (extra ++ pairs qs) = Ret (with_params m qs).
Proof.
  intros HL. unfold mlp_update_params. rewrite rev_app_distr, rev_pairs. rewrite (update_loop (rev m) (rev qs)) by (rewrite !rev_length; lia).
  rewrite app_nil_r. unfold with_params. rewrite combine_rev by lia. rewrite map_rev, rev_involutive. reflexivity.
Qed.

Lemma with_params_params (m : mlp T) : forall qs, length qs = length m -> mlp_params (with_params m qs) = pairs qs /\
  map activation (with_params m qs) = map activation m /\ length (with_params m qs) = length m.
Proof.
  induction m as [|l m IH]; intros [|[w b] qs] HL; cbn in HL; try lia; [auto|]. destruct (IH qs ltac:(lia)) as (A & B & C).
  unfold with_params in *. cbn [combine map]. unfold mlp_params in *. cbn [flat_map]. rewrite A. cbn [linear_params weights bias activation map length]. rewrite B, C. auto.
Qed.
Lemma params_pairs (m : mlp T) : mlp_params m = pairs (map (fun l => (weights l, bias l)) m).
Proof. induction m as [|l m IH]; [reflexivity|]. cbn. unfold mlp_params in IH. rewrite IH. reflexivity. Qed.
Lemma with_own (m : mlp T) : with_params m (map (fun l => (weights l, bias l)) m) = m.
Proof. induction m as [|l m IH]; [reflexivity|]. unfold with_params in *. cbn [map combine]. rewrite IH. destruct l; reflexivity. Qed.
Lemma update_short : forall (rl : list (linear T)) ps acc, length ps < 2 * length rl -> mlp_update_loop rl ps acc = Panic PUnwrap.
Proof.
  induction rl as [|l rl IH]; intros ps acc HL; cbn in HL; [lia|]. cbn [mlp_update_loop]. destruct ps as [|b [|w ps]]; auto.
  rewrite update_one. cbn [bind]. apply IH. cbn in HL. lia.
Qed.
End Update.

(** C48: [params] lists weights then bias for each layer in order. *)
Lemma c48_params :
  forall (T : Type) (NT : Num T) (m : mlp T),
    length (mlp_params m) = 2 * length m /\
    forall k l, nth_error m k = Some l ->
      nth_error (mlp_params m) (2 * k) = Some (weights l) /\ nth_error (mlp_params m) (2 * k + 1) = Some (bias l).
Proof.
  intros T NT m. induction m as [|l m [IH1 IH2]]; [split; [reflexivity|intros [|k] l E; discriminate]|]. split.
  - unfold mlp_params in *. cbn. rewrite IH1. lia.
  - intros [|k] l' E; cbn in E.
    + injection E as ->. split; reflexivity.
    + destruct (IH2 k l' E) as [A B]. replace (2 * S k) with (S (S (2 * k))) by lia. replace (S (S (2 * k)) + 1) with (S (S (2 * k + 1))) by lia. split; [exact A|exact B].
Qed.
Example c48_params_ex : mlp_params (T := Z) [linear_new 4 5 None; linear_new 7 6 (Some op_tanh)] = [4; 5; 7; 6].
Proof. reflexivity. Qed.

(** C48: [update_params] with two tensors per layer makes [params] return them and keeps everything else. *)
Lemma c48_update_params :
  forall (T : Type) (NT : Num T) (m : mlp T) (ps : list nat), length ps = 2 * length m ->
    exists m', mlp_update_params m ps = Ret m' /\ mlp_params m' = ps /\ map activation m' = map activation m /\ length m' = length m.
Proof.
  intros T NT m ps HL. destruct (to_pairs _ ps HL) as (qs & -> & HQ). exists (with_params m qs).
  split; [exact (update_pairs m qs [] HQ)|]. apply with_params_params. exact HQ.
Qed.
Example c48_update_params_ex :
  mlp_update_params (T := Z) [linear_new 4 5 None; linear_new 7 6 (Some op_tanh)] [1; 2; 3; 9] = Ret [linear_new 1 2 None; linear_new 3 9 (Some op_tanh)].
Proof. reflexivity. Qed.

Lemma c48_update_with_own :
  forall (T : Type) (NT : Num T) (m : mlp T), mlp_update_params m (mlp_params m) = Ret m.
Proof.
  intros T NT m. rewrite params_pairs. change (pairs (map (fun l => (weights l, bias l)) m)) with ([] ++ pairs (map (fun l => (weights l, bias l)) m)). rewrite update_pairs by apply map_length. rewrite with_own. reflexivity.
Qed.
Example c48_update_with_own_ex :
  mlp_update_params (T := Z) [linear_new 4 5 None; linear_new 7 6 (Some op_tanh)] [4; 5; 7; 6] = Ret [linear_new 4 5 None; linear_new 7 6 (Some op_tanh)].
Proof. reflexivity. Qed.

(** C48: with fewer tensors it panics; with more, the surplus at the front is ignored. *)
Lemma c48_other_lengths :
  forall (T : Type) (NT : Num T) (m : mlp T) (ps extra : list nat),
    (length ps < 2 * length m -> mlp_update_params m ps = Panic PUnwrap) /\
    (length ps = 2 * length m -> mlp_update_params m (extra ++ ps) = mlp_update_params m ps).
Proof.
  intros T NT m ps extra. split; intros HL.
  - unfold mlp_update_params. apply update_short. rewrite !rev_length. exact HL.
  - destruct (to_pairs _ ps HL) as (qs & -> & HQ). rewrite (update_pairs m qs extra HQ). symmetry. exact (update_pairs m qs [] HQ).
Qed.
Example c48_other_lengths_ex :
  mlp_update_params (T := Z) [linear_new 4 5 None; linear_new 7 6 None] [1; 2; 3] = Panic PUnwrap /\
  mlp_update_params (T := Z) [linear_new 4 5 None] [1; 2; 3] = Ret [linear_new 2 3 None].
Proof. split; reflexivity. Qed.

(** C48 for a single [Linear]: the first two tensors are used. *)
Lemma c48_linear :
  forall (T : Type) (NT : Num T) (l : linear T) (ps : list nat),
    linear_params l = [weights l; bias l] /\ linear_update_params l (linear_params l) = Ret l /\
    (length ps < 2 -> linear_update_params l ps = Panic PIndex) /\
    (forall w b rest, ps = w :: b :: rest ->
       exists l', linear_update_params l ps = Ret l' /\ linear_params l' = [w; b] /\ activation l' = activation l).
Proof.
  intros T NT l ps. split; [reflexivity|]. split; [destruct l; reflexivity|]. split.
  - intros HL. destruct ps as [|w [|b ps]]; cbn in HL; try lia; reflexivity.
  - intros w b rest ->. eexists. split; [reflexivity|]. split; reflexivity.
Qed.
Example c48_linear_ex : linear_update_params (T := Z) (linear_new 4 5 None) [7; 8; 9] = Ret (linear_new 7 8 None).
Proof. reflexivity. Qed.

(** ** C49 *)
Section Sgd.
Context {T : Type} {NT : Num T}.

Lemma combine_map_same {A B C} (f : A -> B) (g : A -> C) l : combine (map f l) (map g l) = map (fun x => (f x, g x)) l.
Proof. induction l; cbn; congruence. Qed.

Lemma Forall2_impl_in {A B} (P Q : A -> B -> Prop) : forall l l', (forall x y, In x l -> In y l' -> P x y -> Q x y) -> Forall2 P l l' -> Forall2 Q l l'.
Proof. intros l l' H F. induction F; constructor; [apply H; cbn; auto|]. apply IHF. intros; apply H; cbn; auto. Qed.

(** One parameter *)
Lemma sgd_param_ok (c : T) h p g : heap_inv h -> p < length (nodes h) -> positive (shape (vof (nodes h) p)) ->
  grads h p = Some g -> wf g -> shape g = shape (vof (nodes h) p) ->
  exists h' new ip nj, sgd_param (raw_scalar c) h p = Ret (h', new) /\ heap_inv h' /\ extends h h' /\ grads_kept h h' /\
    length (nodes h) <= new < length (nodes h') /\ grads h' new = None /\
    vof (nodes h') new = mkRaw (map (fun '(x, y) => n_add x (n_neg (n_mul c y))) (combine (array (vof (nodes h) p)) (array g))) (shape (vof (nodes h) p)) /\
    fn_of (nodes h') new = Some (KAdd, [p; nj]) /\ fn_of (nodes h') nj = Some (KNeg, [ip]) /\
    (forall j, length (nodes h) <= j -> grads h' j = None).
Proof.
  intros HI Hp HP Eg Wg Sg. unfold sgd_param. rewrite Eg. cbn [unwrap_opt bind]. rewrite mul_scalar_l by auto. cbn [bind].
  set (pr := tabulate (shape g) (fun i => n_mul c (tval g i))).
  destruct (alloc h pr None None) as [h1 ip] eqn:E1.
  destruct (made_grew _ _ h1 ip (made_leaf h pr HI (tabulate_wf _ _)) ltac:(rewrite E1; reflexivity)) as [G1 L1].
  pose proof (alloc_vof _ _ _ _ _ _ E1) as V1. pose proof (extends_length _ _ (proj1 (proj2 G1))) as X1.
  unfold op_sub, op_neg. destruct (hget_vof h1 ip ltac:(lia)) as (nd1 & En1 & Vn1). rewrite En1. cbn [bind]. rewrite Vn1, V1.
  unfold neg_raw. rewrite unary_ok_raw by apply tabulate_wf. cbn [bind].
  set (ng := tabulate (shape pr) (fun i => n_neg (tval pr i))).
  destruct (alloc h1 ng (Some (KNeg, [ip])) None) as [h2 nj] eqn:E2.
  assert (M2 : made h1 (Ret (alloc h1 ng (Some (KNeg, [ip])) None))).
  { eapply (made_op1 h1 KNeg); eauto; [apply G1|]. cbn [fwd]. rewrite Vn1, V1. unfold neg_raw. apply unary_ok_raw, tabulate_wf. }
  destruct (made_grew _ _ h2 nj M2 ltac:(rewrite E2; reflexivity)) as [G2 L2]. pose proof (alloc_vof _ _ _ _ _ _ E2) as V2. pose proof (extends_length _ _ (proj1 (proj2 G2))) as X2.
  cbn [bind]. unfold op_add. destruct (hget_vof h2 p ltac:(lia)) as (ndp & Ep & Vp). rewrite Ep. cbn [bind].
  destruct (hget_vof h2 nj ltac:(lia)) as (nd2 & En2 & Vn2). rewrite En2. cbn [bind].
  assert (VP : vof (nodes h2) p = vof (nodes h) p) by (rewrite (vof_ext h1 h2) by (try apply G2; lia); apply (vof_ext h h1); [apply G1|lia]).
  assert (Wp : wf (vof (nodes h) p)) by (destruct (hget_vof h p Hp) as (nd & En & <-); exact (hget_wf h p nd HI En)).
  rewrite Vp, VP, Vn2, V2.
  assert (O : opspec KAdd [vof (nodes h) p; ng] (tabulate (shape (vof (nodes h) p)) (fun i => n_add (tval (vof (nodes h) p) (clamp (shape (vof (nodes h) p)) i)) (tval ng (clamp (shape ng) i))))).
  { apply os_add; auto; [apply tabulate_wf|cbn; rewrite Sg; auto|]. cbn [shape ng pr tabulate]. rewrite Sg. apply bcast_self. }
  assert (F := opspec_fwd _ _ _ O). cbn [fwd] in F. rewrite F. cbn [bind].
  set (y := tabulate (shape (vof (nodes h) p)) _) in *.
  destruct (alloc h2 y (Some (KAdd, [p; nj])) None) as [h3 new] eqn:E3.
  assert (M3 : made h2 (Ret (alloc h2 y (Some (KAdd, [p; nj])) None))).
  { eapply (made_op2 h2 KAdd); eauto; [apply G2|]. cbn [fwd]. rewrite Vp, VP, Vn2, V2. exact F. }
  destruct (made_grew _ _ h3 new M3 ltac:(rewrite E3; reflexivity)) as [G3 L3]. pose proof (alloc_vof _ _ _ _ _ _ E3) as V3. pose proof (extends_length _ _ (proj1 (proj2 G3))) as X3.
  cbn [bind]. exists (zero_grad h3 new), new, ip, nj. split; [reflexivity|].
  assert (G : grew h h3) by (eapply grew_trans; [exact G1|eapply grew_trans; eauto]). destruct G as (A1 & A2 & A3 & A4).
  split; [apply zero_grad_ok; exact A1|]. split; [exact A2|]. split.
  { intros i Hi. unfold zero_grad. cbn [grads]. rewrite upd_other by lia. apply A3. exact Hi. }
  split; [cbn; lia|]. split; [unfold zero_grad; cbn [grads]; apply upd_same|].
  assert (F3 : fn_of (nodes h3) new = Some (KAdd, [p; nj])).
  { unfold alloc in E3. injection E3 as <- <-. unfold fn_of. cbn [nodes]. rewrite nth_error_app2, Nat.sub_diag by auto. reflexivity. }
  assert (F2 : fn_of (nodes h3) nj = Some (KNeg, [ip])).
  { eapply fn_ext; [apply G3|]. unfold alloc in E2. injection E2 as <- <-. unfold fn_of. cbn [nodes]. rewrite nth_error_app2, Nat.sub_diag by auto. reflexivity. }
  split; [|split; [exact F3|split; [exact F2|]]].
  - cbn [zero_grad nodes]. rewrite V3. unfold y. unfold tabulate. f_equal.
    rewrite (array_tabulate (vof (nodes h) p)) at 1 by auto. rewrite (array_tabulate g) at 1 by auto. rewrite Sg.
    rewrite combine_map_same, map_map.
    apply map_ext_in. intros i Hi. apply in_all_indices in Hi. cbn [ng shape tabulate pr]. rewrite Sg, !clamp_self by auto.
    f_equal. unfold ng. rewrite tval_tabulate by (cbn; rewrite Sg; auto). unfold pr. rewrite tval_tabulate by (rewrite Sg; auto). reflexivity.
  - intros j Hj. unfold zero_grad. cbn [grads]. destruct (grads (zero_grad h3 new) j) as [g'|] eqn:EG; unfold zero_grad in EG; cbn [grads] in EG; rewrite EG; [|reflexivity]. exfalso.
    destruct (Nat.eq_dec j new) as [->|Hne]; [rewrite upd_same in EG; discriminate|]. rewrite upd_other in EG by auto.
    destruct (A4 j g' Hj EG) as (i & Ef & _).
    assert (Hlt : j < length (nodes h3)) by (eapply fn_lt; eauto).
    unfold alloc in E1, E2, E3. injection E1 as <- <-. injection E2 as <- <-. injection E3 as <- <-. cbn [nodes] in *. rewrite !app_length in *. cbn [length] in *.
    assert (Q : j = length (nodes h) \/ j = length (nodes h) + 1) by lia. unfold fn_of in Ef.
    destruct Q as [->| ->]; rewrite <- !app_assoc in Ef; rewrite nth_error_app2 in Ef by lia.
    + rewrite Nat.sub_diag in Ef. discriminate Ef.
    + replace (length (nodes h) + 1 - length (nodes h)) with 1 in Ef by lia. discriminate Ef.
Qed.

Lemma stepped_later c h h1 h2 p new : stepped c h h1 p new -> extends h1 h2 -> grads_kept h1 h2 -> stepped c h h2 p new.
Proof.
  intros (g & A & B & C & D & E) HX HK. exists g. rewrite !(vof_ext h1 h2) by (auto; lia). rewrite HK by lia.
  pose proof (extends_length _ _ HX). repeat split; auto; lia.
Qed.
Lemma stepped_earlier c h0 h h1 p new : extends h0 h -> grads_kept h0 h -> p < length (nodes h0) -> stepped c h h1 p new -> stepped c h0 h1 p new.
Proof.
  intros HX HK Hp (g & A & B & C & D & E). exists g. rewrite (vof_ext h0 h) in B by auto. rewrite (vof_ext h0 h) in C by auto.
  rewrite HK in A by auto. pose proof (extends_length _ _ HX). repeat split; auto; lia.
Qed.

Lemma has_grads_later h h1 ps : extends h h1 -> grads_kept h h1 -> has_grads h ps -> has_grads h1 ps.
Proof.
  intros HX HK H. eapply Forall_impl; [|exact H]. intros p (A & B & g & C & D & E). pose proof (extends_length _ _ HX).
  split; [lia|]. rewrite (vof_ext h h1) by auto. split; auto. exists g. rewrite HK by auto. auto.
Qed.

Lemma sgd_params_ok (c : T) : forall ps h acc, heap_inv h -> has_grads h ps ->
  exists h' news, foldM (fun '(h, acc) p => let* (h', new) := sgd_param (raw_scalar c) h p in Ret (h', acc ++ [new])) ps (h, acc) = Ret (h', acc ++ news) /\
    heap_inv h' /\ extends h h' /\ grads_kept h h' /\ Forall2 (stepped c h h') ps news /\
    (forall j, length (nodes h) <= j -> grads h' j = None).
Proof.
  assert (NG : forall h : heap T, heap_inv h -> forall j, length (nodes h) <= j -> grads h j = None).
  { intros h (_ & GW) j Hj. destruct (grads h j) eqn:E; auto. destruct (GW _ _ E) as (_ & Q). lia. }
  induction ps as [|p ps IH]; intros h acc HI HG.
  - exists h, []. cbn [foldM]. rewrite app_nil_r. split; [reflexivity|]. split; auto. split; [apply extends_refl|]. split; [intros i _; auto|]. split; [constructor|]. apply NG; auto.
  - apply Forall_cons_iff in HG as [(A & B & g & C & D & E) HG].
    destruct (sgd_param_ok c h p g HI A B C D E) as (h1 & new & ip & nj & E1 & I1 & X1 & K1 & L1 & Z1 & V1 & _ & _ & N1).
    cbn [foldM]. rewrite E1. cbn [bind].
    destruct (IH h1 (acc ++ [new]) I1 (has_grads_later _ _ _ X1 K1 HG)) as (h2 & news & E2 & I2 & X2 & K2 & S2 & N2).
    exists h2, (new :: news). rewrite E2. rewrite <- app_assoc. split; [reflexivity|]. split; auto. split; [eapply extends_trans; eauto|].
    split; [intros i Hi; rewrite K2 by (pose proof (extends_length _ _ X1); lia); apply K1; auto|].
    split.
    + constructor.
      * apply (stepped_later c h h1); auto. exists g. rewrite V1. cbn [shape array]. repeat split; auto; lia.
      * eapply Forall2_impl_in; [|exact S2]. intros q r Hq Hr HS. eapply (stepped_earlier c h h1); eauto.
        unfold has_grads in HG. rewrite Forall_forall in HG. apply HG. auto.
    + intros j Hj. destruct (le_lt_dec (length (nodes h1)) j); [apply N2; auto|]. rewrite K2 by auto. apply N1. auto.
Qed.
End Sgd.

(** A program with a one-layer network (weights 1, bias 2) that has run [backward] *)
Definition one_round : list (cmd Z) :=
  [CNew [1; 2; 3; 4]%Z [2; 2]; CNew [1; -2]%Z [2; 1]; CNew [5]%Z [1]; CBmm 0 1; CAdd 3 2; CSum 4; CBackward 5; CNew [7]%Z [1]].
Lemma one_round_ok : exists s, run one_round init_state = Ret s /\ heap_inv (hp s) /\ has_grads (hp s) [1; 2] /\
  grads (hp s) 1 = Some (mkRaw [4; 6]%Z [2; 1]) /\ grads (hp s) 0 <> None.
Proof.
  destruct (run one_round init_state) as [s| |] eqn:E; [|vm_compute in E; discriminate E..].
  assert (R : reach any s) by (eapply run_reach; [apply reach_init| | |exact E]; repeat constructor; intros; discriminate).
  pose proof (reach_inv _ _ R) as [HI _]. exists s. split; auto. split; auto.
  vm_compute in E. apply Ret_inj in E. subst s. cbn [hp nodes] in *. split; [|split; [vm_compute; reflexivity|vm_compute; discriminate]].
  repeat constructor; try (vm_compute; lia); eexists; (split; [vm_compute; reflexivity|]); split; vm_compute; reflexivity.
Qed.

(** C49: with a rank-0 step size [c] every parameter that has a gradient is replaced by a new tensor of the
    same shape whose elements are [p + (-(c * grad))], in the same order; the old tensors and their
    gradients are as before and no new tensor has a gradient. *)
Lemma c49_sgd_step :
  forall (T : Type) (NT : Num T) (c : T) (m : mlp T) (h : heap T), heap_inv h -> has_grads h (mlp_params m) ->
    exists h' m', sgd_step_mlp m (raw_scalar c) h = Ret (h', m') /\ heap_inv h' /\ extends h h' /\ grads_kept h h' /\
      Forall2 (stepped c h h') (mlp_params m) (mlp_params m') /\
      map activation m' = map activation m /\ length m' = length m /\
      (forall j, length (nodes h) <= j -> grads h' j = None).
Proof.
  intros T NT c m h HI HG. destruct (sgd_params_ok c (mlp_params m) h [] HI HG) as (h' & news & E & A & B & C & D & N).
  unfold sgd_step_mlp, sgd_new_params. rewrite E. cbn [bind app].
  assert (HL : length news = 2 * length m).
  { assert (LL : length (mlp_params m) = length news) by (eapply Forall2_length'; eauto). rewrite <- LL. apply (proj1 (c48_params T NT m)). }
  destruct (c48_update_params T NT m news HL) as (m' & E' & Q1 & Q2 & Q3). rewrite E'. cbn [bind].
  exists h', m'. rewrite Q1. auto 10.
Qed.
Example c49_sgd_step_ex : exists (h h' : heap Z) m m', heap_inv h /\ has_grads h (mlp_params m) /\
  sgd_step_mlp m (raw_scalar 2%Z) h = Ret (h', m') /\ map (fun p => array (vof (nodes h') p)) (mlp_params m') = [[-7; -14]; [1]]%Z.
Proof.
  destruct one_round_ok as (s & E & HI & HG & _). exists (hp s). eexists. exists [linear_new 1 2 None]. eexists. split; auto. split; auto.
  vm_compute in E. apply Ret_inj in E. subst s. split; [vm_compute; reflexivity|]. vm_compute. reflexivity.
Qed.

(** C49: the same for a single [Linear] layer. *)
Lemma c49_sgd_step_linear :
  forall (T : Type) (NT : Num T) (c : T) (l : linear T) (h : heap T), heap_inv h -> has_grads h (linear_params l) ->
    exists h' l', sgd_step_linear l (raw_scalar c) h = Ret (h', l') /\ heap_inv h' /\ extends h h' /\ grads_kept h h' /\
      stepped c h h' (weights l) (weights l') /\ stepped c h h' (bias l) (bias l') /\ activation l' = activation l.
Proof.
  intros T NT c l h HI HG. destruct (sgd_params_ok c (linear_params l) h [] HI HG) as (h' & news & E & A & B & C & D & N).
  unfold sgd_step_linear, sgd_new_params. rewrite E. cbn [bind app].
  inversion D as [|? w ? r1 Dw D1]; subst. inversion D1 as [|? b ? r2 Db D2]; subst. inversion D2; subst.
  cbn. exists h', (mkLinear w b (activation l)). cbn [weights bias activation]. auto 10.
Qed.
Example c49_sgd_step_linear_ex : exists (h h' : heap Z) l l', heap_inv h /\ has_grads h (linear_params l) /\
  sgd_step_linear l (raw_scalar 2%Z) h = Ret (h', l') /\ array (vof (nodes h') (weights l')) = [-7; -14]%Z /\ array (vof (nodes h') (bias l')) = [1]%Z.
Proof.
  destruct one_round_ok as (s & E & HI & HG & _). exists (hp s). eexists. exists (linear_new 1 2 None). eexists. split; auto. split; auto.
  vm_compute in E. apply Ret_inj in E. subst s. split; [vm_compute; reflexivity|]. vm_compute. auto.
Qed.

(** C49: over a ring the new elements are [p - c * grad]. *)
Lemma c49_descent_elements :
  forall (T : Type) (NT : Num T), is_ring T -> forall (c : T) (h h' : heap T) p new g i, stepped c h h' p new -> grads h p = Some g ->
    wf (vof (nodes h) p) -> wf g -> shape g = shape (vof (nodes h) p) -> i < length (array (vof (nodes h) p)) ->
    nth i (array (vof (nodes h') new)) n_zero = n_sub (nth i (array (vof (nodes h) p)) n_zero) (n_mul c (nth i (array g) n_zero)).
Proof.
  intros T NT RT c h h' p new g i (g' & E & _ & V & _) Eg Wp Wg Sg Hi. rewrite Eg in E. injection E as <-. rewrite V.
  assert (HL : length (array g) = length (array (vof (nodes h) p))) by (unfold wf in Wp, Wg; congruence).
  set (f := fun '(x, y) => n_add x (n_neg (n_mul c y))).
  rewrite (nth_indep _ n_zero (f (n_zero, n_zero))) by (rewrite map_length, combine_length; lia).
  rewrite map_nth, combine_nth by auto. unfold f. pose (RT' := RT : ring_theory n_zero n_one n_add n_mul n_sub n_neg eq). symmetry. apply (Rsub_def RT').
Qed.
Example c49_descent_elements_ex : exists (h h' : heap Z) p new g, stepped 2%Z h h' p new /\ grads h p = Some g /\
  wf (vof (nodes h) p) /\ wf g /\ shape g = shape (vof (nodes h) p) /\ 1 < length (array (vof (nodes h) p)) /\
  nth 1 (array (vof (nodes h') new)) 0%Z = (-2 - 2 * 6)%Z.
Proof.
  destruct one_round_ok as (s & E & HI & HG & HE & _).
  destruct (c49_sgd_step_linear Z _ 2%Z (linear_new 1 2 None) (hp s) HI HG) as (h' & l' & ES & _ & _ & _ & S1 & _).
  exists (hp s), h', 1, (weights l'), (mkRaw [4; 6]%Z [2; 1]). split; auto. split; auto.
  vm_compute in E. apply Ret_inj in E. subst s. split; [reflexivity|]. split; [reflexivity|]. split; [reflexivity|]. split; [cbn; lia|].
  vm_compute in ES. apply Ret_inj in ES. injection ES as <- <-. vm_compute. reflexivity.
Qed.

(** C49: [sgd_step] panics at the first parameter without a gradient. *)
Lemma c49_missing_gradient :
  forall (T : Type) (NT : Num T) (c : T) (m : mlp T) (h : heap T) ps p qs, heap_inv h -> mlp_params m = ps ++ p :: qs ->
    has_grads h ps -> p < length (nodes h) -> grads h p = None -> sgd_step_mlp m (raw_scalar c) h = Panic PUnwrap.
Proof.
  intros T NT c m h ps p qs HI EP HG Hp HN. unfold sgd_step_mlp, sgd_new_params. rewrite EP, foldM_app.
  destruct (sgd_params_ok c ps h [] HI HG) as (h' & news & E & A & B & C & D & N). rewrite E. cbn [bind foldM].
  unfold sgd_param at 1. rewrite C by auto. rewrite HN. reflexivity.
Qed.
Example c49_missing_gradient_ex : exists (h : heap Z) m ps p, heap_inv h /\ mlp_params m = ps ++ [p] /\ ps <> [] /\ has_grads h ps /\
  p < length (nodes h) /\ grads h p = None /\ sgd_step_mlp m (raw_scalar 2%Z) h = Panic PUnwrap.
Proof.
  destruct one_round_ok as (s & E & HI & HG & _). exists (hp s), [linear_new 1 6 None], [1], 6. split; auto. split; [reflexivity|]. split; [discriminate|].
  split; [inversion HG; subst; constructor; auto|]. vm_compute in E. apply Ret_inj in E. subst s. split; [vm_compute; lia|]. split; vm_compute; reflexivity.
Qed.

(** ** C50 *)
Section History.
Context {T : Type} {NT : Num T}.

Lemma uses_trans (ns : list (node T)) a b c : uses ns a b -> uses ns b c -> uses ns a c.
Proof. intros H Hc. induction H as [|n k ins i m F I U IH]; auto. eapply uses_step; eauto. Qed.
Lemma uses_ext (h h' : heap T) n m : extends h h' -> uses (nodes h) n m -> uses (nodes h') n m.
Proof. intros HX H. induction H as [n|n k ins i m F I U IH]; [constructor|]. eapply uses_step; eauto. eapply fn_ext; eauto. Qed.
Lemma chain_ext (h h' : heap T) k p r : extends h h' -> chain (nodes h) k p r -> chain (nodes h') k p r.
Proof. intros HX H. induction H; [constructor|]. econstructor; eauto. eapply uses_ext; eauto. Qed.

Lemma hget_lt (h : heap T) p nd : hget h p = Ret nd -> p < length (nodes h).
Proof. unfold hget, vindex. destruct (nth_error (nodes h) p) eqn:E; [|discriminate]. intros _. apply nth_error_Some. congruence. Qed.

Lemma sgd_param_history (step : raw T) h p h' new : sgd_param step h p = Ret (h', new) ->
  extends h h' /\ p < new /\ uses (nodes h') new p /\ length (nodes h') = length (nodes h) + 3.
Proof.
  unfold sgd_param. intros E. apply bind_Ret_inv in E as (g & _ & E). apply bind_Ret_inv in E as (pr & _ & E).
  destruct (alloc h pr None None) as [h1 ip] eqn:E1. apply bind_Ret_inv in E as ([h3 j] & E3 & E). apply Ret_inj in E.
  unfold op_sub in E3. apply bind_Ret_inv in E3 as ([h2 nj] & E2 & E3). unfold op_neg in E2.
  apply bind_Ret_inv in E2 as (nd1 & _ & E2). apply bind_Ret_inv in E2 as (y2 & _ & E2). apply Ret_inj in E2.
  unfold op_add in E3. apply bind_Ret_inv in E3 as (ndp & Ep & E3). apply bind_Ret_inv in E3 as (ndj & _ & E3). apply bind_Ret_inv in E3 as (y3 & _ & E3). apply Ret_inj in E3.
  unfold alloc in E1, E2, E3. injection E1 as <- <-. injection E2 as <- <-. injection E3 as <- <-. injection E as <- <-.
  apply hget_lt in Ep. cbn [zero_grad nodes] in *. split; [|split; [|split]].
  - exists ([mkNode pr None] ++ [mkNode y2 (Some (KNeg, [length (nodes h)]))] ++ [mkNode y3 (Some (KAdd, [p; length (nodes h ++ [mkNode pr None])]))]).
    cbn [nodes zero_grad]. rewrite <- !app_assoc. reflexivity.
  - exact Ep.
  - eapply (uses_step _ _ KAdd [p; _] p); [|left; reflexivity|constructor]. unfold fn_of. rewrite nth_error_app2, Nat.sub_diag by auto. reflexivity.
  - rewrite !app_length. cbn [length]. lia.
Qed.

Lemma sgd_params_history (step : raw T) : forall ps h acc h' l,
  foldM (fun '(h, acc) p => let* (h', new) := sgd_param step h p in Ret (h', acc ++ [new])) ps (h, acc) = Ret (h', l) ->
  exists news, l = acc ++ news /\ extends h h' /\ Forall2 (fun p r => p < r /\ uses (nodes h') r p) ps news /\
    length (nodes h') = length (nodes h) + 3 * length ps.
Proof.
  induction ps as [|p ps IH]; intros h acc h' l E.
  - cbn [foldM] in E. apply Ret_inj in E. injection E as <- <-. exists []. rewrite app_nil_r. split; auto. split; [apply extends_refl|]. split; [constructor|cbn; lia].
  - cbn [foldM] in E. apply bind_Ret_inv in E as ([h1 l1] & E1 & E). apply bind_Ret_inv in E1 as ([h0 new] & E0 & E1). apply Ret_inj in E1. injection E1 as <- <-.
    destruct (sgd_param_history _ _ _ _ _ E0) as (X1 & L1 & U1 & N1). destruct (IH _ _ _ _ E) as (news & -> & X2 & F2 & N2).
    exists (new :: news). rewrite <- app_assoc. split; [reflexivity|]. split; [eapply extends_trans; eauto|]. split; [|cbn [length]; lia].
    constructor; auto. split; auto. eapply uses_ext; eauto.
Qed.

Lemma trained_chain (step : raw T) k h ps h' ps' : trained step k h ps h' ps' ->
  extends h h' /\ Forall2 (chain (nodes h') k) ps ps' /\ length (nodes h) + 3 * k * length ps <= length (nodes h').
Proof.
  intros H. induction H as [h ps|k h ps h1 ps1 h2 h3 ps3 H (X & F & L) HX E].
  - split; [apply extends_refl|]. split; [|lia]. clear. induction ps; constructor; auto. constructor.
  - unfold sgd_new_params in E. destruct (sgd_params_history _ _ _ _ _ _ E) as (news & -> & X3 & F3 & L3).
    assert (X13 : extends h1 h3) by (eapply extends_trans; eauto).
    split; [eapply extends_trans; eauto|]. split.
    + cbn [app]. clear - F F3 X13. revert news F3. induction F as [|p q ps qs Hc F IH]; intros news F3; inversion F3; subst; constructor; [|apply IH; auto].
      eapply ch_more; [eapply chain_ext; eauto|apply H1|apply H1].
    + pose proof (extends_length _ _ HX). assert (length ps = length ps1) by (eapply Forall2_length'; eauto). lia.
Qed.

Lemma chain_uses (ns : list (node T)) k p r : chain ns k p r -> uses ns r p.
Proof. intros H. induction H; [constructor|]. eapply uses_trans; eauto. Qed.
Lemma chain_members (ns : list (node T)) k p r : chain ns k p r ->
  exists l, length l = S k /\ NoDup l /\ Forall (fun q => uses ns r q /\ q <= r) l.
Proof.
  intros H. induction H as [p|k p q r H (l & A & B & C) L U].
  - exists [p]. split; auto. split; [repeat constructor; auto|]. repeat constructor; auto.
  - exists (r :: l). cbn [length]. split; [lia|]. split.
    + constructor; auto. intros HI. rewrite Forall_forall in C. specialize (C r HI). lia.
    + constructor; [split; [constructor|lia]|]. eapply Forall_impl; [|exact C]. intros x (U' & L'). split; [eapply uses_trans; eauto|lia].
Qed.
End History.

(** C50: the new parameters do refer to the old ones. *)
Lemma c50_no_history_refuted :
  ~ (forall (T : Type) (NT : Num T) (step : raw T) (h h' : heap T) (m m' : mlp T), heap_inv h ->
       sgd_step_mlp m step h = Ret (h', m') ->
       forall p n, In p (mlp_params m') -> uses (nodes h') p n -> length (nodes h) <= n).
Proof.
  intros H. destruct one_round_ok as (s & E & HI & HG & _).
  destruct (sgd_step_mlp [linear_new 1 2 None] (raw_scalar 2%Z) (hp s)) as [[h' m']| |] eqn:ES;
    [|vm_compute in E; apply Ret_inj in E; subst s; vm_compute in ES; discriminate ES..].
  specialize (H Z _ _ _ _ _ _ HI ES). vm_compute in E. apply Ret_inj in E. subst s. vm_compute in ES. apply Ret_inj in ES. injection ES as <- <-.
  specialize (H 9 1). cbn in H. assert (Q : 7 <= 1); [|lia]. apply H; [auto|].
  eapply (uses_step _ _ KAdd [1; 8] 1); [reflexivity|left; reflexivity|constructor].
Qed.

(** C50: after [k] rounds (any computation, then a step) every parameter is the end of a chain of [k+1] different tensors
    all of which it still refers to, the first being the initial parameter. *)
Lemma c50_history_grows :
  forall (T : Type) (NT : Num T) (step : raw T) k (h h' : heap T) ps ps', trained step k h ps h' ps' ->
    Forall2 (chain (nodes h') k) ps ps' /\
    forall p, In p ps' -> exists l, length l = S k /\ NoDup l /\ forall q, In q l -> uses (nodes h') p q.
Proof.
  intros T NT step k h h' ps ps' H. destruct (trained_chain _ _ _ _ _ _ H) as (_ & F & _). split; auto.
  intros p Hp. assert (Q : exists p0, chain (nodes h') k p0 p).
  { clear - F Hp. induction F; [easy|]. destruct Hp as [->|Hp]; eauto. }
  destruct Q as (p0 & Q). destruct (chain_members _ _ _ _ Q) as (l & A & B & C). exists l. split; auto. split; auto. intros q Hq. rewrite Forall_forall in C. apply C; auto.
Qed.
Example c50_history_grows_ex : exists (h h' : heap Z) ps', trained (raw_scalar 2%Z) 2 h [1; 2] h' ps' /\ heap_inv h /\ ps' <> [1; 2].
Proof.
  destruct one_round_ok as (s & E & HI & HG & _). exists (hp s). vm_compute in E. apply Ret_inj in E. subst s.
  eexists _, _. split; [|split; [exact HI|]].
  - eapply tr_round.
    + eapply tr_round; [apply tr_start|apply extends_refl|]. vm_compute. reflexivity.
    + (* give the new parameters gradients by hand *)
      instantiate (1 := mkHeap _ (fun i => if Nat.eqb i 12 then Some (mkRaw [1]%Z [1]) else if Nat.eqb i 9 then Some (mkRaw [1; 1]%Z [2; 1]) else None)).
      exists []. rewrite app_nil_r. cbn [nodes]. reflexivity.
    + vm_compute. reflexivity.
  - discriminate.
Qed.

(** C50: the number of tensors recorded grows by three per parameter and round at least. *)
Lemma c50_memory_grows :
  forall (T : Type) (NT : Num T) (step : raw T) k (h h' : heap T) ps ps', trained step k h ps h' ps' ->
    length (nodes h) + 3 * k * length ps <= length (nodes h').
Proof. intros T NT step k h h' ps ps' H. apply (trained_chain _ _ _ _ _ _ H). Qed.
Example c50_memory_grows_ex : exists (h h' : heap Z) ps', trained (raw_scalar 2%Z) 2 h [1; 2] h' ps' /\ length (nodes h) = 7 /\ length (nodes h') = 19.
Proof.
  destruct one_round_ok as (s & E & HI & HG & _). exists (hp s). vm_compute in E. apply Ret_inj in E. subst s.
  eexists _, _. split; [|split; [reflexivity|]].
  - eapply tr_round.
    + eapply tr_round; [apply tr_start|apply extends_refl|]. vm_compute. reflexivity.
    + instantiate (1 := mkHeap _ (fun i => if Nat.eqb i 12 then Some (mkRaw [1]%Z [1]) else if Nat.eqb i 9 then Some (mkRaw [1; 1]%Z [2; 1]) else None)).
      exists []. rewrite app_nil_r. cbn [nodes]. reflexivity.
    + vm_compute. reflexivity.
  - reflexivity.
Qed.

(** C50: so [backward] from a loss that depends on a trained parameter also reaches the parameters of
    every earlier round: each gets a gradient. *)
Lemma c50_backward_reaches_all_rounds :
  forall (T : Type) (NT : Num T) (h h' : heap T) k p r loss, heap_inv h -> chain (nodes h) k p r -> uses (nodes h) loss r ->
    p <> loss -> backward h loss = Ret h' -> grads h' p <> None.
Proof.
  intros T NT h h' k p r loss HI HC HU Hp E HN. apply (backward_presence h h' loss p HI E Hp) in HN as [_ HN]. apply HN.
  eapply uses_trans; [exact HU|]. eapply chain_uses; eauto.
Qed.
Example c50_backward_reaches_all_rounds_ex : exists (h h' : heap Z) m' loss, heap_inv h /\ chain (nodes h) 1 1 m' /\ uses (nodes h) loss m' /\ 1 <> loss /\
  backward h loss = Ret h' /\ grads h 1 = Some (mkRaw [4; 6]%Z [2; 1]) /\ grads h' 1 = Some (mkRaw [5; 7]%Z [2; 1]).
Proof.
  destruct one_round_ok as (s & E & HI & HG & _).
  destruct (c49_sgd_step Z _ 2%Z [linear_new 1 2 None] (hp s) HI HG) as (h1 & m' & ES & H1 & _).
  destruct (op_sum h1 9) as [[h2 loss]| |] eqn:EL; [|exfalso; vm_compute in E; apply Ret_inj in E; subst s; vm_compute in ES; apply Ret_inj in ES; injection ES as <- <-; vm_compute in EL; discriminate EL..].
  destruct (made_grew _ _ _ _ (made_sum h1 9 H1) EL) as [(H2 & _) _].
  exists h2. eexists. exists 9, loss. split; auto.
  vm_compute in E. apply Ret_inj in E. subst s. vm_compute in ES. apply Ret_inj in ES. injection ES as <- <-. vm_compute in EL. apply Ret_inj in EL. injection EL as <- <-.
  split; [|split; [|split; [discriminate|split; [vm_compute; reflexivity|split; vm_compute; reflexivity]]]].
  - eapply (ch_more _ 0 1 1); [constructor|lia|]. eapply (uses_step _ _ KAdd [1; 8] 1); [reflexivity|left; reflexivity|constructor].
  - eapply (uses_step _ _ KSum [9] 9); [reflexivity|left; reflexivity|constructor].
Qed.
