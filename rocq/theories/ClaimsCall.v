(** * ClaimsCall: subtraction and [grad] as calls on tensors with a history (C20, C55) *)
From Coq Require Import ZArith.
From Verif Require Import Base ModelIndex ModelTensor ModelOps ModelJvp ModelGraph Spec SpecGraph Lists
  IndexFacts TensorFacts OpsFacts FuelFacts ClaimsOps GraphFacts Instances.

Section Call.
Context {T : Type} {NT : Num T}.
Lemma hget_new (h : heap T) t fn g : hget (fst (alloc h t fn g)) (snd (alloc h t fn g)) = Ret (mkNode t fn).
Proof. unfold hget, vindex. cbn. rewrite nth_error_app2, Nat.sub_diag by lia. reflexivity. Qed.
Lemma hget_old (h : heap T) t fn g i nd : hget h i = Ret nd -> hget (fst (alloc h t fn g)) i = Ret nd.
Proof. unfold hget, vindex. cbn. destruct (nth_error (nodes h) i) eqn:E; [|discriminate]. rewrite nth_error_app1 by (apply nth_error_Some; congruence). rewrite E. auto. Qed.
Lemma env_new (l : list nat) i : vindex (l ++ [i]) (length l) = Ret i.
Proof. unfold vindex. rewrite nth_error_app2, Nat.sub_diag by lia. reflexivity. Qed.
Lemma var_value_inv (s : state T) x a : var_value s x = Ret a -> exists i nd, vindex (env s) x = Ret i /\ hget (hp s) i = Ret nd /\ n_val nd = a.
Proof. unfold var_value. intros E. apply bind_Ret_inv in E as (i & Ei & E). apply bind_Ret_inv in E as (nd & En & E). apply Ret_inj in E. eauto. Qed.
Lemma call_sub (s : state T) x y a b t : var_value s x = Ret a -> var_value s y = Ret b -> sub_raw a b = Ret t ->
  exists s', exec s (CSub x y) = Ret s' /\ var_value s' (length (env s)) = Ret t.
Proof.
  intros Ha Hb E. apply var_value_inv in Ha as (i & na & Ei & Hi & <-). apply var_value_inv in Hb as (j & nb & Ej & Hj & <-).
  unfold sub_raw in E. apply bind_Ret_inv in E as (u & Eu & E). cbn [exec]. rewrite Ei, Ej. cbn [bind]. unfold op_sub, op_neg. rewrite Hj. cbn [bind]. rewrite Eu. cbn [bind].
  pose proof (hget_new (hp s) u (Some (KNeg, [j])) None) as W. pose proof (hget_old (hp s) u (Some (KNeg, [j])) None i na Hi) as V.
  destruct (alloc (hp s) u (Some (KNeg, [j])) None) as [h1 k]. cbn [fst snd] in *. unfold op_add. rewrite V, W. cbn [bind n_val]. rewrite E. cbn [bind].
  pose proof (hget_new h1 t (Some (KAdd, [i; k])) None) as X. destruct (alloc h1 t (Some (KAdd, [i; k])) None) as [h2 r]. cbn [fst snd] in *. unfold push. cbn [bind].
  eexists. split; [reflexivity|]. unfold var_value. cbn [env hp]. rewrite env_new. cbn [bind]. rewrite X. reflexivity.
Qed.
End Call.

(** C20: [&x - &y] on tensors with a history succeeds if the shapes broadcast; the new tensor holds x + (-y), element by element. *)
Lemma c20_call_sub :
  forall (T : Type) (NT : Num T) (s : state T) (x y : nat) (a b : raw T) (sh : list nat),
    var_value s x = Ret a -> var_value s y = Ret b ->
    wf a -> wf b -> positive (shape a) -> positive (shape b) -> bcast (shape a) (shape b) sh ->
    exists s' t, exec s (CSub x y) = Ret s' /\ var_value s' (length (env s)) = Ret t /\ shape t = sh /\
      forall i, in_range sh i ->
        exists u v, raw_get a (clamp (shape a) i) = Ret (Ok u) /\ raw_get b (clamp (shape b) i) = Ret (Ok v) /\
                    raw_get t i = Ret (Ok (n_add u (n_neg v))).
Proof.
  intros T NT s x y a b sh Ha Hb Wa Wb Pa Pb B. destruct (proj1 (c20_sub T NT a b Wa Wb Pa Pb) sh B) as (t & E & S & _ & K).
  destruct (call_sub s x y a b t Ha Hb E) as (s' & E1 & E2). exists s', t. auto.
Qed.
Example c20_call_sub_ex : exists s s', run (T := Z) [CNew [1; 2; 3; 4]%Z [2; 2]; CNew [10; 20]%Z [1; 2]] init_state = Ret s /\
  exec s (CSub 0 1) = Ret s' /\ var_value s' 2 = Ret (mkRaw [-9; -18; -7; -16]%Z [2; 2]).
Proof. eexists. eexists. repeat split. Qed.

(** C55: [x.grad()] gives a tensor that holds x's gradient as it is at the call, and has no history; without a gradient it panics. *)
Lemma c55_call_grad :
  forall (T : Type) (NT : Num T) (s : state T) (x i : nat), nth_error (env s) x = Some i ->
    match grads (hp s) i with
    | Some g => exists s' nd, exec s (CGrad x) = Ret s' /\ var_value s' (length (env s)) = Ret g /\
                  nodes (hp s') = nodes (hp s) ++ [nd] /\ n_fn nd = None
    | None => exec s (CGrad x) = Panic PUnwrap
    end.
Proof.
  intros T NT s x i E. cbn [exec]. unfold vindex. rewrite E. cbn [bind]. unfold op_grad. destruct (grads (hp s) i) as [g|]; [|reflexivity]. cbn [unwrap_opt bind].
  eexists. exists (mkNode g None). split; [reflexivity|]. split; [|split; reflexivity]. unfold var_value. cbn [env hp]. rewrite env_new. cbn [bind].
  change (bind (hget (fst (alloc (hp s) g None None)) (snd (alloc (hp s) g None None))) (fun nd => Ret (n_val nd)) = Ret g). rewrite hget_new. reflexivity.
Qed.
Example c55_call_grad_ex : exists s, run (T := Z) [CNew [1; 2; 3]%Z [3]; CSum 0; CBackward 1] init_state = Ret s /\ nth_error (env s) 0 = Some 0 /\
  grads (hp s) 0 = Some (mkRaw [1; 1; 1]%Z [3]).
Proof. eexists. repeat split. Qed.
