(** * MachineNN: training with the source's statements against the model's training *)
From Coq Require String.
From Verif Require Import Base ModelIndex ModelTensor ModelOps ModelJvp ModelGraph ModelNN ModelMain ModelUsize ModelRust ModelKernel ModelMachine ModelMachineNN Spec SpecGraph Lists
  FuelFacts UsizeFacts MachineFacts RustLim MachineLim RustMono.
Import String.StringSyntax.
Local Open Scope string_scope.

(** A named activation is the model's operation (linear.rs:27-36) *)
Definition act_of {T} {NT : Num T} (a : activ) : option (act T) :=
  match a with ANone => None | ARelu => Some op_relu | ATanh => Some op_tanh | AAbs => Some op_abs | ANeg => Some op_neg end.
(** [Linear::new] of a layer: linear.rs:24-37 *)
Definition to_linear {T} {NT : Num T} (l : layer) : linear T := linear_new (l_weights l) (l_bias l) (act_of (l_activation l)).
(** [Mlp::new] of layers: feed_foward.rs:15-19 *)
Definition to_mlp {T} {NT : Num T} (m : list layer) : mlp T := map to_linear m.

(** ** Over different kinds of words *)
Section Rel.
Variable R : forall A, outcome A -> outcome A -> Prop.
Hypothesis R_refl : forall A (o : outcome A), R A o o.
Hypothesis R_bind : forall A B (m m' : outcome A) (f f' : A -> outcome B), R A m m' -> (forall a, R B (f a) (f' a)) -> R B (bind m f) (bind m' f').
Variables U V : usize_ops.
Hypothesis R_debug : forall b, R unit (if @u_debug U then assert b else Ret tt) (if @u_debug V then assert b else Ret tt).
Context {T : Type} {NT : Num T}.
Variables N N' : nat.
Hypothesis R_run : forall c f args, R _ (@ModelKernel.run U T NT N c f args) (@ModelKernel.run V T NT N' c f args).

Ltac rel1 := match goal with
  | |- R _ (foldM _ _ _) (foldM _ _ _) => apply (ro_foldM R R_refl R_bind); intros
  | |- R _ (bind _ _) (bind _ _) => apply R_bind; [|intros]
  | p : (_ * _)%type |- _ => destruct p; cbv beta iota
  | |- R _ ?x ?y => constr_eq x y; apply R_refl
  | |- R _ (match ?x with _ => _ end) (match ?y with _ => _ end) => constr_eq x y; destruct x
  end.
Ltac rel := repeat (cbv beta zeta; rel1).
Lemma ro_op1 k h i : R _ (@m_op1 U T NT N k h i) (@m_op1 V T NT N' k h i).
Proof. unfold m_op1. rel. exact (ro_fwd R R_refl R_bind U V N N' R_run _ _). Qed.
Lemma ro_op2 k h i j : R _ (@m_op2 U T NT N k h i j) (@m_op2 V T NT N' k h i j).
Proof. unfold m_op2. rel. exact (ro_fwd R R_refl R_bind U V N N' R_run _ _). Qed.
Lemma ro_sub h i j : R _ (@m_sub U T NT N h i j) (@m_sub V T NT N' h i j).
Proof. unfold m_sub. rel; [apply ro_op1|apply ro_op2]. Qed.
Lemma ro_sum h i : R _ (@m_sum U T NT N h i) (@m_sum V T NT N' h i).
Proof. unfold m_sum. rel. exact (ro_two R R_refl R_bind _ _ (R_run _ _ _)). Qed.
Lemma ro_activate a h i : R _ (@m_activate U T NT N a h i) (@m_activate V T NT N' a h i).
Proof. destruct a; cbn [m_activate]; [apply R_refl|..]; apply ro_op1. Qed.
Lemma ro_forward m h x : R _ (@m_mlp_forward U T NT N m h x) (@m_mlp_forward V T NT N' m h x).
Proof. unfold m_mlp_forward, m_linear_forward. rel; [apply ro_op2|apply ro_op2|apply ro_activate]. Qed.
Lemma ro_sgd m st h : R _ (@m_sgd_step U T NT N m st h) (@m_sgd_step V T NT N' m st h).
Proof. unfold m_sgd_step, m_sgd_param. rel; [exact (ro_mul_raw R R_refl R_bind U V N N' R_run _ _)|apply ro_sub]. Qed.
Lemma ro_train_step m st h x y : R _ (@m_train_step U T NT N m st h x y) (@m_train_step V T NT N' m st h x y).
Proof.
  unfold m_train_step. rel; [apply ro_forward|apply ro_sub|apply ro_op1|apply ro_sum|exact (ro_backward R R_refl R_bind U V R_debug N N' R_run _ _)|apply ro_sgd].
Qed.
Lemma ro_train m st h xs : R _ (@m_train U T NT N m st h xs) (@m_train V T NT N' m st h xs).
Proof. unfold m_train. rel. apply ro_train_step. Qed.
Lemma ro_main i hd o r one st w1 b1 w2 b2 w3 b3 inp : R _ (@m_main U T NT N i hd o r one st w1 b1 w2 b2 w3 b3 inp) (@m_main V T NT N' i hd o r one st w1 b1 w2 b2 w3 b3 inp).
Proof.
  unfold m_main, m_new. cbv beta zeta. rel; try (match goal with |- R _ (m_raw_new _ _ _) _ => exact (ro_raw_new R R_refl R_bind U V N N' R_run _ _) end).
  - exact (ro_raw_filler R R_refl R_bind U V N N' R_run _ _).
  - apply ro_train_step.
Qed.
End Rel.

(** ** The model's training over named activations *)
Section Model.
Context {T : Type} {NT : Num T}.
Definition g_activate (a : activ) (h : heap T) (i : nat) : outcome (heap T * nat) :=
  match act_of a with Some f => f h i | None => Ret (h, i) end.
Definition g_forward (m : list layer) (h : heap T) (batch : nat) : outcome (heap T * nat) :=
  foldM (fun '(h, prev) l => let* (h1, y) := op_bmm h prev (l_weights l) in let* (h2, z) := op_add h1 y (l_bias l) in g_activate (l_activation l) h2 z) m (h, batch).
Definition g_sgd (m : list layer) (st : raw T) (h : heap T) : outcome (heap T * list layer) :=
  let* (h', new_params) := sgd_new_params st h (layer_params m) in let* m' := layer_update_params m new_params in Ret (h', m').
Definition g_step (m : list layer) (st : raw T) (h : heap T) (x y : nat) : outcome (heap T * list layer) :=
  let* (h1, res) := g_forward m h x in let* (h2, diff) := op_sub h1 res y in let* (h3, ab) := op_abs h2 diff in
  let* (h4, loss) := op_sum h3 ab in let* h5 := backward h4 loss in g_sgd m st h5.
Definition g_train (m : list layer) (st : raw T) (h : heap T) (xs : list (nat * nat)) : outcome (heap T * list layer) :=
  foldM (fun '(h, m) '(x, y) => g_step m st h x y) xs (h, m).
Definition named (r : outcome (heap T * list layer)) : outcome (heap T * mlp T) := let* (h, m) := r in Ret (h, to_mlp m).

Lemma g_activate_eq a h i : g_activate a h i = activation (to_linear (mkLayer 0 0 a)) h i.
Proof. destruct a; reflexivity. Qed.
Lemma g_forward_eq m : forall h x, mlp_forward (to_mlp m) h x = g_forward m h x.
Proof.
  unfold mlp_forward, g_forward, to_mlp. induction m as [|[w b a] m IH]; intros h x; [reflexivity|]. cbn [map foldM].
  unfold linear_forward at 1. cbn [to_linear linear_new weights bias activation l_weights l_bias l_activation].
  destruct (op_bmm h x w) as [[h1 y]| |]; cbn [bind]; [|reflexivity|reflexivity]. destruct (op_add h1 y b) as [[h2 z]| |]; cbn [bind]; [|reflexivity|reflexivity].
  rewrite g_activate_eq. cbn [to_linear linear_new activation l_weights l_bias l_activation].
  destruct (match act_of a with Some f => f | None => _ end h2 z) as [[h3 q]| |]; cbn [bind]; [apply IH|reflexivity|reflexivity].
Qed.
Lemma params_eq m : mlp_params (to_mlp m) = layer_params m.
Proof. unfold mlp_params, layer_params, to_mlp. rewrite flat_map_concat_map, map_map, <- flat_map_concat_map. reflexivity. Qed.
Lemma update_loop_eq rl : forall ps acc, mlp_update_loop (to_mlp rl) ps (to_mlp acc) = let* m' := layer_update_loop rl ps acc in Ret (to_mlp m').
Proof.
  induction rl as [|[w b a] rl IH]; intros ps acc; [reflexivity|]. cbn [to_mlp map mlp_update_loop layer_update_loop].
  destruct ps as [|b' [|w' ps]]; [reflexivity|reflexivity|]. cbn. exact (IH ps (mkLayer w' b' a :: acc)).
Qed.
Lemma update_eq m ps : mlp_update_params (to_mlp m) ps = let* m' := layer_update_params m ps in Ret (to_mlp m').
Proof. unfold mlp_update_params, layer_update_params. unfold to_mlp at 1. rewrite <- map_rev. exact (update_loop_eq (rev m) (rev ps) []). Qed.
Lemma g_sgd_eq m st h : sgd_step_mlp (to_mlp m) st h = named (g_sgd m st h).
Proof.
  unfold sgd_step_mlp, g_sgd, named. rewrite params_eq. destruct (sgd_new_params st h (layer_params m)) as [[h' ps]| |]; cbn [bind]; [|reflexivity|reflexivity].
  rewrite update_eq. destruct (layer_update_params m ps); reflexivity.
Qed.
Lemma g_step_eq m st h x y : train_step (to_mlp m) st h x y = named (g_step m st h x y).
Proof.
  unfold train_step, g_step. rewrite g_forward_eq. destruct (g_forward m h x) as [[h1 r]| |]; cbn [bind]; [|reflexivity|reflexivity].
  destruct (op_sub h1 r y) as [[h2 d]| |]; cbn [bind]; [|reflexivity|reflexivity]. destruct (op_abs h2 d) as [[h3 ab]| |]; cbn [bind]; [|reflexivity|reflexivity].
  destruct (op_sum h3 ab) as [[h4 l]| |]; cbn [bind]; [|reflexivity|reflexivity]. destruct (backward h4 l) as [h5| |]; cbn [bind]; [|reflexivity|reflexivity].
  apply g_sgd_eq.
Qed.
Lemma g_train_eq st xs : forall m h, train (to_mlp m) st h xs = named (g_train m st h xs).
Proof.
  unfold train, g_train. induction xs as [|[x y] xs IH]; intros m h; [reflexivity|]. cbn [foldM]. rewrite g_step_eq.
  destruct (g_step m st h x y) as [[h' m']| |]; cbn [named bind]; [apply IH|reflexivity|reflexivity].
Qed.

(** ** The statements with enough turns *)
#[local] Existing Instance unbounded.
Ltac ev1 := match goal with
  | |- evt (fun _ => ?x) ?y => constr_eq x y; apply evt_const
  | |- evt (fun N => bind (@?m N) (@?f N)) (bind ?m' ?f') => apply (evt_bind _ _ m m' f f'); cbv beta; [|intros]
  | p : (_ * _)%type |- _ => destruct p; cbv beta iota
  | |- evt (fun N => match ?x with _ => _ end) (match ?y with _ => _ end) => constr_eq x y; destruct x
  end.
Ltac ev := repeat (cbv beta zeta; ev1).
Lemma e_abs h i : evt (fun N => m_op1 N KAbs h i) (op_abs h i).
Proof. apply (e_op1 KAbs h i abs_raw). intros t. apply (e_unary (op_closures KAbs)). Qed.
Lemma e_relu h i : evt (fun N => m_op1 N KRelu h i) (op_relu h i).
Proof. apply (e_op1 KRelu h i relu_raw). intros t. apply (e_unary (op_closures KRelu)). Qed.
Lemma e_tanh h i : evt (fun N => m_op1 N KTanh h i) (op_tanh h i).
Proof. apply (e_op1 KTanh h i tanh_raw). intros t. apply (e_unary (op_closures KTanh)). Qed.
Lemma e_bmm h i j : evt (fun N => m_op2 N KBmm h i j) (op_bmm h i j).
Proof. apply (e_op2 KBmm h i j bmm_raw). intros t u. apply e_bmm_raw. Qed.
Lemma e_activate a h i : evt (fun N => m_activate N a h i) (g_activate a h i).
Proof. destruct a; unfold m_activate, g_activate, act_of; [apply evt_const|apply e_relu|apply e_tanh|apply e_abs|apply e_neg]. Qed.
Lemma e_sub h i j : evt (fun N => m_sub N h i j) (op_sub h i j).
Proof. unfold m_sub, op_sub. ev; [apply e_neg|apply e_add]. Qed.
Lemma e_forward m h x : evt (fun N => m_mlp_forward N m h x) (g_forward m h x).
Proof.
  unfold m_mlp_forward, g_forward, m_linear_forward. match goal with |- evt (fun N => foldM (@?g N) ?l ?a) (foldM ?g' _ _) => apply (evt_foldM _ _ g g') end.
  intros [h1 p] l. ev; [apply e_bmm|apply e_add|apply e_activate].
Qed.
Lemma e_sgd_param st h p : evt (fun N => m_sgd_param N st h p) (sgd_param st h p).
Proof. unfold m_sgd_param, sgd_param. ev; [apply e_mul_raw|apply e_sub]. Qed.
Lemma e_sgd m st h : evt (fun N => m_sgd_step N m st h) (g_sgd m st h).
Proof.
  unfold m_sgd_step, g_sgd, sgd_new_params. ev.
  match goal with |- evt (fun N => foldM (@?g N) ?l ?a) (foldM ?g' _ _) => apply (evt_foldM _ _ g g') end.
  intros [h1 acc] p. ev. apply e_sgd_param.
Qed.
Lemma e_step m st h x y : evt (fun N => m_train_step N m st h x y) (g_step m st h x y).
Proof. unfold m_train_step, g_step. ev; [apply e_forward|apply e_sub|apply e_abs|apply e_op_sum|apply e_backward|apply e_sgd]. Qed.
Lemma e_train m st h xs : evt (fun N => m_train N m st h xs) (g_train m st h xs).
Proof.
  unfold m_train, g_train. match goal with |- evt (fun N => foldM (@?g N) ?l ?a) (foldM ?g' _ _) => apply (evt_foldM _ _ g g') end.
  intros [h1 m1] [x y]. apply e_step.
Qed.

(** ** [main] *)
Definition g_main (inp hid out rounds : nat) (one step : T) (w1 b1 w2 b2 w3 b3 input : list T) : outcome (heap T * list layer) :=
  let* (h, iw1) := op_new (mkHeap [] (fun _ => None)) w1 [inp; hid] in
  let* (h, ib1) := op_new h b1 [1; hid] in
  let* (h, iw2) := op_new h w2 [hid; hid] in
  let* (h, ib2) := op_new h b2 [1; hid] in
  let* (h, iw3) := op_new h w3 [hid; out] in
  let* (h, ib3) := op_new h b3 [1; out] in
  let* (h, x) := op_new h input [1; inp] in
  let* t := Ret (raw_filler [1; out] one) in
  let (h, y) := alloc h t None None in
  foldM (fun '(h, m) (_ : unit) =>
      let* (h1, m1) := g_step m (raw_scalar step) h x y in
      Ret (zero_grad (zero_grad h1 y) x, m1))
    (repeat tt rounds) (h, [mkLayer iw1 ib1 ARelu; mkLayer iw2 ib2 ATanh; mkLayer iw3 ib3 ATanh]).
Lemma g_rounds_eq step x y l : forall h m, foldM (fun hm (_ : unit) => main_round step x y hm) l (h, to_mlp m) =
  named (foldM (fun '(h, m) (_ : unit) => let* (h1, m1) := g_step m (raw_scalar step) h x y in Ret (zero_grad (zero_grad h1 y) x, m1)) l (h, m)).
Proof.
  induction l as [|u l IH]; intros h m; [reflexivity|]. cbn [foldM]. unfold main_round at 1. rewrite g_step_eq.
  destruct (g_step m (raw_scalar step) h x y) as [[h' m']| |]; cbn [named bind]; [apply IH|reflexivity|reflexivity].
Qed.
Lemma g_main_eq i hd o r one st w1 b1 w2 b2 w3 b3 inp : main_program i hd o r one st w1 b1 w2 b2 w3 b3 inp = named (g_main i hd o r one st w1 b1 w2 b2 w3 b3 inp).
Proof.
  unfold main_program, g_main, main_setup, main_net.
  do 6 (match goal with |- context[op_new ?h ?a ?s] => destruct (op_new h a s) as [[? ?]| |]; cbn [bind named]; [|reflexivity|reflexivity] end).
  match goal with |- context[op_new ?h ?a ?s] => destruct (op_new h a s) as [[h7 x]| |]; cbn [bind named]; [|reflexivity|reflexivity] end.
  unfold op_filler. cbn [bind]. destruct (alloc h7 (raw_filler [1; o] one) None None) as [h8 y]. cbn [bind].
  match goal with |- foldM _ _ (_, [relu_layer ?a ?b; tanh_layer ?c ?d; tanh_layer ?e ?f]) = _ => exact (g_rounds_eq st x y (repeat tt r) h8 [mkLayer a b ARelu; mkLayer c d ATanh; mkLayer e f ATanh]) end.
Qed.
(** the activations stay *)
Lemma update_loop_activs rl : forall ps acc m', layer_update_loop rl ps acc = Ret m' -> map l_activation m' = map l_activation (rev rl) ++ map l_activation acc.
Proof.
  induction rl as [|l rl IH]; intros ps acc m' H; [injection H as <-; reflexivity|]. cbn [layer_update_loop] in H.
  destruct ps as [|b' [|w' ps]]; try discriminate. rewrite (IH _ _ _ H). cbn [rev map l_activation]. rewrite map_app, <- app_assoc. reflexivity.
Qed.
Lemma step_activs m st h x y h' m' : g_step m st h x y = Ret (h', m') -> map l_activation m' = map l_activation m.
Proof.
  unfold g_step, g_sgd. intros H. repeat (match type of H with bind ?o _ = Ret _ => destruct o as [?| |] eqn:?; cbn [bind] in H; try discriminate H end;
    repeat (match goal with p : (_ * _)%type |- _ => destruct p end)).
  injection H as _ <-. match goal with Q : layer_update_params _ _ = Ret _ |- _ => apply update_loop_activs in Q; rewrite Q end. rewrite rev_involutive. apply app_nil_r.
Qed.
Lemma main_activs i hd o r one st w1 b1 w2 b2 w3 b3 inp h m : g_main i hd o r one st w1 b1 w2 b2 w3 b3 inp = Ret (h, m) -> map l_activation m = [ARelu; ATanh; ATanh].
Proof.
  unfold g_main. do 7 (match goal with |- context[op_new ?h ?a ?s] => destruct (op_new h a s) as [[? ?]| |]; cbn [bind]; try discriminate end). cbn [bind].
  match goal with |- context[alloc ?a ?b ?c ?d] => destruct (alloc a b c d) as [h8 y] end.
  match goal with |- foldM ?f _ (h8, _) = _ -> _ => assert (K : forall l ha ma hb mb, foldM f l (ha, ma) = Ret (hb, mb) -> map l_activation mb = map l_activation ma) end.
  { induction l as [|u l IH]; intros ha ma hb mb H; [injection H as _ <-; reflexivity|]. cbn [foldM] in H.
    match type of H with context[g_step ?a ?b ?c ?d ?e] => destruct (g_step a b c d e) as [[hc mc]| |] eqn:Q end; cbn [bind] in H; try discriminate H.
    rewrite (IH _ _ _ _ H). exact (step_activs _ _ _ _ _ _ _ Q). }
  intros H. exact (K _ _ _ _ _ H).
Qed.
Lemma e_new h a s : evt (fun N => m_new N h a s) (op_new h a s).
Proof. unfold m_new, op_new. ev. apply e_raw_new. Qed.
Lemma e_main i hd o r one st w1 b1 w2 b2 w3 b3 inp : evt (fun N => m_main N i hd o r one st w1 b1 w2 b2 w3 b3 inp) (g_main i hd o r one st w1 b1 w2 b2 w3 b3 inp).
Proof.
  unfold m_main, g_main. ev; try (match goal with |- evt (fun N => m_new N _ _ _) _ => apply e_new end); [apply e_raw_filler|].
  match goal with |- evt (fun N => foldM (@?g N) ?l ?a) (foldM ?g' _ _) => apply (evt_foldM _ _ g g') end.
  intros [h9 m9] _. ev. apply e_step.
Qed.
End Model.

(** ** On wide words *)
Section Lim.
Context {T : Type} {NT : Num T}.
Variable N : nat.
Ltac lfold := match goal with |- lim (fun M => foldM (@?g M) ?l ?a) (foldM ?g' _ _) => apply (lim_foldM _ _ g g' l) end; cbv beta.
Lemma li_op1 k h i : lim (fun M => @m_op1 (checked M) T NT N k h i) (@m_op1 unbounded T NT N k h i).
Proof. unfold m_op1. lims. apply li_fwd. Qed.
Lemma li_op2 k h i j : lim (fun M => @m_op2 (checked M) T NT N k h i j) (@m_op2 unbounded T NT N k h i j).
Proof. unfold m_op2. lims. apply li_fwd. Qed.
Lemma li_sub h i j : lim (fun M => @m_sub (checked M) T NT N h i j) (@m_sub unbounded T NT N h i j).
Proof. unfold m_sub. lims; [apply li_op1|apply li_op2]. Qed.
Lemma li_sum h i : lim (fun M => @m_sum (checked M) T NT N h i) (@m_sum unbounded T NT N h i).
Proof. unfold m_sum. lims. exact (lim_two _ _ (lim_run _ _ _ _)). Qed.
Lemma li_activate a h i : lim (fun M => @m_activate (checked M) T NT N a h i) (@m_activate unbounded T NT N a h i).
Proof. destruct a; cbn [m_activate]; [apply lim_const|..]; apply li_op1. Qed.
Lemma li_forward m h x : lim (fun M => @m_mlp_forward (checked M) T NT N m h x) (@m_mlp_forward unbounded T NT N m h x).
Proof. unfold m_mlp_forward, m_linear_forward. lfold. intros [h1 p] l. lims; [apply li_op2|apply li_op2|apply li_activate]. Qed.
Lemma li_sgd m st h : lim (fun M => @m_sgd_step (checked M) T NT N m st h) (@m_sgd_step unbounded T NT N m st h).
Proof.
  unfold m_sgd_step, m_sgd_param. lims. lfold. intros [h1 acc] p. lims; [apply li_mul_raw|apply li_sub].
Qed.
Lemma li_step m st h x y : lim (fun M => @m_train_step (checked M) T NT N m st h x y) (@m_train_step unbounded T NT N m st h x y).
Proof. unfold m_train_step. lims; [apply li_forward|apply li_sub|apply li_op1|apply li_sum|apply li_backward|apply li_sgd]. Qed.
Lemma li_train m st h xs : lim (fun M => @m_train (checked M) T NT N m st h xs) (@m_train unbounded T NT N m st h xs).
Proof. unfold m_train. lfold. intros [h1 m1] [x y]. apply li_step. Qed.
Lemma li_main i hd o r one st w1 b1 w2 b2 w3 b3 inp :
  lim (fun M => @m_main (checked M) T NT N i hd o r one st w1 b1 w2 b2 w3 b3 inp) (@m_main unbounded T NT N i hd o r one st w1 b1 w2 b2 w3 b3 inp).
Proof.
  unfold m_main, m_new. lims; try (match goal with |- lim (fun M => m_raw_new _ _ _) _ => apply li_raw_new end); [apply li_raw_filler|].
  lfold. intros [h9 m9] u. lims. apply li_step.
Qed.
End Lim.
