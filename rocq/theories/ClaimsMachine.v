(** * ClaimsMachine: whole programs carried out by the source's statements (C88) *)
From Coq Require Import ZArith Reals.
From Coq Require String.
From Verif Require Import Base ModelIndex ModelTensor ModelOps ModelJvp ModelGraph ModelUsize ModelRust ModelKernel ModelMachine Spec SpecGraph SpecReal Lists
  RealInst FuelFacts BackFacts ProgFacts UsizeFacts HandleProg ClaimsGrad ClaimsUsize ClaimsRust MachineFacts RustLim MachineLim RustRel RustMono Instances UsizeSmall.
Import String.StringSyntax.
Local Open Scope string_scope.

Lemma m_run_checked (T : Type) (NT : Num T) M N p s :
  (m_run (U := checked M) N p s = m_run (U := unbounded) N p s \/ m_run (U := checked M) N p s = Panic PArith) /\
  (forall x, m_run (U := checked M) N p s = Ret x -> m_run (U := wrapping M) N p s = Ret x).
Proof.
  split.
  - apply (ro_run (fun A o o' => o = o' \/ o = Panic PArith)).
    + intros; left; reflexivity.
    + apply dev_bind.
    + intros b. left. reflexivity.
    + intros c f args. apply (proj1 (run_checked T NT M N c f args)).
  - change (pres (m_run (U := checked M) N p s) (m_run (U := wrapping M) N p s)). apply (ro_run (fun A o o' => pres o o')).
    + intros; apply p_refl.
    + intros A B m m' f f' H1 H2. apply p_bind; auto.
    + intros b [] _. reflexivity.
    + intros c f args. exact (proj2 (run_checked T NT M N c f args)).
Qed.
Lemma alike_ret A (m m' : outcome A) x : alike m m' -> m = Ret x <-> m' = Ret x.
Proof. destruct m, m'; cbn [alike]; intros H; try contradiction; split; intros Q; try discriminate; congruence. Qed.
Lemma alike_nf A (m m' : outcome A) : alike m m' -> m' <> NoFuel -> m <> NoFuel.
Proof. destruct m, m'; cbn [alike]; intros H K; try contradiction; congruence. Qed.
Lemma init_nf (T : Type) (NT : Num T) (p : list (cmd T)) : ModelGraph.run p init_state <> NoFuel.
Proof. apply run_nf. intros i nd k ins E. destruct i; discriminate. Qed.

(** C88: every program of API calls, its calculations done by the statements of the source: with enough turns for the loops it
    ends, and with overflow checks what it returns is what it returns without them and what the model says; and if the model
    returns, it returns the same or panics because a [usize] overflowed. *)
Lemma c88_programs :
  forall (T : Type) (NT : Num T) (p : list (cmd T)),
    exists N0 : nat, forall N : nat, N0 <= N ->
      (forall s, m_run (U := unbounded) N p init_state = Ret s <-> ModelGraph.run p init_state = Ret s) /\
      forall M : nat,
        m_run (U := checked M) N p init_state <> NoFuel /\
        (forall s, m_run (U := checked M) N p init_state = Ret s ->
           m_run (U := wrapping M) N p init_state = Ret s /\ ModelGraph.run p init_state = Ret s) /\
        (forall s, ModelGraph.run p init_state = Ret s ->
           m_run (U := checked M) N p init_state = Ret s \/ m_run (U := checked M) N p init_state = Panic PArith).
Proof.
  intros T NT p. destruct (e_run p init_state) as (N0 & H). exists N0. intros N HN. specialize (H N HN).
  pose proof (alike_nf _ _ _ H (init_nf T NT p)) as F.
  assert (I : forall s, m_run (U := unbounded) N p init_state = Ret s <-> ModelGraph.run p init_state = Ret s) by (intros s; apply alike_ret; exact H).
  split; [exact I|]. intros M. destruct (m_run_checked T NT M N p init_state) as [A B]. split; [|split].
  - destruct A as [A|A]; rewrite A; [exact F|discriminate].
  - intros s Hs. split; [exact (B s Hs)|]. apply I. destruct A as [A|A]; [rewrite <- A; exact Hs|rewrite Hs in A; discriminate A].
  - intros s Hs. apply I in Hs. destruct A as [A|A]; [left; rewrite A; exact Hs|right; exact A].
Qed.
Example c88_programs_ex :
  let p := [CNew [1; 2; 3; 4]%Z [2; 2]; CRelu 0; CBmm 0 1; CSum 2; CBackward 3; CViewSum 0 [mkSR 0 1; mkSR 1 2]] in
  match m_run (U := checked 32) 20 p init_state, ModelGraph.run p init_state with
  | Ret s, Ret s' => nodes (hp s) = nodes (hp s') /\ grads (hp s) 0 = grads (hp s') 0 /\ grads (hp s) 0 <> None
  | _, _ => False
  end.
Proof. vm_compute. repeat split; discriminate. Qed.

(** C88: each rule of a derivative as it stands in the source, with the closures its operation passes. *)
Lemma c88_rules :
  forall (T : Type) (NT : Num T) (k : opk) (tensors outer : list (raw T)),
    exists N0 : nat, forall N M : nat, N0 <= N ->
      (forall l, (exists w, ModelKernel.run (U := unbounded) N (op_closures k) (op_rule k) [VTens tensors; VTens outer] = Ret (VTens l, w))
                 <-> jvp k tensors outer = Ret l) /\
      (forall l w, ModelKernel.run (U := checked M) N (op_closures k) (op_rule k) [VTens tensors; VTens outer] = Ret (VTens l, w) ->
         ModelKernel.run (U := wrapping M) N (op_closures k) (op_rule k) [VTens tensors; VTens outer] = Ret (VTens l, w) /\
         jvp k tensors outer = Ret l).
Proof.
  intros T NT k ts gs. destruct (e_jvp k ts gs) as (N0 & H). exists N0. intros N M HN. specialize (H N HN).
  assert (I : forall l, (exists w, ModelKernel.run (U := unbounded) N (op_closures k) (op_rule k) [VTens ts; VTens gs] = Ret (VTens l, w))
                 <-> jvp k ts gs = Ret l).
  { intros l. rewrite <- (alike_ret _ _ _ l H). unfold m_jvp, get_tens. generalize (ModelKernel.run (U := unbounded) N (op_closures k) (op_rule k) [VTens ts; VTens gs]). intros o. split.
    - intros (w & ->). reflexivity.
    - destruct o as [[v w]|q|]; cbn [bind]; try discriminate. destruct v; try discriminate. intros [= ->]. exists w. reflexivity. }
  split; [exact I|]. intros l w Hl. destruct (run_checked T NT M N (op_closures k) (op_rule k) [VTens ts; VTens gs]) as [A B].
  split; [exact (B _ Hl)|]. apply I. exists w. destruct A as [A|A]; [rewrite <- A; exact Hl|rewrite Hl in A; discriminate A].
Qed.
Example c88_rules_ex :
  ModelKernel.run (T := Z) (U := checked 256) 20 (op_closures KBmm) (op_rule KBmm)
    [VTens [mkRaw [1; 2; 3; 4]%Z [2; 2]; mkRaw [5; 6; 7; 8]%Z [2; 2]]; VTens [mkRaw [1; 1; 1; 1]%Z [1; 4]]]
  = Ret (VTens [mkRaw [11; 15; 11; 15]%Z [1; 4]; mkRaw [4; 4; 6; 6]%Z [1; 4]], VTens [mkRaw [1; 2; 3; 4]%Z [2; 2]; mkRaw [5; 6; 7; 8]%Z [2; 2]]) /\
  ModelKernel.run (T := Z) (U := checked 256) 20 (op_closures KAbs) (op_rule KAbs) [VTens [mkRaw [3; -4]%Z [2]]; VTens [mkRaw [10; 100]%Z [1; 2]]]
  = Ret (VTens [mkRaw [10; -100]%Z [1; 2]], VTens [mkRaw [3; -4]%Z [2]]).
Proof. vm_compute. split; reflexivity. Qed.

(** C88: more turns for the loops change nothing in a program that ended, of the small language or of API calls. *)
Lemma c88_more_turns :
  forall (U : usize_ops) (T : Type) (NT : Num T) (N N' : nat), N <= N' ->
    (forall (E : fenv) (ds : list (string * func)) (f : string) (args : list val),
       call (link N E ds) f args = NoFuel \/ call (link N E ds) f args = call (link N' E ds) f args) /\
    (forall (p : list (cmd T)) (s : state T), m_run N p s = NoFuel \/ m_run N p s = m_run N' p s).
Proof.
  intros U T NT N N' HN. split.
  - intros E ds f args. exact (less_link N N' HN ds E E (fun g a => less_refl _ _) f args).
  - intros p s. exact (less_m_run N N' HN p s).
Qed.
Example c88_more_turns_ex :
  let p := [CNew [1; 2; 3; 4]%Z [2; 2]; CAdd 0 0; CSum 1] in
  m_run (U := checked 64) 2 p init_state = NoFuel /\ m_run (U := checked 64) 5 p init_state <> NoFuel.
Proof. vm_compute. split; [reflexivity|discriminate]. Qed.

(** C88: so whatever the statements return with overflow checks, however many turns they had, is what they return without the
    checks and what the model says. *)
Lemma c88_never_wrong :
  forall (T : Type) (NT : Num T) (M N : nat) (p : list (cmd T)) (s : state T),
    m_run (U := checked M) N p init_state = Ret s -> m_run (U := wrapping M) N p init_state = Ret s /\ ModelGraph.run p init_state = Ret s.
Proof.
  intros T NT M N p s H. destruct (m_run_checked T NT M N p init_state) as [A B]. split; [exact (B s H)|].
  destruct (c88_programs T NT p) as (N0 & C). destruct (C (N0 + N) ltac:(lia)) as [I _]. apply I.
  destruct A as [A|A]; [|rewrite H in A; discriminate A].
  destruct (less_m_run (U := unbounded) N (N0 + N) ltac:(lia) p init_state) as [F|F]; [rewrite <- A, H in F; discriminate F|].
  rewrite <- F, <- A. exact H.
Qed.
Example c88_never_wrong_ex :
  let p := [CNew [1; 2; 3; 4]%Z [2; 2]; CAbs 0; CBmm 0 1; CSum 2; CBackward 3] in
  match m_run (U := checked 40) 20 p init_state with Ret s => grads (hp s) 1 <> None | _ => False end.
Proof. vm_compute. discriminate. Qed.

(** C88: so with real numbers the statements of the source, run with overflow checks, leave in a tensor of a program of
    differentiable calls the derivative of the program's result with respect to the tensor's elements. *)
Lemma c88_gradient :
  forall (M N : nat) (p1 p2 : list (cmd R)) (a : list R) (sh : list nat) (y r : nat) (st st' : state R),
    forallb differentiable (p1 ++ CNew a sh :: p2) = true ->
    m_run (U := checked M) N (p1 ++ CNew a sh :: p2) init_state = Ret st -> m_run (U := checked M) N [CBackward y] st = Ret st' ->
    nonempty (nodes (hp st)) -> matrices_only (nodes (hp st)) ->
    nth_error (ModelGraph.env st) y = Some r -> root_ok (nodes (hp st)) r -> no_kinks (nodes (hp st)) r ->
    forall q, q < length a ->
      program_derivative (fun t => p1 ++ CNew (list_set a q (nth q a 0 + t)%R) sh :: p2) y (grad_entry st' (length p1) q).
Proof.
  intros M N p1 p2 a sh y r st st' HD E1 E2 HNE HM Hy Hr Hk q Hq.
  destruct (c88_never_wrong R _ M N _ st E1) as [_ R1].
  assert (E3 : m_run (U := checked M) N ((p1 ++ CNew a sh :: p2) ++ [CBackward y]) init_state = Ret st').
  { unfold m_run in *. rewrite foldM_app, E1. exact E2. }
  destruct (c88_never_wrong R _ M N _ st' E3) as [_ R2].
  destruct (c31_program_gradient p1 p2 a sh st y r HD R1 HNE HM Hy Hr Hk) as (st2 & B & _ & D).
  assert (st2 = st') as ->; [|exact (D q Hq)].
  unfold ModelGraph.run in R2, R1. rewrite foldM_app, R1 in R2. cbn [foldM bind] in R2. rewrite B in R2. injection R2 as ->. reflexivity.
Qed.
Example c88_gradient_ex : exists st st' : state R,
  forallb differentiable ([] ++ CNew [1; 2]%R [1; 2] :: [CTanh 0; CSum 1]) = true /\
  m_run (U := checked 64) 20 ([] ++ CNew [1; 2]%R [1; 2] :: [CTanh 0; CSum 1]) init_state = Ret st /\
  m_run (U := checked 64) 20 [CBackward 2] st = Ret st' /\
  nonempty (nodes (hp st)) /\ matrices_only (nodes (hp st)) /\ nth_error (ModelGraph.env st) 2 = Some 2 /\ root_ok (nodes (hp st)) 2 /\ no_kinks (nodes (hp st)) 2.
Proof.
  eexists. eexists. split; [reflexivity|]. split; [vm_compute; reflexivity|]. split; [vm_compute; reflexivity|].
  cbn [hp nodes ModelGraph.env]. split; [|split; [|split; [|split]]].
  - intros n Hn. do 3 (destruct n as [|n]; [cbn; repeat constructor; lia|]). cbn in Hn. lia.
  - intros n ins F. do 3 (destruct n as [|n]; [cbn in F; try discriminate F|]). destruct n; discriminate F.
  - reflexivity.
  - split; [reflexivity|]. exists KSum, [1]. split; [reflexivity|]. apply (top_sum _ _ 1); [cbn; lia|reflexivity|].
    apply (plain_op _ _ KTanh [0]); [cbn; lia|reflexivity|discriminate..|].
    intros i [<-|[]]. apply plain_leaf; [cbn; lia|reflexivity].
  - intros n k ins i _ F Hk Hin. do 3 (destruct n as [|n]; [cbn in F; try discriminate F; injection F as <- <-; try (destruct Hk; discriminate)|]).
    destruct n; discriminate F.
Qed.

(** C88: and no program overflows on words that are wide enough for it: then, with and without overflow checks, the statements return
    exactly when the model does, and the same. *)
Lemma c88_wide_words :
  forall (T : Type) (NT : Num T) (p : list (cmd T)),
    exists N0 : nat, forall N : nat, N0 <= N ->
      exists M0 : nat, forall M : nat, M0 <= M ->
        (forall s, m_run (U := checked M) N p init_state = Ret s <-> ModelGraph.run p init_state = Ret s) /\
        (forall s, ModelGraph.run p init_state = Ret s -> m_run (U := wrapping M) N p init_state = Ret s).
Proof.
  intros T NT p. destruct (c88_programs T NT p) as (N0 & H). exists N0. intros N HN. destruct (H N HN) as [I C].
  destruct (li_run N p init_state) as (M0 & L). exists M0. intros M HM.
  assert (K : forall s, m_run (U := checked M) N p init_state = Ret s <-> ModelGraph.run p init_state = Ret s).
  { intros s. rewrite (L M HM). apply I. }
  split; [exact K|]. intros s Hs. apply K in Hs. exact (proj2 (m_run_checked T NT M N p init_state) s Hs).
Qed.
Example c88_wide_words_ex :
  let p := [CNew [1; 2; 3; 4]%Z [2; 2]; CBmm 0 0; CTanh 1; CSum 2; CBackward 3] in
  m_run (U := checked 16) 20 p init_state = Panic PArith /\
  match m_run (U := checked 40) 20 p init_state with Ret s => grads (hp s) 0 <> None | _ => False end.
Proof. vm_compute. split; [reflexivity|discriminate]. Qed.

(** C88: the same for any program of the small language. *)
Lemma c88_wide_any :
  forall (T : Type) (NT : Num T) (N : nat) (E : fenv) (ds : list (string * func)) (f : string) (args : list val),
    exists M0 : nat, forall M : nat, M0 <= M ->
      call (link (U := checked M) N E ds) f args = call (link (U := unbounded) N E ds) f args.
Proof.
  intros T NT N E ds f args. exact (lim_link T NT N ds (fun _ => E) E (fun g a => lim_const _ _) f args).
Qed.
Example c88_wide_any_ex :
  let double := ("double", mkFn ["x"] (SReturn (EMul (EVar "x") (ENum 2)))) in
  call (T := Z) (link (U := checked 8) 5 (fun _ => None) [double]) "double" [VNum 4] = Panic PArith /\
  call (T := Z) (link (U := checked 9) 5 (fun _ => None) [double]) "double" [VNum 4] = Ret (VNum 8, VNum 4).
Proof. vm_compute. split; reflexivity. Qed.
