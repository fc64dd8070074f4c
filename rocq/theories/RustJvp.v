(** * RustJvp: [bmm_jvp] and [SplitArrayWriter] in the program of ModelKernel.v *)
From Coq Require String.
Import String.StringSyntax.
From Verif Require Import Base Lists ModelIndex ModelTensor ModelOps ModelJvp ModelUsize ModelRust ModelKernel SpecRust RustFacts JvpFacts QueueFacts.
#[local] Open Scope string_scope.
#[local] Coercion EVar : String.string >-> expr.
#[local] Coercion ENum : nat >-> expr.
#[local] Coercion PVar : String.string >-> pat.

(** The bodies of the four loops: functional/misc.rs:289-318, 272-318, 265-322, 264-323 *)
Definition body_row : stmt := block [
  SLet "tmp_left" EUninit;
          SMatch (ECall "global_index" [EVec [EVar "input_jac_idx"; EVar "left_jac_idx1"]; EVar "left_output_shape"; ENone])
            "t" (SSet "tmp_left" "t") "e" SPanic;
          SLet "left_val" (ETimes (ECall "index" [EAt "jacobians" 0; EVec [EVar "input_jac_idx"; EVar "self_jac_idx0"]])
                                  (ECall "index" [EAt "inputs" 1; EVec [EVar "k"; EVar "j"]]));
          SCall "sent" "left_writer" "left_senders" [EField "left_split_writer" "bit_width"; EVar "tmp_left"; EVar "left_val"];
          SLet "_" (EUnwrap "sent");
          SLet "tmp_right" EUninit;
          SMatch (ECall "global_index" [EVec [EVar "input_jac_idx"; EVar "right_jac_idx1"]; EVar "right_output_shape"; ENone])
            "t" (SSet "tmp_right" "t") "e" SPanic;
          SLet "right_val" (ETimes (ECall "index" [EAt "jacobians" 0; EVec [EVar "input_jac_idx"; EVar "self_jac_idx0"]])
                                   (ECall "index" [EAt "inputs" 0; EVec [EVar "i"; EVar "k"]]));
          SCall "sent" "right_writer" "right_senders" [EField "right_split_writer" "bit_width"; EVar "tmp_right"; EVar "right_val"];
          SLet "_" (EUnwrap "sent") ].
Definition body_j : stmt := block [
  SLet "self_jac_idx0" (EUnwrap (ECall "global_index" [EVec [EVar "i"; EVar "j"]; EVar "bmm_output_shape"; ENone]));
        SLet "left_jac_idx1" (EUnwrap (ECall "global_index" [EVec [EVar "i"; EVar "k"]; EField (EAt "inputs" 0) "shape"; ENone]));
        SLet "right_jac_idx1" (EUnwrap (ECall "global_index" [EVec [EVar "k"; EVar "j"]; EField (EAt "inputs" 1) "shape"; ENone]));
        SAssert (ELt "self_jac_idx0" (EAt "left_jacobian_shape" 0));
        SAssert (ELt "self_jac_idx0" (EAt (EField (EAt "jacobians" 0) "shape") 1));
        SAssert (ELt "left_jac_idx1" (EAt "left_jacobian_shape" 1));
  SFor "input_jac_idx" (IRange 0 (EAt (EField (EAt "jacobians" 0) "shape") 0)) body_row ].
Definition body_k : stmt := block [ SFor "j" (IRange 0 (EAt (EField (EAt "inputs" 1) "shape") 1)) body_j ].
Definition body_i : stmt := block [ SFor "k" (IRange 0 (EAt (EField (EAt "inputs" 0) "shape") 1)) body_k ].

Section Facts.
Context {U : usize_ops} {T : Type} {NT : Num T}.
Notation val := (@val T).
Notation fenv := (@fenv T).
Notation store := (@store T).
Notation msg := (nat * T)%type.

Lemma rparts_places w (l : list T) : 0 < w -> rparts w 0 (length l) = places (rchunks w l).
Proof.
  intros Hw. unfold rparts.
  assert (H : forall n f (l : list T), length l <= n -> length l <= f -> parts_aux f w 0 (length l) = places (rchunks w l)).
  { clear l. induction n as [|n IH]; intros f l Hn Hf.
    - destruct l; [|cbn in Hn; lia]. now destruct f.
    - destruct l as [|x l]; [now destruct f|]. destruct f as [|f]; [cbn in Hf; lia|].
      rewrite rchunks_cons by (auto; congruence). remember (x :: l) as k eqn:Ek.
      assert (K : 0 < length k) by (subst k; cbn; lia). destruct (length k) as [|m] eqn:Em; [lia|]. cbn [parts_aux places]. rewrite <- Em.
      assert (Lf : length (firstn (length k - w) k) = length k - w) by (rewrite firstn_length; lia). f_equal.
      + fold (split_join (rchunks w (firstn (length k - w) k))). rewrite split_join_rchunks by exact Hw. rewrite Lf, skipn_length. f_equal; lia.
      + rewrite <- Lf at 1. apply IH; lia. }
  apply (H (length l)); auto.
Qed.

Variable N : nat.

(** ** [SplitArrayWriter] *)
Definition writer_val (n : nat) (segs : list (nat * nat)) : val :=
  VRec [("segments", VParts segs); ("bit_width", VNum bit_width); ("width", VNum width); ("splits", VNum (n / width));
        ("channels", VChans (repeat [] (length segs)))].
Lemma k_split_new_ok (E : fenv) n :
  run_fn E N k_split_array_writer_new [VSlice 0 n] = Ret (writer_val n (rparts width 0 n), VSlice 0 n).
Proof. unfold k_split_array_writer_new, run_fn. step. change (Nat.shiftl 1 5) with width. change (width =? 0) with false. step. easy. Qed.

Lemma k_writer_ok (E : fenv) q g x :
  run_fn E N k_writer [VChans q; VNum bit_width; VNum g; VElem x] = let* q' := q_send q (g, x) in Ret (VOk VUnit, VChans q').
Proof.
  unfold k_writer, run_fn, q_send. step. destruct (vindex q (Nat.shiftr g bit_width)) as [l|p|]; step; [|easy..].
  destruct (vset q (Nat.shiftr g bit_width) (l ++ [(g, x)])) as [q'|p|]; step; easy.
Qed.

(** A [for] over a list of items that folds *)
Lemma items_fold A I (item : I -> val) (F : val -> store -> outcome (flow * store)) (st : A -> store) (g : A -> I -> outcome A) :
  (forall i a, (let* (f, st1) := F (item i) (st a) in Ret (f, leave (st a) st1)) = let* a' := g a i in Ret (Next, st a')) ->
  forall l a, loop_for (map item l) F (st a) = let* a' := foldM g l a in Ret (Next, st a').
Proof.
  intros HF l. induction l as [|i l IH]; intros a; cbn [map loop_for foldM bind]; [easy|].
  specialize (HF i a). destruct (g a i) as [a'|p|]; cbn [bind] in *.
  - destruct (F (item i) (st a)) as [[f st1]|q|]; cbn [bind] in *; try easy. injection HF as -> ->. cbn [turn]. apply IH.
  - destruct (F (item i) (st a)) as [[f st1]|q|]; cbn [bind] in *; [easy|congruence|easy].
  - destruct (F (item i) (st a)) as [[f st1]|q|]; cbn [bind] in *; easy.
Qed.

Lemma combine_map_r A B C (f : B -> C) (l : list A) : forall m, combine l (map f m) = map (fun p => (fst p, f (snd p))) (combine l m).
Proof. induction l as [|a l IH]; intros [|b m]; cbn; congruence. Qed.
Lemma k_start_ok (E : fenv) A ps q : length q = length ps ->
  run_fn E N k_start_then_join [VArr A; VParts ps; VChans q; VNum width] = let* A' := a_recv_all q ps 0 A in Ret (VUnit, VArr A').
Proof.
  intros L. unfold k_start_then_join, run_fn, a_recv_all. hide. step. rewrite zip_val_map, enum_val_from, map_length, combine_length, L, Nat.min_id.
  rewrite combine_map_r, map_map. cbn [fst snd].
  set (st := fun a : list T => [("array", VArr a); ("segments", VParts ps); ("receivers", VChans q); ("width", VNum width)] : store).
  match goal with |- context [loop_for _ _ ?s] => change s with (st A) end.
  rewrite (items_fold (list T) _ _ _ st (fun A p => foldM (a_receive (fst p) (fst (snd p))) (snd (snd p)) A)).
  - destruct (foldM _ _ A) as [A'|p|]; step; easy.
  - intros [c [[off len] ms]] a. cbn [fst snd]. subst B. hide. unfold st at 1. step.
    set (st2 := fun a : list T => ("rx", VMsgs ms) :: ("slice", VSlice off len) :: ("slice_idx", VNum c) :: st a : store).
    match goal with |- context [loop_for _ _ ?s] => change s with (st2 a) end.
    rewrite (items_fold (list T) _ _ _ st2 (a_receive c (off, len))).
    + destruct (foldM _ ms a) as [a'|p|]; step; easy.
    + intros [g x] b. subst B. unfold st2, st, a_receive. cbn [fst snd]. step. destruct (u_mul c width) as [s|p|]; step; [|easy..].
      destruct (u_sub g s) as [i|p|]; step; [|easy..]. destruct (i <? len) eqn:El; cbn [assert]; step; [|easy]. rewrite ?El. step.
      destruct (vindex b (off + i)) as [y|p|]; step; [|easy..]. rewrite ?El. step.
      destruct (vset b (off + i) (n_add y x)) as [b'|p|]; step; easy.
Qed.

(** ** The tasks, with channels *)
Variable R : nat.
Hypothesis R2 : 2 <= R.
Definition has_writer (E : fenv) (f : string) : Prop := forall q g x,
  call E f [VChans q; VNum bit_width; VNum g; VElem x] = let* q' := q_send q (g, x) in Ret (VOk VUnit, VChans q').
Definition has_split_new (E : fenv) : Prop := forall n,
  call E "SplitArrayWriter::new" [VSlice 0 n] = Ret (writer_val n (rparts width 0 n), VSlice 0 n).
Definition has_start (E : fenv) : Prop := forall A ps q, length q = length ps ->
  call E "start_then_join" [VArr A; VParts ps; VChans q; VNum width] = let* A' := a_recv_all q ps 0 A in Ret (VUnit, VArr A').

Section Task.
Variables a b jac : raw T.
Hypothesis Ra : length (shape a) <= R.
Hypothesis Rb : length (shape b) <= R.
Hypothesis Rj : length (shape jac) <= R.
Variables os ljs los ros : list nat.
Hypothesis Ros : length os = 2.
Hypothesis Rlos : length los = 2.
Hypothesis Rros : length ros = 2.
Notation queues := (list (list msg) * list (list msg))%type.

(** functional/misc.rs:290-299: [Ok(t) => t, Err(e) => panic!] *)
Definition or_panic (r : result nat) : outcome nat := match r with Ok t => Ret t | Err _ => Panic PAssert end.
(** functional/misc.rs:289-318 *)
Definition q_row (i k j s0 l1 r1 : nat) (st : queues) (x : nat) : outcome queues :=
  let* r := u_global_index [x; l1] los None in
  let* tmp_left := or_panic r in
  let* g := u_raw_at jac [x; s0] in
  let* bv := u_raw_at b [k; j] in
  let* ql := q_send (fst st) (tmp_left, n_mul g bv) in
  let* r := u_global_index [x; r1] ros None in
  let* tmp_right := or_panic r in
  let* g := u_raw_at jac [x; s0] in
  let* av := u_raw_at a [i; k] in
  let* qr := q_send (snd st) (tmp_right, n_mul g av) in
  Ret (ql, qr).
(** functional/misc.rs:272-318 *)
Definition q_task (i k j : nat) (st : queues) : outcome queues :=
  let* r := u_global_index [i; j] os None in
  let* s0 := unwrap r in
  let* r := u_global_index [i; k] (shape a) None in
  let* l1 := unwrap r in
  let* r := u_global_index [k; j] (shape b) None in
  let* r1 := unwrap r in
  let* ljs0 := vindex ljs 0 in
  assert (s0 <? ljs0) ;;
  (let* js1 := vindex (shape jac) 1 in
   assert (s0 <? js1) ;;
   (let* ljs1 := vindex ljs 1 in
    assert (l1 <? ljs1) ;;
    (let* js0 := vindex (shape jac) 0 in
     foldM (q_row i k j s0 l1 r1) (seq 0 js0) st))).

Variable E : fenv.
Hypothesis HG : has_global_index R E.
Hypothesis HI : has_index R E.
Hypothesis HL : has_writer E "left_writer".
Hypothesis HR : has_writer E "right_writer".
Variables (vra vla : list T) (rl ll : nat) (rjs : list nat) (lps rps : list (nat * nat)) (nl nr : nat).
(** The variables before the loops *)
Definition vars (st : queues) : store :=
  [("right_senders", VChans (snd st)); ("left_senders", VChans (fst st)); ("right_split_writer", writer_val nr rps);
   ("left_split_writer", writer_val nl lps); ("right_array", VArr vra); ("right_length", VNum rl); ("right_output_shape", VVec ros);
   ("right_jacobian_shape", VVec rjs); ("left_array", VArr vla); ("left_length", VNum ll); ("left_output_shape", VVec los);
   ("left_jacobian_shape", VVec ljs); ("bmm_output_shape", VVec os); ("inputs", VTens [a; b]); ("jacobians", VTens [jac])].
Definition turn_of (x : String.string) (B : stmt) (v : val) (st : store) : outcome (flow * store) :=
  let* st1 := matches (PVar x) v st in denote E N B st1.

Lemma row_ok i k j s0 l1 r1 n st : 
  let V := fun st => ("right_jac_idx1", VNum r1) :: ("left_jac_idx1", VNum l1) :: ("self_jac_idx0", VNum s0) :: ("j", VNum j) :: ("k", VNum k)
             :: ("i", VNum i) :: vars st : store in
  loop_for (map VNum (seq 0 n)) (turn_of "input_jac_idx" body_row) (V st)
  = let* st' := foldM (q_row i k j s0 l1 r1) (seq 0 n) st in Ret (Next, V st').
Proof.
  intros V. apply (items_fold queues nat VNum _ V). intros x [ql qr]. unfold V, turn_of, body_row, q_row, vars, or_panic. cbn [fst snd].
  step. rewrite (gi_none R) by (easy || lia).
  destruct (u_global_index [x; l1] los None) as [[tl|e]|p|]; cbn [or_panic]; step; [|easy..].
  change (vindex [jac] 0) with (Ret jac). step. rewrite HI by easy.
  destruct (u_raw_at jac [x; s0]) as [g|p|] eqn:Eg; step; [|easy..].
  change (vindex [a; b] 1) with (Ret b). step. rewrite HI by easy.
  destruct (u_raw_at b [k; j]) as [bv|p|]; step; [|easy..].
  change (field (writer_val nl lps) "bit_width") with (Ret (VNum bit_width : val)). step.
  rewrite HL. destruct (q_send ql (tl, n_mul g bv)) as [ql'|p|]; step; [|easy..].
  rewrite (gi_none R) by (easy || lia).
  destruct (u_global_index [x; r1] ros None) as [[tr|e]|p|]; cbn [or_panic]; step; [|easy..].
  change (vindex [jac] 0) with (Ret jac). step. rewrite HI by easy. rewrite Eg. step.
  change (vindex [a; b] 0) with (Ret a). step. rewrite HI by easy.
  destruct (u_raw_at a [i; k]) as [av|p|]; step; [|easy..].
  change (field (writer_val nr rps) "bit_width") with (Ret (VNum bit_width : val)). step.
  rewrite HR. destruct (q_send qr (tr, n_mul g av)) as [qr'|p|]; step; easy.
Qed.

Lemma task_ok i k j st :
  let V := fun st => ("k", VNum k) :: ("i", VNum i) :: vars st : store in
  (let* (f, st1) := turn_of "j" body_j (VNum j) (V st) in Ret (f, leave (V st) st1)) = let* st' := q_task i k j st in Ret (Next, V st').
Proof.
  intros V. unfold turn_of, body_j, q_task. hide. unfold V, vars. step. rewrite (gi_none R) by (easy || lia).
  destruct (u_global_index [i; j] os None) as [[s0|e]|p|]; cbn [unwrap]; step; [|easy..].
  change (vindex [a; b] 0) with (Ret a). step. rewrite (gi_none R) by (easy || lia).
  destruct (u_global_index [i; k] (shape a) None) as [[l1|e]|p|]; cbn [unwrap]; step; [|easy..].
  change (vindex [a; b] 1) with (Ret b). step. rewrite (gi_none R) by (easy || lia).
  destruct (u_global_index [k; j] (shape b) None) as [[r1|e]|p|]; cbn [unwrap]; step; [|easy..].
  destruct (vindex ljs 0) as [ljs0|p|]; step; [|easy..]. destruct (s0 <? ljs0); cbn [assert]; step; [|easy].
  change (vindex [jac] 0) with (Ret jac). step.
  destruct (vindex (shape jac) 1) as [js1|p|]; step; [|easy..]. destruct (s0 <? js1); cbn [assert]; step; [|easy].
  destruct (vindex ljs 1) as [ljs1|p|]; step; [|easy..]. destruct (l1 <? ljs1); cbn [assert]; step; [|easy].
  change (vindex [jac] 0) with (Ret jac). step.
  destruct (vindex (shape jac) 0) as [js0|p|]; step; [|easy..]. rewrite Nat.sub_0_r. subst B.
  match goal with |- context [loop_for _ ?f _] => change f with (turn_of "input_jac_idx" body_row) end.
  pose proof (row_ok i k j s0 l1 r1 js0 st) as L. cbv zeta in L. unfold vars in L. rewrite L.
  destruct (foldM _ (seq 0 js0) st) as [st'|p|]; step; easy.
Qed.
Lemma loop_j_ok i k b1 st : vindex (shape b) 1 = Ret b1 ->
  let V := fun st => ("i", VNum i) :: vars st : store in
  (let* (f, st1) := turn_of "k" body_k (VNum k) (V st) in Ret (f, leave (V st) st1))
  = let* st' := foldM (fun st j => q_task i k j st) (seq 0 b1) st in Ret (Next, V st').
Proof.
  intros Hb V. unfold turn_of, body_k. hide. unfold V, vars. step. change (vindex [a; b] 1) with (Ret b). step. rewrite Hb. step. rewrite Nat.sub_0_r. subst B.
  match goal with |- context [loop_for _ ?f _] => change f with (turn_of "j" body_j) end.
  pose proof (items_fold queues nat VNum _ _ _ (fun j st => task_ok i k j st) (seq 0 b1) st) as L. cbv zeta beta in L. unfold vars in L. rewrite L.
  destruct (foldM _ (seq 0 b1) st) as [st'|p|]; step; easy.
Qed.
Lemma loop_k_ok i a1 b1 st : vindex (shape a) 1 = Ret a1 -> vindex (shape b) 1 = Ret b1 ->
  (let* (f, st1) := turn_of "i" body_i (VNum i) (vars st) in Ret (f, leave (vars st) st1))
  = let* st' := foldM (fun st k => foldM (fun st j => q_task i k j st) (seq 0 b1) st) (seq 0 a1) st in Ret (Next, vars st').
Proof.
  intros Ha Hb. unfold turn_of, body_i. hide. unfold vars. step. change (vindex [a; b] 0) with (Ret a). step. rewrite Ha. step. rewrite Nat.sub_0_r. subst B.
  match goal with |- context [loop_for _ ?f _] => change f with (turn_of "k" body_k) end.
  pose proof (items_fold queues nat VNum _ _ _ (fun k st => loop_j_ok i k b1 st Hb) (seq 0 a1) st) as L. cbv zeta beta in L. unfold vars in L. rewrite L.
  destruct (foldM _ (seq 0 a1) st) as [st'|p|]; step; easy.
Qed.
Lemma loop_i_ok a0 a1 b1 st : vindex (shape a) 1 = Ret a1 -> vindex (shape b) 1 = Ret b1 ->
  loop_for (map VNum (seq 0 a0)) (turn_of "i" body_i) (vars st)
  = let* st' := foldM (fun st '(i, k, j) => q_task i k j st) (ikj a0 a1 b1) st in Ret (Next, vars st').
Proof.
  intros Ha Hb. rewrite (items_fold queues nat VNum _ _ _ (fun i st => loop_k_ok i a1 b1 st Ha Hb)). unfold ikj. rewrite !foldM_prod. easy.
Qed.
End Task.

(** ** The whole function, with channels: functional/misc.rs:211-331 *)
Definition q_bmm_jvp (ts gs : list (raw T)) : outcome (list (raw T)) :=
  let* (a, b, jac) := two_one ts gs in
  let* a1 := vindex (shape a) 1 in
  let* b0 := vindex (shape b) 0 in
  assert (a1 =? b0) ;;
  (let* a0 := vindex (shape a) 0 in
   let* b1 := vindex (shape b) 1 in
   let* outs := u_mul a0 b1 in
   let* ins := u_mul a0 a1 in
   let* j0 := vindex (shape jac) 0 in
   let* ll := u_mul j0 ins in
   let* outs' := u_mul a0 b1 in
   let* ins' := u_mul b0 b1 in
   let* rl := u_mul j0 ins' in
   let* st := foldM (fun st '(i, k, j) => q_task a b jac [a0; b1] [outs; ins] [j0; ins] [j0; ins'] i k j st) (ikj a0 a1 b1)
       (repeat [] (length (rparts width 0 ll)), repeat [] (length (rparts width 0 rl))) in
   let* rarr := a_recv_all (snd st) (rparts width 0 rl) 0 (repeat n_zero rl) in
   let* larr := a_recv_all (fst st) (rparts width 0 ll) 0 (repeat n_zero ll) in
   let* l := u_raw_new larr [j0; ins] in
   let* r := u_raw_new rarr [j0; ins'] in
   Ret [l; r]).

Lemma q_row_len a b jac los ros i k j s0 l1 r1 st x st' : q_row a b jac los ros i k j s0 l1 r1 st x = Ret st' ->
  length (fst st') = length (fst st) /\ length (snd st') = length (snd st).
Proof.
  unfold q_row. repeat (rewrite bind_ret_iff; intros (? & ? & Hx); revert Hx).
  intros Hx. injection Hx as <-. cbn [fst snd]. split; eapply send_length; eassumption.
Qed.
Lemma foldM_inv A B (f : A -> B -> outcome A) (P : A -> Prop) l : (forall a b a', P a -> f a b = Ret a' -> P a') ->
  forall a a', P a -> foldM f l a = Ret a' -> P a'.
Proof.
  intros H. induction l as [|b l IH]; intros a a' Pa Hf; cbn [foldM] in Hf; [congruence|].
  apply bind_ret_iff in Hf. destruct Hf as (a1 & H1 & H2). eauto.
Qed.
Lemma q_task_len a b jac os ljs los ros i k j st st' : q_task a b jac os ljs los ros i k j st = Ret st' ->
  length (fst st') = length (fst st) /\ length (snd st') = length (snd st).
Proof.
  unfold q_task. repeat (rewrite bind_ret_iff; intros (? & ? & Hx); revert Hx). intros Hx.
  refine (foldM_inv _ _ _ (fun s => length (fst s) = length (fst st) /\ length (snd s) = length (snd st)) _ _ _ _ _ Hx); [|easy].
  intros s y s' [P1 P2] Hs. apply q_row_len in Hs. lia.
Qed.

Lemma k_bmm_jvp_ok (E : fenv) ts gs : has_global_index R E -> has_index R E -> has_writer E "left_writer" -> has_writer E "right_writer" ->
  has_split_new E -> has_start E -> has_new E ->
  Forall (fun t => length (shape t) <= R) ts -> Forall (fun t => length (shape t) <= R) gs ->
  run_fn E N k_bmm_jvp [VTens ts; VTens gs] = let* o := q_bmm_jvp ts gs in Ret (VTens o, VTens ts).
Proof.
  intros HG HI HL HR HS HJ HW Rt Rg. unfold q_bmm_jvp, two_one.
  destruct ts as [|a [|b [|c ts]]]; [reflexivity..| |reflexivity]. destruct gs as [|jac [|d gs]]; [reflexivity| |reflexivity].
  rewrite Forall_forall in Rt, Rg. assert (Ra : length (shape a) <= R) by (apply Rt; now left).
  assert (Rb : length (shape b) <= R) by (apply Rt; right; now left). assert (Rj : length (shape jac) <= R) by (apply Rg; now left).
  assert (V0 : vindex [a; b] 0 = Ret a) by reflexivity. assert (V1 : vindex [a; b] 1 = Ret b) by reflexivity.
  assert (V2 : vindex [jac] 0 = Ret jac) by reflexivity.
  assert (V3 : forall x y : nat, vindex [x; y] 0 = Ret x) by reflexivity. assert (V4 : forall x y : nat, vindex [x; y] 1 = Ret y) by reflexivity.
  unfold k_bmm_jvp, run_fn. hide. step. change (2 =? 2) with true. change (1 =? 1) with true. cbn [assert]. step.
  repeat (rewrite ?V0, ?V1, ?V2, ?V3, ?V4; step).
  destruct (vindex (shape a) 1) as [a1|p|] eqn:Ea1; step; [|easy..].
  destruct (vindex (shape b) 0) as [b0|p|] eqn:Eb0; step; [|easy..].
  destruct (a1 =? b0); cbn [assert]; step; [|easy].
  repeat (rewrite ?V0, ?V1, ?V2, ?V3, ?V4; step).
  destruct (vindex (shape a) 0) as [a0|p|] eqn:Ea0; step; [|easy..].
  destruct (vindex (shape b) 1) as [b1|p|] eqn:Eb1; step; [|easy..].
  repeat (rewrite ?V0, ?V1, ?V2, ?V3, ?V4; step).
  destruct (u_mul a0 b1) as [outs|p|] eqn:Eo; step; [|easy..].
  repeat (rewrite ?V0, ?V1, ?V2, ?V3, ?V4, ?Ea0, ?Ea1; step).
  destruct (u_mul a0 a1) as [ins|p|] eqn:Ei; step; [|easy..].
  repeat (rewrite ?V0, ?V1, ?V2, ?V3, ?V4; step).
  destruct (vindex (shape jac) 0) as [j0|p|] eqn:Ej; step; [|easy..].
  repeat (rewrite ?V0, ?V1, ?V2, ?V3, ?V4; step).
  destruct (u_mul j0 ins) as [ll|p|] eqn:El; step; [|easy..].
  repeat (rewrite ?V0, ?V1, ?V2, ?V3, ?V4, ?Eo, ?Eb0, ?Eb1; step).
  destruct (u_mul b0 b1) as [ins'|p|] eqn:Ei'; step; [|easy..].
  repeat (rewrite ?V0, ?V1, ?V2, ?V3, ?V4, ?Ej; step).
  destruct (u_mul j0 ins') as [rl|p|] eqn:Er; step; [|easy..].
  assert (FC : forall n ps, field (writer_val n ps) "channels" = Ret (VChans (repeat [] (length ps)) : val)) by reflexivity.
  assert (FS : forall n ps, field (writer_val n ps) "segments" = Ret (VParts ps : val)) by reflexivity.
  assert (FW : forall n ps, field (writer_val n ps) "width" = Ret (VNum width : val)) by reflexivity.
  rewrite !repeat_length, !HS. step. rewrite !repeat_length, !HS. step. rewrite FC. step. rewrite FC. step.
  repeat (rewrite ?V0, ?Ea0; step). rewrite Nat.sub_0_r. subst B.
  match goal with |- context [loop_for _ ?f _] => change f with (turn_of E "i" body_i) end.
  pose proof (loop_i_ok a b jac Ra Rb Rj [a0; b1] [outs; ins] [j0; ins] [j0; ins'] eq_refl eq_refl eq_refl E HG HI HL HR
    (repeat n_zero rl) (repeat n_zero ll) rl ll [outs; ins'] (rparts width 0 ll) (rparts width 0 rl) ll rl a0 a1 b1
    (repeat [] (length (rparts width 0 ll)), repeat [] (length (rparts width 0 rl))) Ea1 Eb1) as L.
  unfold vars in L. cbn [fst snd] in L. rewrite L. clear L.
  destruct (foldM _ (ikj a0 a1 b1) _) as [[ql qr]|p|] eqn:Ef; step; [|easy..].
  assert (Lq : length ql = length (rparts width 0 ll) /\ length qr = length (rparts width 0 rl)).
  { refine (foldM_inv _ _ _ (fun s => length (fst s) = length (rparts width 0 ll) /\ length (snd s) = length (rparts width 0 rl)) _ _ _ _ _ Ef);
      [|cbn [fst snd]; now rewrite !repeat_length].
    intros s [[i k] j] s' [P1 P2] Hs. apply q_task_len in Hs. lia. }
  destruct Lq as [Lql Lqr]. rewrite FS. step. rewrite FW. step. rewrite HJ by exact Lqr.
  destruct (a_recv_all qr _ 0 _) as [ra|p|]; step; [|easy..]. rewrite FS. step. rewrite FW. step. rewrite HJ by exact Lql.
  destruct (a_recv_all ql _ 0 _) as [la|p|]; step; [|easy..]. rewrite HW.
  destruct (u_raw_new la [j0; ins]) as [l|p|]; step; [|easy..]. rewrite HW.
  destruct (u_raw_new ra [j0; ins']) as [r|p|]; step; easy.
Qed.

(** ** Sending first is delivering at once *)
Section Sim.
Hypothesis UF : defined U.
Lemma fine_product s : fine (u_product s).
Proof. apply fine_foldM. intros; apply UF. Qed.
Lemma fine_unwrap A (r : result A) : fine (unwrap r).
Proof. destruct r; discriminate. Qed.
Lemma fine_gi_loop rank off : forall pairs pos g m, fine (u_gi_loop rank off pairs pos g m).
Proof.
  destruct UF as (Fa & Fm & Fs).
  induction pairs as [|[dim x] pairs IH]; intros pos g m; cbn [u_gi_loop]; [discriminate|]. cbv zeta.
  destruct (dim =? 1); [apply IH|]. apply fine_bind.
  - destruct off as [v|]; [|discriminate]. apply fine_bind; [apply fine_vindex|]. intros r _. apply fine_bind; [apply Fs|]. intros d _.
    apply fine_bind; [apply Fa|]. discriminate.
  - intros [d y] _. destruct (d <=? x); [discriminate|]. destruct (dim <=? y); [discriminate|]. apply fine_bind; [apply Fm|]. intros p _.
    apply fine_bind; [apply Fa|]. intros g' _. apply fine_bind; [apply Fm|]. intros m' _. apply IH.
Qed.
Lemma fine_global i s o : fine (u_global_index i s o).
Proof. unfold u_global_index. destruct (_ && _); [discriminate|apply fine_gi_loop]. Qed.
Lemma fine_at (t : raw T) i : fine (u_raw_at t i).
Proof.
  unfold u_raw_at, u_raw_get. apply fine_bind; [|intros; apply fine_unwrap]. apply fine_bind; [apply fine_global|]. intros [g|e] _; [|discriminate].
  apply fine_bind; [apply fine_vindex|]. discriminate.
Qed.
Lemma fine_new (a : list T) s : fine (u_raw_new a s).
Proof. unfold u_raw_new. apply fine_bind; [apply fine_product|]. intros n _. apply fine_bind; [apply fine_assert|]. discriminate. Qed.

Definition row_of (a b jac : raw T) (los ros : list nat) (i k j s0 l1 r1 x : nat) : outcome (msg * msg) :=
  let* r := u_global_index [x; l1] los None in
  let* tmp_left := unwrap r in
  let* g := u_raw_at jac [x; s0] in
  let* bv := u_raw_at b [k; j] in
  let* r := u_global_index [x; r1] ros None in
  let* tmp_right := unwrap r in
  let* av := u_raw_at a [i; k] in
  Ret ((tmp_left, n_mul g bv), (tmp_right, n_mul g av)).
Lemma fine_row a b jac los ros i k j s0 l1 r1 x : fine (row_of a b jac los ros i k j s0 l1 r1 x).
Proof.
  unfold row_of. repeat (apply fine_bind; [first [apply fine_global | apply fine_unwrap | apply fine_at]|intros ? _]). discriminate.
Qed.
Lemma row_sim a b jac los ros i k j s0 l1 r1 x st :
  sim (q_row a b jac los ros i k j s0 l1 r1 st x) (let* m := row_of a b jac los ros i k j s0 l1 r1 x in send_both [m] st).
Proof.
  unfold q_row, row_of, send_both.
  pose proof (fine_global [x; l1] los None) as F1. destruct (u_global_index [x; l1] los None) as [[tl|e]|p|]; cbn [bind unwrap or_panic]; try apply sim_panic; [|now destruct F1].
  pose proof (fine_at jac [x; s0]) as F2. destruct (u_raw_at jac [x; s0]) as [g|p|]; cbn [bind]; try apply sim_panic; [|now destruct F2].
  pose proof (fine_at b [k; j]) as F3. destruct (u_raw_at b [k; j]) as [bv|p|]; cbn [bind]; try apply sim_panic; [|now destruct F3].
  pose proof (fine_send (fst st) (tl, n_mul g bv)) as F4.
  pose proof (fine_global [x; r1] ros None) as F5. pose proof (fine_at a [i; k]) as F6.
  destruct (u_global_index [x; r1] ros None) as [[tr|e]|p|]; cbn [bind unwrap or_panic]; [| | |now destruct F5].
  - destruct (u_raw_at a [i; k]) as [av|p|]; cbn [bind map fst snd foldM]; [| |now destruct F6].
    + destruct (q_send (fst st) (tl, n_mul g bv)) as [ql|p|]; cbn [bind]; [|apply sim_panic|now destruct F4].
      pose proof (fine_send (snd st) (tr, n_mul g av)) as F7.
      destruct (q_send (snd st) (tr, n_mul g av)) as [qr|p|]; cbn [bind]; [apply sim_refl; discriminate|apply sim_panic|now destruct F7].
    + destruct (q_send (fst st) (tl, n_mul g bv)) as [ql|q|]; cbn [bind]; [apply sim_panic..|now destruct F4].
  - destruct (q_send (fst st) (tl, n_mul g bv)) as [ql|q|]; cbn [bind]; [apply sim_panic..|now destruct F4].
  - destruct (q_send (fst st) (tl, n_mul g bv)) as [ql|q|]; cbn [bind]; [apply sim_panic..|now destruct F4].
Qed.
Lemma fine_task a b jac os ljs los ros i k j : fine (u_bmm_task a b jac os ljs los ros i k j).
Proof.
  unfold u_bmm_task. repeat (apply fine_bind; [first [apply fine_global | apply fine_unwrap | apply fine_vindex | apply fine_assert]|intros ? _]).
  apply fine_mapM. intros x _. apply fine_row.
Qed.
Lemma task_sim a b jac os ljs los ros i k j st :
  sim (q_task a b jac os ljs los ros i k j st) (let* l := u_bmm_task a b jac os ljs los ros i k j in send_both l st).
Proof.
  unfold q_task, u_bmm_task.
  repeat (rewrite bind_assoc; apply sim_bind; [apply sim_refl; first [apply fine_global | apply fine_unwrap | apply fine_vindex | apply fine_assert]|intros ? _]).
  apply (emits_rows nat _ (row_of a b jac los ros i k j a1 a3 a5)); [intros; apply fine_row|]. intros x s. apply row_sim.
Qed.
Lemma sim_panic_l A p (o : outcome A) : sim (Panic p) o -> exists q, o = Panic q.
Proof. intros (_ & F & H). destruct o as [x|q|]; [|now exists q|now destruct F]. destruct (H x) as [_ H']. now specialize (H' eq_refl). Qed.
Lemma sim_ret_l A x (o : outcome A) : sim (Ret x) o -> o = Ret x.
Proof. intros (_ & _ & H). now apply H. Qed.
Lemma parts_new n : rparts width 0 n = places (split_new (repeat (n_zero : T) n)).
Proof. rewrite <- (repeat_length (n_zero : T) n) at 1. apply rparts_places. unfold width. lia. Qed.
Lemma bmm_jvp_sim ts gs : sim (q_bmm_jvp ts gs) (u_bmm_jvp ts gs).
Proof.
  unfold q_bmm_jvp, u_bmm_jvp. apply sim_bind; [apply sim_refl; unfold two_one; destruct ts as [|? [|? [|? ?]]]; try discriminate; destruct gs as [|? [|? ?]]; discriminate|].
  intros [[a b] jac] _.
  apply sim_bind; [apply sim_refl, fine_vindex|]. intros a1 _. apply sim_bind; [apply sim_refl, fine_vindex|]. intros b0 _.
  apply sim_bind; [apply sim_refl, fine_assert|]. intros _ _.
  apply sim_bind; [apply sim_refl, fine_vindex|]. intros a0 _. apply sim_bind; [apply sim_refl, fine_vindex|]. intros b1 _. cbv zeta.
  destruct UF as (Fa & Fm & Fs).
  apply sim_bind; [apply sim_refl, Fm|]. intros outs _. apply sim_bind; [apply sim_refl, Fm|]. intros ins _.
  apply sim_bind; [apply sim_refl, fine_vindex|]. intros j0 _. apply sim_bind; [apply sim_refl, Fm|]. intros ll _.
  apply sim_bind; [apply sim_refl, Fm|]. intros outs' _. apply sim_bind; [apply sim_refl, Fm|]. intros ins' _.
  apply sim_bind; [apply sim_refl, Fm|]. intros rl _.
  rewrite !parts_new, !places_length. set (SL := split_new (repeat n_zero ll)). set (SR := split_new (repeat n_zero rl)).
  set (tasks := mapM (fun '(i, k, j) => u_bmm_task a b jac [a0; b1] [outs; ins] [j0; ins] [j0; ins'] i k j) (ikj a0 a1 b1)).
  eapply sim_trans.
  { apply sim_bind; [apply (emits_fold (nat * nat * nat) _ (fun '(i, k, j) => u_bmm_task a b jac [a0; b1] [outs; ins] [j0; ins] [j0; ins'] i k j))|].
    - intros [[i k] j]. apply fine_task.
    - intros [[i k] j] s. apply task_sim.
    - intros st _. apply sim_refl. apply fine_bind; [|intros ra _; apply fine_bind; [|intros la _; apply fine_bind; [apply fine_new|intros l _; apply fine_bind; [apply fine_new|discriminate]]]].
      all: apply fine_foldM; intros A [c [pl ms]] _; apply fine_foldM; intros A' m _; unfold a_receive.
      all: apply fine_bind; [apply Fm|]; intros s _; apply fine_bind; [apply Fs|]; intros i _; apply fine_bind; [apply fine_assert|]; intros _ _.
      all: apply fine_bind; [destruct (_ <? _); [apply fine_vindex|discriminate]|]; intros y _; destruct (_ <? _); [apply fine_vset|discriminate]. }
  rewrite bind_assoc. apply sim_bind; [apply sim_refl, fine_mapM; intros [[i k] j] _; apply fine_task|]. intros tl _. unfold send_both. cbn [fst snd]. rewrite bind_assoc.
  pose proof (queue_deliver UF (map fst (concat tl)) SL) as QL. pose proof (queue_deliver UF (map snd (concat tl)) SR) as QR.
  pose proof (fine_sends (map fst (concat tl)) (repeat [] (length SL))) as FL. pose proof (fine_sends (map snd (concat tl)) (repeat [] (length SR))) as FR.
  assert (LL : forall q, foldM q_send (map fst (concat tl)) (repeat [] (length SL)) = Ret q -> length q = length SL).
  { intros q Hq. refine (foldM_inv _ _ _ (fun s => length s = length SL) _ _ _ _ _ Hq); [|apply repeat_length]. intros s m s' P Hs. apply send_length in Hs. congruence. }
  assert (LR : forall q, foldM q_send (map snd (concat tl)) (repeat [] (length SR)) = Ret q -> length q = length SR).
  { intros q Hq. refine (foldM_inv _ _ _ (fun s => length s = length SR) _ _ _ _ _ Hq); [|apply repeat_length]. intros s m s' P Hs. apply send_length in Hs. congruence. }
  destruct (foldM q_send (map fst (concat tl)) _) as [ql|p|]; cbn [bind] in *; [| |now destruct FL].
  2:{ apply sim_panic_l in QL. destruct QL as [q ->]. apply sim_panic. }
  specialize (LL ql eq_refl).
  destruct (foldM q_send (map snd (concat tl)) _) as [qr|p|]; cbn [bind fst snd] in *; [| |now destruct FR].
  2:{ apply sim_panic_l in QR. destruct QR as [q ->]. destruct QL as (_ & F & _). destruct (foldM u_deliver _ SL) as [s|p'|]; cbn [bind]; [apply sim_panic..|now destruct F]. }
  specialize (LR qr eq_refl). unfold SL, SR in *. rewrite !a_recv_split by assumption. rewrite !bind_assoc. cbn [bind].
  pose proof (fine_recv UF qr (split_new (repeat n_zero rl))) as F1. pose proof (fine_recv UF ql (split_new (repeat n_zero ll))) as F2.
  destruct (recv_all ql _) as [la|p|]; [| |now destruct F2].
  - apply sim_ret_l in QL. rewrite QL. cbn [bind]. destruct (recv_all qr _) as [ra|p|]; cbn [bind]; [| |now destruct F1].
    + apply sim_ret_l in QR. rewrite QR. cbn [bind]. apply sim_refl. apply fine_bind; [apply fine_new|intros l _; apply fine_bind; [apply fine_new|discriminate]].
    + apply sim_panic_l in QR. destruct QR as [q ->]. apply sim_panic.
  - apply sim_panic_l in QL. destruct QL as [q ->]. destruct (recv_all qr _) as [ra|p'|]; cbn [bind]; [apply sim_panic..|now destruct F1].
Qed.
End Sim.
End Facts.
