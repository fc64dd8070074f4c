(** * RustBmm: [bmm_raw] in the program of ModelKernel.v *)
From Coq Require String.
Import String.StringSyntax.
From Verif Require Import Base Lists ModelIndex ModelTensor ModelOps ModelUsize ModelRust ModelKernel SpecRust RustFacts.
#[local] Open Scope string_scope.
#[local] Coercion EVar : String.string >-> expr.
#[local] Coercion ENum : nat >-> expr.
#[local] Coercion PVar : String.string >-> pat.

(** The bodies of the four loops: functional/misc.rs:102-108, 90-119, 80-122, 76-123 *)
Definition body_k : stmt := block [
  SSetAt "left_index2" (ESub "left_index_len" 1) "k";
  SSetAt "right_index2" 0 "k";
  SSet "val" (EPlus "val" (ETimes (EUnwrap (ECall "get" [EVar "left"; EVar "left_index2"]))
                                  (EUnwrap (ECall "get" [EVar "right"; EVar "right_index2"])))) ].
Definition body_j : stmt := block [
  SLet "slot" EUninit;
  SSplit "slot" "slice" "slice" 1;
  SLet "right_index2" "right_index";
  SLet "left_index2" "left_index";
  SSetAt "right_index2" 1 "j";
  SLet "val" EZero;
  SFor "k" (IRange 0 (EAt "right_shape" 0)) body_k;
  SSetSlice "result_array" "slot" 0 "val" ].
Definition body_i : stmt := block [
  SLet "slice" EUninit;
  SSplit "slice" "remaining_slice" "remaining_slice" (EAt "new_shape" 2);
  SAssert (EEq (ELen "slice") (EAt "new_shape" 2));
  SSetAt "left_index" (ESub "left_index_len" 2) "i";
  SFor "j" (IRange 0 (EAt "new_shape" 2)) body_j ].
Definition body_b : stmt := block [
  SIf (EEq (ELen (EField "left" "shape")) 3) (block [ SSetAt "left_index" 0 "batch_idx" ]) SSkip;
  SFor "i" (IRange 0 (EAt "new_shape" 1)) body_i ].

Section Bmm.
Context {U : usize_ops} {T : Type} {NT : Num T}.
Notation fenv := (@fenv T).
Notation store := (@store T).
Variable R : nat.
Hypothesis W : words U (S R).
Variable N : nat.
Variable E : fenv.
Variables l r : tlike T.
Hypothesis HG : has_get R E.
Hypothesis Kl : rank_ok R l.
Hypothesis Kr : rank_ok R r.
Let ls := tl_shape l.
Let rs := tl_shape r.
Hypothesis L2 : 2 <= length ls.

(** The variables of the function: [n0], [n1], [m] the new shape, [li] the left index, [A] the result array, [off] and [len] the
    remaining slice *)
Definition vars (n0 n1 m : nat) (li : list nat) (A : list T) (off len : nat) : store :=
  [("remaining_slice", VSlice off len); ("right_shape", VVec rs); ("right_index", VVec rs); ("left_index_len", VNum (length ls));
   ("left_index", VVec li); ("result_array", VArr A); ("new_shape", VVec [n0; n1; m]); ("left", VTen l); ("right", VTen r)].

Definition turn_of (x : String.string) (B : stmt) (v : val) (st : store) : outcome (flow * store) :=
  let* st1 := matches (PVar x) v st in denote E N B st1.

Lemma sub_words a b : b <= a -> u_sub a b = Ret (a - b).
Proof. apply W. Qed.

Lemma loop_k n0 n1 m li A off len (x1 x2 x3 : val) i j ri n s0 v0 st0 : length li = length ls ->
  let P := fun (_ : nat) (v : T) (st : store) => exists li2 ri2,
    st = ("val", VElem v) :: ("left_index2", VVec li2) :: ("right_index2", VVec ri2) :: ("slot", x1) :: ("j", VNum j)
         :: ("slice", x2) :: ("i", VNum i) :: ("batch_idx", x3) :: vars n0 n1 m li A off len
    /\ (forall y, vset li2 (length ls - 1) y = vset li (length ls - 1) y) /\ (forall y, vset ri2 0 y = vset ri 0 y) in
  P s0 v0 st0 ->
  match foldM (fun val k =>
           let* li := vset li (length li - 1) k in
           let* ri := vset ri 0 k in
           let* x := u_tl_get_unwrap l li in
           let* y := u_tl_get_unwrap r ri in
           Ret (n_add val (n_mul x y))) (seq s0 n) v0 with
  | Ret a' => exists st1, loop_for (map VNum (seq s0 n)) (turn_of "k" body_k) st0 = Ret (Next, st1) /\ P (s0 + n) a' st1
  | Panic p => loop_for (map VNum (seq s0 n)) (turn_of "k" body_k) st0 = Panic p
  | NoFuel => loop_for (map VNum (seq s0 n)) (turn_of "k" body_k) st0 = NoFuel
  end.
Proof.
  intros HL P H0. refine (range_inv T (turn_of "k" body_k) P _ _ n s0 v0 st0 H0). clear - HL HG Kl Kr L2 W.
  intros k v st (li2 & ri2 & -> & Hl & Hr). unfold turn_of, body_k, u_tl_get_unwrap, vars. rewrite HL. step.
  rewrite sub_words by lia. step. rewrite Hl. destruct (vset li (length ls - 1) k) as [li3|p|] eqn:E1; step; [|easy..].
  rewrite Hr. destruct (vset ri 0 k) as [ri3|p|] eqn:E2; step; [|easy..].
  rewrite HG by exact Kl. destruct (u_tl_get l li3) as [[x|e]|p|]; step; [|easy..].
  rewrite HG by exact Kr. destruct (u_tl_get r ri3) as [[y|e]|p|]; step; [|easy..].
  eexists. split; [reflexivity|]. unfold P, vars. step. exists li3, ri3. split; [reflexivity|].
  split; intros z; [rewrite (vset_again _ _ _ _ _ E1)|rewrite (vset_again _ _ _ _ _ E2)]; easy.
Qed.

Lemma loop_j n0 n1 m li pre post off len (x3 : val) i n s0 row0 st0 : length li = length ls ->
  let P := fun (j : nat) (row : list T) (st : store) => length row = j /\
    st = ("slice", VSlice (length pre + j) (s0 + n - j)) :: ("i", VNum i) :: ("batch_idx", x3)
         :: vars n0 n1 m li (pre ++ row ++ repeat n_zero (s0 + n - j) ++ post) off len in
  P s0 row0 st0 ->
  match foldM (fun acc j => let* y := u_bmm_cell l r li j in Ret (acc ++ [y])) (seq s0 n) row0 with
  | Ret a' => exists st1, loop_for (map VNum (seq s0 n)) (turn_of "j" body_j) st0 = Ret (Next, st1) /\ P (s0 + n) a' st1
  | Panic p => loop_for (map VNum (seq s0 n)) (turn_of "j" body_j) st0 = Panic p
  | NoFuel => loop_for (map VNum (seq s0 n)) (turn_of "j" body_j) st0 = NoFuel
  end.
Proof.
  intros HL P H0. 
  assert (HB : forall j, j < s0 + n -> forall row st, P j row st ->
     match u_bmm_cell l r li j with
     | Ret y => exists st1, turn_of "j" body_j (VNum j) st = Ret (Next, st1) /\ P (S j) (row ++ [y]) (leave st st1)
     | Panic p => turn_of "j" body_j (VNum j) st = Panic p
     | NoFuel => turn_of "j" body_j (VNum j) st = NoFuel
     end).
  { clear - HL HG Kl Kr L2 W. intros j Hj row st [HR ->]. unfold turn_of, body_j, u_bmm_cell. 
    remember (s0 + n - j) as q eqn:Eq. destruct q as [|q]; [lia|]. cbn [repeat app].
    hide. unfold vars. step. change (1 <=? S q) with true. step. fold rs.
    destruct (vset rs 1 j) as [ri|p|] eqn:E1; step; [|easy..].
    destruct (vindex rs 0) as [kdim|p|] eqn:E2; step; [|easy..]. rewrite !Nat.sub_0_r.
    subst B. match goal with |- context [loop_for _ ?f _] => change f with (turn_of "k" body_k) end.
    match goal with |- context [loop_for _ _ ?s] =>
      pose proof (loop_k n0 n1 m li (pre ++ row ++ n_zero :: repeat n_zero q ++ post) off len (VSlice (length pre + j) 1)
        (VSlice (length pre + j + 1) q) x3 i j ri kdim 0 n_zero s HL) as LK end. cbv zeta in LK.
    match type of LK with ?A -> _ => assert (HA : A) end. { exists li, ri. split; [unfold vars; cbn [app]; reflexivity|easy]. }
    specialize (LK HA). clear HA.
    destruct (foldM _ (seq 0 kdim) n_zero) as [y|p|].
    - destruct LK as (st1 & EQ & li2 & ri2 & -> & _). eexists. split.
      + rewrite EQ. unfold vars. step. change (0 <? 1) with true. step.
        rewrite Nat.add_0_r, <- HR. rewrite app_assoc, <- app_length, vset_middle. step. reflexivity.
      + split; [rewrite app_length; cbn; lia|]. unfold vars. step.
        replace (s0 + n - S j) with q by lia. rewrite <- !app_assoc. cbn [app]. 
        replace (length pre + S j) with (length (pre ++ row) + 1) by (rewrite app_length; lia). reflexivity.
    - rewrite LK. easy.
    - rewrite LK. easy. }
  clear - HB H0. revert row0 st0 H0. 
  assert (G : forall k s row st, s + k = s0 + n -> P s row st ->
    match foldM (fun acc j => let* y := u_bmm_cell l r li j in Ret (acc ++ [y])) (seq s k) row with
    | Ret a' => exists st1, loop_for (map VNum (seq s k)) (turn_of "j" body_j) st = Ret (Next, st1) /\ P (s0 + n) a' st1
    | Panic p => loop_for (map VNum (seq s k)) (turn_of "j" body_j) st = Panic p
    | NoFuel => loop_for (map VNum (seq s k)) (turn_of "j" body_j) st = NoFuel
    end).
  { induction k as [|k IH]; intros s row st Hs H; cbn [seq map loop_for foldM].
    - exists st. split; [easy|]. now rewrite <- Hs, Nat.add_0_r.
    - specialize (HB s ltac:(lia) row st H). destruct (u_bmm_cell l r li s) as [y|p|]; cbn [bind].
      + destruct HB as (st1 & -> & H1). cbn [bind turn]. apply IH; [lia|exact H1].
      + now rewrite HB.
      + now rewrite HB. }
  intros row0 st0 H0. apply (G n s0); [easy|exact H0].
Qed.

Definition rows (m : nat) : list T * list nat -> nat -> outcome (list T * list nat) := fun '(arr, left_index) i =>
  let* left_index := vset left_index (length ls - 2) i in
  let* row := mapM (u_bmm_cell l r left_index) (seq 0 m) in
  Ret (arr ++ row, left_index).

(** What is left of the result when [j] of [n] blocks of [m] elements are done, and [x] more follow *)
Lemma loop_i n0 n1 m x (x3 : val) n s0 a0 st0 :
  let P := fun (i : nat) (a : list T * list nat) (st : store) => length (snd a) = length ls /\
    st = ("batch_idx", x3) :: vars n0 n1 m (snd a) (fst a ++ repeat n_zero ((s0 + n - i) * m + x)) (length (fst a)) ((s0 + n - i) * m + x) in
  P s0 a0 st0 ->
  match foldM (rows m) (seq s0 n) a0 with
  | Ret a' => exists st1, loop_for (map VNum (seq s0 n)) (turn_of "i" body_i) st0 = Ret (Next, st1) /\ P (s0 + n) a' st1
  | Panic p => loop_for (map VNum (seq s0 n)) (turn_of "i" body_i) st0 = Panic p
  | NoFuel => loop_for (map VNum (seq s0 n)) (turn_of "i" body_i) st0 = NoFuel
  end.
Proof.
  intros P H0.
  assert (HB : forall i, i < s0 + n -> forall a st, P i a st ->
     match rows m a i with
     | Ret a' => exists st1, turn_of "i" body_i (VNum i) st = Ret (Next, st1) /\ P (S i) a' (leave st st1)
     | Panic p => turn_of "i" body_i (VNum i) st = Panic p
     | NoFuel => turn_of "i" body_i (VNum i) st = NoFuel
     end).
  { clear - HG Kl Kr L2 W. intros i Hi [arr li] st [HR ->]. cbn [fst snd] in *. unfold turn_of, body_i, rows.
    set (q := (s0 + n - S i) * m + x). 
    replace ((s0 + n - i) * m + x) with (m + q) by (unfold q; replace (s0 + n - i) with (S (s0 + n - S i)) by lia; cbn [Nat.mul]; lia).
    hide. unfold vars. step. change (vindex [n0; n1; m] 2) with (@Ret nat m). step.
    destruct (Nat.leb_spec m (m + q)) as [_|]; [|lia]. step. change (vindex [n0; n1; m] 2) with (@Ret nat m). step.
    rewrite Nat.eqb_refl. cbn [assert]. step. rewrite sub_words by lia. step.
    destruct (vset li (length ls - 2) i) as [li2|p|] eqn:E1; step; [|easy..].
    change (vindex [n0; n1; m] 2) with (@Ret nat m). step. rewrite !Nat.sub_0_r. replace (m + q - m) with q by lia.
    subst B. match goal with |- context [loop_for _ ?f _] => change f with (turn_of "j" body_j) end.
    match goal with |- context [loop_for _ _ ?s] =>
      pose proof (loop_j n0 n1 m li2 arr (repeat n_zero q) (length arr + m) q x3 i m 0 [] s
        (eq_trans (vset_len _ _ _ _ _ E1) HR)) as LJ end. cbv zeta in LJ.
    match type of LJ with ?A -> _ => assert (HA : A) end.
    { split; [easy|]. unfold vars. cbn [app Nat.add]. rewrite !Nat.sub_0_r, Nat.add_0_r, <- repeat_app. reflexivity. }
    specialize (LJ HA). clear HA. rewrite foldM_push in LJ.
    destruct (mapM (u_bmm_cell l r li2) (seq 0 m)) as [row|p|]; cbn [bind] in LJ |- *.
    - destruct LJ as (st1 & EQ & HRow & ->). eexists. split.
      + rewrite EQ. unfold vars. step. reflexivity.
      + split; [cbn; now rewrite (vset_len _ _ _ _ _ E1)|]. cbn [fst snd]. unfold vars. step. fold q.
        cbn [Nat.add app] in HRow. rewrite Nat.sub_diag. cbn [repeat app]. rewrite app_length, HRow, <- app_assoc. reflexivity.
    - rewrite LJ. easy.
    - rewrite LJ. easy. }
  clear - HB H0. revert a0 st0 H0. 
  assert (G : forall k s a st, s + k = s0 + n -> P s a st ->
    match foldM (rows m) (seq s k) a with
    | Ret a' => exists st1, loop_for (map VNum (seq s k)) (turn_of "i" body_i) st = Ret (Next, st1) /\ P (s0 + n) a' st1
    | Panic p => loop_for (map VNum (seq s k)) (turn_of "i" body_i) st = Panic p
    | NoFuel => loop_for (map VNum (seq s k)) (turn_of "i" body_i) st = NoFuel
    end).
  { induction k as [|k IH]; intros s a st Hs H; cbn [seq map loop_for foldM].
    - exists st. split; [easy|]. now rewrite <- Hs, Nat.add_0_r.
    - specialize (HB s ltac:(lia) a st H). destruct (rows m a s) as [y|p|]; cbn [bind].
      + destruct HB as (st1 & -> & H1). cbn [bind turn]. apply IH; [lia|exact H1].
      + now rewrite HB.
      + now rewrite HB. }
  intros a0 st0 H0. apply (G n s0); [easy|exact H0].
Qed.

Definition batches (n m : nat) : list T * list nat -> nat -> outcome (list T * list nat) := fun '(arr, left_index) b =>
  let* left_index := if length ls =? 3 then vset left_index 0 b else Ret left_index in
  foldM (rows m) (seq 0 n) (arr, left_index).

Lemma loop_b n0 n1 m n s0 a0 st0 :
  let P := fun (b : nat) (a : list T * list nat) (st : store) => length (snd a) = length ls /\
    st = vars n0 n1 m (snd a) (fst a ++ repeat n_zero ((s0 + n - b) * (n1 * m))) (length (fst a)) ((s0 + n - b) * (n1 * m)) in
  P s0 a0 st0 ->
  match foldM (batches n1 m) (seq s0 n) a0 with
  | Ret a' => exists st1, loop_for (map VNum (seq s0 n)) (turn_of "batch_idx" body_b) st0 = Ret (Next, st1) /\ P (s0 + n) a' st1
  | Panic p => loop_for (map VNum (seq s0 n)) (turn_of "batch_idx" body_b) st0 = Panic p
  | NoFuel => loop_for (map VNum (seq s0 n)) (turn_of "batch_idx" body_b) st0 = NoFuel
  end.
Proof.
  intros P H0.
  assert (HB : forall b, b < s0 + n -> forall a st, P b a st ->
     match batches n1 m a b with
     | Ret a' => exists st1, turn_of "batch_idx" body_b (VNum b) st = Ret (Next, st1) /\ P (S b) a' (leave st st1)
     | Panic p => turn_of "batch_idx" body_b (VNum b) st = Panic p
     | NoFuel => turn_of "batch_idx" body_b (VNum b) st = NoFuel
     end).
  { clear - HG Kl Kr L2 W. intros b Hb [arr li] st [HR ->]. cbn [fst snd] in *. unfold turn_of, body_b, batches.
    set (q := (s0 + n - S b) * (n1 * m)). 
    replace ((s0 + n - b) * (n1 * m)) with (n1 * m + q) by (unfold q; replace (s0 + n - b) with (S (s0 + n - S b)) by lia; cbn [Nat.mul]; lia).
    assert (HI : forall li', length li' = length ls ->
      match foldM (rows m) (seq 0 n1) (arr, li') with
      | Ret a' => length (snd a') = length ls /\
          loop_for (map VNum (seq 0 n1)) (turn_of "i" body_i)
            (("batch_idx", VNum b) :: vars n0 n1 m li' (arr ++ repeat n_zero (n1 * m + q)) (length arr) (n1 * m + q))
          = Ret (Next, ("batch_idx", VNum b) :: vars n0 n1 m (snd a') (fst a' ++ repeat n_zero q) (length (fst a')) q)
      | Panic p => loop_for (map VNum (seq 0 n1)) (turn_of "i" body_i)
            (("batch_idx", VNum b) :: vars n0 n1 m li' (arr ++ repeat n_zero (n1 * m + q)) (length arr) (n1 * m + q)) = Panic p
      | NoFuel => loop_for (map VNum (seq 0 n1)) (turn_of "i" body_i)
            (("batch_idx", VNum b) :: vars n0 n1 m li' (arr ++ repeat n_zero (n1 * m + q)) (length arr) (n1 * m + q)) = NoFuel
      end).
    { intros li' HL'. pose proof (loop_i n0 n1 m q (VNum b) n1 0 (arr, li')
        (("batch_idx", VNum b) :: vars n0 n1 m li' (arr ++ repeat n_zero (n1 * m + q)) (length arr) (n1 * m + q))) as LI.
      cbv zeta in LI. cbn [fst snd Nat.add] in LI. rewrite Nat.sub_0_r in LI. specialize (LI (conj HL' eq_refl)).
      destruct (foldM (rows m) (seq 0 n1) (arr, li')) as [a'|p|]; [|exact LI..].
      destruct LI as (st1 & EQ & H1 & ->). split; [exact H1|]. rewrite EQ, Nat.sub_diag. reflexivity. }
    assert (V1 : vindex [n0; n1; m] 1 = Ret n1) by reflexivity.
    hide. unfold vars in HI |- *. step.
    change (match l with LRaw t => _ | LView w => _ end) with (field (VTen l) "shape"). rewrite field_shape. step. fold ls.
    destruct (length ls =? 3); step.
    - destruct (vset li 0 b) as [li'|p|] eqn:E1; step; [|easy..]. specialize (HI li' (eq_trans (vset_len _ _ _ _ _ E1) HR)).
      rewrite V1. step. rewrite Nat.sub_0_r. subst B.
      match goal with |- context [loop_for _ ?f _] => change f with (turn_of "i" body_i) end.
      destruct (foldM (rows m) (seq 0 n1) (arr, li')) as [a'|p|].
      + destruct HI as [H1 EQ]. eexists. split; [rewrite EQ; step; reflexivity|]. split; [exact H1|]. unfold vars. step. reflexivity.
      + rewrite HI. easy.
      + rewrite HI. easy.
    - specialize (HI li HR). rewrite V1. step. rewrite Nat.sub_0_r. subst B.
      match goal with |- context [loop_for _ ?f _] => change f with (turn_of "i" body_i) end.
      destruct (foldM (rows m) (seq 0 n1) (arr, li)) as [a'|p|].
      + destruct HI as [H1 EQ]. eexists. split; [rewrite EQ; step; reflexivity|]. split; [exact H1|]. unfold vars. step. reflexivity.
      + rewrite HI. easy.
      + rewrite HI. easy. }
  clear - HB H0. revert a0 st0 H0. 
  assert (G : forall k s a st, s + k = s0 + n -> P s a st ->
    match foldM (batches n1 m) (seq s k) a with
    | Ret a' => exists st1, loop_for (map VNum (seq s k)) (turn_of "batch_idx" body_b) st = Ret (Next, st1) /\ P (s0 + n) a' st1
    | Panic p => loop_for (map VNum (seq s k)) (turn_of "batch_idx" body_b) st = Panic p
    | NoFuel => loop_for (map VNum (seq s k)) (turn_of "batch_idx" body_b) st = NoFuel
    end).
  { induction k as [|k IH]; intros s a st Hs H; cbn [seq map loop_for foldM].
    - exists st. split; [easy|]. now rewrite <- Hs, Nat.add_0_r.
    - specialize (HB s ltac:(lia) a st H). destruct (batches n1 m a s) as [y|p|]; cbn [bind].
      + destruct HB as (st1 & -> & H1). cbn [bind turn]. apply IH; [lia|exact H1].
      + now rewrite HB.
      + now rewrite HB. }
  intros a0 st0 H0. apply (G n s0); [easy|exact H0].
Qed.

Lemma all_batches n0 n1 m :
  match u_bmm_rows l r n0 n1 m with
  | Ret arr => exists li, loop_for (map VNum (seq 0 n0)) (turn_of "batch_idx" body_b)
      (vars n0 n1 m ls (repeat n_zero (n0 * (n1 * m))) 0 (n0 * (n1 * m))) = Ret (Next, vars n0 n1 m li arr (length arr) 0)
  | Panic p => loop_for (map VNum (seq 0 n0)) (turn_of "batch_idx" body_b)
      (vars n0 n1 m ls (repeat n_zero (n0 * (n1 * m))) 0 (n0 * (n1 * m))) = Panic p
  | NoFuel => loop_for (map VNum (seq 0 n0)) (turn_of "batch_idx" body_b)
      (vars n0 n1 m ls (repeat n_zero (n0 * (n1 * m))) 0 (n0 * (n1 * m))) = NoFuel
  end.
Proof.
  pose proof (loop_b n0 n1 m n0 0 ([], ls) (vars n0 n1 m ls (repeat n_zero (n0 * (n1 * m))) 0 (n0 * (n1 * m)))) as LB.
  cbv zeta in LB. cbn [fst snd Nat.add length app] in LB. rewrite Nat.sub_0_r in LB. specialize (LB (conj eq_refl eq_refl)).
  unfold u_bmm_rows. fold ls.
  match goal with |- context [let* res := ?x in Ret (fst res)] => change x with (foldM (batches n1 m) (seq 0 n0) ([], ls)) end.
  destruct (foldM (batches n1 m) (seq 0 n0) ([], ls)) as [a|p|]; cbn [bind]; [|exact LB..].
  destruct LB as (st1 & EQ & _ & ->). rewrite Nat.sub_diag in EQ. cbn [Nat.mul repeat] in EQ. rewrite app_nil_r in EQ.
  exists (snd a). exact EQ.
Qed.
End Bmm.

Section Bmm_raw.
Context {U : usize_ops} {T : Type} {NT : Num T}.
Notation fenv := (@fenv T).
Variable R : nat.
Hypothesis W : words U (S R).
Variable N : nat.

Lemma vindex_nth (v : list nat) i x : vindex v i = Ret x -> nth i v 0 = x.
Proof. unfold vindex. destruct (nth_error v i) eqn:Q; [|easy]. intros [= <-]. now apply nth_error_nth. Qed.

(** The product of the new shape fits a word or overflows loudly *)
Lemma k_bmm_raw_ok (E : fenv) l r : has_get R E -> rank_ok R l -> rank_ok R r ->
  (forall t, u_product (bmm_shape l r) = Ret t -> t = product (bmm_shape l r)) ->
  run_fn E N k_bmm_raw [VTen l; VTen r] = let* t := u_bmm_raw l r in Ret (VTen (LRaw t), VTen l).
Proof.
  intros HG Kl Kr HP. unfold k_bmm_raw, run_fn, u_bmm_raw. hide.
  cbn [f_params f_body length Nat.eqb combine block fold_right].
  match goal with |- context [SSeq (SFor ?p ?i ?a) ?k] => remember (SSeq (SFor p i a) k) as TS eqn:HTS end.
  Ltac go := repeat (cbn [denote eval items lookup assign as_num as_bool String.eqb Ascii.eqb Bool.eqb bind leave length skipn Nat.sub turn app];
    rewrite ?field_shape).
  go. destruct (Nat.leb_spec 2 (length (tl_shape l))) as [L2|]; cbn [assert]; go; [|easy].
  destruct (Nat.eqb_spec (length (tl_shape r)) 2) as [R2|]; cbn [assert]; go; [|easy].
  rewrite !(sub_words R W) by lia. go.
  destruct (vindex (tl_shape l) (length (tl_shape l) - 1)) as [linner|p|]; go; [|easy..].
  go.
  destruct (vindex (tl_shape r) (length (tl_shape r) - 2)) as [rinner|p|]; go; [|easy..].
  destruct (linner =? rinner); cbn [assert]; go; [|easy].
  destruct (vindex (tl_shape l) 0) as [l0|p|] eqn:E0.
  2, 3: exfalso; revert E0; unfold vindex; destruct (nth_error (tl_shape l) 0) eqn:Q; try easy; apply nth_error_None in Q; lia.
  destruct (vindex (tl_shape l) 1) as [l1|p|] eqn:E1.
  2, 3: exfalso; revert E1; unfold vindex; destruct (nth_error (tl_shape l) 1) eqn:Q; try easy; apply nth_error_None in Q; lia.
  destruct (vindex (tl_shape r) 1) as [r1|p|] eqn:E2.
  2, 3: exfalso; revert E2; unfold vindex; destruct (nth_error (tl_shape r) 1) eqn:Q; try easy; apply nth_error_None in Q; lia.
  unfold bmm_shape in HP. rewrite (vindex_nth _ _ _ E0), (vindex_nth _ _ _ E1), (vindex_nth _ _ _ E2) in HP.
  assert (Fin : forall n0 n1 m, forall res ex, (forall li arr, denote E N ex (vars l r n0 n1 m li arr (length arr) 0) = Ret (Rtn (VTen (LRaw (res arr))), vars l r n0 n1 m li arr (length arr) 0)) ->
    (let* (f, st1) := denote E N (SSeq (SFor (PVar "batch_idx") (IRange (ENum 0) (EAt (EVar "new_shape") (ENum 0))) B) (SSeq ex SSkip))
       (vars l r n0 n1 m (tl_shape l) (repeat n_zero (product [n0; n1; m])) 0 (length (repeat n_zero (product [n0; n1; m])))) in
     match f with
     | Rtn v => let* w := lookup (leave [("left", VTen l); ("right", VTen r)] st1) "left" in Ret (v, w)
     | Next => let* w := lookup (leave [("left", VTen l); ("right", VTen r)] st1) "left" in Ret (VUnit, w)
     | _ => stuck end)
    = let* arr := u_bmm_rows l r n0 n1 m in Ret (VTen (LRaw (res arr)), VTen l)).
  { intros n0 n1 m res ex Hex. rewrite repeat_length. pose proof (all_batches R W N E l r HG Kl Kr L2 n0 n1 m) as AB.
    replace (product [n0; n1; m]) with (n0 * (n1 * m)) by (unfold product; cbn; lia).
    change (denote E N (SSeq ?a ?b) ?st) with (let* (f, st1) := denote E N a st in match f with Next => denote E N b st1 | _ => Ret (f, st1) end).
    change (denote E N (SFor ?p ?i ?a) ?st) with (let* l := items E st i in loop_for l (fun v s0 => let* s1 := matches p v s0 in denote E N a s1) st).
    replace (items E _ _) with (@Ret (list (@val T)) (map VNum (seq 0 n0))) by (cbn; now rewrite Nat.sub_0_r).
    cbn [bind]. subst B. match goal with |- context [loop_for _ ?f _] => change f with (turn_of N E "batch_idx" body_b) end.
    destruct (u_bmm_rows l r n0 n1 m) as [arr|p|]; cbn [bind].
    - destruct AB as [li ->]. cbn [bind]. cbn [denote]; rewrite Hex. cbn [bind]. unfold vars. step. easy.
    - rewrite AB. easy.
    - rewrite AB. easy. }
  assert (L0 : forall n0 n1 m li arr off len, lookup (vars l r n0 n1 m li arr off len) "left" = Ret (VTen l)) by reflexivity.
  assert (LN : forall n0 n1 m li arr off len, lookup (vars l r n0 n1 m li arr off len) "new_shape" = Ret (VVec [n0; n1; m])) by reflexivity.
  assert (LA : forall n0 n1 m li arr off len, lookup (vars l r n0 n1 m li arr off len) "result_array" = Ret (VArr arr)) by reflexivity.
  destruct (length (tl_shape l) =? 2) eqn:EL; go.
  - go. destruct (u_product [1; l0; r1]) as [t|p|] eqn:EP; go; [|easy..].
    specialize (HP t eq_refl). subst t. rewrite Nat.eqb_refl. go.
    etransitivity.
    + subst TS. refine (Fin 1 l0 r1 (fun arr => mkRaw arr [l0; r1]) _ _).
      intros li arr. cbn [denote eval]. rewrite L0, LN, LA. cbn [bind]. rewrite field_shape. cbn [bind]. rewrite EL. cbn [bind as_bool].
      reflexivity.
    + destruct (u_bmm_rows l r 1 l0 r1); easy.
  - go. destruct (u_product [l0; l1; r1]) as [t|p|] eqn:EP; go; [|easy..].
    specialize (HP t eq_refl). subst t. rewrite Nat.eqb_refl. go.
    etransitivity.
    + subst TS. refine (Fin l0 l1 r1 (fun arr => mkRaw arr [l0; l1; r1]) _ _).
      intros li arr. cbn [denote eval]. rewrite L0, LN, LA. cbn [bind]. rewrite field_shape. cbn [bind]. rewrite EL. cbn [bind as_bool].
      reflexivity.
    + destruct (u_bmm_rows l r l0 l1 r1); easy.
Qed.
End Bmm_raw.
