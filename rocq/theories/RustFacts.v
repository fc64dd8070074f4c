(** * RustFacts: the program of ModelKernel.v computes the functions of ModelUsize.v *)
From Coq Require String.
Import String.StringSyntax.
From Verif Require Import Base Lists ModelIndex ModelTensor ModelOps ModelUsize ModelRust ModelKernel SpecRust.
#[local] Open Scope string_scope.

Lemma words_le U n m : words U n -> m <= n -> words U m.
Proof. intros [A B] L. split; [intros a b H; apply A; lia | exact B]. Qed.
Lemma words_unbounded n : words unbounded n.
Proof. split; intros a b H; cbn [u_add u_sub unbounded]; [easy|]. destruct (Nat.leb_spec b a); [easy|lia]. Qed.
Lemma words_checked M n : n < M -> words (checked M) n.
Proof.
  intros L. split; intros a b H; cbn [u_add u_sub checked].
  - destruct (Nat.ltb_spec (a + b) M); [easy|lia].
  - destruct (Nat.leb_spec b a); [easy|lia].
Qed.
Lemma words_wrapping M n : n < M -> words (wrapping M) n.
Proof.
  intros L. split; intros a b H; cbn [u_add u_sub wrapping].
  - rewrite Nat.mod_small by lia. easy.
  - destruct (Nat.leb_spec b a); [easy|lia].
Qed.

Ltac step := cbn [run_fn f_params f_body block fold_right denote eval items lookup assign matches turn leave as_num as_bool
  as_elem put pushed set_field field String.eqb Ascii.eqb Bool.eqb bind length skipn Nat.sub combine fst snd
  loop_for loop_while app Nat.eqb negb result_val unwrap opt_val].
(** Hide the bodies of loops *)
Ltac hide := match goal with
  | |- context [SFor _ _ ?a] => assert_fails (is_var a); let B := fresh "B" in remember a as B
  end.
Ltac hide_loop := match goal with
  | |- context [SLoop ?a] => assert_fails (is_var a); let B := fresh "B" in remember a as B
  end.

Ltac body F := match goal with |- context [loop_for _ ?f _] => set (F := f) end.
Ltac body_is F := match goal with |- context [loop_for _ ?f _] => change f with F end.

Section Facts.
Context {U : usize_ops} {T : Type} {NT : Num T}.
Notation val := (@val T).
Notation fenv := (@fenv T).
Notation store := (@store T).

Lemma bind_Ret A B (a : A) (f : A -> outcome B) : bind (Ret a) f = f a.
Proof. reflexivity. Qed.

Lemma firstn_set_snoc A (v : list A) i x : i < length v -> firstn (S i) (list_set v i x) = firstn i v ++ [x].
Proof.
  revert v. induction i as [|i IH]; intros [|a v] H; cbn [length] in H; try lia; cbn [list_set firstn app]; [easy|].
  f_equal. apply (IH v). lia.
Qed.

(** ** utils.rs *)
Lemma k_reset (E : fenv) N index position : words U (position + 1) ->
  run_fn E N k_reset_trailing_indices [VVec index; VNum position]
  = Ret (VUnit, VVec (if position <? length index then reset_trailing_indices index position else index)).
Proof.
  intros [Wa _]. unfold k_reset_trailing_indices, run_fn. hide. step. rewrite Wa by lia. step.
  assert (L : forall n st0 index, st0 + n = length index ->
    loop_for (map VNum (seq st0 n)) (fun v st => let* st1 := matches (PVar "i") v st in denote E N B st1)
      [("index", VVec index); ("position", VNum position)]
    = Ret (Next, [("index", VVec (firstn st0 index ++ repeat 0 (length index - st0))); ("position", VNum position)] : store)).
  { clear index. intros n. induction n as [|n IH]; intros st0 index HL.
    - cbn [seq map loop_for]. rewrite <- HL, Nat.add_0_r, Nat.sub_diag in *. subst st0. rewrite firstn_all, app_nil_r. easy.
    - cbn [seq map]. subst B. step. unfold vset. destruct (Nat.ltb_spec st0 (length index)) as [H|H]; [|lia].
      step. rewrite IH by (rewrite list_set_length; lia). rewrite list_set_length.
      replace (firstn (S st0) (list_set index st0 0) ++ repeat 0 (length index - S st0))
        with (firstn st0 index ++ repeat 0 (length index - st0)); [easy|].
      replace (length index - st0) with (S (length index - S st0)) by lia. cbn [repeat].
      rewrite firstn_set_snoc by lia. rewrite <- app_assoc. easy. }
  destruct (Nat.ltb_spec position (length index)) as [H|H].
  - rewrite L by lia. step. easy.
  - replace (length index - (position + 1)) with 0 by lia. step. easy.
Qed.

Definition has_reset (E : fenv) : Prop := forall index position, words U (position + 1) ->
  call E "reset_trailing_indices" [VVec index; VNum position]
  = Ret (VUnit, VVec (if position <? length index then reset_trailing_indices index position else index)).

Lemma k_increment (E : fenv) N index shape : 2 <= N -> words U (1 + length index) -> has_reset E ->
  run_fn E N k_increment_index [VVec index; VVec shape]
  = let* (index', more) := u_increment_index index shape in Ret (VBool more, VVec index').
Proof.
  intros HN W R. destruct N as [|[|N]]; try lia. unfold k_increment_index, run_fn. hide. step.
  unfold u_increment_index. rewrite Nat.sub_0_r.
  body F. set (st := fun (i : list nat) (c : nat) => [("carry", VNum c); ("index", VVec i); ("shape", VVec shape)] : store).
  assert (L : forall n, n <= length index ->
    loop_for (rev (map VNum (seq 0 n))) F (st index 1)
    = let* (index', more) := u_inc_loop n index shape in
      if more then Ret (Rtn (VBool true), st index' 0) else Ret (Next, st index' 1)).
  { intros n. induction n as [|i IH]; intros HL.
    - easy.
    - rewrite seq_S, map_app, rev_app_distr. cbn [Nat.add map rev app u_inc_loop]. unfold F at 1, st at 1. subst B. step.
      destruct (vindex index i) as [v|p|] eqn:Ev; step; [|easy|easy].
      destruct (vindex shape i) as [dim|p|]; step; [|easy|easy].
      destruct (u_sub dim 1) as [last|p|] eqn:Es; step; [|easy|easy].
      change (0 <? 1) with true. destruct (v <? last) eqn:El; step.
      + destruct (u_add v 1) as [v'|p|] eqn:Ea; step; [|easy|easy].
        unfold vset. destruct (Nat.ltb_spec i (length index)) as [_|H]; [|lia]. step.
        destruct W as [Wa Ws]. rewrite Ws by lia. step. rewrite Es. step. rewrite El. step.
        change (0 <? 0) with false. step. rewrite R by (split; [intros; apply Wa; lia | exact Ws]). step.
        rewrite list_set_length. destruct (Nat.ltb_spec i (length index)) as [_|H]; [|lia]. easy.
      + apply IH. lia. }
  specialize (L (length index) (le_n _)). unfold st in L. rewrite L.
  destruct (u_inc_loop (length index) index shape) as [[index' [|]]|p|]; step; easy.
Qed.

Lemma zip_val_map A B (f : A -> val) (g : B -> val) l m :
  zip_val (map f l) (map g m) = map (fun p => VPair (f (fst p)) (g (snd p))) (combine l m).
Proof. revert m. induction l as [|a l IH]; intros [|b m]; cbn; congruence. Qed.
Lemma enum_val_from (l : list val) : enum_val l = map (fun p => VPair (VNum (fst p)) (snd p)) (combine (seq 0 (length l)) l).
Proof.
  unfold enum_val. generalize (length l). intros n. generalize 0. revert l.
  induction n as [|n IH]; intros [|a l] k; cbn; try easy. now rewrite IH.
Qed.


(** [for _ in l { v.push(x) }] and the like: a loop that appends *)
Lemma map_seq_push (F : val -> store -> outcome (flow * store)) (st : list nat -> store) x :
  (forall v a, F v (st a) = Ret (Next, st (a ++ [x]))) -> (forall a b, length (st a) = length (st b)) ->
  forall n s a, loop_for (map VNum (seq s n)) F (st a) = Ret (Next, st (a ++ repeat x n)).
Proof.
  intros HF HL n. induction n as [|n IH]; intros s a.
  - cbn. now rewrite app_nil_r.
  - cbn [seq map loop_for]. rewrite HF. cbn [bind turn]. unfold leave. rewrite (HL (a ++ [x]) a), Nat.sub_diag. cbn [skipn].
    rewrite IH, <- app_assoc. easy.
Qed.

Lemma ti_loop_acc rs : forall g acc, ti_loop rs g acc = let* (i, r) := ti_loop rs g [] in Ret (i ++ acc, r).
Proof.
  induction rs as [|d rs IH]; intros g acc; cbn [ti_loop]; [easy|].
  destruct (d =? 0); [easy|]. rewrite IH, (IH _ [_]). destruct (ti_loop rs (g / d) []) as [[i r]|p|]; cbn [bind]; [|easy|easy].
  now rewrite <- app_assoc.
Qed.
Lemma list_set_last A (u : list A) a t x : list_set (u ++ a :: t) (length u) x = u ++ x :: t.
Proof. induction u as [|b u IH]; cbn; congruence. Qed.

Lemma k_tensor_index_inplace_ok (E : fenv) N (old : list nat) g shape :
  run_fn E N k_tensor_index_inplace [VVec old; VNum g; VVec shape]
  = let* (index, rest) := ti_loop (rev shape) g [] in
    Ret (if 0 <? rest then VErr ErrBig else VOk VUnit, VVec index).
Proof.
  unfold k_tensor_index_inplace, run_fn. do 2 hide. step. rewrite Nat.sub_0_r.
  rewrite (map_seq_push _ (fun i => [("index", VVec i); ("global_index", VNum g); ("shape", VVec shape)]) 0);
    [|intros v a; subst B; step; easy|easy]. step.
  rewrite enum_val_from, map_length. cbn [app].
  body F.
  assert (L : forall p, forall g0 tail,
    loop_for (rev (map (fun p => VPair (VNum (fst p)) (snd p)) (combine (seq 0 (length p)) (map VNum p)))) F
      [("global_index", VNum g0); ("index", VVec (repeat 0 (length p) ++ tail)); ("global_index", VNum g); ("shape", VVec shape)]
    = let* (i, r) := ti_loop (rev p) g0 [] in
      Ret (Next, [("global_index", VNum r); ("index", VVec (i ++ tail)); ("global_index", VNum g); ("shape", VVec shape)])).
  { intros p. induction p as [|d p IH] using rev_ind; intros g0 tail; [easy|].
    rewrite map_app, rev_unit, app_length, seq_app. cbn [length map]. rewrite Nat.add_1_r, Nat.add_0_l. cbn [seq].
    rewrite combine_app by (rewrite seq_length, map_length; easy). cbn [combine]. rewrite map_app, rev_app_distr. cbn [map rev app fst snd ti_loop].
    unfold F at 1. subst B0. step. destruct (d =? 0) eqn:Ed; step; [easy|].
    cbn [repeat]. rewrite repeat_cons, <- app_assoc. cbn [app]. unfold vset. rewrite app_length, repeat_length. cbn [length].
    destruct (Nat.ltb_spec (length p) (length p + S (length tail))) as [_|H]; [|lia]. step. rewrite Ed. step.
    pose proof (list_set_last nat (repeat 0 (length p)) 0 tail (g0 mod d)) as Q. rewrite repeat_length in Q. rewrite Q, IH, (ti_loop_acc _ _ [_]).
    destruct (ti_loop (rev p) (g0 / d) []) as [[i r]|q|]; step; [|easy|easy]. now rewrite <- app_assoc. }
  specialize (L shape g []). rewrite app_nil_r in L. rewrite L.
  destruct (ti_loop (rev shape) g []) as [[i r]|q|]; step; [|easy|easy]. rewrite app_nil_r.
  destruct (0 <? r); step; easy.
Qed.

Definition has_tensor_index_inplace (E : fenv) : Prop := forall (old : list nat) g shape,
  call E "tensor_index_inplace" [VVec old; VNum g; VVec shape]
  = let* (index, rest) := ti_loop (rev shape) g [] in Ret (if 0 <? rest then VErr ErrBig else VOk VUnit, VVec index).
Lemma k_tensor_index_ok (E : fenv) N g shape : has_tensor_index_inplace E ->
  run_fn E N k_tensor_index [VNum g; VVec shape] = let* r := tensor_index g shape in Ret (result_val VVec r, VNum g).
Proof.
  intros H. unfold k_tensor_index, run_fn, tensor_index. step. rewrite H.
  destruct (ti_loop (rev shape) g []) as [[i r]|p|]; step; [|easy|easy]. destruct (0 <? r); step; easy.
Qed.



Definition gi_body : stmt :=
  match k_global_index with mkFn _ (SSeq _ (SSeq _ (SSeq _ (SSeq (SFor _ _ b) _)))) => b | _ => SSkip end.
Lemma gi_loop_ok (E : fenv) N index shape offset X (K : flow * store -> outcome X) Kok Kerr :
  let st (g m : nat) : store :=
    [("multiplier", VNum m); ("global_idx", VNum g); ("index", VVec index); ("shape", VVec shape); ("offset", off_val offset)] in
  (forall a b, b <= a -> u_sub a b = Ret (a - b)) ->
  (forall g m, K (Next, st g m) = Kok g) -> (forall e g m, K (Rtn (VErr e), st g m) = Kerr e) ->
  forall pairs pos g m, pos + length pairs <= length shape ->
  bind (loop_for (map (fun p => VPair (VNum (fst p)) (snd p))
              (combine (seq pos (length pairs)) (map (fun p => VPair (VNum (fst p)) (VNum (snd p))) pairs)))
    (fun v st => let* st1 := matches (PPair (PVar "i") (PPair (PVar "dim") (PVar "idx_dim"))) v st in denote E N gi_body st1)
    (st g m)) K
  = let* r := u_gi_loop (length shape) offset pairs pos g m in match r with Ok g' => Kok g' | Err e => Kerr e end.
Proof.
  intros st Ws K1 K2. match goal with |- context [loop_for _ ?f _] => set (F := f) end.
  intros pairs. induction pairs as [|[dim idx] pairs IH]; intros pos g m H.
  - cbn [length seq combine map loop_for u_gi_loop bind]. apply K1.
  - cbn [length] in H. cbn [length seq combine map u_gi_loop fst snd]. unfold F at 1, st at 1. step.
    unfold gi_body, k_global_index. step. rewrite !Ws by lia. step. rewrite !Ws by lia. step.
    destruct (dim =? 1); step; [apply IH; lia|].
    destruct offset as [o|]; cbn [off_val]; step.
    + destruct (vindex o (length shape - pos - 1)) as [r|p|] eqn:Ev; step; [|easy|easy].
      destruct (u_sub (sr_end r) (sr_start r)) as [sd|p|]; step; [|easy|easy].
      rewrite Ev. step. destruct (u_add (sr_start r) idx) as [si|p|]; step; [|easy|easy].
      destruct (sd <=? idx); step; [apply K2|].
      destruct (dim <=? si); step; [apply K2|].
      destruct (u_mul si m) as [q|p|]; step; [|easy|easy].
      destruct (u_add g q) as [g'|p|]; step; [|easy|easy].
      destruct (u_mul m dim) as [m'|p|]; step; [|easy|easy].
      apply IH; lia.
    + destruct (dim <=? idx) eqn:Ed; step; [apply K2|]. rewrite Ed. step.
      destruct (u_mul idx m) as [q|p|]; step; [|easy|easy].
      destruct (u_add g q) as [g'|p|]; step; [|easy|easy].
      destruct (u_mul m dim) as [m'|p|]; step; [|easy|easy].
      apply IH; lia.
Qed.

Lemma denote_seq (E : fenv) N a b st : denote E N (SSeq a b) st
  = let* (f, st1) := denote E N a st in match f with Next => denote E N b st1 | _ => Ret (f, st1) end.
Proof. reflexivity. Qed.
Lemma map_rev_pairs (a b : list nat) :
  zip_val (T := T) (rev (map VNum a)) (rev (map VNum b)) = map (fun p => VPair (VNum (fst p)) (VNum (snd p))) (combine (rev a) (rev b)).
Proof. rewrite <- !map_rev. apply zip_val_map. Qed.

Lemma k_global_index_ok (E : fenv) N index shape offset : words U (length shape) ->
  run_fn E N k_global_index [VVec index; VVec shape; off_val offset]
  = let* r := u_global_index index shape offset in Ret (result_val VNum r, VVec index).
Proof.
  intros [_ Ws]. unfold k_global_index, run_fn, u_global_index. cbn [f_body f_params block fold_right length Nat.eqb combine].
  rewrite denote_seq. match goal with |- context [denote E N ?c ?st] => set (first := c); set (s0 := st) end.
  assert (P : denote E N first s0
    = if (length index <? length shape) && existsb (fun dim => 1 <? dim) (firstn (length shape - length index) shape)
      then Ret (Rtn (VErr ErrShort), s0) else Ret (Next, s0)).
  { unfold first, s0. hide. step. destruct (Nat.ltb_spec (length index) (length shape)) as [H|H]; step; [|easy].
    rewrite Ws by lia. step. destruct (Nat.leb_spec (length shape - length index) (length shape)) as [_|H']; [|lia]. step.
    body F.
    assert (L : forall l, loop_for (map VNum l) F s0
      = if existsb (fun dim => 1 <? dim) l then Ret (Rtn (VErr ErrShort), s0) else Ret (Next, s0)).
    { intros l. induction l as [|d l IH]; [easy|]. cbn [map existsb]. unfold F at 1, s0 at 1. subst B. step.
      destruct (1 <? d); step; [easy|]. apply IH. }
    fold s0. rewrite L. cbn [andb]. destruct (existsb _ _); easy. }
  rewrite P. destruct (_ && _); [easy|]. clear P. rewrite bind_Ret. cbv beta iota. unfold s0. clear s0 first. do 1 hide.
  step. rewrite !bind_assoc. rewrite map_rev_pairs. rewrite enum_val_from, map_length.
  subst B. etransitivity.
  - refine (gi_loop_ok E N index shape offset _ _ (fun g => Ret (VOk (VNum g), VVec index)) (fun e => Ret (VErr e, VVec index))
              Ws _ _ (combine (rev shape) (rev index)) 0 0 1 _); try easy.
    rewrite combine_length, !rev_length. lia.
  - destruct (u_gi_loop _ _ _ _ _ _) as [[g|e]|p|]; easy.
Qed.

(** ** raw_tensor.rs, tensor_view.rs, tensor_like.rs *)
Section Rank.
Variable R : nat.
Hypothesis W : words U (S R).
Variable N : nat.

Notation rank_ok := (SpecRust.rank_ok R).

Definition has_increment (E : fenv) : Prop := forall index shape, length index <= R ->
  call E "increment_index" [VVec index; VVec shape]
  = let* (index', more) := u_increment_index index shape in Ret (VBool more, VVec index').
Definition has_global_index (E : fenv) : Prop := forall index shape offset, length shape <= R ->
  call E "global_index" [VVec index; VVec shape; off_val offset]
  = let* r := u_global_index index shape offset in Ret (result_val VNum r, VVec index).

(** [total *= dim] over a shape *)
Lemma product_loop (F : val -> store -> outcome (flow * store)) (st : nat -> store) :
  (forall d a, F (VNum d) (st a) = let* b := u_mul a d in Ret (Next, ("dim", VNum d) :: st b)) ->
  (forall a b, length (st a) = length (st b)) ->
  forall l a, loop_for (map VNum l) F (st a) = let* b := foldM u_mul l a in Ret (Next, st b).
Proof.
  intros HF HL l. induction l as [|d l IH]; intros a; cbn [map loop_for foldM bind]; [easy|].
  rewrite HF. destruct (u_mul a d) as [b|p|]; cbn [bind turn]; [|easy|easy].
  unfold leave. cbn [length]. rewrite (HL b a). replace (S (length (st a)) - length (st a)) with 1 by lia. cbn [skipn]. apply IH.
Qed.

Lemma k_new_empty_ok (E : fenv) s :
  run_fn E N k_new_empty [VVec s] = let* _ := u_product s in Ret (VTen (LRaw (mkRaw [] s)), VVec s).
Proof.
  unfold k_new_empty, run_fn. hide. step.
  rewrite (product_loop _ (fun t => [("total", VNum t); ("shape", VVec s)])); [|intros d a; subst B; step; now destruct (u_mul a d)|easy].
  unfold u_product. destruct (foldM u_mul s 1) as [n|p|]; step; easy.
Qed.

Lemma k_new_with_filler_ok (E : fenv) s x :
  run_fn E N k_new_with_filler [VVec s; VElem x] = let* t := u_raw_filler s x in Ret (VTen (LRaw t), VVec s).
Proof.
  unfold k_new_with_filler, run_fn, u_raw_filler. do 2 hide. step. destruct s as [|d s]; [easy|]. set (s1 := d :: s).
  change (length s1 =? 0) with false. step.
  rewrite (product_loop _ (fun t => [("total", VNum t); ("shape", VVec s1); ("filler", VElem x)]));
    [|intros e a; subst B; step; now destruct (u_mul a e)|easy].
  unfold u_product. destruct (foldM u_mul s1 1) as [n|p|]; step; [|easy|easy].
  rewrite Nat.sub_0_r. body F.
  assert (L : forall m s a, loop_for (map VNum (seq s m)) F
     [("tensor", VTen (LRaw (mkRaw a s1))); ("total", VNum n); ("shape", VVec s1); ("filler", VElem x)]
     = Ret (Next, [("tensor", VTen (LRaw (mkRaw (a ++ repeat x m) s1))); ("total", VNum n); ("shape", VVec s1); ("filler", VElem x)])).
  { intros m. induction m as [|m IH]; intros s' a; cbn [seq map]; [cbn; now rewrite app_nil_r|].
    unfold F at 1. subst B0. step. rewrite IH. cbn [array ModelTensor.shape repeat]. now rewrite <- app_assoc. }
  cbn [repeat]. rewrite L. step. easy.
Qed.

Lemma k_new_ok (E : fenv) a s :
  run_fn E N k_new [VArr a; VVec s] = let* t := u_raw_new a s in Ret (VTen (LRaw t), VArr a).
Proof.
  unfold k_new, run_fn, u_raw_new. hide. step.
  rewrite (product_loop _ (fun t => [("len", VNum t); ("array", VArr a); ("shape", VVec s)])); [|intros d b; subst B; step; now destruct (u_mul b d)|easy].
  unfold u_product. destruct (foldM u_mul s 1) as [n|p|]; step; [|easy|easy].
  destruct (n =? length a); cbn [assert]; step; easy.
Qed.

Lemma gi_none (E : fenv) index s : has_global_index E -> length s <= R ->
  call E "global_index" [VVec index; VVec s; VNone] = let* r := u_global_index index s None in Ret (result_val VNum r, VVec index).
Proof. intros H L. apply (H index s None L). Qed.
Lemma gi_some (E : fenv) index s o : has_global_index E -> length s <= R ->
  call E "global_index" [VVec index; VVec s; VRanges (Some o)]
  = let* r := u_global_index index s (Some o) in Ret (result_val VNum r, VVec index).
Proof. intros H L. apply (H index s (Some o) L). Qed.

Lemma k_set_ok (E : fenv) t index x : has_global_index E -> length (shape t) <= R ->
  run_fn E N k_set [VTen (LRaw t); VVec index; VElem x]
  = let* r := u_raw_set t index x in
    match r with Ok t' => Ret (VOk VUnit, VTen (LRaw t')) | Err e => Ret (VErr e, VTen (LRaw t)) end.
Proof.
  intros G L. unfold k_set, run_fn, u_raw_set. step. rewrite (gi_none E _ _ G L).
  destruct (u_global_index index (shape t) None) as [[g|e]|p|]; cbn [result_val]; step; [|easy..].
  destruct (vset (array t) g x) as [a|p|]; step; easy.
Qed.
Lemma k_raw_get_ok (E : fenv) t index : has_global_index E -> length (shape t) <= R ->
  run_fn E N k_raw_get [VTen (LRaw t); VVec index] = let* r := u_raw_get t index in Ret (result_val VElem r, VTen (LRaw t)).
Proof.
  intros G L. unfold k_raw_get, run_fn, u_raw_get. step. rewrite (gi_none E _ _ G L).
  destruct (u_global_index index (shape t) None) as [[g|e]|p|]; cbn [result_val]; step; [|easy..].
  destruct (vindex (array t) g) as [a|p|]; step; easy.
Qed.
Lemma k_view_get_ok (E : fenv) v index : has_global_index E -> length (shape (v_tensor v)) <= R ->
  run_fn E N k_view_get [VTen (LView v); VVec index] = let* r := u_view_get v index in Ret (result_val VElem r, VTen (LView v)).
Proof.
  intros G L. unfold k_view_get, run_fn, u_view_get. step. rewrite (gi_some E _ _ _ G L).
  destruct (u_global_index index (shape (v_tensor v)) (Some (v_offset v))) as [[g|e]|p|]; cbn [result_val unwrap]; step; [|easy..].
  destruct (vindex (array (v_tensor v)) g) as [a|p|]; step; easy.
Qed.

Definition has_raw_get (E : fenv) : Prop := forall t index, length (shape t) <= R ->
  call E "RawTensor::get" [VTen (LRaw t); VVec index] = let* r := u_raw_get t index in Ret (result_val VElem r, VTen (LRaw t)).
Definition has_view_get (E : fenv) : Prop := forall v index, length (shape (v_tensor v)) <= R ->
  call E "TensorView::get" [VTen (LView v); VVec index] = let* r := u_view_get v index in Ret (result_val VElem r, VTen (LView v)).
Definition has_get (E : fenv) : Prop := forall l index, rank_ok l ->
  call E "get" [VTen l; VVec index] = let* r := u_tl_get l index in Ret (result_val VElem r, VTen l).
Definition has_index (E : fenv) : Prop := forall t index, length (shape t) <= R ->
  call E "index" [VTen (LRaw t); VVec index] = let* x := u_raw_at t index in Ret (VElem x, VTen (LRaw t)).

Lemma k_get_ok (E : fenv) l index : has_raw_get E -> has_view_get E -> rank_ok l ->
  run_fn E N k_get [VTen l; VVec index] = let* r := u_tl_get l index in Ret (result_val VElem r, VTen l).
Proof.
  intros G1 G2 L. unfold k_get, run_fn, u_tl_get. destruct l as [t|v]; step.
  - rewrite G1 by exact L. destruct (u_raw_get t index) as [r|p|]; step; easy.
  - rewrite G2 by apply L. destruct (u_view_get v index) as [r|p|]; step; easy.
Qed.
Lemma k_index_ok (E : fenv) t index : has_raw_get E -> length (shape t) <= R ->
  run_fn E N k_index [VTen (LRaw t); VVec index] = let* x := u_raw_at t index in Ret (VElem x, VTen (LRaw t)).
Proof.
  intros G L. unfold k_index, run_fn, u_raw_at. step. rewrite G by exact L.
  destruct (u_raw_get t index) as [[x|e]|p|]; cbn [unwrap result_val]; step; easy.
Qed.
Lemma field_shape (l : tlike T) : field (VTen l) "shape" = Ret (VVec (tl_shape l)).
Proof. destruct l; reflexivity. Qed.
Lemma k_get_first_elem_ok (E : fenv) l : has_get E -> rank_ok l ->
  run_fn E N k_get_first_elem [VTen l] = let* x := u_tl_get_first_elem l in Ret (VElem x, VTen l).
Proof.
  intros G L. unfold k_get_first_elem, run_fn, u_tl_get_first_elem, u_tl_get_unwrap.
  assert (X : forall st, eval E (("self", VTen l) :: st) (EField (EVar "self") "shape") = Ret (VVec (tl_shape l))).
  { intros st. cbn [eval lookup String.eqb Ascii.eqb Bool.eqb bind]. apply field_shape. }
  destruct l as [t|v]; step; rewrite G by exact L; cbn [tl_shape];
    match goal with |- context [u_tl_get ?l ?i] => destruct (u_tl_get l i) as [[x|e]|p|] end; cbn [unwrap result_val]; step; easy.
Qed.
Lemma k_tensor_ok (E : fenv) l : run_fn E N k_tensor [VTen l] = Ret (VTen (LRaw (tl_tensor l)), VTen l).
Proof. unfold k_tensor, run_fn. destruct l; step; easy. Qed.

(** ** Iterators *)
Lemma u_inc_length index s i' b : u_increment_index index s = Ret (i', b) -> length i' = length index.
Proof.
  unfold u_increment_index. assert (X : forall n, n <= length index -> u_inc_loop n index s = Ret (i', b) -> length i' = length index).
  { intros n. induction n as [|n IH]; intros L; cbn [u_inc_loop].
    - intros [= <- <-]. easy.
    - destruct (vindex index n) as [v|p|]; cbn [bind]; try easy. destruct (vindex s n) as [d|p|]; cbn [bind]; try easy.
      destruct (u_sub d 1) as [z|p|]; cbn [bind]; try easy. destruct (v <? z); [|apply IH; lia].
      destruct (u_add v 1) as [v'|p|]; cbn [bind]; try easy. intros [= <- <-]. unfold reset_trailing_indices.
      rewrite app_length, repeat_length, firstn_length, list_set_length. lia. }
  apply X. easy.
Qed.

Lemma k_index_iterator_new_ok (E : fenv) dims :
  run_fn E N k_index_iterator_new [VVec dims] = Ret (ii_val (index_iter_new dims), VVec dims).
Proof. unfold k_index_iterator_new, run_fn. step. easy. Qed.
Lemma k_index_iterator_next_ok (E : fenv) s : has_increment E -> length (ii_index s) <= R ->
  run_fn E N k_index_iterator_next [ii_val s] = let* (o, s') := u_index_iter_next s in Ret (opt_val VVec o, ii_val s').
Proof.
  intros H L. destruct s as [index dims [|]]; unfold k_index_iterator_next, run_fn, ii_val, u_index_iter_next in *;
    cbn [ii_index ii_dims ii_first] in *; step; [easy|].
  rewrite H by exact L. destruct (u_increment_index index dims) as [[i' [|]]|p|]; step; easy.
Qed.
Lemma k_element_iterator_new_ok (E : fenv) l :
  run_fn E N k_element_iterator_new [VTen l] = Ret (ei_val l (elem_iter_new l), VTen l).
Proof. unfold k_element_iterator_new, run_fn. destruct l; step; easy. Qed.
Lemma k_element_iterator_next_ok (E : fenv) l s : has_increment E -> has_get E -> rank_ok l -> length (ei_index s) <= R ->
  run_fn E N k_element_iterator_next [ei_val l s] = let* (o, s') := u_elem_iter_next l s in Ret (opt_val VElem o, ei_val l s').
Proof.
  intros H G K L. destruct s as [index [|]]; unfold k_element_iterator_next, run_fn, ei_val, u_elem_iter_next, u_tl_get_unwrap in *;
    cbn [ei_index ei_first] in *; step.
  - rewrite G by exact K. destruct (u_tl_get l index) as [[x|e]|p|]; step; easy.
  - change (match l with LRaw t => _ | LView w => _ end) with (field (VTen l) "shape"). rewrite field_shape. step.
    rewrite H by exact L. destruct (u_increment_index index (tl_shape l)) as [[i' [|]]|p|]; step; [|easy..].
    rewrite G by exact K. destruct (u_tl_get l i') as [[x|e]|p|]; step; easy.
Qed.

Definition has_index_iterator (E : fenv) : Prop :=
  (forall dims, call E "IndexIterator::new" [VVec dims] = Ret (ii_val (index_iter_new dims), VVec dims)) /\
  (forall s, length (ii_index s) <= R ->
    call E "IndexIterator::next" [ii_val s] = let* (o, s') := u_index_iter_next s in Ret (opt_val VVec o, ii_val s')).
Definition has_element_iterator (E : fenv) : Prop :=
  (forall l, call E "ElementIterator::new" [VTen l] = Ret (ei_val l (elem_iter_new l), VTen l)) /\
  (forall l s, rank_ok l -> length (ei_index s) <= R ->
    call E "ElementIterator::next" [ei_val l s] = let* (o, s') := u_elem_iter_next l s in Ret (opt_val VElem o, ei_val l s')).

(** A [loop] around [next] *)
Lemma loop_iter St I A (next : St -> outcome (option I * St)) (g : A -> I -> outcome A) (st : St -> A -> store)
    (F : store -> outcome (flow * store)) (Inv : St -> A -> Prop) X (K : flow * store -> outcome X) Kok :
  (forall s a, Inv s a -> (let* (f, st1) := F (st s a) in Ret (f, leave (st s a) st1))
     = let* (o, s') := next s in
       match o with None => Ret (Brk, st s' a) | Some x => let* a' := g a x in Ret (Next, st s' a') end) ->
  (forall s a x s' a', Inv s a -> next s = Ret (Some x, s') -> g a x = Ret a' -> Inv s' a') ->
  (forall s a, K (Next, st s a) = Kok a) ->
  forall fuel n s a, fuel <= n -> Inv s a -> iter_fold next g fuel s a <> NoFuel ->
  bind (loop_while n (fun _ => Ret true) F (st s a)) K = let* a' := iter_fold next g fuel s a in Kok a'.
Proof.
  intros HF HI HK fuel. induction fuel as [|fuel IH]; intros n s a L I0 H; [easy|].
  destruct n as [|n]; [lia|]. cbn [loop_while iter_fold bind] in *. specialize (HF s a I0). specialize (HI s a).
  destruct (next s) as [[[x|] s']|p|]; cbn [bind] in *.
  - destruct (g a x) as [a'|p|] eqn:Eg; cbn [bind] in *.
    + destruct (F (st s a)) as [[f st1]|p|]; cbn [bind] in *; try easy. injection HF as -> ->. cbn [turn].
      apply IH; [lia|eapply HI; eauto|exact H].
    + destruct (F (st s a)) as [[f st1]|q|]; cbn [bind] in *; try easy. now injection HF as ->.
    + easy.
  - destruct (F (st s a)) as [[f st1]|p|]; cbn [bind] in *; try easy. injection HF as -> ->. cbn [turn bind]. apply HK.
  - destruct (F (st s a)) as [[f st1]|q|]; cbn [bind] in *; try easy. now injection HF as ->.
  - easy.
Qed.

Lemma elem_next_length (l : tlike T) s o s' : length (ei_index s) <= R -> u_elem_iter_next l s = Ret (o, s') -> length (ei_index s') <= R.
Proof.
  intros L. unfold u_elem_iter_next. destruct (ei_first s).
  - destruct (u_tl_get_unwrap l (ei_index s)) as [x|p|]; cbn [bind]; try easy. intros [= <- <-]. exact L.
  - destruct (u_increment_index (ei_index s) (tl_shape l)) as [[i' [|]]|p|] eqn:Ei; cbn [bind]; try easy; apply u_inc_length in Ei.
    + destruct (u_tl_get_unwrap l i') as [x|p|]; cbn [bind]; try easy. intros [= <- <-]. cbn. lia.
    + intros [= <- <-]. cbn. lia.
Qed.
Lemma index_next_length s o s' : length (ii_index s) <= R -> u_index_iter_next s = Ret (o, s') -> length (ii_index s') <= R.
Proof.
  intros L. unfold u_index_iter_next. destruct (ii_first s); [intros [= <- <-]; exact L|].
  destruct (u_increment_index (ii_index s) (ii_dims s)) as [[i' [|]]|p|] eqn:Ei; cbn [bind]; try easy; apply u_inc_length in Ei;
    intros [= <- <-]; cbn; lia.
Qed.

Definition has_new (E : fenv) : Prop := forall a s,
  call E "RawTensor::new" [VArr a; VVec s] = let* t := u_raw_new a s in Ret (VTen (LRaw t), VArr a).

Lemma k_to_tensor_ok (E : fenv) l : has_element_iterator E -> has_new E -> rank_ok l -> index_fuel (tl_shape l) <= N ->
  u_tl_to_tensor l <> NoFuel ->
  run_fn E N k_to_tensor [VTen l] = let* t := u_tl_to_tensor l in Ret (VTen (LRaw t), VTen l).
Proof.
  intros [H1 H2] H3 K HN NF. unfold k_to_tensor, run_fn. destruct l as [t|v]; [easy|]. hide_loop. step.
  cbn [u_tl_to_tensor] in *. destruct (u_product (v_shape v)) as [c|p|]; step; [|easy|easy]. rewrite H1. step.
  cbn [repeat] in *. unfold u_elements in *. cbn [bind] in NF.
  set (st := fun s (a : list T) => [("iter", ei_val (LView v) s); ("array", VArr a); ("_", VNum c); ("self", VTen (LView v))] : store).
  rewrite !bind_assoc.
  etransitivity.
  - refine (loop_iter elem_iter T (list T) (u_elem_iter_next (LView v)) (fun acc x => Ret (acc ++ [x])) st (denote E N B)
      (fun s _ => length (ei_index s) <= R) _ _ (fun a => let* t := u_raw_new a (v_shape v) in Ret (VTen (LRaw t), VTen (LView v)))
      _ _ _ (index_fuel (v_shape v)) N _ _ HN _ _).
    + intros s a L. subst B. unfold st. step. rewrite H2 by assumption.
      destruct (u_elem_iter_next (LView v) s) as [[[x|] s']|p|]; cbn [opt_val]; step; easy.
    + intros s a x s' a' L Hn _. eapply elem_next_length; eauto.
    + intros s a. unfold st. step. rewrite H3. destruct (u_raw_new a (v_shape v)); step; easy.
    + cbn [elem_iter_new ei_index tl_shape]. rewrite repeat_length. apply K.
    + intros Q. apply NF. cbn [tl_shape] in Q |- *. now rewrite Q.
  - cbn [tl_shape]. now destruct (iter_fold _ _ _ _ _).
Qed.

(** ** tensor_like.rs *)
Definition has_new_empty (E : fenv) : Prop := forall s,
  call E "RawTensor::new_empty" [VVec s] = let* _ := u_product s in Ret (VTen (LRaw (mkRaw [] s)), VVec s).
Definition has_tensor (E : fenv) : Prop := forall l, call E "tensor" [VTen l] = Ret (VTen (LRaw (tl_tensor l)), VTen l).

Lemma push_loop (F : val -> store -> outcome (flow * store)) (st : list T -> store) (f : T -> T) :
  (forall x a, F (VElem x) (st a) = Ret (Next, ("elem", VElem x) :: st (a ++ [f x]))) -> (forall a b, length (st a) = length (st b)) ->
  forall l a, loop_for (map VElem l) F (st a) = Ret (Next, st (a ++ map f l)).
Proof.
  intros HF HL l. induction l as [|x l IH]; intros a; cbn [map loop_for]; [now rewrite app_nil_r|].
  rewrite HF. cbn [bind turn]. unfold leave. cbn [length]. rewrite (HL (a ++ [f x]) a).
  replace (S (length (st a)) - length (st a)) with 1 by lia. cbn [skipn]. rewrite IH, <- app_assoc. easy.
Qed.
Lemma k_left_scalar_ok (E : fenv) l x : has_new_empty E -> has_tensor E ->
  run_fn E N k_left_scalar_multiplication [VTen l; VElem x]
  = let* _ := u_product (tl_shape l) in Ret (VTen (LRaw (left_scalar_multiplication l x)), VTen l).
Proof.
  intros H1 H2. unfold k_left_scalar_multiplication, run_fn. hide.
  assert (X : forall st, eval E (("self", VTen l) :: st) (EField (EVar "self") "shape") = Ret (VVec (tl_shape l))).
  { intros st. cbn [eval lookup String.eqb Ascii.eqb Bool.eqb bind]. apply field_shape. }
  step. change (match l with LRaw t => _ | LView w => _ end) with (field (VTen l) "shape"). rewrite field_shape. step.
  rewrite H1. destruct (u_product (tl_shape l)) as [n|p|]; step; [|easy|easy]. rewrite H2. step.
  rewrite (push_loop _ (fun a => [("result", VTen (LRaw (mkRaw a (tl_shape l)))); ("self", VTen l); ("scalar", VElem x)]) (fun y => n_mul x y));
    [|intros y a; subst B; step; easy|easy].
  step. easy.
Qed.
Lemma k_right_scalar_ok (E : fenv) l x : has_new_empty E -> has_tensor E ->
  run_fn E N k_right_scalar_multiplication [VTen l; VElem x]
  = let* _ := u_product (tl_shape l) in Ret (VTen (LRaw (right_scalar_multiplication l x)), VTen l).
Proof.
  intros H1 H2. unfold k_right_scalar_multiplication, run_fn. hide.
  step. change (match l with LRaw t => _ | LView w => _ end) with (field (VTen l) "shape"). rewrite field_shape. step.
  rewrite H1. destruct (u_product (tl_shape l)) as [n|p|]; step; [|easy|easy]. rewrite H2. step.
  rewrite (push_loop _ (fun a => [("result", VTen (LRaw (mkRaw a (tl_shape l)))); ("self", VTen l); ("scalar", VElem x)]) (fun y => n_mul y x));
    [|intros y a; subst B; step; easy|easy].
  step. easy.
Qed.

Definition has_same_shape (E : fenv) : Prop := forall l r,
  call E "same_shape" [VTen l; VTen r] = Ret (VBool (same_shape l r), VTen l).
Lemma k_same_shape_ok (E : fenv) l r : run_fn E N k_same_shape [VTen l; VTen r] = Ret (VBool (same_shape l r), VTen l).
Proof.
  unfold k_same_shape, run_fn. step.
  change (match l with LRaw t => _ | LView w => _ end) with (field (VTen l) "shape"). rewrite field_shape. step.
  change (match r with LRaw t => _ | LView w => _ end) with (field (VTen r) "shape"). rewrite field_shape. step.
  unfold same_shape. replace (shape_eqb (tl_shape l) (tl_shape r)) with
    (if list_eq_dec Nat.eq_dec (tl_shape l) (tl_shape r) then true else false); [easy|].
  generalize (tl_shape l) (tl_shape r). intros a. induction a as [|x a IH]; intros [|y b]; try easy.
  cbn [shape_eqb]. destruct (Nat.eqb_spec x y) as [->|D]; cbn [andb].
  - rewrite <- IH. destruct (list_eq_dec Nat.eq_dec a b) as [->|D]; destruct (list_eq_dec _ _ _) as [Q|Q]; congruence.
  - destruct (list_eq_dec _ _ _) as [Q|Q]; congruence.
Qed.

Definition has_broadcastable (E : fenv) : Prop := forall l s,
  call E "broadcastable" [VTen l; VVec s] = Ret (VBool (broadcastable (tl_shape l) s), VTen l).
Lemma k_broadcastable_ok (E : fenv) l s :
  run_fn E N k_broadcastable [VTen l; VVec s] = Ret (VBool (broadcastable (tl_shape l) s), VTen l).
Proof.
  unfold k_broadcastable, run_fn. hide. step.
  change (match l with LRaw t => _ | LView w => _ end) with (field (VTen l) "shape"). rewrite field_shape. step.
  rewrite map_rev_pairs. unfold broadcastable. body F.
  assert (L : forall p, loop_for (map (fun p => VPair (VNum (fst p)) (VNum (snd p))) p) F [("self", VTen l); ("new_shape", VVec s)]
    = if forallb (fun '(d1, d2) => (d1 =? d2) || ((d1 =? 1) || (d2 =? 1))) p then Ret (Next, [("self", VTen l); ("new_shape", VVec s)])
      else Ret (Rtn (VBool false), [("self", VTen l); ("new_shape", VVec s)])).
  { intros p. induction p as [|[d1 d2] p IH]; [easy|]. cbn [map fst snd forallb]. unfold F at 1. subst B. step.
    destruct (d1 =? d2); step; [exact IH|]. destruct (d1 =? 1); step; [exact IH|]. destruct (d2 =? 1); step; [exact IH|reflexivity]. }
  rewrite L. destruct (forallb _ _); step; easy.
Qed.

(** ** functional/element_wise_ops.rs *)
Definition has_max_shape (E : fenv) : Prop := forall a b,
  call E "max_shape" [VVec a; VVec b] = Ret (VVec (max_shape a b), VVec a).
Definition eb_val (p : either_or_both nat nat) : val :=
  match p with Both l r => VPair (VSome (VNum l)) (VSome (VNum r)) | Left l => VPair (VSome (VNum l)) VNone | Right r => VPair VNone (VSome (VNum r)) end.
Lemma zip_longest_vals a b : zip_longest_val (map VNum a) (map VNum b) = map eb_val (zip_longest a b).
Proof.
  revert b. induction a as [|x a IH]; intros b.
  - destruct b as [|y b]; [easy|]. cbn [map zip_longest zip_longest_val eb_val]. f_equal. induction b as [|z b IHb]; [easy|].
    cbn [map eb_val]. f_equal. exact IHb.
  - destruct b as [|y b]; cbn; f_equal; [apply (IH [])|apply IH].
Qed.
Lemma k_max_shape_ok (E : fenv) a b : run_fn E N k_max_shape [VVec a; VVec b] = Ret (VVec (max_shape a b), VVec a).
Proof.
  unfold k_max_shape, run_fn. hide. step. rewrite <- !map_rev, zip_longest_vals, <- map_rev. unfold max_shape.
  body F. generalize (rev (zip_longest (rev a) (rev b))). intros p.
  assert (L : forall p m, loop_for (map eb_val p) F [("max_shape", VVec m); ("left_shape", VVec a); ("right_shape", VVec b)]
    = Ret (Next, [("max_shape", VVec (m ++ map (fun pair => match pair with Both l r => Nat.max l r | Left l => l | Right r => r end) p));
       ("left_shape", VVec a); ("right_shape", VVec b)])).
  { clear p. intros p. induction p as [|[l r|l|r] p IH]; intros m; cbn [map eb_val]; [cbn; now rewrite app_nil_r| | |];
      unfold F at 1; subst B; step; rewrite IH, <- app_assoc; easy. }
  rewrite L. step. easy.
Qed.

Definition has_filler (E : fenv) : Prop := forall s x,
  call E "RawTensor::new_with_filler" [VVec s; VElem x] = let* t := u_raw_filler s x in Ret (VTen (LRaw t), VVec s).
Definition has_set (E : fenv) : Prop := forall t index x, length (shape t) <= R ->
  call E "set" [VTen (LRaw t); VVec index; VElem x]
  = let* r := u_raw_set t index x in
    match r with Ok t' => Ret (VOk VUnit, VTen (LRaw t')) | Err e => Ret (VErr e, VTen (LRaw t)) end.
Definition has_op2 (E : fenv) (f : string) (op : T -> T -> T) : Prop := forall x y,
  call E f [VElem x; VElem y] = Ret (VElem (op x y), VElem x).
Definition has_op1 (E : fenv) (f : string) (op : T -> T) : Prop := forall x, call E f [VElem x] = Ret (VElem (op x), VElem x).

Lemma zip_longest_length A B (a : list A) (b : list B) : length (zip_longest a b) = Nat.max (length a) (length b).
Proof.
  revert b. induction a as [|x a IH]; intros [|y b]; cbn; try easy.
  - f_equal. induction b as [|z b IHb]; cbn; congruence.
  - rewrite IH. cbn. lia.
  - now rewrite IH.
Qed.
Lemma max_shape_rank a b : length a <= R -> length b <= R -> length (max_shape a b) <= R.
Proof. intros. unfold max_shape. rewrite map_length, rev_length, zip_longest_length, !rev_length. lia. Qed.
Lemma rank_shape (l : tlike T) : rank_ok l -> length (tl_shape l) <= R.
Proof. destruct l; cbn; tauto. Qed.

Lemma k_generic_binop_raw_ok (E : fenv) l r op :
  has_broadcastable E -> has_max_shape E -> has_index_iterator E -> has_filler E -> has_get E -> has_set E -> has_op2 E "op" op ->
  rank_ok l -> rank_ok r -> index_fuel (max_shape (tl_shape l) (tl_shape r)) <= N -> u_generic_binop_raw l r op <> NoFuel ->
  run_fn E N k_generic_binop_raw [VTen l; VTen r] = let* t := u_generic_binop_raw l r op in Ret (VTen (LRaw t), VTen l).
Proof.
  intros H1 H2 [H3 H4] H5 H6 H7 H8 Kl Kr HN NF. unfold k_generic_binop_raw, run_fn, u_generic_binop_raw in *. hide_loop. step.
  change (match r with LRaw t => _ | LView w => _ end) with (field (VTen r) "shape"). rewrite field_shape. step. rewrite H1. step.
  destruct (broadcastable (tl_shape l) (tl_shape r)); cbn [assert bind] in *; step; [|easy].
  change (match r with LRaw t => _ | LView w => _ end) with (field (VTen r) "shape"). rewrite field_shape. step.
  change (match l with LRaw t => _ | LView w => _ end) with (field (VTen l) "shape"). rewrite field_shape. step.
  change (match l with LRaw t => _ | LView w => _ end) with (field (VTen l) "shape"). rewrite field_shape. step.
  change (match r with LRaw t => _ | LView w => _ end) with (field (VTen r) "shape"). rewrite field_shape. step.
  rewrite H2. step. set (ms := max_shape (tl_shape l) (tl_shape r)) in *.
  assert (Lms : length ms <= R) by (apply max_shape_rank; apply rank_shape; assumption).
  rewrite H3. step. rewrite H5.
  destruct (u_raw_filler ms n_zero) as [t0|p|] eqn:Ef; cbn [bind] in *; step; [|easy|easy].
  assert (Ls : shape t0 = ms).
  { revert Ef. unfold u_raw_filler. destruct ms; [intros [= <-]; easy|]. destruct (u_product _); cbn [bind]; try easy. intros [= <-]. easy. }
  match goal with |- context [loop_while _ _ _ (_ :: _ :: ?rest)] => set (base := rest : store) end.
  set (st := fun s (t : raw T) => ("result", VTen (LRaw t)) :: ("index_iter", ii_val s) :: base : store).
  rewrite !bind_assoc. etransitivity.
  - refine (loop_iter index_iter (list nat) (raw T) u_index_iter_next _ st (denote E N B)
      (fun s t => length (ii_index s) <= R /\ shape t = ms) _ _ (fun t => Ret (VTen (LRaw t), VTen l)) _ _ _ (index_fuel ms) N _ _ HN _ NF).
    + intros s t [L Lt]. subst B. unfold st, base. step. rewrite H4 by assumption.
      destruct (u_index_iter_next s) as [[[i|] s']|p|]; cbn [opt_val]; step; [|easy..].
      unfold u_tl_get_unwrap. rewrite H6 by assumption. destruct (u_tl_get l i) as [[x|e]|p|]; step; [|easy..].
      rewrite H6 by assumption. destruct (u_tl_get r i) as [[y|e]|p|]; step; [|easy..].
      rewrite H8. step. rewrite H7 by (rewrite Lt; assumption). destruct (u_raw_set t i (op x y)) as [[t'|e]|p|]; step; easy.
    + intros s t i s' t' [L Lt] Hn Hg. split; [eapply index_next_length; eauto|].
      apply bind_Ret_inv in Hg as (x & _ & Hg). apply bind_Ret_inv in Hg as (y & _ & Hg). apply bind_Ret_inv in Hg as (z & Hz & Hg).
      destruct z as [z|]; [|easy]. injection Hg as ->. revert Hz. unfold u_raw_set.
      destruct (u_global_index i (shape t) None) as [[g|]|p|]; cbn [bind]; try easy.
      destruct (vset (array t) g (op x y)) as [a|p|]; cbn [bind]; try easy. intros [= <-]. exact Lt.
    + easy.
    + cbn. rewrite repeat_length. easy.
  - reflexivity.
Qed.

Definition has_to_tensor (E : fenv) : Prop := forall l, rank_ok l -> index_fuel (tl_shape l) <= N -> u_tl_to_tensor l <> NoFuel ->
  call E "to_tensor" [VTen l] = let* t := u_tl_to_tensor l in Ret (VTen (LRaw t), VTen l).

Lemma k_generic_unary_op_ok (E : fenv) l op :
  has_to_tensor E -> has_get E -> has_op1 E "op" op -> has_increment E -> has_new E ->
  rank_ok l -> index_fuel (tl_shape l) <= N -> u_tl_to_tensor l <> NoFuel ->
  run_fn E N k_generic_unary_op [VTen l] = let* t := u_generic_unary_op l op in Ret (VTen (LRaw t), VTen l).
Proof.
  intros H1 H2 H3 H4 H5 K HN NF. unfold k_generic_unary_op, run_fn, u_generic_unary_op. hide. step.
  rewrite H1 by assumption. destruct (u_tl_to_tensor l) as [t|p|]; step; [|easy|easy].
  change (match l with LRaw t => _ | LView w => _ end) with (field (VTen l) "shape"). rewrite field_shape. step. cbn [repeat].
  rewrite Nat.sub_0_r. body F.
  set (st := fun (i : list nat) (a : list T) =>
    [("idx", VVec i); ("array", VArr a); ("length", VNum (length (array t))); ("shape", VVec (tl_shape l)); ("tensor", VTen (LRaw t));
     ("tensor_like", VTen l)] : store).
  assert (L : forall n s i a X (K : flow * store -> outcome X) Kok, length i <= R -> (forall i a, K (Next, st i a) = Kok a) ->
    bind (loop_for (map VNum (seq s n)) F (st i a)) K = let* a' := u_unary_loop l (tl_shape l) op n i a in Kok a').
  { intros n. induction n as [|n IH]; intros s i a X K' Kok Li HK; cbn [seq map u_unary_loop]; [apply HK|].
    unfold F at 1, st at 1. subst B. step. unfold u_tl_get_unwrap. rewrite H2 by assumption.
    destruct (u_tl_get l i) as [[x|e]|p|]; step; [|easy..]. rewrite H3. step. rewrite H4 by assumption.
    destruct (u_increment_index i (tl_shape l)) as [[i' b]|p|] eqn:Ei; step; [|easy..].
    apply u_inc_length in Ei. apply IH; [lia|assumption]. }
  rewrite !bind_assoc. etransitivity.
  - apply (L _ _ _ _ _ _ (fun a => let* t' := u_raw_new a (shape t) in Ret (VTen (LRaw t'), VTen l))).
    + rewrite repeat_length. now apply rank_shape.
    + intros i a. unfold st. step. rewrite H5. destruct (u_raw_new a (shape t)); step; easy.
  - now destruct (u_unary_loop _ _ _ _ _ _).
Qed.

(** A loop over a range that folds *)
Lemma range_fold A (F : val -> store -> outcome (flow * store)) (st : A -> store) (g : A -> nat -> outcome A) (Inv : A -> Prop) :
  (forall i a, Inv a -> (let* (f, st1) := F (VNum i) (st a) in Ret (f, leave (st a) st1)) = let* a' := g a i in Ret (Next, st a')) ->
  (forall a i a', Inv a -> g a i = Ret a' -> Inv a') ->
  forall n s a, Inv a -> loop_for (map VNum (seq s n)) F (st a) = let* a' := foldM g (seq s n) a in Ret (Next, st a').
Proof.
  intros HF HI n. induction n as [|n IH]; intros s a I0; cbn [seq map loop_for foldM bind]; [easy|].
  specialize (HF s a I0). specialize (HI a s). destruct (g a s) as [a'|p|]; cbn [bind] in *.
  - destruct (F (VNum s) (st a)) as [[f st1]|q|]; cbn [bind] in *; try easy. injection HF as -> ->. cbn [turn]. apply IH. auto.
  - destruct (F (VNum s) (st a)) as [[f st1]|q|]; cbn [bind] in *; [easy|congruence|easy].
  - destruct (F (VNum s) (st a)) as [[f st1]|q|]; cbn [bind] in *; easy.
Qed.

(** The statements after the first [n] *)
Fixpoint later (n : nat) (s : stmt) : stmt := match n, s with S m, SSeq _ b => later m b | _, _ => s end.
(** The end of a call *)
Definition finish (args : store) (first : string) (o : flow * store) : outcome (val * val) :=
  let (fl, st1) := o in
  let w := lookup (leave args st1) first in
  match fl with Rtn v => let* w := w in Ret (v, w) | Next => let* w := w in Ret (VUnit, w) | _ => stuck end.

Lemma jdb_tail (E : fenv) diag (jo : val) js bs is grad dim_0 :
  has_global_index E -> has_index E -> has_increment E -> has_new E ->
  2 <= R -> length (shape diag) <= R -> length bs <= R -> length is <= R -> length (shape grad) <= R -> length js <= R ->
  index_fuel (shape diag) <= N ->
  let args := [("diagonal", VTen (LRaw diag)); ("jvp_shape", jo); ("broadcast_shape", VVec bs); ("input_shape", VVec is);
    ("grad", VTen (LRaw grad))] : store in
  let model := let* js0 := vindex js 0 in
     assert (dim_0 =? js0) ;;
     let* js1 := vindex js 1 in
     let* total := u_mul js0 js1 in
     let* arr := u_jdb_loop (index_fuel (shape diag)) diag grad js bs is dim_0 (repeat 0 (length (shape diag))) (repeat 0 (length bs))
                (repeat n_zero total) in
     u_raw_new arr js in
  model <> NoFuel ->
  bind (denote E N (later 5 (f_body k_jvp_from_diagonal_broadcast)) (("js", VVec js) :: ("dim_0", VNum dim_0) :: args)) (finish args "diagonal")
  = let* t := model in Ret (VTen (LRaw t), VTen (LRaw diag)).
Proof.
  intros HG HX HI HW R2 Ld Lb Li Lg Lj HN args model NF. unfold k_jvp_from_diagonal_broadcast, model, args in *.
  cbn [f_body block fold_right later]. hide_loop. step.
  destruct (vindex js 0) as [js0|p|] eqn:E0; cbn [bind] in *; step; [|easy|easy].
  destruct (dim_0 =? js0); cbn [assert bind] in *; step; [|easy]. rewrite E0. step.
  destruct (vindex js 1) as [js1|p|]; cbn [bind] in *; step; [|easy|easy].
  destruct (u_mul js0 js1) as [total|p|]; cbn [bind] in *; step; [|easy|easy].
  match goal with |- context [loop_while _ _ _ (_ :: _ :: _ :: ?rest)] => set (base := rest : store) end.
  set (st := fun (idx orig : list nat) (a : list T) => ("orig_idx", VVec orig) :: ("idx", VVec idx) :: ("array", VArr a) :: base : store).
  assert (L : forall fuel n idx orig a X (K : flow * store -> outcome X) Kok, fuel <= n -> length idx <= R -> length orig <= R ->
    (forall i o a, K (Next, st i o a) = Kok a) ->
    u_jdb_loop fuel diag grad js bs is dim_0 idx orig a <> NoFuel ->
    bind (loop_while n (fun _ => Ret true) (denote E N B) (st idx orig a)) K
    = let* a' := u_jdb_loop fuel diag grad js bs is dim_0 idx orig a in Kok a').
  { intros fuel. induction fuel as [|fuel IH]; intros n idx orig a X K Kok Ln Lx Lo HK NF'; [easy|].
    destruct n as [|n]; [lia|]. cbn [loop_while u_jdb_loop bind] in *. subst B. hide. unfold st at 1, base at 1. step.
    rewrite (gi_none E _ _ HG Ld). destruct (u_global_index idx (shape diag) None) as [[j1|e]|p|]; step; [|easy..].
    cbn [bind unwrap] in NF'. rewrite Nat.sub_0_r.
    match goal with |- context [loop_for _ _ ?s0] => change s0 with (("jac_idx1", VNum j1) :: st idx orig a) end.
    rewrite (range_fold (list T) _ (fun a => ("jac_idx1", VNum j1) :: st idx orig a)
      (u_jdb_body diag grad js is idx orig j1) (fun _ => True)); [| |easy|easy].
    2:{ intros j0 a0 _. subst B. unfold u_jdb_body, st, base. step. rewrite (gi_none E _ _ HG Li).
        destruct (u_global_index orig is None) as [[o|e]|p|]; step; [|easy..]. rewrite (gi_none E _ _ HG Lj).
        destruct (u_global_index [j0; o] js None) as [[oj|e]|p|]; step; [|easy..]. rewrite HX by assumption.
        destruct (u_raw_at grad [j0; j1]) as [gv|p|]; step; [|easy..]. rewrite HX by assumption.
        destruct (u_raw_at diag idx) as [dv|p|]; step; [|easy..].
        destruct (vindex a0 oj) as [old|p|]; step; [|easy..].
        destruct (vset a0 oj (n_add old (n_mul dv gv))) as [a'|p|]; step; easy. }
    destruct (foldM (u_jdb_body diag grad js is idx orig j1) (seq 0 dim_0) a) as [a'|p|]; cbn [bind] in *; [|easy..].
    unfold st, base. step.
        rewrite HI by assumption. destruct (u_increment_index idx (shape diag)) as [[idx' [|]]|p|] eqn:Ei; cbn [bind] in *; step; [| |easy..].
    - rewrite HI by assumption. destruct (u_increment_index orig bs) as [[orig' [|]]|p|] eqn:Eo; cbn [bind assert] in *; step; [|easy..].
      apply u_inc_length in Ei, Eo. apply IH; try lia; assumption.
    - apply HK. }
  rewrite !bind_assoc. etransitivity.
  - apply (L (index_fuel (shape diag)) _ _ _ _ _ _ (fun a => let* t := u_raw_new a js in Ret (VTen (LRaw t), VTen (LRaw diag)))).
    + exact HN.
    + rewrite repeat_length. exact Ld.
    + rewrite repeat_length. exact Lb.
    + intros i o a. unfold st, base. step. rewrite HW. destruct (u_raw_new a js); step; easy.
    + intros Q. apply NF. now rewrite Q.
  - now destruct (u_jdb_loop _ _ _ _ _ _ _ _ _ _).
Qed.

Lemma k_jvp_from_diagonal_broadcast_ok (E : fenv) diag js bs is grad :
  has_global_index E -> has_index E -> has_increment E -> has_new E ->
  2 <= R -> length (shape diag) <= R -> length bs <= R -> length is <= R -> length (shape grad) <= R ->
  match js with Some v => length v <= R | None => True end ->
  index_fuel (shape diag) <= N -> u_jvp_from_diagonal_broadcast diag js bs is grad <> NoFuel ->
  run_fn E N k_jvp_from_diagonal_broadcast [VTen (LRaw diag); opt_val VVec js; VVec bs; VVec is; VTen (LRaw grad)]
  = let* t := u_jvp_from_diagonal_broadcast diag js bs is grad in Ret (VTen (LRaw t), VTen (LRaw diag)).
Proof.
  intros HG HX HI HW R2 Ld Lb Li Lg Lj HN NF. unfold u_jvp_from_diagonal_broadcast in *.
  pose proof (fun jo js d => jdb_tail E diag jo js bs is grad d HG HX HI HW R2 Ld Lb Li Lg) as Tail.
  unfold run_fn, k_jvp_from_diagonal_broadcast. cbn [f_body f_params block fold_right].
  match goal with |- context [SSeq (SLet "jvp_shape" (EVar "js")) ?t] => remember (SSeq (SLet "jvp_shape" (EVar "js")) t) as tail eqn:Et end.
  assert (Tail' : forall jo js d,
    length js <= R -> _) by (intros jo js0 d Lj'; exact (Tail jo js0 d Lj' HN)). clear Tail.
  cbn [later f_body k_jvp_from_diagonal_broadcast block fold_right] in Tail'. rewrite <- Et in Tail'.
  step. destruct u_debug; step; [destruct (length (shape grad) <=? 2); cbn [assert bind] in *; step; [|easy]|].
  all: destruct (length (shape grad) <=? 1); cbn [bind] in *; step.
  2, 4: destruct (vindex (shape grad) 0) as [d|p|]; cbn [bind] in *; step; [|easy|easy].
  all: destruct js as [js|]; cbn [opt_val] in *; step.
  all: first [exact (Tail' _ js 1 Lj NF) | exact (Tail' _ js d Lj NF) | refine (Tail' _ [1; length (array diag)] 1 _ NF); cbn [length]; lia
    | refine (Tail' _ [d; length (array diag)] d _ NF); cbn [length]; lia].
Qed.

Definition has_jdb (E : fenv) : Prop := forall diag js bs is grad,
  2 <= R -> length (shape diag) <= R -> length bs <= R -> length is <= R -> length (shape grad) <= R ->
  match js with Some v => length v <= R | None => True end ->
  index_fuel (shape diag) <= N -> u_jvp_from_diagonal_broadcast diag js bs is grad <> NoFuel ->
  call E "jvp_from_diagonal_broadcast" [VTen (LRaw diag); opt_val VVec js; VVec bs; VVec is; VTen (LRaw grad)]
  = let* t := u_jvp_from_diagonal_broadcast diag js bs is grad in Ret (VTen (LRaw t), VTen (LRaw diag)).
Lemma jdb_some (E : fenv) diag js bs is grad : has_jdb E ->
  2 <= R -> length (shape diag) <= R -> length bs <= R -> length is <= R -> length (shape grad) <= R -> length js <= R ->
  index_fuel (shape diag) <= N -> u_jvp_from_diagonal_broadcast diag (Some js) bs is grad <> NoFuel ->
  call E "jvp_from_diagonal_broadcast" [VTen (LRaw diag); VSome (VVec js); VVec bs; VVec is; VTen (LRaw grad)]
  = let* t := u_jvp_from_diagonal_broadcast diag (Some js) bs is grad in Ret (VTen (LRaw t), VTen (LRaw diag)).
Proof. intros H. apply (H diag (Some js)). Qed.

Lemma raw_new_shape (a : list T) s t : u_raw_new a s = Ret t -> shape t = s.
Proof.
  unfold u_raw_new. destruct (u_product s) as [n|p|]; cbn [bind]; try easy. destruct (n =? length a); cbn [assert bind]; try easy.
  intros [= <-]. easy.
Qed.

Lemma k_generic_unary_jvp_ok (E : fenv) t grad deriv :
  has_raw_get E -> has_op1 E "op_derivative" deriv -> has_increment E -> has_new E -> has_jdb E ->
  2 <= R -> length (shape t) <= R -> length (shape grad) <= R ->
  index_fuel (shape t) <= N -> index_fuel [1; length (array t)] <= N -> u_generic_unary_jvp t grad deriv <> NoFuel ->
  run_fn E N k_generic_unary_jvp [VTen (LRaw t); VTen (LRaw grad)]
  = let* l := u_generic_unary_jvp t grad deriv in Ret (VTens l, VTen (LRaw t)).
Proof.
  intros HG HO HI HW HJ R2 Lt Lg HN HN2 NF. unfold k_generic_unary_jvp, run_fn, u_generic_unary_jvp in *.
  set (dim_0 := match shape grad with [] => 1 | d :: _ => d end) in *.
  hide_loop. step.
  assert (D : (if length (shape grad) =? 0 then Ret 1 else vindex (shape grad) 0) = Ret dim_0) by (unfold dim_0; destruct (shape grad); easy).
  match goal with |- context [if length (shape grad) =? 0 then ?a else ?b] => assert (D' : (if length (shape grad) =? 0 then a else b)
    = Ret (Next, [("dim_0", VNum dim_0); ("diag_shape", VVec [1; length (array t)]); ("diag_length", VNum (length (array t)));
        ("tensor", VTen (LRaw t)); ("grad", VTen (LRaw grad))])) end.
  { revert D. destruct (length (shape grad) =? 0); intros D.
    - injection D as <-. easy.
    - rewrite D. step. easy. }
  rewrite D'. clear D D'. step.
  match goal with |- context [loop_while _ _ _ (_ :: _ :: ?rest)] => set (base := rest : store) end.
  set (st := fun (idx : list nat) (a : list T) => ("idx", VVec idx) :: ("array", VArr a) :: base : store).
  assert (L : forall fuel n idx a, fuel <= n -> length idx <= R ->
    match u_unary_diag_loop fuel t deriv idx a with
    | Ret a' => exists i, loop_while n (fun _ => Ret true) (denote E N B) (st idx a) = Ret (Next, st i a')
    | Panic p => loop_while n (fun _ => Ret true) (denote E N B) (st idx a) = Panic p
    | NoFuel => True
    end).
  { intros fuel. induction fuel as [|fuel IH]; intros n idx a Ln Lx; [easy|].
    destruct n as [|n]; [lia|]. cbn [loop_while u_unary_diag_loop bind]. subst B. unfold st in IH |- *. unfold base in IH |- *. step.
    unfold u_raw_at. rewrite HG by assumption. destruct (u_raw_get t idx) as [[x|e]|p|]; step; [|easy..].
    rewrite HO. step. rewrite HI by assumption.
    destruct (u_increment_index idx (shape t)) as [[idx' [|]]|p|] eqn:Ei; step; [| |easy..].
    - apply u_inc_length in Ei. apply IH; lia.
    - now exists idx'. }
  match goal with |- context [loop_while _ _ _ ?s0] => change s0 with (st (repeat 0 (length (shape t))) []) end.
  specialize (L (index_fuel (shape t)) N (repeat 0 (length (shape t))) [] HN). rewrite repeat_length in L. specialize (L Lt).
  destruct (u_unary_diag_loop (index_fuel (shape t)) t deriv (repeat 0 (length (shape t))) []) as [a'|p|]; cbn [bind] in *; [|now rewrite L|easy].
  destruct L as [i L]. rewrite L. unfold st, base. step. rewrite HW.
  destruct (u_raw_new a' [1; length (array t)]) as [diag|p|] eqn:En; cbn [bind] in *; step; [|easy..].
  apply raw_new_shape in En. rewrite jdb_some; try assumption; try (rewrite En; assumption); try (rewrite ?En; cbn [length]; lia).
  - destruct (u_jvp_from_diagonal_broadcast _ _ _ _ _); step; easy.
  - intros Q. apply NF. now rewrite Q.
Qed.

Lemma k_generic_binop_jvp_ok (E : fenv) l r grad deriv :
  has_max_shape E -> has_raw_get E -> has_op2 E "op_derivative" deriv -> has_increment E -> has_new E -> has_jdb E ->
  2 <= R -> length (shape l) <= R -> length (shape r) <= R -> length (shape grad) <= R ->
  index_fuel (max_shape (shape l) (shape r)) <= N ->
  (forall d, u_product (max_shape (shape l) (shape r)) = Ret d -> index_fuel [1; d] <= N) -> u_generic_binop_jvp l r grad deriv <> NoFuel ->
  run_fn E N k_generic_binop_jvp [VTen (LRaw l); VTen (LRaw r); VTen (LRaw grad)]
  = let* o := u_generic_binop_jvp l r grad deriv in Ret (VTens o, VTen (LRaw l)).
Proof.
  intros HM HG HO HI HW HJ R2 Ll Lr Lg HN HN2 NF. unfold k_generic_binop_jvp, run_fn, u_generic_binop_jvp in *.
  set (dim_0 := match shape grad with [] => 1 | d :: _ => d end) in *.
  assert (Lb : length (max_shape (shape l) (shape r)) <= R) by (apply max_shape_rank; assumption).
  hide_loop. step. rewrite HM. step. set (bs := max_shape (shape l) (shape r)) in *.
  destruct (u_product bs) as [dl|p|]; cbn [bind] in *; step; [|easy|easy]. specialize (HN2 dl eq_refl).
  match goal with |- context [if 2 <=? length (shape grad) then ?a else @Ret ?ty ?x] =>
    replace (if 2 <=? length (shape grad) then a else @Ret ty x)
     with ((if 2 <=? length (shape grad) then let* g1 := vindex (shape grad) 1 in assert (g1 =? dl) else Ret tt) ;; @Ret ty x) end.
  2:{ destruct (2 <=? length (shape grad)); [|easy]. destruct (vindex (shape grad) 1) as [g1|p|]; step; [|easy..].
    destruct (g1 =? dl); cbn [assert]; step; easy. }
  destruct (if 2 <=? length (shape grad) then let* g1 := vindex (shape grad) 1 in assert (g1 =? dl) else Ret tt) as [[]|p|]; cbn [bind] in *; step; [|easy..].
  assert (D : (if length (shape grad) =? 0 then Ret 1 else vindex (shape grad) 0) = Ret dim_0) by (unfold dim_0; destruct (shape grad); easy).
  match goal with |- context [if length (shape grad) =? 0 then ?a else ?b] => assert (D' : (if length (shape grad) =? 0 then a else b)
    = Ret (Next, [("dim_0", VNum dim_0); ("diag_shape", VVec [1; dl]); ("diag_length", VNum dl); ("broadcast_shape", VVec bs);
        ("left", VTen (LRaw l)); ("right", VTen (LRaw r)); ("grad", VTen (LRaw grad))])) end.
  { revert D. destruct (length (shape grad) =? 0); intros D.
    - injection D as <-. easy.
    - rewrite D. step. easy. }
  rewrite D'. clear D D'. step.
  match goal with |- context [loop_while _ _ _ (_ :: _ :: ?rest)] => set (base := rest : store) end.
  set (st := fun (idx : list nat) (a : list T) => ("idx", VVec idx) :: ("array", VArr a) :: base : store).
  assert (L : forall fuel n idx a, fuel <= n -> length idx <= R ->
    match u_binop_diag_loop fuel l r deriv bs idx a with
    | Ret a' => exists i, loop_while n (fun _ => Ret true) (denote E N B) (st idx a) = Ret (Next, st i a')
    | Panic p => loop_while n (fun _ => Ret true) (denote E N B) (st idx a) = Panic p
    | NoFuel => True
    end).
  { intros fuel. induction fuel as [|fuel IH]; intros n idx a Ln Lx; [easy|].
    destruct n as [|n]; [lia|]. cbn [loop_while u_binop_diag_loop bind]. subst B. unfold st in IH |- *. unfold base in IH |- *. step.
    unfold u_raw_at. rewrite HG by assumption. destruct (u_raw_get l idx) as [[x|e]|p|]; step; [|easy..].
    rewrite HG by assumption. destruct (u_raw_get r idx) as [[y|e]|p|]; step; [|easy..].
    rewrite HO. step. rewrite HI by assumption.
    destruct (u_increment_index idx bs) as [[idx' [|]]|p|] eqn:Ei; step; [| |easy..].
    - apply u_inc_length in Ei. apply IH; lia.
    - now exists idx'. }
  match goal with |- context [loop_while _ _ _ ?s0] => change s0 with (st (repeat 0 (length bs)) []) end.
  specialize (L (index_fuel bs) N (repeat 0 (length bs)) [] HN). rewrite repeat_length in L. specialize (L Lb).
  destruct (u_binop_diag_loop (index_fuel bs) l r deriv bs (repeat 0 (length bs)) []) as [a'|p|]; cbn [bind] in *; [|now rewrite L|easy].
  destruct L as [i L]. rewrite L. unfold st, base. step. rewrite HW.
  destruct (u_raw_new a' [1; dl]) as [diag|p|] eqn:En; cbn [bind] in *; step; [|easy..].
  match goal with |- context [if u_debug then ?x else ?y] => replace (if u_debug then x else y) with y end.
  2:{ pose proof En as En'. unfold u_raw_new in En'. destruct u_debug; [|easy]. destruct (u_product [1; dl]) as [len|p|]; cbn [bind] in *; [|easy..].
    destruct (len =? length a') eqn:El; cbn [assert bind] in *; [|easy]. injection En' as <-. cbn [array]. rewrite Nat.eqb_sym, El. reflexivity. }
  step.
  apply raw_new_shape in En. rewrite jdb_some; try assumption; try (rewrite En; assumption); try (rewrite ?En; cbn [length]; lia).
  2:{ intros Q. apply NF. now rewrite Q. }
  destruct (u_jvp_from_diagonal_broadcast diag (Some [dim_0; length (array l)]) bs (shape l) grad) as [lj|p|]; cbn [bind] in *; step; [|easy..].
  rewrite jdb_some; try assumption; try (rewrite En; assumption); try (rewrite ?En; cbn [length]; lia).
  2:{ intros Q. apply NF. now rewrite Q. }
  destruct (u_jvp_from_diagonal_broadcast diag (Some [dim_0; length (array r)]) bs (shape r) grad) as [rj|p|]; cbn [bind] in *; step; easy.
Qed.


(** A loop over a range that appends *)
Lemma range_push (F : val -> store -> outcome (flow * store)) (st : list T -> store) (g : nat -> outcome (list T)) :
  (forall i a, (let* (f, st1) := F (VNum i) (st a) in Ret (f, leave (st a) st1)) = let* b := g i in Ret (Next, st (a ++ b))) ->
  forall n s a, loop_for (map VNum (seq s n)) F (st a) = let* b := mapM g (seq s n) in Ret (Next, st (a ++ concat b)).
Proof.
  intros HF n. induction n as [|n IH]; intros s a; cbn [seq map loop_for mapM bind]; [cbn; now rewrite app_nil_r|].
  specialize (HF s a). destruct (g s) as [b|p|]; cbn [bind] in *.
  - destruct (F (VNum s) (st a)) as [[f st1]|q|]; cbn [bind] in *; try easy. injection HF as -> ->. cbn [turn]. rewrite IH.
    destruct (mapM g (seq (S s) n)) as [r|q|]; cbn [bind concat]; [|easy..]. now rewrite <- app_assoc.
  - destruct (F (VNum s) (st a)) as [[f st1]|q|]; cbn [bind] in *; [easy|congruence|easy].
  - destruct (F (VNum s) (st a)) as [[f st1]|q|]; cbn [bind] in *; easy.
Qed.
Lemma mapM_one A B (f : A -> outcome B) l : mapM (fun x => let* y := f x in Ret [y]) l = let* r := mapM f l in Ret (map (fun y => [y]) r).
Proof.
  induction l as [|a l IH]; cbn [mapM bind]; [easy|]. destruct (f a); cbn [bind]; [|easy..]. rewrite IH.
  now destruct (mapM f l).
Qed.
Lemma concat_singles A (l : list A) : concat (map (fun y => [y]) l) = l.
Proof. induction l as [|a l IH]; cbn; congruence. Qed.
Lemma mapM_prod A B C (f : A * B -> outcome C) xs ys :
  mapM f (list_prod xs ys) = let* r := mapM (fun x => mapM (fun y => f (x, y)) ys) xs in Ret (concat r).
Proof.
  induction xs as [|x xs IH]; cbn [list_prod mapM bind]; [easy|]. rewrite mapM_app, IH.
  assert (X : mapM f (map (fun y => (x, y)) ys) = mapM (fun y => f (x, y)) ys).
  { clear. induction ys as [|y ys IH]; cbn [map mapM]; [easy|]. now rewrite IH. }
  rewrite X. destruct (mapM (fun y => f (x, y)) ys); cbn [bind]; [|easy..].
  now destruct (mapM (fun x0 => mapM (fun y => f (x0, y)) ys) xs).
Qed.

Lemma k_tanh_derivative_ok (E : fenv) t : has_new E ->
  run_fn E N k_tanh_derivative [VTen (LRaw t)] = let* d := u_tanh_derivative t in Ret (VTen (LRaw d), VTen (LRaw t)).
Proof.
  intros HW. unfold k_tanh_derivative, run_fn, u_tanh_derivative. hide. step.
  destruct (u_product (shape t)) as [len|p|]; step; [|easy..]. destruct (u_mul len len) as [c|p|]; step; [|easy..].
  rewrite Nat.sub_0_r.
  match goal with |- context [loop_for _ _ (_ :: ?rest)] => set (base := rest : store) end.
  set (st := fun a : list T => ("array", VArr a) :: base : store).
  rewrite mapM_prod.
  set (cell := fun i j => if i =? j then let* x := vindex (array t) i in Ret (n_sub n_one (n_mul (n_tanh x) (n_tanh x))) else Ret n_zero).
  change (mapM (fun x => _) (seq 0 len)) with (mapM (fun i => mapM (cell i) (seq 0 len)) (seq 0 len)).
  match goal with |- context [loop_for _ _ ?s0] => change s0 with (st []) end.
  rewrite (range_push _ st (fun i => mapM (cell i) (seq 0 len))).
  - cbn [app]. destruct (mapM (fun i => mapM (cell i) (seq 0 len)) (seq 0 len)) as [r|p|]; unfold st, base; step; [|easy..].
    rewrite HW. destruct (u_raw_new (concat r) [len; len]); step; easy.
  - intros i a. subst B. hide. unfold st, base. step. rewrite Nat.sub_0_r.
    match goal with |- context [loop_for _ _ ?s0] => change s0 with (("i", VNum i) :: st a) end.
    rewrite (range_push _ (fun a => ("i", VNum i) :: st a) (fun j => let* y := cell i j in Ret [y])).
    + rewrite mapM_one. destruct (mapM (cell i) (seq 0 len)) as [r|p|]; unfold st, base; step; [|easy..].
      now rewrite concat_singles.
    + intros j a0. subst B. unfold st, base, cell. step. destruct (i =? j); step; [|easy].
      destruct (vindex (array t) i) as [x|p|]; step; easy.
Qed.

Lemma k_dot_raw_ok (E : fenv) l r : has_same_shape E -> has_tensor E ->
  run_fn E N k_dot_raw [VTen l; VTen r] = let* t := dot_raw l r in Ret (VTen (LRaw t), VTen l).
Proof.
  intros HS HT. unfold k_dot_raw, run_fn, dot_raw. hide. step. rewrite HS. step.
  destruct (same_shape l r); cbn [assert]; step; [|easy]. rewrite HT. step. rewrite Nat.sub_0_r.
  rewrite (range_fold T _ (fun x => [("result", VElem x); ("left", VTen l); ("right", VTen r)])
     (fun acc i => let* x := vindex (array (tl_tensor l)) i in let* y := vindex (array (tl_tensor r)) i in Ret (n_add acc (n_mul x y)))
     (fun _ => True)); [|intros i x _; subst B; step; rewrite HT; step|easy|easy].
  - destruct (foldM _ _ _) as [x|p|]; step; easy.
  - destruct (vindex (array (tl_tensor l)) i) as [y|p|]; step; [|easy..]. rewrite HT. step.
    destruct (vindex (array (tl_tensor r)) i) as [z|p|]; step; easy.
Qed.

Lemma k_element_wise_multiplication_ok (E : fenv) l r : has_same_shape E -> has_element_iterator E -> has_new E ->
  rank_ok l -> rank_ok r -> index_fuel (tl_shape l) <= N -> u_element_wise_multiplication l r <> NoFuel ->
  run_fn E N k_element_wise_multiplication [VTen l; VTen r] = let* t := u_element_wise_multiplication l r in Ret (VTen (LRaw t), VTen l).
Proof.
  intros HS [H1 H2] HW Kl Kr HN NF. unfold k_element_wise_multiplication, run_fn, u_element_wise_multiplication in *. hide_loop. step.
  change (match l with LRaw t => _ | LView w => _ end) with (field (VTen l) "shape"). rewrite field_shape. step. rewrite HS. step.
  destruct (same_shape l r); cbn [assert bind] in *; step; [|easy]. rewrite H1. step. rewrite H1. step.
  match goal with |- context [loop_while _ _ _ (_ :: _ :: _ :: ?rest)] => set (base := rest : store) end.
  set (st := fun (s : elem_iter * elem_iter) (a : list T) => ("ri", ei_val r (snd s)) :: ("li", ei_val l (fst s)) :: ("array", VArr a) :: base : store).
  rewrite !bind_assoc. etransitivity.
  - refine (loop_iter (elem_iter * elem_iter) (T * T) (list T) (u_zip_next l r) (fun acc '(x, y) => Ret (acc ++ [n_mul x y])) st (denote E N B)
      (fun s _ => length (ei_index (fst s)) <= R /\ length (ei_index (snd s)) <= R) _ _
      (fun a => let* t := u_raw_new a (tl_shape l) in Ret (VTen (LRaw t), VTen l)) _ _ _ (index_fuel (tl_shape l)) N
      (elem_iter_new l, elem_iter_new r) [] HN _ _).
    + intros [s1 s2] a [L1 L2]. cbn [fst snd] in *. subst B. unfold st, base, u_zip_next. step. rewrite H2 by assumption.
      destruct (u_elem_iter_next l s1) as [[[x|] s1']|p|]; step; [|easy..]. rewrite H2 by assumption.
      destruct (u_elem_iter_next r s2) as [[[y|] s2']|p|]; step; easy.
    + intros [s1 s2] a x s' a' [L1 L2] Hn _. unfold u_zip_next in Hn. cbn [fst snd] in *.
      destruct (u_elem_iter_next l s1) as [[[u|] s1']|p|] eqn:E1; cbn [bind] in Hn; try easy.
      destruct (u_elem_iter_next r s2) as [[[v|] s2']|p|] eqn:E2; cbn [bind] in Hn; try easy. injection Hn as <- <-.
      split; [exact (elem_next_length _ _ _ _ L1 E1)|exact (elem_next_length _ _ _ _ L2 E2)].
    + intros s a. unfold st, base. step. rewrite HW. destruct (u_raw_new a (tl_shape l)); step; easy.
    + split; cbn; rewrite repeat_length; apply rank_shape; assumption.
    + intros Q. apply NF. now rewrite Q.
  - now destruct (iter_fold _ _ _ _ _).
Qed.

(** ** functional/misc.rs: [bmm_raw] *)
Lemma vset_again A (l l' : list A) p x : vset l p x = Ret l' -> forall y, vset l' p y = vset l p y.
Proof.
  unfold vset. destruct (Nat.ltb_spec p (length l)) as [H|H]; [|easy]. intros [= <-] y. rewrite list_set_length.
  destruct (Nat.ltb_spec p (length l)) as [_|]; [|lia]. f_equal. revert p H. induction l as [|a l IH]; intros [|p] H; cbn in *; try easy.
  f_equal. apply IH. lia.
Qed.
Lemma vset_len A (l l' : list A) p x : vset l p x = Ret l' -> length l' = length l.
Proof. unfold vset. destruct (p <? length l); [|easy]. intros [= <-]. apply list_set_length. Qed.

(** A loop over a range that keeps an invariant *)
Lemma range_inv A (F : val -> store -> outcome (flow * store)) (P : nat -> A -> store -> Prop) (g : A -> nat -> outcome A) :
  (forall i a st, P i a st ->
     match g a i with
     | Ret a' => exists st1, F (VNum i) st = Ret (Next, st1) /\ P (S i) a' (leave st st1)
     | Panic p => F (VNum i) st = Panic p
     | NoFuel => F (VNum i) st = NoFuel
     end) ->
  forall n s a st, P s a st ->
     match foldM g (seq s n) a with
     | Ret a' => exists st1, loop_for (map VNum (seq s n)) F st = Ret (Next, st1) /\ P (s + n) a' st1
     | Panic p => loop_for (map VNum (seq s n)) F st = Panic p
     | NoFuel => loop_for (map VNum (seq s n)) F st = NoFuel
     end.
Proof.
  intros HF n. induction n as [|n IH]; intros s a st H; cbn [seq map loop_for foldM].
  - exists st. now rewrite Nat.add_0_r.
  - specialize (HF s a st H). destruct (g a s) as [a'|p|]; cbn [bind].
    + destruct HF as (st1 & -> & H1). cbn [bind turn]. specialize (IH (S s) a' _ H1). rewrite <- Nat.add_succ_comm. exact IH.
    + rewrite HF. easy.
    + rewrite HF. easy.
Qed.
Lemma foldM_push A B (f : A -> outcome B) l : forall acc,
  foldM (fun acc x => let* y := f x in Ret (acc ++ [y])) l acc = let* r := mapM f l in Ret (acc ++ r).
Proof.
  induction l as [|x l IH]; intros acc; cbn [foldM mapM bind]; [now rewrite app_nil_r|].
  destruct (f x) as [y|p|]; cbn [bind]; [|easy..]. rewrite IH. destruct (mapM f l) as [r|p|]; cbn [bind]; [|easy..].
  now rewrite <- app_assoc.
Qed.
Lemma vset_middle A (a b : list A) x y : vset (a ++ x :: b) (length a) y = Ret (a ++ y :: b).
Proof.
  unfold vset. rewrite app_length. cbn [length]. destruct (Nat.ltb_spec (length a) (length a + S (length b))); [|lia]. f_equal.
  clear. induction a as [|z a IH]; cbn; congruence.
Qed.

End Rank.
End Facts.
