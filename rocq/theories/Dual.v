(** * Dual: directional derivatives of the operations, in closed form, and the adjoint identities *)
From Coq Require Import Ring Ring_theory.
From Verif Require Import Base ModelIndex ModelTensor ModelOps ModelJvp ModelGraph Spec SpecDual
  Lists IndexFacts TensorFacts OpsFacts Sums JvpFacts ClaimsOps ClaimsMat.

Section DualFacts.
Context {T : Type} {NT : Num T}.

Lemma combine_map2 A B C (f : A -> B) (g : A -> C) l : combine (map f l) (map g l) = map (fun a => (f a, g a)) l.
Proof. induction l; cbn; congruence. Qed.

Lemma tabulate_dual s (f g : list nat -> T) :
  tabulate s (fun i => (f i, g i)) = dual (tabulate s f) (tabulate s g).
Proof. unfold tabulate, dual. cbn [array shape]. rewrite combine_map2. reflexivity. Qed.

Lemma dual_wf (x dx : raw T) : wf x -> tangent x dx -> wf (dual x dx).
Proof. unfold tangent, wf, dual. cbn. intros H (H1 & H2). rewrite combine_length. rewrite H, H1, H2. lia. Qed.

Lemma tval_dual (x dx : raw T) i : wf x -> tangent x dx ->
  @tval _ (@DNum T NT) (dual x dx) i = (tval x i, tval dx i).
Proof.
  unfold tangent, tval, dual. cbn [array shape n_zero DNum]. intros H (H1 & H2). rewrite combine_nth, H2; auto.
  unfold wf in *. rewrite H, H1, H2. reflexivity.
Qed.

Lemma dual_inj (x x' d d' : raw T) : tangent x d -> tangent x' d' -> wf x -> wf x' -> dual x d = dual x' d' -> x = x' /\ d = d'.
Proof.
  unfold tangent, dual, wf. destruct x as [a s], x' as [a' s'], d as [b u], d' as [b' u']. cbn.
  intros (H1 & H2) (H3 & H4) H5 H6 E. subst. injection E as E1 E2. subst s'.
  assert (a = a' /\ b = b') as [-> ->]; [|auto].
  assert (Hl : length a = length b) by congruence. assert (Hl' : length a' = length b') by congruence.
  assert (Hm : length a = length a') by congruence. clear H1 H3 H5 H6.
  revert b a' b' Hl Hl' Hm E1. induction a; intros [|? b] [|? a'] [|? b'] Hl Hl' Hm E1; cbn in *; try lia; auto.
  injection E1 as -> -> E1. injection Hl as Hl. injection Hl' as Hl'. injection Hm as Hm.
  destruct (IHa _ _ _ Hl Hl' Hm E1) as [-> ->]. auto.
Qed.

Lemma fold_dual (l : list (T * T)) : forall a : T * T,
  fold_left (@n_add _ DNum) l a = (fold_left n_add (map fst l) (fst a), fold_left n_add (map snd l) (snd a)).
Proof. induction l as [|x l IH]; intros [a b]; cbn [fold_left map]; auto. rewrite IH. reflexivity. Qed.

Lemma lsum_dual (l : list (T * T)) : @lsum _ (@DNum T NT) l = (lsum (map fst l), lsum (map snd l)).
Proof. unfold lsum. rewrite fold_dual. reflexivity. Qed.

Lemma sumn_dual n (f : nat -> T * T) : @sumn _ (@DNum T NT) n f = (sumn n (fun t => fst (f t)), sumn n (fun t => snd (f t))).
Proof. unfold sumn. rewrite lsum_dual, !map_map. reflexivity. Qed.

Lemma map_fst_combine A B (l : list A) (m : list B) : length l = length m -> map fst (combine l m) = l.
Proof. revert m; induction l; intros [|? m]; cbn; intros; try lia; auto. f_equal. apply IHl. lia. Qed.
Lemma map_snd_combine A B (l : list A) (m : list B) : length l = length m -> map snd (combine l m) = m.
Proof. revert m; induction l; intros [|? m]; cbn; intros; try lia; auto. f_equal. apply IHl. lia. Qed.

(** ** When an operation applies, and its value *)

Inductive opspec : opk -> list (raw T) -> raw T -> Prop :=
| os_add a b s : wf a -> wf b -> positive (shape a) -> positive (shape b) -> bcast (shape a) (shape b) s ->
    opspec KAdd [a; b] (tabulate s (fun i => n_add (tval a (clamp (shape a) i)) (tval b (clamp (shape b) i))))
| os_neg a : wf a -> positive (shape a) -> opspec KNeg [a] (tabulate (shape a) (fun i => n_neg (tval a i)))
| os_abs a : wf a -> positive (shape a) -> opspec KAbs [a] (tabulate (shape a) (fun i => n_abs (tval a i)))
| os_relu a : wf a -> positive (shape a) -> opspec KRelu [a] (tabulate (shape a) (fun i => relu_fn (tval a i)))
| os_tanh a : wf a -> positive (shape a) -> opspec KTanh [a] (tabulate (shape a) (fun i => n_tanh (tval a i)))
| os_sum a : wf a -> positive (shape a) -> opspec KSum [a] (raw_scalar (lsum (array a)))
| os_bmm a b n k m : wf a -> wf b -> positive (shape a) -> positive (shape b) -> shape a = [n; k] -> shape b = [k; m] ->
    opspec KBmm [a; b] (tabulate [n; m] (fun i => sumn k (fun t => n_mul (tval a [ix 0 i; t]) (tval b [t; ix 1 i]))))
| os_dot a b : wf a -> wf b -> positive (shape a) -> positive (shape b) -> shape a = shape b ->
    opspec KDot [a; b] (mkRaw [lsum (map (fun i => n_mul (tval a i) (tval b i)) (all_indices (shape a)))] [1]).

Lemma opspec_fwd k xs y : opspec k xs y -> fwd k xs = Ret y.
Proof.
  destruct 1; cbn [fwd].
  - apply binop_raw_ok; auto.
  - apply unary_ok_raw; auto.
  - apply unary_ok_raw; auto.
  - apply unary_ok_raw; auto.
  - apply unary_ok_raw; auto.
  - reflexivity.
  - apply (bmm2_ok (LRaw a) (LRaw b)); auto.
  - apply dot_ok; auto.
Qed.

(** [bmm] is only treated at rank 2 *)
Definition rank_ok (k : opk) (xs : list (raw T)) : Prop :=
  match k with KBmm => Forall (fun x => length (shape x) = 2) xs | _ => True end.

Lemma fwd_opspec k xs y :
  fwd k xs = Ret y -> Forall (fun x => wf x /\ positive (shape x)) xs -> rank_ok k xs -> opspec k xs y.
Proof.
  intros E H Hr.
  assert (D : forall y', opspec k xs y' -> opspec k xs y).
  { intros y' H'. pose proof (opspec_fwd _ _ _ H') as E'. rewrite E in E'. injection E' as ->. exact H'. }
  destruct k; cbn [fwd] in E; destruct xs as [|a [|b [|c xs]]]; try discriminate E;
    inversion H as [|? ? [Ha Pa] H']; subst.
  - inversion H' as [|? ? [Hb Pb] _]; subst.
    destruct (broadcastable (shape a) (shape b)) eqn:B.
    + apply broadcastable_bcast in B; auto. eapply D, os_add; eauto.
    + exfalso. unfold add_raw, generic_binop_raw in E. cbn [tl_shape] in E. rewrite B in E. discriminate.
  - eapply D, os_neg; auto.
  - eapply D, os_abs; auto.
  - eapply D, os_relu; auto.
  - eapply D, os_tanh; auto.
  - eapply D, os_sum; auto.
  - inversion H' as [|? ? [Hb Pb] _]; subst. cbn [rank_ok] in Hr.
    inversion Hr as [|? ? R1 R2]; subst. inversion R2 as [|? ? R3 R4]; subst.
    destruct (shape a) as [|n [|k [|? ?]]] eqn:Sa; try discriminate R1.
    destruct (shape b) as [|k' [|m [|? ?]]] eqn:Sb; try discriminate R3.
    destruct (Nat.eq_dec k k') as [->|Hne].
    + eapply D, os_bmm; eauto; congruence.
    + exfalso. rewrite (bmm_refused_inner (LRaw a) (LRaw b) k k' m [n]) in E; auto; discriminate.
  - inversion H' as [|? ? [Hb Pb] _]; subst.
    destruct (list_eq_dec Nat.eq_dec (shape a) (shape b)).
    + eapply D, os_dot; auto.
    + exfalso. destruct (c29_dot T NT a b Ha Hb) as (_ & X & _). rewrite X in E by auto. discriminate.
Qed.

Lemma opspec_wf k xs y : opspec k xs y -> wf y /\ positive (shape y).
Proof.
  destruct 1; try (split; [apply tabulate_wf|]; cbn [shape tabulate]; auto).
  - eapply bcast_positive; [| |eassumption]; auto.
  - split; [reflexivity|constructor].
  - rewrite H3 in H1. rewrite H4 in H2. inversion H1; subst. inversion H2 as [|? ? ? Q]; subst. inversion Q; subst.
    repeat constructor; auto.
  - split; [reflexivity|repeat constructor].
Qed.

(** ** Directional derivatives in closed form *)

Definition tan (k : opk) (xs ds : list (raw T)) : raw T :=
  match k, xs, ds with
  | KAdd, [a; b], [da; db] =>
    tabulate (max_shape (shape a) (shape b))
      (fun i => n_add (tval da (clamp (shape a) i)) (tval db (clamp (shape b) i)))
  | KNeg, [a], [da] => tabulate (shape a) (fun i => n_neg (tval da i))
  | KAbs, [a], [da] =>
    tabulate (shape a) (fun i => if n_ge (tval a i) n_zero then tval da i else n_neg (tval da i))
  | KRelu, [a], [da] => tabulate (shape a) (fun i => if n_lt (tval a i) n_zero then n_zero else tval da i)
  | KTanh, [a], [da] =>
    tabulate (shape a) (fun i => n_mul (n_sub n_one (n_mul (n_tanh (tval a i)) (n_tanh (tval a i)))) (tval da i))
  | KSum, [a], [da] => raw_scalar (lsum (array da))
  | KBmm, [a; b], [da; db] =>
    tabulate [nth 0 (shape a) 0; nth 1 (shape b) 0]
      (fun i => sumn (nth 1 (shape a) 0) (fun t =>
         n_add (n_mul (tval a [ix 0 i; t]) (tval db [t; ix 1 i])) (n_mul (tval da [ix 0 i; t]) (tval b [t; ix 1 i]))))
  | KDot, [a; b], [da; db] =>
    mkRaw [lsum (map (fun i => n_add (n_mul (tval a i) (tval db i)) (n_mul (tval da i) (tval b i)))
                     (all_indices (shape a)))] [1]
  | _, _, _ => raw_scalar n_zero
  end.

Lemma tan_tangent k xs ds y : opspec k xs y -> Forall2 tangent xs ds -> tangent y (tan k xs ds).
Proof.
  destruct 1; intros HF;
    inversion HF as [|? da ? ds' Ta HF1]; subst; try (inversion HF1 as [|? db ? ds'' Tb HF2]; subst; inversion HF2; subst);
    try (inversion HF1; subst); cbn [tan]; split; try apply tabulate_wf; try reflexivity.
  - cbn [shape tabulate]. symmetry. apply bcast_max_shape; auto.
  - cbn [shape tabulate]. rewrite H3, H4. reflexivity.
Qed.

Lemma fwd_dual_ok k xs ds y :
  opspec k xs y -> Forall2 tangent xs ds -> fwd_dual k xs ds = Ret (dual y (tan k xs ds)).
Proof.
  unfold fwd_dual. destruct 1; intros HF;
    inversion HF as [|? da ? ds' Ta HF1]; subst; try (inversion HF1 as [|? db ? ds'' Tb HF2]; subst; inversion HF2; subst);
    try (inversion HF1; subst); cbn [combine map fwd tan].
  - unfold add_raw. rewrite (@binop_raw_ok _ DNum (dual a da) (dual b db) s) by (try apply dual_wf; auto).
    rewrite <- (bcast_max_shape _ _ _ H1 H2 H3). rewrite <- tabulate_dual. f_equal. apply tabulate_ext. intros i Hi.
    cbn [shape dual]. rewrite !tval_dual by auto. reflexivity.
  - unfold neg_raw. rewrite (@unary_ok_raw _ DNum) by (apply dual_wf; auto). cbn [shape dual]. rewrite <- tabulate_dual.
    f_equal. apply tabulate_ext. intros i Hi. rewrite !tval_dual by auto. reflexivity.
  - unfold abs_raw. rewrite (@unary_ok_raw _ DNum) by (apply dual_wf; auto). cbn [shape dual]. rewrite <- tabulate_dual.
    f_equal. apply tabulate_ext. intros i Hi. rewrite !tval_dual by auto. reflexivity.
  - unfold relu_raw. rewrite (@unary_ok_raw _ DNum) by (apply dual_wf; auto). cbn [shape dual]. rewrite <- tabulate_dual.
    f_equal. apply tabulate_ext. intros i Hi. rewrite !tval_dual by auto. unfold relu_fn. cbn [n_lt n_zero DNum fst].
    destruct (n_lt (tval a i) n_zero); reflexivity.
  - unfold tanh_raw. rewrite (@unary_ok_raw _ DNum) by (apply dual_wf; auto). cbn [shape dual]. rewrite <- tabulate_dual.
    f_equal. apply tabulate_ext. intros i Hi. rewrite !tval_dual by auto. reflexivity.
  - cbn [tl_sum array dual]. rewrite fold_dual. destruct Ta as [T1 T2]. unfold wf in *.
    rewrite map_fst_combine, map_snd_combine by congruence. reflexivity.
  - rewrite (@bmm2_ok _ DNum (LRaw (dual a da)) (LRaw (dual b db)) n k m) by (cbn; try (apply dual_wf); auto).
    unfold mm. rewrite H3, H4. cbn [nth]. rewrite <- tabulate_dual. f_equal. apply tabulate_ext. intros i Hi.
    rewrite sumn_dual. cbn [tl_val]. f_equal; apply sumn_ext; intros t Ht; rewrite !tval_dual by auto; reflexivity.
  - rewrite (@dot_ok _ DNum (dual a da) (dual b db)) by (try (apply dual_wf); auto).
    cbn [shape dual].
    rewrite (map_ext _ (fun i => (n_mul (tval a i) (tval b i),
              n_add (n_mul (tval a i) (tval db i)) (n_mul (tval da i) (tval b i)))))
      by (intros i; rewrite !tval_dual by auto; reflexivity).
    rewrite lsum_dual, !map_map. reflexivity.
Qed.

End DualFacts.
