(** * ClaimsOps: proofs of C17-C25, C27-C30 *)
From Coq Require Import ZArith Ring Permutation.
From Verif Require Import Base ModelIndex ModelTensor ModelOps ModelJvp ModelGraph Spec Lists IndexFacts
  TensorFacts OpsFacts Sums Instances ClaimsTensor ClaimsView.

Lemma proper_wf0 T (NT : Num T) (l : tlike T) : proper l -> tl_wf0 l.
Proof.
  destruct l as [t|v]; cbn; auto. intros [Hw Hv]. apply view_new_inv in Hv as (H1 & H2 & H3).
  split; auto. split; auto. rewrite H3 at 1. reflexivity.
Qed.

(** ** C17 *)

(** C17: addition broadcasts as numpy does, and refuses exactly the incompatible shapes. *)
Lemma c17_add_broadcast :
  forall (T : Type) (NT : Num T) (a b : raw T),
    wf a -> wf b -> positive (shape a) -> positive (shape b) ->
    (forall s, bcast (shape a) (shape b) s ->
       exists t, add_raw (LRaw a) (LRaw b) = Ret t /\ shape t = s /\ wf t /\
         forall i, in_range s i ->
           exists x y, raw_get a (clamp (shape a) i) = Ret (Ok x) /\
                       raw_get b (clamp (shape b) i) = Ret (Ok y) /\
                       raw_get t i = Ret (Ok (n_add x y))) /\
    ((forall s, ~ bcast (shape a) (shape b) s) -> add_raw (LRaw a) (LRaw b) = Panic PAssert).
Proof.
  intros T NT a b Ha Hb Hpa Hpb. split.
  - intros s Hs. unfold add_raw. rewrite (binop_raw_ok a b s) by auto. eexists. split; [reflexivity|].
    split; [reflexivity|]. split; [apply tabulate_wf|]. intros i Hi.
    exists (tval a (clamp (shape a) i)), (tval b (clamp (shape b) i)).
    split; [apply raw_get_in_range; auto; eapply clamp_in_range; eauto|].
    split; [apply raw_get_in_range; auto; eapply clamp_in_range; eauto using bcast_sym|].
    rewrite raw_get_in_range; [|apply tabulate_wf|auto]. rewrite tval_tabulate by auto. reflexivity.
  - intros Hn. apply binop_raw_refused; auto.
Qed.
Example c17_add_broadcast_ex :
  bcast [2; 1] [3] [2; 3] /\
  add_raw (LRaw (mkRaw [10; 20]%Z [2; 1])) (LRaw (mkRaw [1; 2; 3]%Z [3])) = Ret (mkRaw [11; 12; 13; 21; 22; 23]%Z [2; 3]) /\
  add_raw (LRaw (mkRaw [10; 20]%Z [2])) (LRaw (mkRaw [1; 2; 3]%Z [3])) = Panic PAssert.
Proof. split; [apply br_one_l; constructor|]. split; reflexivity. Qed.

(** C17: [RcTensor] addition computes the same value in a new tensor. *)
Lemma c17_rc_add :
  forall (T : Type) (NT : Num T) (h : heap T) (i j : nat) (na nb : node T),
    hget h i = Ret na -> hget h j = Ret nb ->
    match add_raw (LRaw (n_val na)) (LRaw (n_val nb)) with
    | Ret t => exists h' k nk, op_add h i j = Ret (h', k) /\ hget h' k = Ret nk /\ n_val nk = t
    | Panic p => op_add h i j = Panic p
    | NoFuel => op_add h i j = NoFuel
    end.
Proof.
  intros T NT h i j na nb Hi Hj. unfold op_add. rewrite Hi, Hj. cbn [bind].
  destruct (add_raw _ _) as [t|p|]; cbn [bind]; auto.
  eexists _, _, _. split; [reflexivity|]. split.
  - cbn. unfold hget, vindex. cbn. rewrite nth_error_app2, Nat.sub_diag by lia. reflexivity.
  - reflexivity.
Qed.
Example c17_rc_add_ex :
  exists h i j na nb, hget h i = Ret na /\ hget h j = Ret nb /\
    add_raw (LRaw (n_val na)) (LRaw (n_val nb)) = Ret (mkRaw [11; 12]%Z [2]).
Proof.
  exists (mkHeap [mkNode (mkRaw [1; 2]%Z [2]) None; mkNode (mkRaw [10%Z] [1]) None] (fun _ => None)), 0, 1.
  eexists _, _. repeat split; reflexivity.
Qed.

(** ** C18 *)

Lemma bcast_dec_eq (a b : list nat) :
  positive a -> positive b -> (exists s, bcast a b s) \/ (forall s, ~ bcast a b s).
Proof.
  intros Ha Hb. destruct (broadcastable a b) eqn:E.
  - left. eexists. apply broadcastable_bcast; eauto.
  - right. intros s Hs. apply bcast_broadcastable in Hs. congruence.
Qed.

(** C18: addition commutes when element addition does. *)
Lemma c18_add_comm :
  forall (T : Type) (NT : Num T) (a b : raw T),
    (forall x y : T, n_add x y = n_add y x) ->
    wf a -> wf b -> positive (shape a) -> positive (shape b) ->
    add_raw (LRaw a) (LRaw b) = add_raw (LRaw b) (LRaw a).
Proof.
  intros T NT a b Hc Ha Hb Hpa Hpb. unfold add_raw.
  destruct (bcast_dec_eq (shape a) (shape b)) as [[s Hs]|Hn]; auto.
  - rewrite (binop_raw_ok a b s), (binop_raw_ok b a s) by auto using bcast_sym.
    f_equal. apply tabulate_ext. intros. apply Hc.
  - rewrite !binop_raw_refused; auto. intros s Hs. eapply Hn. apply bcast_sym; eauto.
Qed.
Example c18_add_comm_ex :
  add_raw (LRaw (mkRaw [10; 20]%Z [2; 1])) (LRaw (mkRaw [1; 2; 3]%Z [3])) =
  add_raw (LRaw (mkRaw [1; 2; 3]%Z [3])) (LRaw (mkRaw [10; 20]%Z [2; 1])).
Proof. apply c18_add_comm; [apply Z.add_comm|..]; repeat constructor. Qed.

Lemma bcast_rev_refl_one l : bcast_rev l [] l.
Proof. constructor. Qed.

Lemma bcast_rev_sym l r o : bcast_rev l r o -> bcast_rev r l o.
Proof. induction 1; constructor; auto. Qed.

Lemma bcast_rev_assoc a b ab : bcast_rev a b ab -> forall c o, bcast_rev ab c o ->
  exists bc, bcast_rev b c bc /\ bcast_rev a bc o.
Proof.
  induction 1 as [l|r|d l r o' H IH|d l r o' H IH|d l r o' H IH]; intros c o Ho.
  - exists c. split; [constructor|auto].
  - exists o. split; auto. constructor.
  - inversion Ho as [| |? ? r2 o2 Hr|? ? r2 o2 Hr|? ? r2 o2 Hr]; subst.
    + exists (d :: r). split; [constructor|]. constructor; auto.
    + destruct (IH _ _ Hr) as (bc & H1 & H2). exists (d :: bc). split; constructor; auto.
    + destruct (IH _ _ Hr) as (bc & H1 & H2). exists (d0 :: bc). split; constructor; auto.
    + destruct (IH _ _ Hr) as (bc & H1 & H2). exists (d :: bc). split; constructor; auto.
  - inversion Ho as [| |? ? r2 o2 Hr|? ? r2 o2 Hr|? ? r2 o2 Hr]; subst.
    + exists (d :: r). split; [constructor|]. apply br_one_l; auto.
    + destruct (IH _ _ Hr) as (bc & H1 & H2). exists (d :: bc). split; [apply br_eq|apply br_one_l]; auto.
    + destruct (IH _ _ Hr) as (bc & H1 & H2). exists (d0 :: bc). split; apply br_one_l; auto.
    + destruct (IH _ _ Hr) as (bc & H1 & H2). exists (d :: bc). split; [apply br_one_r|apply br_one_l]; auto.
  - inversion Ho as [| |? ? r2 o2 Hr|? ? r2 o2 Hr|? ? r2 o2 Hr]; subst.
    + exists (1 :: r). split; [constructor|]. apply br_one_r; auto.
    + destruct (IH _ _ Hr) as (bc & H1 & H2). exists (d :: bc). split; [apply br_one_l|apply br_eq]; auto.
    + destruct (IH _ _ Hr) as (bc & H1 & H2). exists (d0 :: bc). split; apply br_one_l; auto.
    + destruct (IH _ _ Hr) as (bc & H1 & H2). exists (1 :: bc). split; [apply br_eq|apply br_one_r]; auto.
Qed.

Lemma bcast_assoc a b c ab o : bcast a b ab -> bcast ab c o -> exists bc, bcast b c bc /\ bcast a bc o.
Proof.
  intros H1 H2. destruct (bcast_rev_assoc _ _ _ H1 _ _ H2) as (bc & H3 & H4).
  exists (rev bc). unfold bcast. rewrite rev_involutive. auto.
Qed.

Lemma clamp_rev_comp l r x : bcast_rev l r x -> forall ri, length x <= length ri ->
  clamp_rev l (clamp_rev x ri) = clamp_rev l ri.
Proof.
  unfold clamp_rev.
  induction 1 as [l|r|d l r o' H IH|d l r o' H IH|d l r o' H IH]; intros ri Hl.
  - revert ri Hl. induction l as [|d l IHl]; intros ri Hl; [reflexivity|].
    destruct ri as [|y ri]; [cbn in Hl; lia|]. cbn. f_equal.
    + destruct (d =? 1); reflexivity.
    + apply IHl. cbn in Hl; lia.
  - reflexivity.
  - destruct ri as [|y ri]; [cbn in Hl; lia|]. cbn. f_equal; [destruct (d =? 1); reflexivity|]. apply IH. cbn in Hl; lia.
  - destruct ri as [|y ri]; [cbn in Hl; lia|]. cbn. f_equal. apply IH. cbn in Hl; lia.
  - destruct ri as [|y ri]; [cbn in Hl; lia|]. cbn. f_equal; [destruct (d =? 1); reflexivity|]. apply IH. cbn in Hl; lia.
Qed.

Lemma bcast_rev_length l r o : bcast_rev l r o -> length l <= length o /\ length r <= length o.
Proof. induction 1; cbn; lia. Qed.
Lemma bcast_length l r o : bcast l r o -> length l <= length o /\ length r <= length o.
Proof. intros H. apply bcast_rev_length in H. rewrite !rev_length in H. auto. Qed.

Lemma clamp_comp l r x i : bcast l r x -> length x <= length i -> clamp l (clamp x i) = clamp l i.
Proof.
  intros Hb Hl. pose proof (bcast_length _ _ _ Hb) as [Hlx _].
  assert (Hc : length (clamp x i) = length x).
  { unfold clamp. rewrite map_length, combine_length, skipn_length. lia. }
  rewrite <- (rev_involutive (clamp l (clamp x i))), <- (rev_involutive (clamp l i)). f_equal.
  rewrite !clamp_rev_spec by lia. apply (clamp_rev_comp _ _ _ Hb). rewrite !rev_length. auto.
Qed.

(** C18: addition is associative when element addition is, as outcomes: both ways of bracketing give
    the same tensor or are both refused. *)
Lemma c18_add_assoc :
  forall (T : Type) (NT : Num T) (a b c : raw T),
    (forall x y z : T, n_add (n_add x y) z = n_add x (n_add y z)) ->
    wf a -> wf b -> wf c -> positive (shape a) -> positive (shape b) -> positive (shape c) ->
    (let* x := add_raw (LRaw a) (LRaw b) in add_raw (LRaw x) (LRaw c)) =
    (let* y := add_raw (LRaw b) (LRaw c) in add_raw (LRaw a) (LRaw y)).
Proof.
  intros T NT a b c Has Ha Hb Hc Hpa Hpb Hpc. unfold add_raw.
  assert (Hmain : forall ab o bc, bcast (shape a) (shape b) ab -> bcast ab (shape c) o ->
            bcast (shape b) (shape c) bc -> bcast (shape a) bc o ->
    (let* x := generic_binop_raw (LRaw a) (LRaw b) n_add in generic_binop_raw (LRaw x) (LRaw c) n_add) =
    (let* y := generic_binop_raw (LRaw b) (LRaw c) n_add in generic_binop_raw (LRaw a) (LRaw y) n_add)).
  { intros ab o bc H1 H2 H3 H4.
    pose proof (bcast_positive _ _ _ Hpa Hpb H1) as Hpab.
    pose proof (bcast_positive _ _ _ Hpb Hpc H3) as Hpbc.
    rewrite (binop_raw_ok a b ab), (binop_raw_ok b c bc) by auto. cbn [bind].
    rewrite (binop_raw_ok _ c o), (binop_raw_ok a _ o); auto using tabulate_wf.
    f_equal. apply tabulate_ext. intros i Hi. cbn [shape tabulate].
    rewrite !tval_tabulate.
    - assert (Hli : length i = length o) by (symmetry; apply in_range_length; auto).
      pose proof (bcast_length _ _ _ H2) as [? ?]. pose proof (bcast_length _ _ _ H4) as [? ?].
      rewrite (clamp_comp (shape a) (shape b) ab), (clamp_comp (shape b) (shape a) ab),
        (clamp_comp (shape b) (shape c) bc), (clamp_comp (shape c) (shape b) bc) by (auto using bcast_sym; lia).
      apply Has.
    - eapply clamp_in_range; [apply bcast_sym; exact H4|auto].
    - eapply clamp_in_range; eauto. }
  destruct (bcast_dec_eq (shape a) (shape b)) as [[ab Hab]|Hn1]; auto.
  - pose proof (bcast_positive _ _ _ Hpa Hpb Hab) as Hpab.
    destruct (bcast_dec_eq ab (shape c)) as [[o Ho]|Hn2]; auto.
    + destruct (bcast_assoc _ _ _ _ _ Hab Ho) as (bc & H3 & H4). eapply Hmain; eauto.
    + rewrite (binop_raw_ok a b ab) by auto. cbn [bind]. rewrite binop_raw_refused by auto.
      destruct (bcast_dec_eq (shape b) (shape c)) as [[bc Hbc]|Hn3]; auto.
      * rewrite (binop_raw_ok b c bc) by auto. cbn [bind]. rewrite binop_raw_refused; auto.
        -- exact (bcast_positive _ _ _ Hpb Hpc Hbc).
        -- intros s Hs. cbn [shape tabulate] in Hs.
           destruct (bcast_assoc _ _ _ _ _ (bcast_sym _ _ _ Hbc) (bcast_sym _ _ _ Hs)) as (ab' & H3 & H4).
           assert (ab' = ab) by (rewrite (bcast_max_shape _ _ _ Hpa Hpb Hab), (bcast_max_shape _ _ _ Hpa Hpb (bcast_sym _ _ _ H3)); auto).
           subst. eapply Hn2. apply bcast_sym; eauto.
      * rewrite (binop_raw_refused b c) by auto. reflexivity.
  - rewrite (binop_raw_refused a b) by auto. cbn [bind].
    destruct (bcast_dec_eq (shape b) (shape c)) as [[bc Hbc]|Hn3]; auto.
    + rewrite (binop_raw_ok b c bc) by auto. cbn [bind]. rewrite binop_raw_refused; auto.
      * exact (bcast_positive _ _ _ Hpb Hpc Hbc).
      * intros s Hs. cbn [shape tabulate] in Hs.
        destruct (bcast_assoc _ _ _ _ _ (bcast_sym _ _ _ Hbc) (bcast_sym _ _ _ Hs)) as (ab' & H3 & H4).
        eapply Hn1. apply bcast_sym; eauto.
    + rewrite (binop_raw_refused b c) by auto. reflexivity.
Qed.
Example c18_add_assoc_ex :
  (let* x := add_raw (LRaw (mkRaw [10; 20]%Z [2; 1])) (LRaw (mkRaw [1; 2; 3]%Z [3])) in
   add_raw (LRaw x) (LRaw (raw_scalar 5%Z))) = Ret (mkRaw [16; 17; 18; 26; 27; 28]%Z [2; 3]) /\
  (let* y := add_raw (LRaw (mkRaw [1; 2; 3]%Z [3])) (LRaw (raw_scalar 5%Z)) in
   add_raw (LRaw (mkRaw [10; 20]%Z [2; 1])) (LRaw y)) = Ret (mkRaw [16; 17; 18; 26; 27; 28]%Z [2; 3]).
Proof. split; reflexivity. Qed.

Lemma clamp_nil i : clamp [] i = [].
Proof. reflexivity. Qed.

(** C18: a scalar zero is neutral. *)
Lemma c18_add_zero :
  forall (T : Type) (NT : Num T) (a : raw T),
    (forall x : T, n_add x n_zero = x) -> wf a -> positive (shape a) ->
    add_raw (LRaw a) (LRaw (raw_scalar n_zero)) = Ret a.
Proof.
  intros T NT a Hz Ha Hp. unfold add_raw. rewrite (binop_raw_ok a (raw_scalar n_zero) (shape a)); auto.
  - transitivity (Ret (tabulate (shape a) (tval a))); [|rewrite tabulate_eta; auto].
    f_equal. apply tabulate_ext. intros i Hi.
    rewrite clamp_self by auto. cbn. apply Hz.
  - reflexivity.
  - constructor.
  - constructor.
Qed.
Example c18_add_zero_ex : add_raw (LRaw (mkRaw [1; 2]%Z [2; 1])) (LRaw (raw_scalar 0%Z)) = Ret (mkRaw [1; 2]%Z [2; 1]).
Proof. reflexivity. Qed.

(** ** C19 *)

(** C19 is false: adding an empty tensor to a compatible one panics. *)
Lemma c19_add_empty_refuted :
  ~ (forall (T : Type) (NT : Num T) (a b : raw T) (s : list nat),
       wf a -> wf b -> bcast (shape a) (shape b) s -> ~ positive s ->
       add_raw (LRaw a) (LRaw b) = Ret (mkRaw [] s)).
Proof.
  intros H. specialize (H Z ZNum (mkRaw [1%Z] [1]) (mkRaw [] [0]) [0] eq_refl eq_refl).
  discriminate H.
  - apply br_one_l. constructor.
  - intros Hp. inversion Hp; lia.
Qed.
Example c19_add_empty_refuted_ex :
  add_raw (LRaw (mkRaw [1%Z] [1])) (LRaw (mkRaw [] [0])) = Panic PUnwrap /\
  add_raw (LRaw (mkRaw (@nil Z) [0])) (LRaw (mkRaw [] [0])) = Panic PUnwrap.
Proof. split; reflexivity. Qed.

Lemma zip_longest_length A B (l : list A) (r : list B) :
  length (zip_longest l r) = Nat.max (length l) (length r).
Proof.
  revert r. induction l as [|a l IH]; intros [|b r]; cbn; auto.
  - f_equal. induction r; cbn; auto.
  - f_equal. rewrite IH. cbn. lia.
Qed.

Lemma max_shape_length l r : length (max_shape l r) = Nat.max (length l) (length r).
Proof. unfold max_shape. rewrite map_length, rev_length, zip_longest_length, !rev_length. auto. Qed.

Lemma raw_get_no_fuel T (NT : Num T) (t : raw T) idx : raw_get t idx <> NoFuel.
Proof.
  unfold raw_get, global_index. destruct (_ && _); cbn [bind]; try discriminate.
  assert (H : forall l pos g m, gi_loop (length (shape t)) None l pos g m <> NoFuel).
  { induction l as [|[d x] l IH]; intros; cbn [gi_loop]; try discriminate.
    destruct (d =? 1); auto. cbn [bind]. destruct (d <=? x); try discriminate. auto. }
  specialize (H (combine (rev (shape t)) (rev idx)) 0 0 1). destruct (gi_loop _ _ _ _ _ _) as [[g|e]|p|]; cbn [bind]; try discriminate; try congruence.
  unfold vindex. destruct (nth_error _ _); cbn; discriminate.
Qed.

(** What happens instead: whenever an operand has a zero dimension, addition panics. *)
Lemma c19_add_empty_always_panics :
  forall (T : Type) (NT : Num T) (a b : raw T), wf a -> wf b ->
    ~ positive (shape a) \/ ~ positive (shape b) ->
    exists p, add_raw (LRaw a) (LRaw b) = Panic p.
Proof.
  intros T NT a b Ha Hb Hz. unfold add_raw, generic_binop_raw. cbn [tl_shape].
  destruct (broadcastable (shape a) (shape b)); cbn [assert bind]; [|eauto].
  unfold index_fuel. cbn [iter_fold]. unfold index_iter_next at 1, index_iter_new.
  cbn [ii_first ii_index bind].
  set (idx := repeat 0 (length (max_shape (shape a) (shape b)))).
  assert (Hlen : length idx = Nat.max (length (shape a)) (length (shape b)))
    by (unfold idx; rewrite repeat_length; apply max_shape_length).
  assert (Hbad : forall t : raw T, wf t -> ~ positive (shape t) -> length (shape t) <= length idx ->
            tl_get_unwrap (LRaw t) idx = Panic PUnwrap).
  { intros t Ht Hp Hl. unfold tl_get_unwrap, tl_get.
    destruct (c03_get_empty_full_index T NT (array t) (shape t) idx t) as [e He]; auto.
    - rewrite raw_new_ok by auto. destruct t; reflexivity.
    - rewrite He. reflexivity. }
  assert (Hnf : exists o, tl_get_unwrap (LRaw a) idx = o /\ o <> NoFuel).
  { eexists. split; [reflexivity|]. unfold tl_get_unwrap, tl_get.
    pose proof (raw_get_no_fuel T NT a idx). destruct (raw_get a idx) as [[x|e]|p|]; cbn; congruence. }
  destruct Hz as [Hz|Hz].
  - rewrite Hbad by (auto; lia). cbn. eauto.
  - destruct Hnf as (o & -> & Ho). destruct o as [x|p|]; cbn [bind]; [|eauto|congruence].
    rewrite Hbad by (auto; lia). cbn. eauto.
Qed.
Example c19_add_empty_always_panics_ex :
  exists p, add_raw (LRaw (mkRaw (@nil Z) [2; 0])) (LRaw (raw_scalar 1%Z)) = Panic p.
Proof. apply c19_add_empty_always_panics; try reflexivity. left. intros H. inversion H as [|? ? _ H2]. inversion H2; lia. Qed.

(** ** C20 *)

Lemma unary_array T (NT : Num T) (t : raw T) op :
  wf t -> generic_unary_op (LRaw t) op = Ret (mkRaw (map op (array t)) (shape t)).
Proof.
  intros Ht. rewrite unary_ok_raw by auto. unfold tabulate. rewrite (array_tabulate t) by auto.
  cbn [shape]. rewrite map_map. reflexivity.
Qed.

(** C20: negation. *)
Lemma c20_neg :
  forall (T : Type) (NT : Num T) (a : raw T), wf a ->
    neg_raw (LRaw a) = Ret (mkRaw (map n_neg (array a)) (shape a)) /\
    ((forall x : T, n_neg (n_neg x) = x) -> (let* b := neg_raw (LRaw a) in neg_raw (LRaw b)) = Ret a).
Proof.
  intros T NT a Ha. unfold neg_raw. split; [apply unary_array; auto|].
  intros Hn. rewrite unary_array by auto. cbn [bind].
  rewrite (unary_array T NT (mkRaw (map n_neg (array a)) (shape a))) by (unfold wf; cbn [array shape]; rewrite map_length; exact Ha).
  cbn [array shape]. rewrite map_map. rewrite (map_ext _ (fun x => x)) by auto. rewrite map_id. destruct a; reflexivity.
Qed.
Example c20_neg_ex : neg_raw (LRaw (mkRaw [1; -2]%Z [2])) = Ret (mkRaw [-1; 2]%Z [2]).
Proof. reflexivity. Qed.

(** C20: subtraction is broadcasting addition of the negation, for every compatible pair. *)
Lemma c20_sub :
  forall (T : Type) (NT : Num T) (a b : raw T),
    wf a -> wf b -> positive (shape a) -> positive (shape b) ->
    (forall s, bcast (shape a) (shape b) s ->
       exists t, sub_raw a b = Ret t /\ shape t = s /\ wf t /\
         forall i, in_range s i ->
           exists x y, raw_get a (clamp (shape a) i) = Ret (Ok x) /\
                       raw_get b (clamp (shape b) i) = Ret (Ok y) /\
                       raw_get t i = Ret (Ok (n_add x (n_neg y)))) /\
    ((forall s, ~ bcast (shape a) (shape b) s) -> sub_raw a b = Panic PAssert).
Proof.
  intros T NT a b Ha Hb Hpa Hpb. unfold sub_raw, neg_raw. rewrite unary_ok_raw by auto. cbn [bind].
  set (nb := tabulate (shape b) (fun i => n_neg (tval b i))).
  destruct (c17_add_broadcast T NT a nb Ha (tabulate_wf _ _) Hpa Hpb) as [H1 H2]. split; auto.
  intros s Hs. destruct (H1 s Hs) as (t & Ht & Hst & Hwt & Hi). exists t. split; auto. split; auto. split; auto.
  intros i Hin. destruct (Hi i Hin) as (x & y & Hx & Hy & Hxy). exists x, (tval b (clamp (shape b) i)).
  assert (Hc : in_range (shape b) (clamp (shape b) i)) by (eapply clamp_in_range; eauto using bcast_sym).
  split; auto. split; [apply raw_get_in_range; auto|].
  change (shape nb) with (shape b) in Hy.
  rewrite raw_get_in_range in Hy by (auto; apply tabulate_wf). unfold nb in Hy. rewrite tval_tabulate in Hy by auto.
  congruence.
Qed.
Example c20_sub_ex :
  bcast [2; 1] [2] [2; 2] /\
  sub_raw (mkRaw [10; 20]%Z [2; 1]) (mkRaw [1; 2]%Z [2]) = Ret (mkRaw [9; 8; 19; 18]%Z [2; 2]).
Proof. split; [apply br_one_l; constructor|reflexivity]. Qed.

(** C20: [a - a] is all zeros when negation gives additive inverses. *)
Lemma c20_sub_self :
  forall (T : Type) (NT : Num T) (a : raw T),
    (forall x : T, n_add x (n_neg x) = n_zero) -> wf a -> positive (shape a) ->
    sub_raw a a = Ret (mkRaw (repeat n_zero (size (shape a))) (shape a)).
Proof.
  intros T NT a Hi Ha Hp. unfold sub_raw, neg_raw. rewrite unary_ok_raw by auto. cbn [bind].
  rewrite add_same_shape; auto using tabulate_wf.
  replace (mkRaw (repeat n_zero (size (shape a))) (shape a)) with (raw_filler (shape a) n_zero).
  - rewrite raw_filler_tab. f_equal. apply tabulate_ext. intros i Hin. rewrite tval_tabulate by auto. apply Hi.
  - unfold raw_filler. destruct (shape a); rewrite ?product_size; reflexivity.
Qed.
Example c20_sub_self_ex : sub_raw (mkRaw [10; 20]%Z [2; 1]) (mkRaw [10; 20]%Z [2; 1]) = Ret (mkRaw [0; 0]%Z [2; 1]).
Proof. reflexivity. Qed.

(** ** C21 *)

(** C21: relu, tanh and abs apply the scalar function to every element and keep the shape, on every
    tensor, empty ones included. *)
Lemma c21_elementwise :
  forall (T : Type) (NT : Num T) (a : raw T), wf a ->
    relu_raw (LRaw a) = Ret (mkRaw (map (fun x => if n_lt x n_zero then n_zero else x) (array a)) (shape a)) /\
    tanh_raw (LRaw a) = Ret (mkRaw (map n_tanh (array a)) (shape a)) /\
    abs_raw (LRaw a) = Ret (mkRaw (map n_abs (array a)) (shape a)).
Proof. intros T NT a Ha. repeat split; apply unary_array; auto. Qed.
Example c21_elementwise_ex :
  relu_raw (LRaw (mkRaw [1; -2; 0]%Z [3; 1])) = Ret (mkRaw [1; 0; 0]%Z [3; 1]) /\
  abs_raw (LRaw (mkRaw (@nil Z) [2; 0])) = Ret (mkRaw [] [2; 0]).
Proof. split; reflexivity. Qed.

(** C21: the [RcTensor] operations compute these values in a new tensor. *)
Lemma c21_rc_elementwise :
  forall (T : Type) (NT : Num T) (h : heap T) (i : nat) (na : node T),
    hget h i = Ret na -> wf (n_val na) ->
    (exists h' k nk, op_relu h i = Ret (h', k) /\ hget h' k = Ret nk /\
       n_val nk = mkRaw (map (fun x => if n_lt x n_zero then n_zero else x) (array (n_val na))) (shape (n_val na))) /\
    (exists h' k nk, op_tanh h i = Ret (h', k) /\ hget h' k = Ret nk /\
       n_val nk = mkRaw (map n_tanh (array (n_val na))) (shape (n_val na))) /\
    (exists h' k nk, op_abs h i = Ret (h', k) /\ hget h' k = Ret nk /\
       n_val nk = mkRaw (map n_abs (array (n_val na))) (shape (n_val na))) /\
    (exists h' k nk, op_neg h i = Ret (h', k) /\ hget h' k = Ret nk /\
       n_val nk = mkRaw (map n_neg (array (n_val na))) (shape (n_val na))).
Proof.
  intros T NT h i na Hi Hw. destruct (c21_elementwise T NT (n_val na) Hw) as (H1 & H2 & H3).
  destruct (c20_neg T NT (n_val na) Hw) as (H4 & _).
  assert (G : forall (v : raw T) fn g, hget (fst (alloc h v fn g)) (snd (alloc h v fn g)) = Ret (mkNode v fn)).
  { intros. unfold hget, vindex. cbn. rewrite nth_error_app2, Nat.sub_diag by lia. reflexivity. }
  split; [|split; [|split]]; eexists _, _, _; (split; [unfold op_relu, op_tanh, op_abs, op_neg;
    rewrite Hi; cbn [bind]; rewrite ?H1, ?H2, ?H3, ?H4; reflexivity|]); (split; [apply G|reflexivity]).
Qed.
Example c21_rc_elementwise_ex :
  exists h i na, hget h i = Ret na /\ wf (n_val na) /\ array (n_val na) = [1; -2]%Z.
Proof.
  exists (mkHeap [mkNode (mkRaw [1; -2]%Z [2]) None] (fun _ => None)), 0. eexists. repeat split; reflexivity.
Qed.

(** ** C22 *)

Lemma map_tval_combine T (NT : Num T) (a b : raw T) (f : T -> T -> T) :
  wf a -> wf b -> shape a = shape b ->
  map (fun i => f (tval a i) (tval b i)) (all_indices (shape a)) =
  map (fun p => f (fst p) (snd p)) (combine (array a) (array b)).
Proof.
  intros Ha Hb Hs. rewrite (array_tabulate a), (array_tabulate b) by auto. rewrite <- Hs.
  generalize (all_indices (shape a)). clear. induction l; cbn; auto. f_equal; auto.
Qed.

(** C22: the four cases of multiplication; the result's element count always fits its shape. *)
Lemma c22_mul :
  forall (T : Type) (NT : Num T) (a b : raw T), wf a -> wf b ->
    (forall c, shape a = [] -> array a = [c] ->
       mul_raw a (LRaw b) = Ret (mkRaw (map (fun x => n_mul c x) (array b)) (shape b))) /\
    (forall c, shape a <> [] -> shape b = [] -> array b = [c] ->
       mul_raw a (LRaw b) = Ret (mkRaw (map (fun x => n_mul x c) (array a)) (shape a))) /\
    (shape a <> [] -> shape a = shape b -> positive (shape a) ->
       mul_raw a (LRaw b) =
       Ret (mkRaw (map (fun p => n_mul (fst p) (snd p)) (combine (array a) (array b))) (shape a))) /\
    (shape a <> [] -> shape b <> [] -> shape a <> shape b \/ ~ positive (shape a) ->
       exists p, mul_raw a (LRaw b) = Panic p) /\
    (forall t, mul_raw a (LRaw b) = Ret t -> wf t).
Proof.
  intros T NT a b Ha Hb.
  assert (C1 : forall c, shape a = [] -> array a = [c] ->
       mul_raw a (LRaw b) = Ret (mkRaw (map (fun x => n_mul c x) (array b)) (shape b))).
  { intros c Hs Hc. unfold mul_raw. rewrite Hs, Hc. reflexivity. }
  assert (C2 : forall c, shape a <> [] -> shape b = [] -> array b = [c] ->
       mul_raw a (LRaw b) = Ret (mkRaw (map (fun x => n_mul x c) (array a)) (shape a))).
  { intros c Hs Hsb Hc. destruct b as [ab sb]. cbn in Hsb, Hc. subst.
    unfold mul_raw. destruct (shape a) as [|d s] eqn:E; [congruence|].
    unfold tl_get_first_elem. cbn. unfold right_scalar_multiplication. cbn. congruence. }
  assert (C3 : shape a <> [] -> shape a = shape b -> positive (shape a) ->
       mul_raw a (LRaw b) =
       Ret (mkRaw (map (fun p => n_mul (fst p) (snd p)) (combine (array a) (array b))) (shape a))).
  { intros Hs Hab Hp. rewrite mul_same; auto.
    - unfold tabulate. cbn [tl_val]. rewrite (map_tval_combine T NT a b n_mul) by auto. reflexivity.
    - split; [exact Hb|]. cbn. rewrite <- Hab. auto. }
  assert (C4 : shape a <> [] -> shape b <> [] -> shape a <> shape b \/ ~ positive (shape a) ->
       exists p, mul_raw a (LRaw b) = Panic p).
  { intros Hs Hsb [Hne|Hz].
    - exists PAssert. apply mul_refused; auto.
    - destruct (shape_eqb_spec (shape a) (shape b)) as [E|E]; [|exists PAssert; apply mul_refused; auto].
      unfold mul_raw. destruct (shape a) as [|d s] eqn:Ea; [congruence|].
      cbn [tl_shape]. destruct (shape b) as [|d' s'] eqn:Eb; [congruence|].
      unfold element_wise_multiplication, same_shape. cbn [tl_shape]. rewrite Ea, Eb, <- E, shape_eqb_refl.
      cbn [assert bind]. unfold index_fuel. cbn [iter_fold].
      unfold zip_next at 1, elem_iter_next at 1, elem_iter_new. cbn [fst ei_first ei_index tl_shape].
      rewrite Ea. unfold tl_get_unwrap, tl_get.
      destruct (c03_get_empty_full_index T NT (array a) (d :: s) (repeat 0 (length (d :: s))) a) as [e He]; auto.
      + rewrite raw_new_ok by (rewrite Ha, Ea; auto). rewrite <- Ea. destruct a; reflexivity.
      + rewrite repeat_length. auto.
      + rewrite He. cbn. eauto. }
  split; [exact C1|]. split; [exact C2|]. split; [exact C3|]. split; [exact C4|].
  intros t Ht.
  destruct (shape_eqb_spec (shape a) []) as [Ea|Ea].
  - destruct (scalar_shape a Ha Ea) as [c ->]. rewrite (C1 c) in Ht by auto. injection Ht as <-.
    unfold wf. cbn. rewrite map_length. auto.
  - destruct (shape_eqb_spec (shape b) []) as [Eb|Eb].
    + destruct (scalar_shape b Hb Eb) as [c ->]. rewrite (C2 c) in Ht by auto. injection Ht as <-.
      unfold wf. cbn. rewrite map_length. auto.
    + destruct (Forall_dec (fun d => 0 < d) (fun d => lt_dec 0 d) (shape a)) as [Hp|Hp].
      * destruct (shape_eqb_spec (shape a) (shape b)) as [E|E].
        -- rewrite C3 in Ht by auto. injection Ht as <-. unfold wf. cbn. rewrite map_length, combine_length.
           rewrite Ha, Hb, E. lia.
        -- destruct C4 as [p Hpn]; auto. congruence.
      * destruct C4 as [p Hpn]; auto. congruence.
Qed.
Example c22_mul_ex :
  mul_raw (raw_scalar 3%Z) (LRaw (mkRaw [1; 2]%Z [2])) = Ret (mkRaw [3; 6]%Z [2]) /\
  mul_raw (mkRaw [1; 2]%Z [2]) (LRaw (mkRaw [3; 4]%Z [2])) = Ret (mkRaw [3; 8]%Z [2]) /\
  mul_raw (mkRaw [1; 2]%Z [2]) (LRaw (mkRaw [3%Z] [1])) = Panic PAssert.
Proof. repeat split; reflexivity. Qed.

(** ** C23 *)

(** C23 is false: scaling a view scales the whole underlying array under the view's shape. *)
Lemma c23_scale_view_refuted :
  ~ (forall (T : Type) (NT : Num T) (c : T) (t : raw T) (o : list slice_range) (v : view T) (m : raw T),
       wf t -> view_new t o = Ret v -> positive (v_shape v) -> tl_to_tensor (LView v) = Ret m ->
       mul_raw (raw_scalar c) (LView v) = mul_raw (raw_scalar c) (LRaw m)).
Proof.
  intros H.
  specialize (H Z ZNum 2%Z (mkRaw [1; 2; 3]%Z [3]) [mkSR 1 2] (mkView (mkRaw [1; 2; 3]%Z [3]) [1] [mkSR 1 2])
     (mkRaw [2%Z] [1]) eq_refl eq_refl ltac:(repeat constructor) eq_refl). discriminate H.
Qed.
Example c23_scale_view_refuted_ex :
  exists v, view_new (mkRaw [1; 2; 3]%Z [3]) [mkSR 1 2] = Ret v /\
    mul_raw (raw_scalar 2%Z) (LView v) = Ret (mkRaw [2; 4; 6]%Z [1]).
Proof. eexists. split; reflexivity. Qed.

Lemma shift_full s o i :
  Forall2 (fun d r => sr_start r = 0 /\ sr_end r = d) s o -> in_range s i -> shift o i = i.
Proof.
  unfold in_range. intros H. revert i. induction H as [|d r s o [H1 H2] H IH]; intros i Hi; inversion Hi; subst; auto.
  cbn. rewrite H1. f_equal. apply IH; auto.
Qed.

Lemma window_full s o :
  Forall2 (fun d r => sr_start r = 0 /\ sr_end r = d) s o -> window_shape o = s.
Proof. induction 1 as [|d r s o [H1 H2] H IH]; auto. cbn. fold (window_shape o). rewrite IH. f_equal. lia. Qed.

Lemma full_view_tensor T (NT : Num T) (t : raw T) o v :
  wf t -> view_new t o = Ret v -> positive (shape t) ->
  Forall2 (fun d r => sr_start r = 0 /\ sr_end r = d) (shape t) o ->
  v_shape v = shape t /\ tl_to_tensor (LView v) = Ret t.
Proof.
  intros Hw Hv Hp HF. pose proof (window_full _ _ HF) as Hs.
  pose proof (view_new_inv _ _ _ Hv) as (_ & _ & E). assert (Hvs : v_shape v = shape t) by (rewrite E; exact Hs).
  split; auto. rewrite tl_to_tensor_ok.
  - cbn [tl_shape]. rewrite Hvs. transitivity (Ret (tabulate (shape t) (tval t))); [|rewrite tabulate_eta; auto]. f_equal. apply tabulate_ext.
    intros i Hi. cbn [tl_val]. rewrite E. cbn [v_tensor v_offset]. rewrite (shift_full (shape t)); auto.
  - eapply view_tl_wf; eauto. rewrite Hvs. auto.
Qed.

(** C23, the part that holds: a view of the whole tensor is scaled as it should. *)
Lemma c23_scale_full_view :
  forall (T : Type) (NT : Num T) (c : T) (t : raw T) (o : list slice_range) (v : view T),
    wf t -> view_new t o = Ret v -> positive (shape t) ->
    Forall2 (fun d r => sr_start r = 0 /\ sr_end r = d) (shape t) o ->
    exists m, tl_to_tensor (LView v) = Ret m /\
      mul_raw (raw_scalar c) (LView v) = mul_raw (raw_scalar c) (LRaw m) /\
      mul_raw (raw_scalar c) (LRaw m) = Ret (mkRaw (map (fun x => n_mul c x) (array m)) (shape m)).
Proof.
  intros T NT c t o v Hw Hv Hp HF. destruct (full_view_tensor T NT t o v Hw Hv Hp HF) as [Hs Ht].
  exists t. split; auto. split; [|reflexivity].
  cbn. unfold left_scalar_multiplication. cbn [tl_tensor tl_shape]. rewrite Hs.
  apply view_new_inv in Hv as (_ & _ & ->). reflexivity.
Qed.
Example c23_scale_full_view_ex :
  exists v, view_new (mkRaw [1; 2; 3; 4]%Z [2; 2]) [mkSR 0 2; mkSR 0 2] = Ret v /\
    mul_raw (raw_scalar 2%Z) (LView v) = Ret (mkRaw [2; 4; 6; 8]%Z [2; 2]).
Proof. eexists. split; reflexivity. Qed.

(** ** C24 *)

(** C24: the sum is zero plus the elements, left to right. *)
Lemma c24_sum :
  forall (T : Type) (NT : Num T) (a : list T) (s : list nat) (t : raw T),
    raw_new a s = Ret t ->
    tl_sum (LRaw t) = Ret (mkRaw [fold_left n_add a n_zero] []).
Proof. intros T NT a s t H. apply raw_new_inv in H as [-> _]. reflexivity. Qed.
Example c24_sum_ex : tl_sum (LRaw (mkRaw [1; 2; 3; 4]%Z [2; 2])) = Ret (mkRaw [10%Z] []).
Proof. reflexivity. Qed.

(** C24: in a commutative ring the order of the elements does not matter and the sum is linear. *)
Lemma c24_sum_ring :
  forall (T : Type) (NT : Num T), is_ring T ->
    (forall a b : raw T, Permutation (array a) (array b) -> tl_sum (LRaw a) = tl_sum (LRaw b)) /\
    (forall (a b : raw T) x y, wf a -> wf b -> positive (shape a) -> shape a = shape b ->
       tl_sum (LRaw a) = Ret (raw_scalar x) -> tl_sum (LRaw b) = Ret (raw_scalar y) ->
       (let* t := add_raw (LRaw a) (LRaw b) in tl_sum (LRaw t)) = Ret (raw_scalar (n_add x y))) /\
    (forall (a : raw T) c x, wf a -> tl_sum (LRaw a) = Ret (raw_scalar x) ->
       (let* t := mul_raw (raw_scalar c) (LRaw a) in tl_sum (LRaw t)) = Ret (raw_scalar (n_mul c x))).
Proof.
  intros T NT RT. split; [|split].
  - intros a b HP. cbn. do 2 f_equal. apply (lsum_perm RT); auto.
  - intros a b x y Ha Hb Hp Hs Hx Hy. rewrite add_same_shape by auto. cbn [bind tl_sum].
    cbn in Hx, Hy. injection Hx as <-. injection Hy as <-. do 2 f_equal. cbn [array tabulate].
    change (bsum (all_indices (shape a)) (fun i => n_add (tval a i) (tval b i)) = n_add (lsum (array a)) (lsum (array b))).
    rewrite (bsum_add RT). rewrite (array_tabulate a), (array_tabulate b) by auto. rewrite <- Hs. reflexivity.
  - intros a c x Ha Hx. cbn in Hx. injection Hx as <-. cbn. do 2 f_equal.
    change (bsum (array a) (fun x => n_mul c x) = n_mul c (lsum (array a))).
    rewrite (bsum_mul_l RT). f_equal. unfold bsum. rewrite map_id. reflexivity.
Qed.
Example c24_sum_ring_ex :
  is_ring Z /\ (let* t := add_raw (LRaw (mkRaw [1; 2]%Z [2])) (LRaw (mkRaw [3; 4]%Z [2])) in tl_sum (LRaw t)) = Ret (raw_scalar 10%Z).
Proof. split; [exact Z_is_ring|reflexivity]. Qed.

(** ** C25 *)

(** C25: rank-2 [bmm] is the matrix product; operands may be views; dimensions may be zero. *)
Lemma c25_bmm_rank2 :
  forall (T : Type) (NT : Num T) (l r : tlike T) (n k m : nat) (f g : nat -> nat -> T),
    proper l -> proper r -> tl_shape l = [n; k] -> tl_shape r = [k; m] ->
    (forall i t, i < n -> t < k -> tl_get l [i; t] = Ret (Ok (f i t))) ->
    (forall t j, t < k -> j < m -> tl_get r [t; j] = Ret (Ok (g t j))) ->
    exists c, bmm_raw l r = Ret c /\ shape c = [n; m] /\ wf c /\
      forall i j, i < n -> j < m ->
        raw_get c [i; j] = Ret (Ok (fold_left n_add (map (fun t => n_mul (f i t) (g t j)) (seq 0 k)) n_zero)).
Proof.
  intros T NT l r n k m f g Hl Hr Hsl Hsr Hf Hg. apply proper_wf0 in Hl, Hr; auto.
  rewrite (bmm2_ok l r n k m) by auto. eexists. split; [reflexivity|]. split; [reflexivity|].
  split; [apply tabulate_wf|]. intros i j Hi Hj.
  assert (Hij : in_range [n; m] [i; j]) by (repeat constructor; auto).
  unfold mm. rewrite raw_get_in_range; [|apply tabulate_wf|auto]. rewrite tval_tabulate by auto.
  do 2 f_equal. unfold sumn, lsum. f_equal. apply map_ext_in. intros t Ht. apply in_seq in Ht. cbn [ix nth].
  assert (Hit : in_range (tl_shape l) [i; t]) by (rewrite Hsl; repeat constructor; auto; lia).
  assert (Htj : in_range (tl_shape r) [t; j]) by (rewrite Hsr; repeat constructor; auto; lia).
  assert (E1 := tl_get_in_range l _ Hl Hit). assert (E2 := tl_get_in_range r _ Hr Htj).
  rewrite Hf in E1 by lia. rewrite Hg in E2 by lia. congruence.
Qed.
Example c25_bmm_rank2_ex :
  bmm_raw (LRaw (mkRaw [1; 2; 3; 4; 5; 6]%Z [2; 3])) (LRaw (mkRaw [1; 0; 0; 1; 1; 1]%Z [3; 2])) =
    Ret (mkRaw [4; 5; 10; 11]%Z [2; 2]) /\
  exists v, view_new (mkRaw [1; 2; 3; 4; 5; 6]%Z [2; 3]) [mkSR 0 2; mkSR 1 3] = Ret v /\ proper (LView v) /\
    bmm_raw (LRaw (mkRaw [1; 1]%Z [1; 2])) (LView v) = Ret (mkRaw [7; 9]%Z [1; 2]).
Proof. split; [reflexivity|]. eexists. split; [reflexivity|]. split; [|reflexivity]. split; reflexivity. Qed.

(** C25: rank-3 left operand: one matrix product per batch. *)
Lemma c25_bmm_rank3 :
  forall (T : Type) (NT : Num T) (l r : tlike T) (b n k m : nat) (f : nat -> nat -> nat -> T) (g : nat -> nat -> T),
    proper l -> proper r -> tl_shape l = [b; n; k] -> tl_shape r = [k; m] ->
    (forall c i t, c < b -> i < n -> t < k -> tl_get l [c; i; t] = Ret (Ok (f c i t))) ->
    (forall t j, t < k -> j < m -> tl_get r [t; j] = Ret (Ok (g t j))) ->
    exists o, bmm_raw l r = Ret o /\ shape o = [b; n; m] /\ wf o /\
      forall c i j, c < b -> i < n -> j < m ->
        raw_get o [c; i; j] = Ret (Ok (fold_left n_add (map (fun t => n_mul (f c i t) (g t j)) (seq 0 k)) n_zero)).
Proof.
  intros T NT l r b n k m f g Hl Hr Hsl Hsr Hf Hg. apply proper_wf0 in Hl, Hr; auto.
  rewrite (bmm3_ok l r b n k m) by auto. eexists. split; [reflexivity|]. split; [reflexivity|].
  split; [apply tabulate_wf|]. intros c i j Hc Hi Hj.
  assert (Hij : in_range [b; n; m] [c; i; j]) by (repeat constructor; auto).
  rewrite raw_get_in_range; [|apply tabulate_wf|auto]. rewrite tval_tabulate by auto.
  do 2 f_equal. unfold sumn, lsum. f_equal. apply map_ext_in. intros t Ht. apply in_seq in Ht. cbn [ix nth].
  assert (Hit : in_range (tl_shape l) [c; i; t]) by (rewrite Hsl; repeat constructor; auto; lia).
  assert (Htj : in_range (tl_shape r) [t; j]) by (rewrite Hsr; repeat constructor; auto; lia).
  assert (E1 := tl_get_in_range l _ Hl Hit). assert (E2 := tl_get_in_range r _ Hr Htj).
  rewrite Hf in E1 by lia. rewrite Hg in E2 by lia. congruence.
Qed.
Example c25_bmm_rank3_ex :
  bmm_raw (LRaw (mkRaw [1; 2; 3; 4]%Z [2; 1; 2])) (LRaw (mkRaw [1; 0; 0; 1]%Z [2; 2])) =
    Ret (mkRaw [1; 2; 3; 4]%Z [2; 1; 2]).
Proof. reflexivity. Qed.

(** C25: what is refused. *)
Lemma c25_bmm_refused :
  forall (T : Type) (NT : Num T) (l r : tlike T),
    (length (tl_shape l) < 2 \/ length (tl_shape r) <> 2 ->  bmm_raw l r = Panic PAssert) /\
    (forall ls k k' m, tl_shape l = ls ++ [k] -> ls <> [] -> tl_shape r = [k'; m] -> k <> k' ->
       bmm_raw l r = Panic PAssert).
Proof.
  intros T NT l r. split; [apply bmm_refused_rank|].
  intros ls k k' m H1 H2 H3 H4. eapply bmm_refused_inner; eauto.
Qed.
Example c25_bmm_refused_ex :
  bmm_raw (LRaw (mkRaw [1; 2]%Z [2])) (LRaw (mkRaw [1; 2]%Z [2; 1])) = Panic PAssert /\
  bmm_raw (LRaw (mkRaw [1; 2]%Z [1; 2])) (LRaw (mkRaw [1; 2; 3]%Z [3; 1])) = Panic PAssert.
Proof. split; reflexivity. Qed.
