(** * QueueFacts: sending first and receiving afterwards is the same as delivering each message at once *)
From Coq Require Import Arith.
From Verif Require Import Base Lists ModelIndex ModelTensor ModelOps ModelJvp ModelUsize SpecRust JvpFacts.

Definition fine {A} (o : outcome A) : Prop := o <> NoFuel.
(** The same result, or a panic on both sides *)
Definition sim {A} (o o' : outcome A) : Prop := fine o /\ fine o' /\ forall x, o = Ret x <-> o' = Ret x.

Lemma bind_ret_iff A B (m : outcome A) (f : A -> outcome B) x : bind m f = Ret x <-> exists a, m = Ret a /\ f a = Ret x.
Proof. destruct m as [a|p|]; cbn [bind]; split; [intros H; now exists a|intros (a' & Q & H); now injection Q as <-|easy|intros (a' & Q & H); discriminate|easy|intros (a' & Q & H); discriminate]. Qed.
Lemma fine_bind A B (m : outcome A) (f : A -> outcome B) : fine m -> (forall a, m = Ret a -> fine (f a)) -> fine (bind m f).
Proof. unfold fine. destruct m; cbn [bind]; auto. discriminate. Qed.
Lemma fine_ret A (a : A) : fine (Ret a).
Proof. discriminate. Qed.
Lemma fine_panic A p : fine (@Panic A p).
Proof. discriminate. Qed.
Lemma sim_refl A (o : outcome A) : fine o -> sim o o.
Proof. intros F. repeat split; auto. Qed.
Lemma sim_panic A p q : sim (@Panic A p) (Panic q).
Proof. repeat split; discriminate. Qed.
Lemma sim_sym A (o o' : outcome A) : sim o o' -> sim o' o.
Proof. intros (F & F' & H). repeat split; auto; apply H. Qed.
Lemma sim_trans A (o1 o2 o3 : outcome A) : sim o1 o2 -> sim o2 o3 -> sim o1 o3.
Proof. intros (F1 & F2 & H) (_ & F3 & H'). split; [auto|]. split; [auto|]. intros x. rewrite H. apply H'. Qed.
Lemma sim_bind A B (m m' : outcome A) (f f' : A -> outcome B) : sim m m' -> (forall a, m = Ret a -> sim (f a) (f' a)) -> sim (bind m f) (bind m' f').
Proof.
  intros (F & F' & H) G. split; [|split].
  - apply fine_bind; auto. intros a Ha. apply G, Ha.
  - apply fine_bind; auto. intros a Ha. apply H in Ha. apply (G a Ha).
  - intros x. rewrite !bind_ret_iff. split; intros (a & Ha & Hx); exists a.
    + split; [now apply H|]. now apply (G a Ha).
    + apply H in Ha. split; [exact Ha|]. now apply (G a Ha).
Qed.
Lemma fine_foldM A B (f : A -> B -> outcome A) l : (forall a b, In b l -> fine (f a b)) -> forall a, fine (foldM f l a).
Proof. induction l as [|b l IH]; intros H a; cbn [foldM]; [discriminate|]. apply fine_bind; [apply H; now left|]. intros a' _. apply IH. intros; apply H. now right. Qed.
Lemma fine_mapM A B (f : A -> outcome B) l : (forall a, In a l -> fine (f a)) -> fine (mapM f l).
Proof. induction l as [|a l IH]; intros H; cbn [mapM]; [discriminate|]. apply fine_bind; [apply H; now left|]. intros b _. apply fine_bind; [|discriminate]. apply IH. intros; apply H. now right. Qed.
Lemma fine_vindex A (l : list A) i : fine (vindex l i).
Proof. unfold vindex. destruct (nth_error l i); discriminate. Qed.
Lemma fine_vset A (l : list A) i x : fine (vset l i x).
Proof. unfold vset. destruct (i <? length l); discriminate. Qed.
Lemma fine_assert b : fine (assert b).
Proof. destruct b; discriminate. Qed.
Lemma foldM_app A B (f : A -> B -> outcome A) l l' : forall a, foldM f (l ++ l') a = let* b := foldM f l a in foldM f l' b.
Proof. induction l as [|b l IH]; intros a; cbn [foldM app bind]; [easy|]. destruct (f a b); cbn [bind]; auto. Qed.

Lemma nth_error_combine A B (l : list A) : forall (m : list B) i a b, nth_error l i = Some a -> nth_error m i = Some b -> nth_error (combine l m) i = Some (a, b).
Proof. induction l as [|x l IH]; intros [|y m] [|i] a b Ha Hb; cbn in *; try easy; [congruence|]. now apply IH. Qed.

Section Queue.
Context {U : usize_ops} {T : Type} {NT : Num T}.
Hypothesis UF : defined U.
Notation msg := (nat * T)%type.

(** [senders[global_idx >> bit_width].send((global_idx, val))]: functional/misc.rs:173-176 *)
Definition q_send (q : list (list msg)) (m : msg) : outcome (list (list msg)) :=
  let i := Nat.shiftr (fst m) bit_width in
  let* l := vindex q i in vset q i (l ++ [m]).
(** Every receiver takes what is in its channel: functional/misc.rs:184-199 *)
Definition recv_all (q : list (list msg)) (segs : list (list T)) : outcome (list (list T)) :=
  mapM (fun p => foldM (u_receive (fst p)) (snd (snd p)) (fst (snd p))) (combine (seq 0 (length segs)) (combine segs q)).

Lemma fine_send q m : fine (q_send q m).
Proof. unfold q_send. apply fine_bind; [apply fine_vindex|]. intros l _. apply fine_vset. Qed.
Lemma fine_receive c s m : fine (u_receive c s m).
Proof.
  destruct m as [g x]. unfold u_receive. destruct UF as (Fa & Fm & Fs). apply fine_bind; [apply Fm|]. intros st _. apply fine_bind; [apply Fs|]. intros i _.
  apply fine_bind; [apply fine_assert|]. intros _ _. apply fine_bind; [apply fine_vindex|]. intros y _. apply fine_vset.
Qed.
Lemma fine_deliver segs m : fine (u_deliver segs m).
Proof.
  unfold u_deliver, writer_channel. cbv zeta. apply fine_bind; [destruct (_ <? _); discriminate|]. intros c _. apply fine_bind; [apply fine_vindex|].
  intros s _. apply fine_bind; [apply fine_receive|]. intros s' _. apply fine_vset.
Qed.
Lemma fine_recv q segs : fine (recv_all q segs).
Proof. apply fine_mapM. intros [c [s l]] _. apply fine_foldM. intros a b _. apply fine_receive. Qed.
Lemma send_length q m q' : q_send q m = Ret q' -> length q' = length q.
Proof. unfold q_send. rewrite bind_ret_iff. intros (l & _ & H). unfold vset in H. destruct (_ <? _); [|discriminate]. injection H as <-. apply list_set_length. Qed.
Lemma recv_length q segs segs1 : length q = length segs -> recv_all q segs = Ret segs1 -> length segs1 = length segs.
Proof.
  intros L H. apply mapM_length in H. rewrite H, !combine_length, seq_length. lia.
Qed.

Lemma mapM_set A B (f : A -> outcome B) (g : B -> outcome B) x : forall l c a, nth_error l c = Some a -> (f x = let* b := f a in g b) ->
  (forall a, In a l -> fine (f a)) -> (forall b, fine (g b)) ->
  sim (mapM f (list_set l c x)) (let* r := mapM f l in let* b := vindex r c in let* b' := g b in vset r c b').
Proof.
  induction l as [|y l IH]; intros [|c] a Hn Hx Fl Fg; try discriminate Hn.
  - injection Hn as ->. cbn [list_set mapM]. rewrite Hx. 
    assert (Fa : fine (f a)) by (apply Fl; now left). assert (Fm : fine (mapM f l)) by (apply fine_mapM; intros; apply Fl; now right).
    destruct (f a) as [b|p|]; cbn [bind]; [|apply sim_panic|now destruct Fa].
    specialize (Fg b). destruct (g b) as [b'|p|] eqn:Eg; cbn [bind]; [| |now destruct Fg].
    + destruct (mapM f l) as [r|p|]; cbn [bind]; [|apply sim_panic|now destruct Fm]. unfold vindex. cbn [nth_error bind]. rewrite Eg. cbn [bind].
      apply sim_refl. discriminate.
    + destruct (mapM f l) as [r|q|]; cbn [bind]; [|apply sim_panic|now destruct Fm]. unfold vindex. cbn [nth_error bind]. rewrite Eg. apply sim_panic.
  - cbn [nth_error] in Hn. specialize (IH c a Hn Hx (fun a H => Fl a (or_intror H)) Fg). cbn [list_set mapM].
    rewrite !bind_assoc. apply sim_bind; [apply sim_refl, Fl; now left|]. intros y' _. rewrite !bind_assoc.
    apply sim_trans with (let* r1 := (let* r := mapM f l in let* b := vindex r c in let* b' := g b in vset r c b') in Ret (y' :: r1)).
    { apply sim_bind; [exact IH|]. intros r _. apply sim_refl. discriminate. }
    rewrite !bind_assoc. apply sim_bind; [apply sim_refl, fine_mapM; intros; apply Fl; now right|]. intros r _. cbn [bind].
    assert (Q : vindex (y' :: r) (S c) = vindex r c) by reflexivity. rewrite Q. rewrite !bind_assoc. apply sim_bind; [apply sim_refl, fine_vindex|]. intros b _.
    rewrite !bind_assoc. apply sim_bind; [apply sim_refl, Fg|]. intros b' _. unfold vset. cbn [length].
    change (S c <? S (length r)) with (c <? length r). destruct (c <? length r); cbn [bind list_set]; apply sim_refl; discriminate.
Qed.
Lemma combine_set A B (l : list A) : forall (q : list B) c x, combine l (list_set q c x)
  = match nth_error l c with Some a => list_set (combine l q) c (a, x) | None => combine l q end.
Proof.
  induction l as [|a l IH]; intros [|b q] c x; cbn [combine list_set]; [now destruct c..| |].
  - destruct (nth_error (a :: l) c); destruct c; reflexivity.
  - destruct c as [|c]; cbn [list_set combine nth_error]; [easy|]. rewrite IH. destruct (nth_error l c); easy.
Qed.

(** One more message in its channel: received last *)
Lemma send_recv q segs m : length q = length segs ->
  sim (let* q1 := q_send q m in recv_all q1 segs) (let* segs1 := recv_all q segs in u_deliver segs1 m).
Proof.
  intros L. unfold q_send, u_deliver, writer_channel. cbv zeta. set (c := Nat.shiftr (fst m) bit_width).
  assert (RL : forall s1, recv_all q segs = Ret s1 -> length s1 = length segs) by (intros s1; now apply recv_length).
  destruct (nth_error q c) as [l|] eqn:Eq.
  - assert (Lc : c < length q) by (apply nth_error_Some; congruence).
    unfold vindex at 1. rewrite Eq. cbn [bind]. unfold vset at 1. destruct (Nat.ltb_spec c (length q)) as [_|H]; [|lia]. cbn [bind].
    destruct (nth_error segs c) as [s|] eqn:Es; [|apply nth_error_None in Es; lia].
    assert (Q : combine (seq 0 (length segs)) (combine segs (list_set q c (l ++ [m])))
              = list_set (combine (seq 0 (length segs)) (combine segs q)) c (c, (s, l ++ [m]))).
    { rewrite combine_set, Es, combine_set. rewrite (nth_error_nth' _ 0) by (rewrite seq_length; lia). rewrite seq_nth by lia. reflexivity. }
    unfold recv_all at 1. rewrite Q. clear Q.
    eapply sim_trans.
    { apply (mapM_set _ _ _ (fun s => u_receive c s m) _ _ c (c, (s, l))).
      - apply nth_error_combine.
        + rewrite (nth_error_nth' _ 0) by (rewrite seq_length; lia). rewrite seq_nth by lia. reflexivity.
        + apply nth_error_combine; easy.
      - cbn [fst snd]. rewrite foldM_app. destruct (foldM (u_receive c) l s); cbn [bind]; try easy. cbn [foldM]. now destruct (u_receive c _ m).
      - intros [c' [s' l']] _. apply fine_foldM. intros; apply fine_receive.
      - intros b. apply fine_receive. }
    fold (recv_all q segs). apply sim_bind; [apply sim_refl, fine_recv|]. intros s1 H1. apply RL in H1. rewrite H1, <- L.
    destruct (Nat.ltb_spec c (length q)) as [_|H]; [|lia]. cbn [bind]. apply sim_refl.
    apply fine_bind; [apply fine_vindex|]. intros b _. apply fine_bind; [apply fine_receive|]. intros b' _. apply fine_vset.
  - unfold vindex at 1. rewrite Eq. cbn [bind]. apply nth_error_None in Eq. split; [discriminate|]. split.
    + apply fine_bind; [apply fine_recv|]. intros s1 _. apply fine_bind; [destruct (_ <? _); discriminate|]. intros c' _.
      apply fine_bind; [apply fine_vindex|]. intros b _. apply fine_bind; [apply fine_receive|]. intros b' _. apply fine_vset.
    + intros x. split; [discriminate|]. rewrite bind_ret_iff. intros (s1 & H1 & H). apply RL in H1. rewrite H1 in H.
      destruct (Nat.ltb_spec c (length segs)) as [H2|_]; [lia|discriminate].
Qed.
Lemma sends_recv : forall ms q segs, length q = length segs ->
  sim (let* q1 := foldM q_send ms q in recv_all q1 segs) (let* segs1 := recv_all q segs in foldM u_deliver ms segs1).
Proof.
  induction ms as [|m ms IH]; intros q segs L; cbn [foldM bind].
  - destruct (recv_all q segs) as [s|p|] eqn:Er; cbn [bind]; [apply sim_refl; discriminate..|]. exfalso. now apply (fine_recv q segs).
  - rewrite bind_assoc. apply sim_trans with (let* q1 := q_send q m in let* segs1 := recv_all q1 segs in foldM u_deliver ms segs1).
    { apply sim_bind; [apply sim_refl, fine_send|]. intros q1 H1. apply IH. apply send_length in H1. congruence. }
    rewrite <- !bind_assoc. 
    apply sim_bind; [now apply send_recv|]. intros s _. apply sim_refl, fine_foldM. intros; apply fine_deliver.
Qed.
Lemma recv_none (segs : list (list T)) : recv_all (repeat [] (length segs)) segs = Ret segs.
Proof.
  unfold recv_all. generalize 0. induction segs as [|s segs IH]; intros n; cbn [length repeat seq combine mapM]; [easy|].
  cbn [fst snd foldM bind]. now rewrite IH.
Qed.
(** All messages sent, then received by the channels' receivers in turn; or each delivered at once *)
Lemma queue_deliver ms (segs : list (list T)) :
  sim (let* q := foldM q_send ms (repeat [] (length segs)) in recv_all q segs) (foldM u_deliver ms segs).
Proof.
  pose proof (sends_recv ms (repeat [] (length segs)) segs (repeat_length _ _)) as H. rewrite recv_none in H. exact H.
Qed.
End Queue.

Section Places.
Context {U : usize_ops} {T : Type} {NT : Num T}.
Notation msg := (nat * T)%type.
(** Where segments lie in the array they are parts of: functional/misc.rs:155 *)
Fixpoint places (segs : list (list T)) : list (nat * nat) :=
  match segs with [] => [] | s :: r => (length (concat (rev r)), length s) :: places r end.
Lemma places_length segs : length (places segs) = length segs.
Proof. induction segs; cbn; auto. Qed.

(** A receiver's turn, in the array: functional/misc.rs:191-196 *)
Definition a_receive (c : nat) (p : nat * nat) (A : list T) (m : msg) : outcome (list T) :=
  let* start := u_mul c width in
  let* i := u_sub (fst m) start in
  assert (i <? snd p) ;;
  (let* old := (if i <? snd p then vindex A (fst p + i) else Panic PIndex) in
   if i <? snd p then vset A (fst p + i) (n_add old (snd m)) else Panic PIndex).

Lemma vindex_mid A (X s Y : list A) i : i < length s -> vindex (X ++ s ++ Y) (length X + i) = vindex s i.
Proof.
  intros H. unfold vindex. rewrite nth_error_app2 by lia. replace (length X + i - length X) with i by lia. now rewrite nth_error_app1.
Qed.
Lemma list_set_app A (l m : list A) i x : list_set (l ++ m) (length l + i) x = l ++ list_set m i x.
Proof. induction l as [|a l IH]; cbn [app length Nat.add list_set]; [easy|]. now rewrite IH. Qed.
Lemma list_set_app1 A (l m : list A) : forall i x, i < length l -> list_set (l ++ m) i x = list_set l i x ++ m.
Proof. induction l as [|a l IH]; intros [|i] x H; cbn [app length list_set] in *; try lia; [easy|]. rewrite IH by lia. easy. Qed.
Lemma a_receive_ok c X s Y m : a_receive c (length X, length s) (X ++ s ++ Y) m = let* s' := u_receive c s m in Ret (X ++ s' ++ Y).
Proof.
  destruct m as [g x]. unfold a_receive, u_receive. cbn [fst snd]. destruct (u_mul c width) as [start|p|]; cbn [bind]; [|easy..].
  destruct (u_sub g start) as [i|p|]; cbn [bind]; [|easy..]. destruct (Nat.ltb_spec i (length s)) as [H|H]; cbn [assert bind]; [|easy].
  rewrite vindex_mid by exact H. destruct (vindex s i) as [old|p|]; cbn [bind]; [|easy..]. unfold vset. rewrite !app_length.
  destruct (Nat.ltb_spec (length X + i) (length X + (length s + length Y))) as [_|Q]; [|lia].
  destruct (Nat.ltb_spec i (length s)) as [_|Q]; [|lia]. cbn [bind]. rewrite list_set_app, list_set_app1 by exact H. easy.
Qed.
Lemma receive_length c (s : list T) m s' : u_receive c s m = Ret s' -> length s' = length s.
Proof.
  destruct m as [g x]. unfold u_receive. rewrite bind_ret_iff. intros (st & _ & H). rewrite bind_ret_iff in H. destruct H as (i & _ & H).
  rewrite bind_ret_iff in H. destruct H as (u & _ & H). rewrite bind_ret_iff in H. destruct H as (o & _ & H). unfold vset in H.
  destruct (_ <? _); [|discriminate]. injection H as <-. apply list_set_length.
Qed.
Lemma a_receives c X Y ms : forall s n, n = length s -> foldM (a_receive c (length X, n)) ms (X ++ s ++ Y)
  = let* s' := foldM (u_receive c) ms s in Ret (X ++ s' ++ Y).
Proof.
  induction ms as [|m ms IH]; intros s n ->; cbn [foldM bind]; [easy|]. rewrite a_receive_ok. destruct (u_receive c s m) as [s'|p|] eqn:Er; cbn [bind]; [|easy..].
  apply IH. now apply receive_length in Er.
Qed.
Definition a_recv_all (q : list (list msg)) (ps : list (nat * nat)) (n : nat) (A : list T) : outcome (list T) :=
  foldM (fun A p => foldM (a_receive (fst p) (fst (snd p))) (snd (snd p)) A) (combine (seq n (length ps)) (combine ps q)) A.
Lemma a_recv_ok : forall (segs : list (list T)) q n Y, length q = length segs ->
  a_recv_all q (places segs) n (concat (rev segs) ++ Y)
  = let* segs' := mapM (fun p => foldM (u_receive (fst p)) (snd (snd p)) (fst (snd p))) (combine (seq n (length segs)) (combine segs q)) in
    Ret (concat (rev segs') ++ Y).
Proof.
  unfold a_recv_all. induction segs as [|s segs IH]; intros [|m q] n Y L; cbn [length] in L; try discriminate L; [reflexivity|].
  cbn [places length seq combine foldM mapM fst snd rev]. rewrite concat_app. cbn [concat]. rewrite app_nil_r, <- app_assoc. rewrite a_receives by easy.
  destruct (foldM (u_receive n) m s) as [s'|p|]; cbn [bind]; [|easy..]. rewrite (IH q (S n) (s' ++ Y)) by lia.
  destruct (mapM _ _) as [segs'|p|]; cbn [bind]; [|easy..]. cbn [rev]. rewrite concat_app. cbn [concat]. rewrite app_nil_r, <- app_assoc. easy.
Qed.
(** The receivers' turns in the array are those in its segments. *)
Lemma a_recv_split q (arr : list T) : length q = length (split_new arr) ->
  a_recv_all q (places (split_new arr)) 0 arr = let* segs' := recv_all q (split_new arr) in Ret (split_join segs').
Proof.
  intros L. pose proof (a_recv_ok (split_new arr) q 0 [] L) as H. rewrite app_nil_r in H.
  replace (concat (rev (split_new arr))) with arr in H by (symmetry; unfold split_new; apply (split_join_rchunks arr width); unfold width; lia).
  rewrite H. unfold recv_all. destruct (mapM _ _) as [s|p|]; cbn [bind]; [|easy..]. now rewrite app_nil_r.
Qed.
End Places.

Section Emit.
Context {U : usize_ops} {T : Type} {NT : Num T}.
Notation msg := (nat * T)%type.
Notation queues := (list (list msg) * list (list msg))%type.
Definition send_both (l : list (msg * msg)) (st : queues) : outcome queues :=
  let* a := foldM q_send (map fst l) (fst st) in let* b := foldM q_send (map snd l) (snd st) in Ret (a, b).
Lemma fine_sends (ms : list msg) q : fine (foldM q_send ms q).
Proof. apply fine_foldM. intros; apply fine_send. Qed.
Lemma fine_both l st : fine (send_both l st).
Proof. unfold send_both. apply fine_bind; [apply fine_sends|]. intros a _. apply fine_bind; [apply fine_sends|]. discriminate. Qed.
Lemma sim_swap A B C (m : outcome A) (n : outcome B) (k : A -> B -> outcome C) : fine m -> fine n -> (forall a b, fine (k a b)) ->
  sim (let* a := m in let* b := n in k a b) (let* b := n in let* a := m in k a b).
Proof.
  intros Fm Fn Fk. destruct m as [a|p|]; [| |now destruct Fm]; destruct n as [b|q|]; try (now destruct Fn); cbn [bind]; try apply sim_panic.
  apply sim_refl, Fk.
Qed.
Lemma both_app l l' st : sim (let* s := send_both l st in send_both l' s) (send_both (l ++ l') st).
Proof.
  unfold send_both. rewrite !map_app, !foldM_app, !bind_assoc. apply sim_bind; [apply sim_refl, fine_sends|]. intros a _. rewrite bind_assoc.
  cbn [bind fst snd].
  apply sim_trans with (let* b := foldM q_send (map snd l) (snd st) in let* a' := foldM q_send (map fst l') a in let* b' := foldM q_send (map snd l') b in Ret (a', b')).
  { apply sim_refl. apply fine_bind; [apply fine_sends|]. intros b _. apply fine_bind; [apply fine_sends|]. intros a' _. apply fine_bind; [apply fine_sends|]. discriminate. }
  eapply sim_trans.
  { apply (sim_swap _ _ _ (foldM q_send (map snd l) (snd st)) (foldM q_send (map fst l') a)
      (fun b a' => let* b' := foldM q_send (map snd l') b in Ret (a', b'))); [apply fine_sends..|]. intros b a'. apply fine_bind; [apply fine_sends|]. discriminate. }
  apply sim_bind; [apply sim_refl, fine_sends|]. intros a' _. rewrite bind_assoc. apply sim_refl.
  apply fine_bind; [apply fine_sends|]. intros b _. apply fine_bind; [apply fine_sends|]. discriminate.
Qed.
Lemma both_app' l l' st : sim (send_both (l ++ l') st) (let* s := send_both l st in send_both l' s).
Proof. apply sim_sym, both_app. Qed.

Lemma emits_fold X (f : queues -> X -> outcome queues) (task : X -> outcome (list (msg * msg))) xs : (forall x, fine (task x)) ->
  (forall x st, sim (f st x) (let* l := task x in send_both l st)) ->
  forall st, sim (foldM f xs st) (let* ls := mapM task xs in send_both (concat ls) st).
Proof.
  intros Ft H. induction xs as [|x xs IH]; intros st; cbn [foldM mapM bind concat].
  - destruct st. apply sim_refl. discriminate.
  - eapply sim_trans; [apply sim_bind; [apply H|intros st1 _; apply IH]|]. rewrite !bind_assoc.
    apply sim_bind; [apply sim_refl, Ft|]. intros l _. rewrite bind_assoc.
    assert (Fm : fine (mapM task xs)) by (apply fine_mapM; intros; apply Ft).
    eapply sim_trans; [apply sim_swap; [apply fine_both|exact Fm|intros; apply fine_both]|].
    apply sim_bind; [apply sim_refl, Fm|]. intros ls _. cbn [bind concat]. apply both_app.
Qed.
Lemma emits_rows X (f : queues -> X -> outcome queues) (row : X -> outcome (msg * msg)) xs : (forall x, fine (row x)) ->
  (forall x st, sim (f st x) (let* m := row x in send_both [m] st)) ->
  forall st, sim (foldM f xs st) (let* l := mapM row xs in send_both l st).
Proof.
  intros Fr H st. eapply sim_trans.
  { apply (emits_fold X f (fun x => let* m := row x in Ret [m])).
    - intros x. apply fine_bind; [apply Fr|]. discriminate.
    - intros x s. rewrite bind_assoc. apply H. }
  assert (Q : forall xs, mapM (fun x => let* m := row x in Ret [m]) xs = let* l := mapM row xs in Ret (map (fun y => [y]) l)).
  { clear. induction xs as [|x xs IH]; cbn [mapM bind]; [easy|]. destruct (row x); cbn [bind]; [|easy..]. rewrite IH. destruct (mapM row xs); easy. }
  rewrite Q, bind_assoc. assert (Fm : fine (mapM row xs)) by (apply fine_mapM; intros; apply Fr).
  apply sim_bind; [apply sim_refl, Fm|]. intros l _. cbn [bind].
  assert (Q2 : concat (map (fun y : msg * msg => [y]) l) = l) by (induction l; cbn; congruence). rewrite Q2. apply sim_refl, fine_both.
Qed.
Lemma foldM_prod A B C (f : A -> B * C -> outcome A) xs ys : forall a,
  foldM f (list_prod xs ys) a = foldM (fun a x => foldM (fun a y => f a (x, y)) ys a) xs a.
Proof.
  induction xs as [|x xs IH]; intros a; cbn [list_prod foldM]; [easy|]. rewrite foldM_app.
  assert (Q : forall ys a, foldM f (map (fun y => (x, y)) ys) a = foldM (fun a y => f a (x, y)) ys a).
  { clear. induction ys as [|y ys IH]; intros a; cbn [map foldM]; [easy|]. destruct (f a (x, y)); cbn [bind]; auto. }
  rewrite Q. destruct (foldM _ ys a); cbn [bind]; auto.
Qed.
End Emit.
