(** * Sums: finite sums in a ring.  Nothing about the code. *)
From Coq Require Import Ring Permutation.
From Verif Require Import Base ModelIndex ModelTensor Spec Lists IndexFacts.

Section Sums.
Context {T : Type} {NT : Num T} (RT : is_ring T).
Let RT' : ring_theory n_zero n_one n_add n_mul n_sub n_neg (@eq T) := RT.
Add Ring TRing : RT'.

Notation "x + y" := (n_add x y).
Notation "x * y" := (n_mul x y).

Definition bsum {A : Type} (l : list A) (f : A -> T) : T := lsum (map f l).

Lemma fold_add (l : list T) x : fold_left n_add l x = x + lsum l.
Proof.
  unfold lsum. revert x. induction l as [|a l IH]; intros x; simpl.
  - ring.
  - rewrite IH, (IH (n_zero + a)). ring.
Qed.

Lemma lsum_cons x l : lsum (x :: l) = x + lsum l.
Proof. unfold lsum at 1; simpl. rewrite fold_add. ring. Qed.

Lemma lsum_nil : lsum [] = n_zero.
Proof. reflexivity. Qed.

Lemma lsum_app l1 l2 : lsum (l1 ++ l2) = lsum l1 + lsum l2.
Proof. induction l1; simpl; rewrite ?lsum_cons, ?lsum_nil, ?IHl1; ring. Qed.

Lemma lsum_perm l1 l2 : Permutation l1 l2 -> lsum l1 = lsum l2.
Proof. induction 1; rewrite ?lsum_cons; auto; try congruence; ring. Qed.

Lemma bsum_nil A (f : A -> T) : bsum [] f = n_zero.
Proof. reflexivity. Qed.
Lemma bsum_cons A a l (f : A -> T) : bsum (a :: l) f = f a + bsum l f.
Proof. apply lsum_cons. Qed.
Lemma bsum_app A l1 l2 (f : A -> T) : bsum (l1 ++ l2) f = bsum l1 f + bsum l2 f.
Proof. unfold bsum. rewrite map_app. apply lsum_app. Qed.

Lemma bsum_ext A l (f g : A -> T) : (forall a, In a l -> f a = g a) -> bsum l f = bsum l g.
Proof. intros H. unfold bsum. f_equal. apply map_ext_in; auto. Qed.

Lemma bsum_zero A (l : list A) : bsum l (fun _ => n_zero) = n_zero.
Proof. induction l; rewrite ?bsum_cons, ?bsum_nil, ?IHl; ring. Qed.

Lemma bsum_zero' A (l : list A) f : (forall a, In a l -> f a = n_zero) -> bsum l f = n_zero.
Proof. intros H. rewrite (bsum_ext _ _ f (fun _ => n_zero)) by auto. apply bsum_zero. Qed.

Lemma bsum_add A l (f g : A -> T) : bsum l (fun a => f a + g a) = bsum l f + bsum l g.
Proof. induction l; rewrite ?bsum_cons, ?bsum_nil, ?IHl; ring. Qed.

Lemma bsum_mul_l A l c (f : A -> T) : bsum l (fun a => c * f a) = c * bsum l f.
Proof. induction l; rewrite ?bsum_cons, ?bsum_nil, ?IHl; ring. Qed.

Lemma bsum_mul_r A l c (f : A -> T) : bsum l (fun a => f a * c) = bsum l f * c.
Proof. induction l; rewrite ?bsum_cons, ?bsum_nil, ?IHl; ring. Qed.

Lemma bsum_neg A l (f : A -> T) : bsum l (fun a => n_neg (f a)) = n_neg (bsum l f).
Proof. induction l; rewrite ?bsum_cons, ?bsum_nil, ?IHl; ring. Qed.

Lemma bsum_swap A B (l1 : list A) (l2 : list B) (f : A -> B -> T) :
  bsum l1 (fun a => bsum l2 (fun b => f a b)) = bsum l2 (fun b => bsum l1 (fun a => f a b)).
Proof.
  induction l1; rewrite ?bsum_cons, ?bsum_nil.
  - symmetry. apply bsum_zero.
  - rewrite IHl1, <- bsum_add. apply bsum_ext. intros b _. rewrite bsum_cons. reflexivity.
Qed.

Lemma bsum_map A B (h : A -> B) l (f : B -> T) : bsum (map h l) f = bsum l (fun a => f (h a)).
Proof. unfold bsum. rewrite map_map. reflexivity. Qed.

Lemma bsum_flat_map A B (h : A -> list B) l (f : B -> T) :
  bsum (flat_map h l) f = bsum l (fun a => bsum (h a) f).
Proof. induction l; simpl; rewrite ?bsum_cons, ?bsum_app, ?IHl; reflexivity. Qed.

Lemma bsum_perm A (l1 l2 : list A) f : Permutation l1 l2 -> bsum l1 f = bsum l2 f.
Proof. intros H. apply lsum_perm. apply Permutation_map; auto. Qed.

(** Picking one term out *)
Lemma bsum_delta A (eqb : A -> A -> bool) l (a : A) (f : A -> T) :
  (forall x y, eqb x y = true <-> x = y) -> NoDup l -> In a l ->
  bsum l (fun x => if eqb x a then f x else n_zero) = f a.
Proof.
  intros Heq Hnd. induction Hnd as [|x l Hx Hl IH]; intros Hin; [inversion Hin|].
  rewrite bsum_cons. destruct Hin as [->|Hin].
  - rewrite (proj2 (Heq a a) eq_refl). rewrite bsum_zero'; [ring|].
    intros b Hb. destruct (eqb b a) eqn:E; auto. apply Heq in E. subst. contradiction.
  - rewrite IH by auto. destruct (eqb x a) eqn:E; [apply Heq in E; subst; contradiction|]. ring.
Qed.

Lemma bsum_seq_delta n k (f : nat -> T) :
  k < n -> bsum (seq 0 n) (fun x => if x =? k then f x else n_zero) = f k.
Proof.
  intros H. apply bsum_delta.
  - intros; apply Nat.eqb_eq.
  - apply seq_NoDup.
  - apply in_seq; lia.
Qed.

Lemma sumn_bsum n f : sumn n f = bsum (seq 0 n) f.
Proof. reflexivity. Qed.

Lemma bsum_all_indices_2 n m f :
  bsum (all_indices [n; m]) f = bsum (seq 0 n) (fun i => bsum (seq 0 m) (fun j => f [i; j])).
Proof.
  change (all_indices [n; m]) with
    (flat_map (fun x => map (cons x) (flat_map (fun y => [[y]]) (seq 0 m))) (seq 0 n)).
  rewrite bsum_flat_map. apply bsum_ext. intros i _. rewrite bsum_map, bsum_flat_map.
  apply bsum_ext. intros j _. unfold bsum; simpl. rewrite lsum_cons, lsum_nil. ring.
Qed.

(** Grouping a sum by a key *)
Lemma bsum_group A B (eqb : B -> B -> bool) (l : list A) (keys : list B) (key : A -> B) (f : A -> T) :
  (forall x y, eqb x y = true <-> x = y) -> NoDup keys -> (forall a, In a l -> In (key a) keys) ->
  bsum keys (fun b => bsum l (fun a => if eqb (key a) b then f a else n_zero)) = bsum l f.
Proof.
  intros Heq Hnd Hk. rewrite bsum_swap. apply bsum_ext. intros a Ha.
  rewrite (bsum_ext _ _ _ (fun b => if eqb b (key a) then f a else n_zero)).
  - rewrite (bsum_delta _ eqb _ (key a) (fun _ => f a)); auto.
  - intros b _. destruct (eqb (key a) b) eqn:E1; destruct (eqb b (key a)) eqn:E2; auto.
    + apply Heq in E1. subst. rewrite (proj2 (Heq _ _) eq_refl) in E2. discriminate.
    + apply Heq in E2. subst. rewrite (proj2 (Heq _ _) eq_refl) in E1. discriminate.
Qed.

End Sums.
