(** * SpecWord: numbers as machine words *)
From Coq Require Import NArith.
From Verif Require Import Base ModelIndex.
Local Open Scope N_scope.

(** Lists of numbers as lists of [usize], lists that fit in words of [M] values, and ranges *)
Definition words (l : list nat) : list N := map N.of_nat l.
Definition fits (M : N) (l : list nat) : Prop := Forall (fun x => N.of_nat x < M) l.
Definition word_ranges (o : list slice_range) : list (N * N) := map (fun r => (N.of_nat (sr_start r), N.of_nat (sr_end r))) o.

(** The numbers multiplied one by one, from the left, stay below [M]. *)
Inductive no_overflow (M : N) : N -> list N -> Prop :=
| no_nil a : no_overflow M a []
| no_cons a d l : a * d < M -> no_overflow M (a * d) l -> no_overflow M a (d :: l).

(** Product of a list of words *)
Definition prod (l : list N) : N := fold_right N.mul 1 l.
