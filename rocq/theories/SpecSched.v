(** * SpecSched: outcomes that differ only in which panic is reported *)
From Verif Require Import Base.

(** Both return, with related results, or both panic. *)
Definition alike {X Y : Type} (P : X -> Y -> Prop) (m : outcome X) (m' : outcome Y) : Prop :=
  match m, m' with
  | Ret x, Ret y => P x y
  | Panic _, Panic _ => True
  | NoFuel, NoFuel => True
  | _, _ => False
  end.
