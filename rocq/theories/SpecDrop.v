(** * SpecDrop: what is alive, and which programs the borrow checker accepts *)
From Coq Require Import Relation_Operators.
From Verif Require Import Base ModelIndex ModelTensor ModelOps ModelJvp ModelGraph ModelHandle ModelDrop SpecGraph SpecHandle.

Section Drop.
Context {T : Type} {NT : Num T}.

Definition operands (c : cmd T) : list nat :=
  match c with
  | CNew _ _ | CFiller _ _ | CScalar _ | CFrom _ => []
  | CAdd x y | CSub x y | CMul x y | CBmm x y | CDot x y | CDotMethod x y | CMulView x y _ | CBmmView x y _ | CUpdateGrad x y => [x; y]
  | CNeg x | CAbs x | CRelu x | CTanh x | CSum x | CDeepClone x | CGrad x | CViewToTensor x _ | CViewSum x _ | CZeroGrad x | CBackward x => [x]
  end.

(** Whether a call binds its result to a new variable *)
Definition binds (c : cmd T) : bool := match c with CUpdateGrad _ _ | CZeroGrad _ | CBackward _ => false | _ => true end.

(** What the compiler checks: only variables that exist and have not ended are used.  [n] variables exist,
    [gone] are those that have ended. *)
Fixpoint in_scope (n : nat) (gone : list nat) (p : list (dcmd T)) : Prop :=
  match p with
  | [] => True
  | DCall c :: p => (forall x, In x (operands c) -> x < n /\ ~ In x gone) /\ in_scope (if binds c then S n else n) gone p
  | DClone x :: p => (x < n /\ ~ In x gone) /\ in_scope (S n) gone p
  | DDrop x :: p => (x < n /\ ~ In x gone) /\ in_scope n (x :: gone) p
  end.

(** No call of [update_grad] by the program itself *)
Definition no_update (p : list (dcmd T)) : Prop :=
  Forall (fun c => match c with DCall c => sets_grad c = false | _ => True end) p.

(** A variable in scope refers to [i]. *)
Definition held (s : dstate T) (i : nat) : Prop := In (Some i) (d_vars s).

(** [i] has been made and not been destroyed. *)
Definition alive (s : dstate T) (i : nat) : Prop := 0 < d_cnt s i.

(** The references to [i] there are: from variables in scope and from tensors alive *)
Definition references (s : dstate T) (i : nat) : nat :=
  length (filter (fun v => same_cell v (Some i)) (d_vars s)) +
  list_sum (map (fun j => if d_cnt s j =? 0 then 0 else occ (owned (hhp (d_h s)) j) i) (seq 0 (length (hnodes (hhp (d_h s)))))).

(** A tensor that holds itself, through however many others *)
Definition on_cycle (s : dstate T) (j : nat) : Prop := exists k, points (hhp (d_h s)) j k /\ holds (hhp (d_h s)) k j.

(** The same statement if nothing is ever destroyed *)
Definition kept (s : hstate T) (c : dcmd T) : outcome (hstate T) :=
  match c with
  | DCall c => h_exec s c
  | DClone x => let* i := vindex (henv s) x in Ret (mkHState (hhp s) (henv s ++ [i]))
  | DDrop _ => Ret s
  end.
Definition kept_all (p : list (dcmd T)) : outcome (hstate T) := foldM kept p h_init.

(** All variables have ended. *)
Definition ended (s : dstate T) : Prop := Forall (fun v => v = None) (d_vars s).

End Drop.
