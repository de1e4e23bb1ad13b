(** * Specification vocabulary for programs with anchor variables *)

From Coq Require Import ZArith List.
From Verif Require Import Num Geometry Outcome Wobbly Spec AnchorVars.
Import ListNotations.

Section SpecVars.
Context {T : Type}.

(** What can be told from the text of a program alone: which anchor each variable
    in scope holds (the number of acquisitions made before it), how many were
    acquired, whether the model was destroyed. *)
Record reader : Type := mkReader { r_vars : list (option nat); r_acquired : nat; r_destroyed : bool }.

Definition reader_start : reader := mkReader [] 0 false.

(** Assigning to a variable or leaving its scope releases what it held, after
    the new value was made. *)
Definition let_go (n : option nat) : list (op T) := match n with Some n => [OpRelease n] | None => [] end.
Definition var (r : reader) (v : nat) : option nat := nth v (r_vars r) None.

Definition stands_for (r : reader) (o : vop T) : list (op T) :=
  match o with
  | VDeclare | VInitMove _ => []
  | VInitGrab p => [OpGrab p]
  | VInitInsert p => [OpInsert p]
  | VGrab v p => [OpGrab p] ++ let_go (var r v)
  | VInsert v p => [OpInsert p] ++ let_go (var r v)
  | VMove v x => if Nat.eq_dec v x then [] else let_go (var r v)
  | VClear v => let_go (var r v)
  | VMoveBy v d => match var r v with Some n => [OpMoveAnchor n d] | None => [] end
  | VLeave => let_go (last (r_vars r) None)
  | VStep t => [OpStep t]
  | VMoveModelBy d => [OpMoveBy d]
  | VMoveModelTo p => [OpMoveTo p]
  | VResize a b => [OpResize a b]
  | VSettings st => [OpSettings st]
  | VDestroy => [OpDestroy]
  end.

Definition read (r : reader) (o : vop T) : reader :=
  let acquired := Some (r_acquired r) in
  match o with
  | VDeclare => mkReader (r_vars r ++ [None]) (r_acquired r) (r_destroyed r)
  | VInitGrab _ | VInitInsert _ => mkReader (r_vars r ++ [acquired]) (S (r_acquired r)) (r_destroyed r)
  | VInitMove x => mkReader (list_set x None (r_vars r) ++ [var r x]) (r_acquired r) (r_destroyed r)
  | VGrab v _ | VInsert v _ => mkReader (list_set v acquired (r_vars r)) (S (r_acquired r)) (r_destroyed r)
  | VMove v x => if Nat.eq_dec v x then r
                 else mkReader (list_set v (var r x) (list_set x None (r_vars r))) (r_acquired r) (r_destroyed r)
  | VClear v => mkReader (list_set v None (r_vars r)) (r_acquired r) (r_destroyed r)
  | VLeave => mkReader (removelast (r_vars r)) (r_acquired r) (r_destroyed r)
  | VDestroy => mkReader (r_vars r) (r_acquired r) true
  | _ => r
  end.

Definition read_all (ops : list (vop T)) : reader := fold_left read ops reader_start.

(** The native calls a program stands for. *)
Fixpoint calls_of (r : reader) (ops : list (vop T)) : list (op T) :=
  match ops with
  | [] => []
  | o :: t => stands_for r o ++ calls_of (read r o) t
  end.

Fixpoint each_statement (P : reader -> vop T -> Prop) (r : reader) (ops : list (vop T)) : Prop :=
  match ops with
  | [] => True
  | o :: t => P r o /\ each_statement P (read r o) t
  end.

(** The program compiles: it mentions variables in scope only. *)
Definition in_scope (r : reader) (o : vop T) : Prop :=
  let here v := (v < length (r_vars r))%nat in
  match o with
  | VInitMove x => here x
  | VGrab v _ | VInsert v _ | VClear v | VMoveBy v _ => here v
  | VMove v x => here v /\ here x
  | VLeave => r_vars r <> []
  | _ => True
  end.
Definition compiles (ops : list (vop T)) : Prop := each_statement in_scope reader_start ops.

(** The model outlives its anchors and is not used afterwards; only variables
    that hold an anchor are moved. *)
Definition sane (r : reader) (o : vop T) : Prop :=
  match o with
  | VMoveBy v _ => var r v <> None
  | VInitGrab _ | VInitInsert _ | VGrab _ _ | VInsert _ _ | VStep _ | VMoveModelBy _ | VMoveModelTo _ | VResize _ _ =>
      r_destroyed r = false
  | VDestroy => r_destroyed r = false /\ forall v, var r v = None
  | _ => True
  end.
Definition sane_program (ops : list (vop T)) : Prop := each_statement sane reader_start ops.

(** Every variable is given its anchor in its declaration and keeps it. *)
Definition initialised_only (o : vop T) : Prop :=
  match o with
  | VInitMove _ | VGrab _ _ | VInsert _ _ | VMove _ _ | VClear _ => False
  | _ => True
  end.

(** No anchor is inserted. *)
Definition grabs_only (o : vop T) : Prop :=
  match o with VInitInsert _ | VInsert _ _ => False | _ => True end.

(** A variable that is given an inserted anchor is empty before, and so is every
    other. *)
Definition one_at_a_time (r : reader) (o : vop T) : Prop :=
  match o with
  | VInitInsert _ | VInsert _ _ => forall v, var r v = None
  | _ => True
  end.

(** How often anchor [n] is released. *)
Definition times_released (n : nat) (calls : list (op T)) : nat :=
  length (filter (fun o => match o with OpRelease k => Nat.eqb k n | _ => false end) calls).

End SpecVars.
