(** * Steppers

    Models [animation/stepper/stepper.h], [linear.h] and [reverse.h].

    A [Stepper] is a [std::function <float (unsigned int)>]: a hidden state and
    a call that returns a [float] and updates that state.  Copying a stepper
    copies the state (the closures capture by value, linear.h:35, reverse.h:37),
    so a stepper is a value of a state type [St] together with a call function
    [St -> Z -> F * St].  The [Z] argument is an [unsigned int]. *)

From Coq Require Import ZArith List.
From Verif Require Import Num Geometry.
Import ListNotations.
Local Open Scope Z_scope.

(** [unsigned int] values (stepper.h:33). *)
Definition is_u32 (z : Z) : Prop := 0 <= z < 2 ^ 32.

Section Steppers.
Context {F : Type} `{Num F}.

(** The state captured by [Linear (length)] (linear.h:32-35). *)
Record linear : Type := mkLinear { lin_progress : F; lin_length : F }.

(** [Linear (length)] (linear.h:32-39): [progress] starts at 0. *)
Definition linear_new (length : F) : linear := mkLinear nzero length.

(** The call [progress += ms / length; return progress] (linear.h:35-38); [ms]
    is converted to [float] by the division. *)
Definition linear_call (s : linear) (ms : Z) : F * linear :=
  let p := nadd (lin_progress s) (ndiv (nof ms) (lin_length s)) in
  (p, mkLinear p (lin_length s)).

(** The call of [Reverse (step)] (reverse.h:34-41): [1.0f - localStepper (ms)]. *)
Definition reverse_call {St : Type} (call : St -> Z -> F * St) (s : St) (ms : Z) : F * St :=
  let '(v, s') := call s ms in (nsub (nof 1) v, s').

(** The values returned by a sequence of calls, and the final state
    (stepper.h:33). *)
Fixpoint calls {St : Type} (call : St -> Z -> F * St) (s : St) (l : list Z) : list F * St :=
  match l with
  | [] => ([], s)
  | ms :: t =>
      let '(v, s1) := call s ms in
      let '(vs, s2) := calls call s1 t in
      (v :: vs, s2)
  end.

End Steppers.

Arguments linear F : clear implicits.
