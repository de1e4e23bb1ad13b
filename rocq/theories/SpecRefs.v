(** * Specification vocabulary: references held by a client

    A history is the list of the calls made and what they returned. *)

From Coq Require Import ZArith Bool List.
From Verif Require Import Num Geometry Outcome Steppers Transforms MagicLamp Program GlibParams GlibAnim GlibRefs.
Import ListNotations.
Local Open Scope nat_scope.

Definition gobj_dec (x y : gobj) : {x = y} + {x <> y}.
Proof. decide equality; apply PeanoNat.Nat.eq_dec. Defined.

Section SpecRefs.
Context {F D : Type}.
Definition khistory : Type := list (kop F D * gaout F).
Implicit Types (h : khistory).

(** The object to which a call gives the client a reference: the constructors,
    the stepper getters (all "transfer full") and [g_object_ref]. *)
Definition acquires (p : kop F D * gaout F) : option gobj :=
  match p with
  | (KNewLinear _, RStepper i) | (KNewReverse _, RStepper i) | (KGetStepper _, RStepper i) => Some (OStepper i)
  | (KNew _, RAnim a) => Some (OAnim a)
  | (KRef x, _) => Some x
  | _ => None
  end.
Definition releases (p : kop F D * gaout F) : option gobj :=
  match p with (KUnref x, _) => Some x | _ => None end.
Definition is_obj (x : gobj) (y : option gobj) : bool :=
  match y with Some y => if gobj_dec x y then true else false | None => false end.
Definition acquired h (x : gobj) : nat := length (filter (fun p => is_obj x (acquires p)) h).
Definition released h (x : gobj) : nat := length (filter (fun p => is_obj x (releases p)) h).

(** The client was given more references to [x] than it has dropped. *)
Definition holds h (x : gobj) : Prop := released h x < acquired h x.
(** ... and by at least two. *)
Definition holds_two h (x : gobj) : Prop := S (released h x) < acquired h x.

(** Stepper object [i] was returned by the getter of animation [a]. *)
Definition observes h (i a : nat) : Prop := In (KGetStepper a, RStepper i) h.
(** Stepper object [j] is the reverse of [i]. *)
Definition reverses h (j i : nat) : Prop := In (KNewReverse (Some i), RStepper j) h.

(** A stepper the client may pass to a call: it holds a reference, and if the
    stepper belongs to an animation, one to that animation too. *)
Definition can_use h (i : nat) : Prop :=
  holds h (OStepper i) /\ forall a, observes h i a -> holds h (OAnim a).
Definition can_use_or_null h (i : option nat) : Prop :=
  match i with Some i => can_use h i | None => True end.

(** A client that uses only objects it holds references to, assigns no NULL
    stepper, and keeps one reference to each stepper it got from an animation. *)
Definition careful h (o : kop F D) : Prop :=
  match o with
  | KNewLinear _ => True
  | KNewReverse b => can_use_or_null h b
  | KNew c => can_use_or_null h (args_stepper c)
  | KRef x => holds h x
  | KUnref x => holds h x /\ (forall i a, x = OStepper i -> observes h i a -> holds_two h x)
  | KStepperStep i _ => can_use h i
  | KStep a _ | KGetStepper a | KSetTo a _ _ => holds h (OAnim a)
  | KSetStepper a i => holds h (OAnim a) /\ exists j, i = Some j /\ can_use h j
  | KSet a _ v => holds h (OAnim a) /\
      match v with VObject i => exists j, i = Some j /\ can_use h j | _ => True end
  end.

(** What keeps an object alive: the client, or a reverse stepper made from it
    that is itself kept alive. *)
Inductive kept h : gobj -> Prop :=
| kept_by_client x : holds h x -> kept h x
| kept_by_reverse i j : reverses h j i -> kept h (OStepper j) -> kept h (OStepper i).

(** The object exists and has not been finalized. *)
Definition exists_now (w : gaworld F D) (x : gobj) : Prop :=
  match x with
  | OStepper i => exists s, nth_error (ga_steppers w) i = Some s /\ s <> SGone
  | OAnim a => exists y, nth_error (ga_anims w) a = Some (Some y)
  end.

(** The stepper objects that exist now. *)
Fixpoint steppers_left (l : list (sobj F)) : nat :=
  match l with
  | [] => 0
  | SGone :: t => steppers_left t
  | _ :: t => S (steppers_left t)
  end.

(** Animations made without a stepper. *)
Definition without_stepper (o : kop F D) : bool :=
  match o with KNew c => match args_stepper c with None => true | Some _ => false end | _ => false end.

Context `{Num F} `{Num D} `{Conv F D} `{Libm F} `{Libm D}.

(** Every call of the history is careful. *)
Definition careful_history (ops : list (kop F D)) : Prop :=
  forall pre o post k us, ops = pre ++ o :: post -> k_run k_start pre = Ok (k, us) -> careful (combine pre us) o.

End SpecRefs.
Arguments khistory F D : clear implicits.
