(** * Outcomes of a call, and two list updates

    The models of [animation/wobbly] and [animation/magiclamp] return a result
    or the reason why the call does not return normally. *)

From Coq Require Import List.
Import ListNotations.

(** Ways in which a call can fail to return normally. Undefined behaviour is an
    error of its own, never a silent value (asserts: wobbly.cpp:288, 350,
    974-975; throw: wobbly.cpp:786, wobbly_internal.h:845; smart pointers:
    wobbly.h:73-100; array accesses: magiclamp.cpp:131-132, 161-170, 252-259;
    casts: magiclamp.cpp:149-150). *)
Inductive err : Type :=
| UseAfterFree     (* access to freed storage *)
| OutOfBounds      (* array access outside the array *)
| NullDeref        (* use of an empty unique_ptr *)
| AssertFailed     (* assert () *)
| Threw            (* C++ exception leaves the API *)
| MovedFrom        (* moved-from element left in a vector *)
| BadFree          (* delete of storage that new did not return *)
| BadCast          (* floating-point value outside the range of the integer type *)
| NoFuel.          (* the prediction loop did not finish within the fuel *)

(** What a call returns, or how it fails; every public function of
    wobbly.h:102-187 and magiclamp.h:36-70 is modelled with this type. *)
Inductive res (A : Type) : Type :=
| Ok (a : A)
| Err (e : err).
Arguments Ok {A} a.
Arguments Err {A} e.

(** Statements one after the other, as in every function body of wobbly.cpp and
    magiclamp.cpp: the first failure ends the call. *)
Definition bind {A B} (r : res A) (f : A -> res B) : res B :=
  match r with Ok a => f a | Err e => Err e end.
Notation "x <- r ;; k" := (bind r (fun x => k))
  (at level 61, r at next level, right associativity).
Notation "' p <- r ;; k" := (bind r (fun p => k))
  (at level 61, p pattern, r at next level, right associativity).

(** An access that may fail, such as the use of an empty [std::unique_ptr]
    (wobbly.h:85-99) or of an element outside a [std::vector]
    (magiclamp.cpp:161-170). *)
Definition of_option {A} (e : err) (o : option A) : res A :=
  match o with Some a => Ok a | None => Err e end.

(** Replace the [i]-th element ([l] unchanged when [i] is out of range; callers
    check the range) (assignments to array elements: wobbly_internal.h:324, 331;
    magiclamp.cpp:131-132). *)
Fixpoint list_set {A} (i : nat) (a : A) (l : list A) : list A :=
  match l, i with
  | [], _ => []
  | _ :: t, O => a :: t
  | x :: t, S j => x :: list_set j a t
  end.

(** Remove the [i]-th element ([std::vector::erase]) (wobbly_internal.h:849,
    863, 903, 954). *)
Fixpoint list_del {A} (i : nat) (l : list A) : list A :=
  match l, i with
  | [], _ => []
  | _ :: t, O => t
  | x :: t, S j => x :: list_del j t
  end.
