(** * The settings object a model refers to

    A [Model] keeps a reference to the [Settings] object it was made with, not a
    copy (wobbly.cpp:472, 498-504; wobbly_internal.h:715, 1087-1088).  Here the
    client may destroy that object. *)

From Coq Require Import ZArith Bool List.
From Verif Require Import Num Geometry Outcome Wobbly.
Import ListNotations.
Local Open Scope Z_scope.

Section SettingsLife.
Context {T : Type} `{Num T}.

(** A model, and whether its [Settings] object has been destroyed
    (wobbly.cpp:472). *)
Definition owned : Type := (model T * bool)%type.

(** Whether a call gets as far as reading the object: [Integrate] does
    (wobbly.cpp:1046, wobbly_internal.h:1064-1076) and so does the prediction
    (wobbly.cpp:636-640), which [Activate] (wobbly.cpp:1134-1140), the release of
    an activation (wobbly.cpp:1154-1160) and [TargetPosition] (wobbly.cpp:656-673)
    may run.  Simplification: a call that fails for another reason before it reads
    is not told apart. *)
Definition reads_settings (m : model T) (o : op T) : bool :=
  match o with
  | OpGrab _ | OpInsert _ => mcount m =? 0                              (* wobbly.cpp:899-934 *)
  | OpRelease n =>                                                      (* wobbly_internal.h:665-666 *)
      match lookup_handle (mhandles m) n with Some _ => mcount m =? 2 | None => false end
  | OpStep t => 0 <? t                                                  (* wobbly.cpp:1079-1113 *)
  | OpMoveTo _ => negb (active m)                                       (* wobbly.cpp:954-968 *)
  | OpResize w h =>                                                     (* wobbly.cpp:970-1017 *)
      nltb nzero w && nltb nzero h && negb (vequals (mkV (ndiv w (mw m)) (ndiv h (mh m))) (mkV (nof 1) (nof 1)))
      && negb (active m)
  | OpSettings _ => true                                                (* the client writes it *)
  | OpMoveAnchor _ _ | OpMoveBy _ | OpDestroy => false
  end.

Inductive lop : Type :=
| LCall (o : op T)       (* a call of wobbly.h:73-187 *)
| LDropSettings.         (* the client destroys the Settings object *)

(** One call (wobbly.h:73-187); what is read after its destruction is an error. *)
Definition life_do (fuel : nat) (s : owned) (l : lop) : res (owned * out) :=
  match l with
  | LDropSettings => if snd s then Err UseAfterFree else Ok ((fst s, true), ONone)
  | LCall o =>
      if snd s && reads_settings (fst s) o then Err UseAfterFree
      else r <- step_op fuel (fst s) o ;; Ok ((fst r, snd s), snd r)
  end.

(** A history (wobbly.h:73-187). *)
Fixpoint life_run (fuel : nat) (s : owned) (ls : list lop) : res (owned * list out) :=
  match ls with
  | [] => Ok (s, [])
  | l :: t =>
      r <- life_do fuel s l ;;
      r' <- life_run fuel (fst r) t ;;
      Ok (fst r', snd r :: snd r')
  end.

End SettingsLife.

Arguments lop T : clear implicits.
Arguments owned T : clear implicits.
