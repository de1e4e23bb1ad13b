(** * Client programs with [wobbly::Anchor] variables

    [wobbly::Anchor] owns the anchor through a [std::unique_ptr]
    (wobbly.h:73-100): it can be default-constructed, moved and assigned from a
    temporary, and its destructor releases the anchor (wobbly.cpp:93-111).  The
    standard's [unique_ptr] assignment stores the new pointer before it deletes
    the old one; assigning a variable to itself changes nothing. *)

From Coq Require Import ZArith List.
From Verif Require Import Num Geometry Outcome Wobbly.
Import ListNotations.

Section AnchorVars.
Context {T : Type} `{Num T}.

(** A model and the variables in scope, oldest first: what each holds
    (wobbly.h:73-100). *)
Record vworld : Type := mkVW { vw_model : model T; vw_vars : list (option nat) }.

(** Statements of the client (wobbly.h:73-100). *)
Inductive vop : Type :=
| VDeclare                          (* Anchor a;                            wobbly.cpp:99-101 *)
| VInitGrab (p : vec T)             (* Anchor a (model.GrabAnchor (p));     wobbly.h:78 *)
| VInitInsert (p : vec T)           (* Anchor a (model.InsertAnchor (p)); *)
| VInitMove (x : nat)               (* Anchor a (std::move (x)); *)
| VGrab (v : nat) (p : vec T)       (* v = model.GrabAnchor (p);            wobbly.h:79 *)
| VInsert (v : nat) (p : vec T)     (* v = model.InsertAnchor (p); *)
| VMove (v x : nat)                 (* v = std::move (x); *)
| VClear (v : nat)                  (* v = Anchor (); *)
| VMoveBy (v : nat) (d : vec T)     (* v.MoveBy (d);                        wobbly.cpp:107-111 *)
| VLeave                            (* the newest variable leaves its scope, wobbly.cpp:103-105 *)
| VStep (t : Z)                     (* model.Step (t); *)
| VMoveModelBy (d : vec T)          (* model.MoveModelBy (d); *)
| VMoveModelTo (p : vec T)          (* model.MoveModelTo (p); *)
| VResize (w h : T)                 (* model.ResizeModel (w, h); *)
| VSettings (st : settings T)       (* the client writes its Settings object *)
| VDestroy.                         (* the model is destroyed *)

(** What variable [v] holds. A variable that is not in scope does not compile;
    it counts as an empty one here, and the theorems assume that there is none
    (wobbly.h:85-99). *)
Definition holds (vars : list (option nat)) (v : nat) : option nat := nth v vars None.

(** The deleter (wobbly.cpp:93-97); an empty pointer is not deleted. *)
Definition delete_old (n : option nat) : list (op T) :=
  match n with Some n => [OpRelease n] | None => [] end.

(** The calls of the native interface a statement makes (wobbly.h:73-100,
    wobbly.cpp:93-111). *)
Definition vw_calls (w : vworld) (o : vop) : res (list (op T)) :=
  let vars := vw_vars w in
  match o with
  | VDeclare | VInitMove _ => Ok []
  | VInitGrab p => Ok [OpGrab p]
  | VInitInsert p => Ok [OpInsert p]
  | VGrab v p => Ok (OpGrab p :: delete_old (holds vars v))
  | VInsert v p => Ok (OpInsert p :: delete_old (holds vars v))
  | VMove v x => Ok (if Nat.eqb v x then [] else delete_old (holds vars v))
  | VClear v => Ok (delete_old (holds vars v))
  | VMoveBy v d => match holds vars v with Some n => Ok [OpMoveAnchor n d] | None => Err NullDeref end
  | VLeave => Ok (delete_old (last vars None))
  | VStep t => Ok [OpStep t]
  | VMoveModelBy d => Ok [OpMoveBy d]
  | VMoveModelTo p => Ok [OpMoveTo p]
  | VResize a b => Ok [OpResize a b]
  | VSettings st => Ok [OpSettings st]
  | VDestroy => Ok [OpDestroy]
  end.

(** The variables after a statement, given the results of its calls
    (wobbly.h:78-79). *)
Definition vw_assign (vars : list (option nat)) (o : vop) (us : list out) : list (option nat) :=
  let got := match us with OHandle n :: _ => Some n | _ => None end in
  match o with
  | VDeclare => vars ++ [None]
  | VInitGrab _ | VInitInsert _ => vars ++ [got]
  | VInitMove x => list_set x None vars ++ [holds vars x]
  | VGrab v _ | VInsert v _ => list_set v got vars
  | VMove v x => if Nat.eqb v x then vars else list_set v (holds vars x) (list_set x None vars)
  | VClear v => list_set v None vars
  | VLeave => removelast vars
  | _ => vars
  end.

(** One statement (wobbly.h:73-100). *)
Definition vw_do (fuel : nat) (w : vworld) (o : vop) : res (vworld * list out) :=
  calls <- vw_calls w o ;;
  r <- run fuel (vw_model w) calls ;;
  Ok (mkVW (fst r) (vw_assign (vw_vars w) o (snd r)), snd r).

(** A program (wobbly.h:73-100). *)
Fixpoint vw_run (fuel : nat) (w : vworld) (ops : list vop) : res (vworld * list out) :=
  match ops with
  | [] => Ok (w, [])
  | o :: t =>
      r <- vw_do fuel w o ;;
      r' <- vw_run fuel (fst r) t ;;
      Ok (fst r', snd r ++ snd r')
  end.

(** A program starts with a new model and no variable (wobbly.h:115-119). *)
Definition vw_start (p : vec T) (w h : T) (st : settings T) (next : Z) : vworld :=
  mkVW (model_init p w h st next) [].

End AnchorVars.

Arguments vworld T : clear implicits.
Arguments vop T : clear implicits.
