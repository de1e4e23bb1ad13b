(** * A process with several wobbly models

    Models what wobbly models of one process share: the counter of spring
    identifiers (wobbly.cpp:139-144), [Model::DefaultSettings]
    (wobbly.cpp:518-523) and the [Settings] objects of the client, which models
    refer to (wobbly.cpp:472).  Also [animation/wobbly/emscripten.cpp], which
    writes the default settings and makes models that use them.

    Simplification: [Settings] objects are never destroyed. *)

From Coq Require Import ZArith Bool List.
From Verif Require Import Num Geometry Outcome Wobbly.
Import ListNotations.
Local Open Scope Z_scope.

Section Process.
Context {T : Type} `{Num T}.

(** The [Settings] objects, number 0 being [Model::DefaultSettings]; the models,
    each with the number of the [Settings] object it refers to; and
    [CurrentSpringID]. The fields [mset] and [mnext_id] of the models kept here
    are not used: see [proc_model] (wobbly.cpp:139-144, 472, 518-523). *)
Record process : Type := mkProc {
  pr_settings : list (settings T);
  pr_models : list (nat * model T);
  pr_next : Z }.

(** wobbly.h:176-179, wobbly.cpp:518-523. *)
Definition default_settings : settings T := mkSettings (nof 8) (nof 3) (nof 500).

(** The state when the process starts (wobbly.cpp:139-144, 518-523). *)
Definition proc_start : process := mkProc [default_settings] [] 0.

(** Model [i] as its own calls see it: through the references to its settings
    and to the counter (wobbly.cpp:472, 139-144). *)
Definition proc_model (pr : process) (i : nat) : option (model T) :=
  match nth_error (pr_models pr) i with
  | Some (s, m) =>
      match nth_error (pr_settings pr) s with
      | Some st => Some (set_next_id (set_settings m st) (pr_next pr))
      | None => None
      end
  | None => None
  end.

(** What a client does (wobbly.h:73-187, emscripten.cpp:28-62). *)
Inductive pop : Type :=
| PSettings (st : settings T)               (* the client makes a Settings object *)
| PAssign (s : nat) (st : settings T)       (* the client writes one *)
| PSpringConstant (k : T)                   (* SetSpringConstant, emscripten.cpp:28-31 *)
| PFriction (f : T)                         (* SetFriction, emscripten.cpp:33-36 *)
| PMaximumRange (r : T)                     (* SetMaximumRange, emscripten.cpp:38-41 *)
| PNew (p : vec T) (w h : T) (s : nat)      (* Model::Model with settings, wobbly.cpp:525-531 *)
| PNewDefault (p : vec T) (w h : T)         (* Model::Model without, wobbly.cpp:533-538 *)
| PCall (i : nat) (o : op T).               (* a call on model i or on its anchors *)

(** What it gets (wobbly.h:115-145). *)
Inductive pout : Type :=
| PNothing
| PSettingsMade (s : nat)
| PModelMade (i : nat)
| POut (u : out).

(** Write settings object [s] (wobbly.h:106-111, emscripten.cpp:28-41). *)
Definition write_settings (pr : process) (s : nat) (f : settings T -> settings T) : res process :=
  st <- of_option NullDeref (nth_error (pr_settings pr) s) ;;
  Ok (mkProc (list_set s (f st) (pr_settings pr)) (pr_models pr) (pr_next pr)).

(** A new model that refers to settings object [s] (wobbly.cpp:525-538). *)
Definition make_model (pr : process) (p : vec T) (w h : T) (s : nat) : res (process * pout) :=
  st <- of_option NullDeref (nth_error (pr_settings pr) s) ;;
  let m := model_init p w h st (pr_next pr) in
  Ok (mkProc (pr_settings pr) (pr_models pr ++ [(s, m)]) (mnext_id m), PModelMade (length (pr_models pr))).

(** One call (wobbly.h:73-187, emscripten.cpp:28-62). *)
Definition proc_do (fuel : nat) (pr : process) (o : pop) : res (process * pout) :=
  match o with
  | PSettings st =>
      Ok (mkProc (pr_settings pr ++ [st]) (pr_models pr) (pr_next pr), PSettingsMade (length (pr_settings pr)))
  | PAssign s st => pr' <- write_settings pr s (fun _ => st) ;; Ok (pr', PNothing)
  | PSpringConstant k =>
      pr' <- write_settings pr 0 (fun st => mkSettings k (st_friction st) (st_range st)) ;; Ok (pr', PNothing)
  | PFriction f =>
      pr' <- write_settings pr 0 (fun st => mkSettings (st_k st) f (st_range st)) ;; Ok (pr', PNothing)
  | PMaximumRange r =>
      pr' <- write_settings pr 0 (fun st => mkSettings (st_k st) (st_friction st) r) ;; Ok (pr', PNothing)
  | PNew p w h s => make_model pr p w h s
  | PNewDefault p w h => make_model pr p w h 0
  | PCall i o =>
      m <- of_option NullDeref (proc_model pr i) ;;
      r <- step_op fuel m o ;;
      Ok (mkProc (pr_settings pr)
                 (list_set i (match nth_error (pr_models pr) i with Some (s, _) => s | None => O end, fst r)
                           (pr_models pr))
                 (mnext_id (fst r)),
          POut (snd r))
  end.

(** A history of calls (wobbly.h:73-187, emscripten.cpp:28-62). *)
Fixpoint proc_run (fuel : nat) (pr : process) (os : list pop) : res (process * list pout) :=
  match os with
  | [] => Ok (pr, [])
  | o :: t =>
      r <- proc_do fuel pr o ;;
      r' <- proc_run fuel (fst r) t ;;
      Ok (fst r', snd r :: snd r')
  end.

(** [new WobblyModel (p, w, h)] in JavaScript (emscripten.cpp:59-62): the sizes
    pass through [float]. *)
Definition em_new {F} `{Conv F T} (p : vec T) (w h : T) : pop :=
  PNewDefault p (widen (narrow w)) (widen (narrow h)).

End Process.

Arguments process T : clear implicits.
Arguments pop T : clear implicits.
