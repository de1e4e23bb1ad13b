(** * Specification vocabulary for processes with several wobbly models *)

From Coq Require Import ZArith Bool List.
From Verif Require Import Num Geometry Outcome Wobbly Process.
Import ListNotations.

Section SpecProcess.
Context {T : Type} `{Num T}.

(** The life of one model as far as it concerns that model alone: how it was
    made, then the calls made on it and every write to the settings object it
    was made with, in order, and what the calls returned. *)
Record life : Type := mkLife {
  l_position : vec T; l_width : T; l_height : T; l_object : nat; l_settings : settings T;
  l_calls : list (op T); l_returned : list out }.

Definition live_on (l : life) (o : op T) (u : out) : life :=
  mkLife (l_position l) (l_width l) (l_height l) (l_object l) (l_settings l) (l_calls l ++ [o]) (l_returned l ++ [u]).

(** The settings objects and the lives of the models, told from the calls and
    what they returned.  At first there is only the default settings object: spring
    constant 8, friction 3, range 500. *)
Definition tale : Type := (list (settings T) * list life)%type.
Definition tale_start : tale := ([mkSettings (nof 8) (nof 3) (nof 500)], []).

Definition tell_write (t : tale) (s : nat) (f : settings T -> settings T) : tale :=
  match nth_error (fst t) s with
  | Some st =>
      (list_set s (f st) (fst t),
       map (fun l => if Nat.eqb (l_object l) s then live_on l (OpSettings (f st)) ONone else l) (snd t))
  | None => t
  end.

Definition tell_new (t : tale) (p : vec T) (w h : T) (s : nat) : tale :=
  match nth_error (fst t) s with
  | Some st => (fst t, snd t ++ [mkLife p w h s st [] []])
  | None => t
  end.

Definition tell (t : tale) (ou : pop T * pout) : tale :=
  match ou with
  | (PSettings st, _) => (fst t ++ [st], snd t)
  | (PAssign s st, _) => tell_write t s (fun _ => st)
  | (PSpringConstant k, _) => tell_write t 0 (fun st => mkSettings k (st_friction st) (st_range st))
  | (PFriction f, _) => tell_write t 0 (fun st => mkSettings (st_k st) f (st_range st))
  | (PMaximumRange r, _) => tell_write t 0 (fun st => mkSettings (st_k st) (st_friction st) r)
  | (PNew p w h s, _) => tell_new t p w h s
  | (PNewDefault p w h, _) => tell_new t p w h 0
  | (PCall i o, POut u) =>
      match nth_error (snd t) i with
      | Some l => (fst t, list_set i (live_on l o u) (snd t))
      | None => t
      end
  | (PCall _ _, _) => t
  end.

Definition tale_of (os : list (pop T)) (us : list pout) : tale :=
  fold_left tell (combine os us) tale_start.

(** The models and the settings objects a client was given. *)
Definition models_made (us : list pout) : list nat :=
  flat_map (fun u => match u with PModelMade i => [i] | _ => [] end) us.
Definition settings_made (us : list pout) : list nat :=
  flat_map (fun u => match u with PSettingsMade i => [i] | _ => [] end) us.

(** Settings are written through their objects only. *)
Definition no_direct_settings (o : pop T) : Prop :=
  match o with PCall _ (OpSettings _) => False | _ => True end.

(** Two models are the same except for the numbers that name their springs. *)
Definition spring_body (s : spring T) : loc * loc * loc * loc * vec T :=
  (s_fa s, s_fb s, s_pa s, s_pb s, s_len s).
Definition handle_body (nh : nat * handle T) :=
  (fst nh, match snd nh with
           | HGrab i => inl i
           | HIns s _ _ b aid => inr (spring_body s, b, aid)
           end).

Definition same_but_names (m m' : model T) : Prop :=
  mw m' = mw m /\ mh m' = mh m /\ mtracked m' = mtracked m /\ mtargets m' = mtargets m /\
  mcount m' = mcount m /\ mpos m' = mpos m /\ mvel m' = mvel m /\
  map spring_body (msprings m') = map spring_body (msprings m) /\
  length (mpending m') = length (mpending m) /\
  minserted m' = minserted m /\ mnext_anchor m' = mnext_anchor m /\ mheap m' = mheap m /\ mset m' = mset m /\ munequal m' = munequal m /\
  map handle_body (mhandles m') = map handle_body (mhandles m) /\
  mnext_handle m' = mnext_handle m /\ malive m' = malive m.

(** What the three setters of the JavaScript interface do to the default
    settings. *)
Definition setter (o : pop T) (st : settings T) : option (settings T) :=
  match o with
  | PSpringConstant k => Some (mkSettings k (st_friction st) (st_range st))
  | PFriction f => Some (mkSettings (st_k st) f (st_range st))
  | PMaximumRange r => Some (mkSettings (st_k st) (st_friction st) r)
  | _ => None
  end.

End SpecProcess.

Arguments life T : clear implicits.
Arguments tale T : clear implicits.
