(** * Properties of processes with several wobbly models *)

From Coq Require Import ZArith Reals Bool List.
From Flocq Require Import Core IEEE754.BinarySingleNaN.
From Verif Require Import Num Geometry Outcome Wobbly Process Spec SpecProcess LemProcess Cases.
Import ListNotations.
Local Open Scope Z_scope.

(** ** C72: models do not disturb each other *)

(** For every model of every process: replaying its own life alone, from any
    value of the counter, returns the same outputs, ends in the same state, and
    the next call on it does the same in both. *)
Theorem C72_as_if_alone :
  forall (T : Type) `(Num T) fuel (os : list (pop T)) pr us i l next,
    Forall no_direct_settings os -> proc_run fuel proc_start os = Ok (pr, us) ->
    nth_error (snd (tale_of os us)) i = Some l ->
    exists m alone,
      proc_model pr i = Some m /\
      run fuel (model_init (l_position l) (l_width l) (l_height l) (l_settings l) next) (l_calls l)
        = Ok (alone, l_returned l) /\
      same_but_names m alone /\
      forall o,
        match proc_do fuel pr (PCall i o) with
        | Ok (_, u) => exists m' u', step_op fuel alone o = Ok (m', u') /\ u = POut u'
        | Err e => step_op fuel alone o = Err e
        end.
Proof.
  intros T HT fuel os pr us i l next ND E Hl.
  destruct (models_alone fuel os pr us i l next ND E Hl) as (m & al & A & B & C & D & _). eauto 6.
Qed.
Print Assumptions C72_as_if_alone.

(** Every model has a life. *)
Theorem C72_every_model :
  forall (T : Type) `(Num T) fuel (os : list (pop T)) pr us,
    Forall no_direct_settings os -> proc_run fuel proc_start os = Ok (pr, us) ->
    length (snd (tale_of os us)) = length (pr_models pr).
Proof. intros. eapply models_count; eauto. Qed.
Print Assumptions C72_every_model.

(** What a constructor returns is a new object: the models a client was given
    are numbered in the order of their lives, none of them twice, and so are the
    settings objects, after the default one. *)
Theorem C72_made_objects_are_new :
  forall (T : Type) `(Num T) fuel (os : list (pop T)) pr us,
    Forall no_direct_settings os -> proc_run fuel proc_start os = Ok (pr, us) ->
    models_made us = seq 0 (length (snd (tale_of os us))) /\
    0%nat :: settings_made us = seq 0 (length (fst (tale_of os us))).
Proof.
  intros T HT fuel os pr us ND E. destruct (made_run fuel os _ _ _ E) as (A & B). rewrite (models_count fuel os pr us ND E), (settings_count fuel os pr us ND E).
  cbn [proc_start pr_models pr_settings length] in A, B. rewrite A, B. split; reflexivity.
Qed.
Print Assumptions C72_made_objects_are_new.

(** Two models, one with the default settings and one with its own; anchors of
    both held at the same time; the defaults are changed on the way. *)
Definition two_models : list (pop f64) :=
  [PSettings stiff; PNewDefault (pt 0 0) (nof 90) (nof 90); PNew (pt 7 7) (nof 60) (nof 30) 1;
   PCall 0 (OpInsert (pt 10 10)); PCall 1 (OpGrab (pt 20 20)); PCall 1 (OpInsert (pt 50 20));
   PCall 0 (OpMoveAnchor 0 (pt 4 0)); PFriction (nof 5); PCall 1 (OpMoveAnchor 0 (pt 0 5));
   PCall 0 (OpStep 16); PCall 1 (OpRelease 1); PCall 1 (OpStep 40); PCall 0 (OpRelease 0)].

Example C72_case :
  Forall no_direct_settings two_models /\
  exists pr us, proc_run 120 proc_start two_models = Ok (pr, us) /\
    us = [PSettingsMade 1; PModelMade 0; PModelMade 1; POut (OHandle 0); POut (OHandle 0); POut (OHandle 1);
          POut ONone; PNothing; POut ONone; POut (OMore true); POut ONone; POut (OMore true); POut ONone] /\
    map (fun l => length (l_calls l)) (snd (tale_of two_models us)) = [5; 5]%nat.
Proof.
  split; [repeat constructor|].
  assert (X : match proc_run 120 proc_start two_models with Ok (_, us) => us | Err _ => [] end =
    [PSettingsMade 1; PModelMade 0; PModelMade 1; POut (OHandle 0); POut (OHandle 0); POut (OHandle 1);
     POut ONone; PNothing; POut ONone; POut (OMore true); POut ONone; POut (OMore true); POut ONone]).
  { vm_compute. reflexivity. }
  destruct (proc_run 120 proc_start two_models) as [[pr us]|]; [|discriminate]. exists pr, us. subst us.
  split; [reflexivity|]. split; reflexivity.
Qed.

(** ** C73: models made without settings share the default settings *)

(** A setter of the JavaScript interface acts at once on every model made
    without settings of its own, whenever it was made, and on no other. *)
Theorem C73_setters_act_on_all_default_models :
  forall (T : Type) `(Num T) fuel (os : list (pop T)) pr us o st st',
    Forall no_direct_settings os -> proc_run fuel proc_start os = Ok (pr, us) ->
    nth_error (fst (tale_of os us)) 0 = Some st -> setter o st = Some st' ->
    exists pr', proc_do fuel pr o = Ok (pr', PNothing) /\
    forall i l m, nth_error (snd (tale_of os us)) i = Some l -> proc_model pr i = Some m ->
      proc_model pr' i = Some (if Nat.eqb (l_object l) 0 then set_settings m st' else m).
Proof. intros. eapply setter_models; eauto. Qed.
Print Assumptions C73_setters_act_on_all_default_models.

(** At every moment a model uses what was last written to its settings object. *)
Theorem C73_settings_in_force :
  forall (T : Type) `(Num T) fuel (os : list (pop T)) pr us i l m,
    Forall no_direct_settings os -> proc_run fuel proc_start os = Ok (pr, us) ->
    nth_error (snd (tale_of os us)) i = Some l -> proc_model pr i = Some m ->
    nth_error (fst (tale_of os us)) (l_object l) = Some (mset m).
Proof.
  intros T HT fuel os pr us i l m ND E Hl Hm.
  destruct (models_alone fuel os pr us i l 0 ND E Hl) as (m0 & al & A & _ & _ & _ & _ & B). congruence.
Qed.
Print Assumptions C73_settings_in_force.

Definition friction_is (pr : process f64) (i : nat) (z : Z) : bool :=
  match proc_model pr i with Some m => neqb (st_friction (mset m)) (nof z) | None => false end.

(** Models 0, 2 and 3 use the defaults, model 1 its own settings; the friction is
    changed after two and again after three of them exist. *)
Definition four_models : list (pop f64) :=
  [PSettings stiff; PNewDefault (pt 0 0) (nof 90) (nof 90); PNew (pt 7 7) (nof 60) (nof 30) 1; PFriction (nof 5);
   PCall 0 (OpInsert (pt 10 10)); PCall 0 (OpStep 16); PNewDefault (pt 0 0) (nof 10) (nof 10); PFriction (nof 6);
   PNewDefault (pt 0 0) (nof 20) (nof 20)].

Example C73_case :
  Forall no_direct_settings four_models /\
  exists pr us, proc_run 60 proc_start four_models = Ok (pr, us) /\
    map (fun i => friction_is pr i 6) [0; 1; 2; 3]%nat = [true; false; true; true] /\ friction_is pr 1 15 = true.
Proof.
  split; [repeat constructor|].
  assert (X : match proc_run 60 proc_start four_models with
    | Ok (pr, _) => (map (fun i => friction_is pr i 6) [0; 1; 2; 3]%nat, friction_is pr 1 15)
    | Err _ => ([], false) end = ([true; false; true; true], true)).
  { vm_compute. reflexivity. }
  destruct (proc_run 60 proc_start four_models) as [[pr us]|]; [|discriminate]. exists pr, us.
  split; [reflexivity|]. split; [exact (f_equal fst X)|exact (f_equal snd X)].
Qed.

(** ** C74: the size of a model made from JavaScript *)

Definition em_size (p : vec f64) (w h : f64) : option (f64 * f64) :=
  match proc_run 0 proc_start [em_new (F:=f32) p w h] with
  | Ok (pr, _) => option_map (fun m => (mw m, mh m)) (proc_model pr 0)
  | Err _ => None
  end.

(** It is the size asked for when that is a pair of [float]s... *)
Theorem C74_float_sizes_kept :
  forall (p : vec f64) (w h : f32), em_size p (widen w) (widen h) = Some (widen w, widen h).
Proof. intros p w h. unfold em_size, em_new. rewrite !narrow_widen. reflexivity. Qed.
Print Assumptions C74_float_sizes_kept.

(** ... it is within one part in 2^24 of it for any size in the range of normal
    [float]s... *)
Theorem C74_size_error :
  forall (p : vec f64) (w h : f64),
    is_finite w = true -> is_finite h = true ->
    (bpow radix2 (-126) <= Rabs (B2R w) <= bpow radix2 127)%R -> (bpow radix2 (-126) <= Rabs (B2R h) <= bpow radix2 127)%R ->
    exists w' h', em_size p w h = Some (w', h') /\ is_finite w' = true /\ is_finite h' = true /\
      (Rabs (B2R w' - B2R w) <= bpow radix2 (-24) * Rabs (B2R w))%R /\
      (Rabs (B2R h' - B2R h) <= bpow radix2 (-24) * Rabs (B2R h))%R.
Proof.
  intros p w h Fw Fh Bw Bh. destruct (through_float w Fw Bw) as (A & B). destruct (through_float h Fh Bh) as (C & D).
  exists (widen (narrow w : f32)), (widen (narrow h : f32)). auto.
Qed.
Print Assumptions C74_size_error.

(** ... but it need not be the size asked for, and a model made in C++ has that
    size. *)
Theorem C74_size_kept_refuted :
  ~ (forall (p : vec f64) (w h : f64), is_finite w = true -> is_finite h = true ->
       em_size p w h = Some (w, h)).
Proof.
  intros A. specialize (A (pt 0 0) (nof 16777217) (nof 90) eq_refl eq_refl).
  assert (X : match em_size (pt 0 0) (nof 16777217) (nof 90) with Some (w, _) => neqb w (nof 16777217) | None => true end = false).
  { vm_compute. reflexivity. }
  rewrite A in X. revert X. vm_compute. discriminate.
Qed.
Print Assumptions C74_size_kept_refuted.

Example C74_case :
  exists w h : f32, em_size (pt 3 4) (widen w) (widen h) = Some (widen w, widen h) /\ neqb w h = false.
Proof. exists (nlit 5 2), (nof 90). split; [apply C74_float_sizes_kept|vm_compute; reflexivity]. Qed.
