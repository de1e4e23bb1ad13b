(** * C89: a model refers to its settings object and does not copy it *)

From Coq Require Import ZArith Bool List Lia.
From Flocq Require Import Core IEEE754.BinarySingleNaN.
From Verif Require Import Num Geometry Outcome Wobbly SettingsLife Spec SpecLife Cases LemInv LemHistory LemLife.
Import ListNotations.
Local Open Scope Z_scope.

(** After any history the settings object may go.  From then on a call that
    consults it reads freed memory, and any other call does what it would have
    done. *)
Theorem C89_calls_after_the_settings_are_gone :
  forall (T : Type) (N : Num T) (p : vec T) (w h : T) (st : settings T) ops m o fuel,
    reached p w h st ops m ->
    (consults (live_anchors ops) (mw m) (mh m) o ->
       life_run fuel (m, false) [LDropSettings; LCall o] = Err UseAfterFree) /\
    (~ consults (live_anchors ops) (mw m) (mh m) o ->
       life_run fuel (m, false) [LDropSettings; LCall o] =
         match step_op fuel m o with
         | Ok (m', u) => Ok ((m', true), [ONone; u])
         | Err e => Err e
         end).
Proof.
  intros T N p w h st ops m o fuel R. pose proof (reads_consults _ _ _ _ _ _ o R) as C.
  cbn [life_run life_do bind fst snd]. split; intros K.
  - apply C in K. rewrite K. reflexivity.
  - destruct (reads_settings m o); [destruct (K (proj1 C eq_refl)) |]. cbn [andb].
    destruct (step_op fuel m o) as [[m' u] |]; reflexivity.
Qed.
Print Assumptions C89_calls_after_the_settings_are_gone.

(** Such a call does not depend on the values in the object at all. *)
Theorem C89_other_calls_ignore_the_settings :
  forall (T : Type) (N : Num T) (p : vec T) (w h : T) (st : settings T) ops m o fuel,
    reached p w h st ops m ->
    ~ consults (live_anchors ops) (mw m) (mh m) o ->
    forall st', step_op fuel (set_settings m st') o = with_settings st' (step_op fuel m o).
Proof.
  intros T N p w h st ops m o fuel R K st'. apply step_free.
  pose proof (reads_consults _ _ _ _ _ _ o R) as C.
  destruct (reads_settings m o); [destruct (K (proj1 C eq_refl)) | reflexivity].
Qed.
Print Assumptions C89_other_calls_ignore_the_settings.

(** So a whole history that gets by without the object is the history that would
    have happened with it, whatever values it had. *)
Theorem C89_histories_without_the_settings :
  forall (T : Type) (N : Num T) (m : model T) ls s us fuel,
    life_run fuel (m, true) (map LCall ls) = Ok (s, us) ->
    forall st, exists m', s = (m', true) /\
      run fuel (set_settings m st) ls = Ok (set_settings m' st, us).
Proof. intros T N m ls s us fuel E st. exact (gone_run fuel ls m s us E st). Qed.
Print Assumptions C89_histories_without_the_settings.

(** A model made from a temporary settings object is therefore unusable: its first
    anchor, its first [Step] and its first placement read freed memory. *)
Theorem C89_temporary_settings_refuted :
  forall (T : Type) (N : Num T) (p q : vec T) (w h : T) (st : settings T) next fuel t o,
    0 < t ->
    In o [OpGrab q; OpInsert q; OpStep t; OpMoveTo q] ->
    life_run fuel (model_init p w h st next, false) [LDropSettings; LCall o] = Err UseAfterFree.
Proof.
  intros T N p q w h st next fuel t o Ht I.
  assert (R : reached p w h st [] (model_init p w h st next)) by (exists fuel, next, []; reflexivity).
  apply (proj1 (C89_calls_after_the_settings_are_gone _ _ _ _ _ _ _ _ o fuel R)).
  destruct I as [<- | [<- | [<- | [<- | []]]]]; cbn [consults]; try reflexivity; try exact Ht.
  discriminate.
Qed.
Print Assumptions C89_temporary_settings_refuted.

(** ** Concrete cases *)

Definition soft : settings f64 := mkSettings (nof 2) (nof 3) (nof 500).
Definition pulled : list (op f64) := [OpGrab (pt 1 2); OpMoveAnchor 0 (pt 9 4); OpStep 16].
Definition unchanged (a b : list (vec f64)) : bool :=
  forallb (fun ab => vequals (fst ab) (snd ab)) (combine a b).

(** A model with a pulled corner: placing it needs no settings, with the one anchor
    held, and a second anchor may be taken; time may not pass.  Passing time does
    depend on the values. *)
Example C89_case :
  exists m, reached (pt 0 0) (nof 90) (nof 90) stiff pulled m /\
    ~ consults (live_anchors pulled) (mw m) (mh m) (OpMoveTo (pt 5 5)) /\
    ~ consults (live_anchors pulled) (mw m) (mh m) (OpInsert (pt 40 0)) /\
    consults (live_anchors pulled) (mw m) (mh m) (OpStep 16) /\
    consults (live_anchors (pulled ++ [OpInsert (pt 40 0)])) (mw m) (mh m) (OpRelease 0) /\
    (exists s us,
       life_run 1 (m, true)
         (map LCall [OpMoveTo (pt 5 5); OpInsert (pt 40 0); OpMoveAnchor 1 (pt 3 3); OpMoveBy (pt 1 0)])
         = Ok (s, us)) /\
    exists m1 m2 b1 b2, model_step 16 m = Ok (m1, b1) /\
      model_step 16 (set_settings m soft) = Ok (m2, b2) /\ unchanged (mpos m1) (mpos m2) = false.
Proof.
  destruct (verdict_reached stiff pulled
    (fun m _ =>
       match life_run 1 (m, true)
         (map LCall [OpMoveTo (pt 5 5); OpInsert (pt 40 0); OpMoveAnchor 1 (pt 3 3); OpMoveBy (pt 1 0)]),
         model_step 16 m, model_step 16 (set_settings m soft)
       with Ok _, Ok (m1, _), Ok (m2, _) => negb (unchanged (mpos m1) (mpos m2)) | _, _, _ => false end))
    as (m & Hr & us & C); [vm_compute; reflexivity |].
  exists m. split; [exact Hr |].
  split; [cbn; lia |]. split; [cbn; discriminate |]. split; [cbn; lia |].
  split; [cbn; split; [left; reflexivity | reflexivity] |].
  destruct (life_run 1 (m, true) _) as [[s us'] |]; [| discriminate C].
  destruct (model_step 16 m) as [[m1 b1] |]; [| discriminate C].
  destruct (model_step 16 (set_settings m soft)) as [[m2 b2] |]; [| discriminate C].
  split; [exists s, us'; reflexivity |].
  exists m1, m2, b1, b2. split; [reflexivity |]. split; [reflexivity |]. apply negb_true_iff, C.
Qed.
