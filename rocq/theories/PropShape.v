(** * Properties C14-C16 and C19: resizing, forces, batches of steps *)

From Coq Require Import ZArith Reals Bool List Lra Lia.
From Verif Require Import Num Geometry Outcome Wobbly Spec SpecMotion Cases LemReal LemForce LemHistory LemWhole LemShape LemShapeCases LemPin.
Import ListNotations.
Local Open Scope R_scope.

(** ** C14 *)

(** A resting, undeformed model, lying at its rest positions and with a
    positive range if exactly one anchor is live: [ResizeModel] returns, gives
    the regular grid of the new size at the same corner, and the model stays
    settled for any number of steps. *)
Theorem C14_resize :
  forall (p : vec R) (w h : R) (st : settings R) (ops : list (op R)) (m : model R) (q : vec R) (w' h' : R) (fuel : nat),
    0 < w -> 0 < h -> 0 < w' -> 0 < h' -> reached p w h st ops m -> malive m = true ->
    calm_history ops -> live_inserted ops = [] ->
    (length (live_anchors ops) = 1%nat -> mtargets m = mpos m /\ 0 < st_range (mset m)) ->
    mpos m = grid q (mw m) (mh m) -> at_rest (mvel m) ->
    exists m', step_op (S fuel) m (OpResize w' h') = Ok (m', ONone) /\
      mpos m' = grid q w' h' /\ at_rest (mvel m') /\ mw m' = w' /\ mh m' = h' /\
      forall fuel' t ts, (0 < t)%Z ->
        exists m'', run fuel' m' (map OpStep (t :: ts)) = Ok (m'', map (fun _ => OMore false) (t :: ts)) /\ same_geometry m' m''.
Proof. exact resize_regular. Qed.
Print Assumptions C14_resize.

(** The current size: nothing at all changes, in any state. *)
Theorem C14_same_size :
  forall (p : vec R) (w h : R) (st : settings R) (ops : list (op R)) (m : model R) (fuel : nat),
    0 < w -> 0 < h -> reached p w h st ops m -> malive m = true ->
    step_op fuel m (OpResize (mw m) (mh m)) = Ok (m, ONone).
Proof. exact resize_same. Qed.
Print Assumptions C14_same_size.

Theorem C14_twice :
  forall (p : vec R) (w h : R) (st : settings R) (ops : list (op R)) (m : model R) (q : vec R) (w1 h1 w2 h2 : R) (fuel : nat),
    0 < w -> 0 < h -> 0 < w1 -> 0 < h1 -> 0 < w2 -> 0 < h2 ->
    reached p w h st ops m -> malive m = true -> calm_history ops -> live_inserted ops = [] ->
    (length (live_anchors ops) = 1%nat -> mtargets m = mpos m /\ 0 < st_range (mset m)) ->
    mpos m = grid q (mw m) (mh m) -> at_rest (mvel m) ->
    exists m' m'', run (S fuel) m [OpResize w1 h1; OpResize w2 h2] = Ok (m', [ONone; ONone]) /\
      run (S fuel) m [OpResize w2 h2] = Ok (m'', [ONone]) /\ same_geometry m'' m'.
Proof. exact resize_twice. Qed.
Print Assumptions C14_twice.

Example C14_case :
  exists m : model R,
    reached (mkV 0 0) 90 60 (mkSettings 8 3 500) [OpMoveBy (mkV 7 5)] m /\ malive m = true /\
    calm_history [OpMoveBy (mkV 7 5)] /\ live_inserted [OpMoveBy (mkV 7 5)] = [] /\
    length (live_anchors [OpMoveBy (mkV 7 5)]) <> 1%nat /\
    mpos m = grid (mkV 7 5) (mw m) (mh m) /\ at_rest (mvel m).
Proof.
  set (m0 := model_init (mkV 0 0) 90 60 (mkSettings 8 3 500) 0).
  assert (R0 : reached (mkV 0 0) 90 60 (mkSettings 8 3 500) [] m0) by (exists 0%nat, 0%Z, []; reflexivity).
  destruct (move_by_whole _ _ _ _ _ m0 (mkV 7 5) 0 R0 eq_refl) as (m & E & (D1 & _ & _ & D4 & _ & _ & D7 & D8 & _ & _ & _ & _ & _ & D14)).
  exists m. split; [exists 0%nat, 0%Z, [ONone]; cbn [run]; fold m0; rewrite E; reflexivity|].
  split; [rewrite D14; reflexivity|]. split; [cbv; auto; intuition discriminate|]. split; [reflexivity|]. split; [discriminate|].
  split.
  - rewrite D1, D7, D8. change (mpos m0) with (position_array (mkV 0 0) (tile_size 90 60)). change (mw m0) with 90. change (mh m0) with 60.
    rewrite LemSettle.grid_translate, grid_array. f_equal. veq; lra.
  - rewrite D4. apply Forall_forall. intros x Hx. apply repeat_spec in Hx. auto.
Qed.

(** With a held grab. *)
Example C14_grab_case :
  exists m : model R,
    reached (mkV 0 0) 90 60 (mkSettings 8 3 500) [OpGrab (mkV 0 0)] m /\ malive m = true /\
    calm_history [OpGrab (mkV 0 0)] /\ live_inserted [OpGrab (mkV 0 0)] = [] /\
    length (live_anchors [OpGrab (mkV 0 0)]) = 1%nat /\ mtargets m = mpos m /\ 0 < st_range (mset m) /\
    mpos m = grid (mkV 0 0) (mw m) (mh m) /\ at_rest (mvel m).
Proof.
  destruct grabbed_at_home_case as (m & A & B & C). exists m. do 2 (split; [assumption|]).
  split; [cbv; auto; intuition discriminate|]. split; [reflexivity|]. split; [reflexivity|exact C].
Qed.

(** "Settled" alone is not enough: a mesh may rest deformed by less than the
    springs notice.  This one has no live anchor, and [Step] just returned
    false; after [ResizeModel] it moves. *)
Definition rests_deformed : list (op f64) :=
  [OpGrab (pt 0 0); OpGrab (pt 0 0); OpMoveAnchor 0 (mkV (nlit 1 2) (nof 0)); OpRelease 0; OpRelease 1].

Theorem C14_settled_model_refuted :
  exists m1 m2 us,
    run 60 (start usual) (rests_deformed ++ [OpStep 16]) = Ok (m1, us ++ [OMore false]) /\
    run 60 (start usual) (rests_deformed ++ [OpStep 16; OpResize (nof 900) (nof 900); OpStep 16]) =
      Ok (m2, us ++ [OMore false; ONone; OMore true]) /\
    careful_history (rests_deformed ++ [OpStep 16]) /\ live_anchors (rests_deformed ++ [OpStep 16]) = [].
Proof.
  destruct (verdict_run usual (rests_deformed ++ [OpStep 16])
    (fun _ us => match us with [OHandle 0; OHandle 1; ONone; ONone; ONone; OMore false] => true | _ => false end)) as (m1 & us1 & E1 & C1);
    [vm_compute; reflexivity|].
  destruct (verdict_run usual (rests_deformed ++ [OpStep 16; OpResize (nof 900) (nof 900); OpStep 16])
    (fun _ us => match us with [OHandle 0; OHandle 1; ONone; ONone; ONone; OMore false; ONone; OMore true] => true | _ => false end)) as (m2 & us2 & E2 & C2);
    [vm_compute; reflexivity|].
  assert (us1 = [OHandle 0; OHandle 1; ONone; ONone; ONone] ++ [OMore false]) as ->.
  { repeat (match goal with C : match ?x with _ => _ end = true |- _ => destruct x; try discriminate C end). reflexivity. }
  assert (us2 = [OHandle 0; OHandle 1; ONone; ONone; ONone] ++ [OMore false; ONone; OMore true]) as ->.
  { clear E1 E2 C1. repeat (match goal with C : match ?x with _ => _ end = true |- _ => destruct x; try discriminate C end). reflexivity. }
  exists m1, m2, [OHandle 0; OHandle 1; ONone; ONone; ONone]. split; [exact E1|]. split; [exact E2|].
  split; [unfold careful_history, rests_deformed; simpl; auto 12|reflexivity].
Qed.
Print Assumptions C14_settled_model_refuted.

(** ** C15 *)

(** Without the anchor the resized model is settled; with it, it is not: the
    history is careful, releases in order, and leaves no anchor behind. *)
Definition insert_resize_release : list (op f64) :=
  [OpInsert (pt 15 1); OpResize (nof 180) (nof 180); OpRelease 0].

Theorem C15_consistent_after_release_refuted :
  (exists m us, run 60 (start usual) (insert_resize_release ++ [OpStep 16]) = Ok (m, us ++ [OMore true])) /\
  (exists m us, run 60 (start usual) [OpResize (nof 180) (nof 180); OpStep 16] = Ok (m, us ++ [OMore false])) /\
  careful_history insert_resize_release /\ lifo_history insert_resize_release /\ live_anchors insert_resize_release = [].
Proof.
  split; [|split].
  - destruct (verdict_run usual (insert_resize_release ++ [OpStep 16])
      (fun _ us => match us with [OHandle 0; ONone; ONone; OMore true] => true | _ => false end)) as (m & us & E & C); [vm_compute; reflexivity|].
    exists m, [OHandle 0; ONone; ONone].
    repeat (match goal with C : match ?x with _ => _ end = true |- _ => destruct x; try discriminate C end). exact E.
  - destruct (verdict_run usual [OpResize (nof 180) (nof 180); OpStep 16]
      (fun _ us => match us with [ONone; OMore false] => true | _ => false end)) as (m & us & E & C); [vm_compute; reflexivity|].
    exists m, [ONone].
    repeat (match goal with C : match ?x with _ => _ end = true |- _ => destruct x; try discriminate C end). exact E.
  - split; [unfold careful_history, insert_resize_release; simpl; auto 12|]. split; [|reflexivity].
    unfold lifo_history, insert_resize_release. simpl. split; auto. split; auto. split; auto. intros _ k [X|[]]. injection X as <-. auto.
Qed.
Print Assumptions C15_consistent_after_release_refuted.

(** The reason, in any arithmetic: the springs present are rescaled, the springs
    held by inserted anchors are not. *)
Theorem C15_held_springs_keep_their_length :
  forall (T : Type) (N : Num T) (fuel : nat) (m m' : model T) (w h : T) (u : out),
    step_op fuel m (OpResize w h) = Ok (m', u) -> m' <> m ->
    held_springs m' = held_springs m /\
    msprings m' = map (scale_length (mkV (ndiv w (mw m)) (ndiv h (mh m)))) (msprings m).
Proof. exact @resize_held. Qed.
Print Assumptions C15_held_springs_keep_their_length.

Example C15_case :
  exists m m' : model f64,
    reached (pt 0 0) (nof 90) (nof 90) usual [OpInsert (pt 15 1)] m /\ length (held_springs m) = 1%nat /\
    step_op 60 m (OpResize (nof 180) (nof 180)) = Ok (m', ONone) /\ m' <> m.
Proof. exact resize_held_case. Qed.

(** ** C16 *)

(** [total] adds up vectors: the forces on the mesh points and what the force
    calculation added to the forces of inserted anchors cancel. *)
Theorem C16_action_reaction :
  forall (k : R) (ss : list (spring R)) (pos : list (vec R)) (heap : list (block R)) (mm : mem R) (b : bool),
    calculate_forces k ss pos heap = Ok (mm, b) ->
    vadd (total (m_force mm)) (total (block_forces (m_heap mm))) = total (block_forces heap).
Proof. exact action_reaction. Qed.
Print Assumptions C16_action_reaction.

(** Each spring pulls its two ends with opposite forces, by half its extension
    times the constant. *)
Theorem C16_one_spring :
  forall (k : R) (s : spring R) (mm : mem R) (pa pb : vec R),
    rd_pos mm (s_pa s) = Ok pa -> rd_pos mm (s_pb s) = Ok pb ->
    apply_forces k s mm =
      bind (add_force mm (s_fa s) (pull k pa pb (s_len s))) (fun m1 =>
      bind (add_force m1 (s_fb s) (vneg (pull k pa pb (s_len s)))) (fun m2 =>
      Ok (m2, negb (if Rlt_dec (Rabs (vx (extension pa pb (s_len s)))) 1 then
                    if Rlt_dec (Rabs (vy (extension pa pb (s_len s)))) 1 then true else false else false)))).
Proof. exact one_spring. Qed.
Print Assumptions C16_one_spring.

(** At rest lengths nothing acts. *)
Theorem C16_rest :
  forall (k : R) (ss : list (spring R)) (pos : list (vec R)) (heap : list (block R)) (mm : mem R) (b : bool),
    Forall (fun s => exists pa pb, rd_pos (mkMem pos (repeat vzero 16) heap) (s_pa s) = Ok pa /\
       rd_pos (mkMem pos (repeat vzero 16) heap) (s_pb s) = Ok pb /\ slack pa pb (s_len s)) ss ->
    calculate_forces k ss pos heap = Ok (mm, b) ->
    at_rest (m_force mm) /\ m_heap mm = heap /\ b = false.
Proof. exact rest_forces. Qed.
Print Assumptions C16_rest.

(** A spring from a mesh point to an inserted point, extended by 10. *)
Example C16_case :
  exists mm, calculate_forces 8 [mkSpring (LMesh 0) (LBlk 0) (LMesh 0) (LBlk 0) (mkV 30 0) 1]
      (grid (mkV 0 0) 90 60) [Some (mkV 40 0, mkV 0 0)] = Ok (mm, true) /\
    nth_error (m_force mm) 0 = Some (mkV 40 0) /\ m_heap mm = [Some (mkV 40 0, mkV (-40) 0)].
Proof. exact one_spring_case. Qed.

Example C16_rest_case :
  exists mm b, calculate_forces 8 (base_springs (tile_size 90 60) 0) (grid (mkV 0 0) 90 60) [] = Ok (mm, b) /\
    Forall (fun s => exists pa pb, rd_pos (mkMem (grid (mkV 0 0) 90 60) (repeat vzero 16) []) (s_pa s) = Ok pa /\
       rd_pos (mkMem (grid (mkV 0 0) 90 60) (repeat vzero 16) []) (s_pb s) = Ok pb /\ slack pa pb (s_len s))
      (base_springs (tile_size 90 60) 0).
Proof. exact rest_forces_case. Qed.

(** ** C19 *)

(** In any arithmetic: [Step (t)] integrates [n] times with [n] the number of
    started intervals of 16 ms; then, if nothing more is needed and exactly one
    anchor is live, the mesh is put at its rest positions. *)
Theorem C19_integrations :
  forall (T : Type) (N : Num T) (t : Z) (m m' : model T) (b : bool),
    (0 <= t)%Z -> model_step t m = Ok (m', b) ->
    exists n m1 b1,
      (16 * (Z.of_nat n - 1) < t <= 16 * Z.of_nat n)%Z /\ integrations n m m1 b1 /\
      b = (((t =? 0)%Z && munequal m) || b1)%bool /\
      mvel m' = mvel m1 /\
      mpos m' = (if (negb b && active m)%bool then mtargets m else mpos m1).
Proof. exact @step_integrates. Qed.
Print Assumptions C19_integrations.

(** Batching: unless exactly one anchor is live, the model reached does not
    depend on how the steps are grouped (the remembered result of the last step
    is the only difference). *)
Theorem C19_batches :
  forall (T : Type) (N : Num T) (p : vec T) (w h : T) (st : settings T) (ops : list (op T)) (a b : Z) (m m1 m2 : model T) (b1 b2 : bool),
    reached p w h st ops m -> (0 <= a)%Z -> (0 <= b)%Z ->
    model_step (16 * a) m = Ok (m1, b1) -> model_step (16 * b) m1 = Ok (m2, b2) ->
    length (live_anchors ops) <> 1%nat \/ (b1 = true /\ b2 = true) ->
    exists b3, model_step (16 * (a + b)) m = Ok (set_unequal m2 b3, b3) /\
      ((0 < a)%Z -> (0 < b)%Z -> b3 = (b1 || b2)%bool).
Proof.
  intros T N p w h st ops a b m m1 m2 b1 b2 Hr Ha Hb E1 E2 X. apply (step_batch a b m m1 m2 b1 b2); auto.
  destruct X as [X|X]; [left; eapply inactive_of; eauto|auto].
Qed.
Print Assumptions C19_batches.

Theorem C19_zero :
  forall (T : Type) (N : Num T) (m m' : model T) (b : bool),
    model_step 0 m = Ok (m', b) ->
    b = munequal m /\ mvel m' = mvel m /\ mheap m' = mheap m /\ (b = true \/ active m = false -> m' = m).
Proof. exact @step_zero. Qed.
Print Assumptions C19_zero.

(** A moving mesh, stepped twice. *)
Example C19_case :
  exists m m1 m2 : model f64,
    reached (pt 0 0) (nof 90) (nof 90) usual [OpGrab (pt 0 0); OpGrab (pt 0 0); OpMoveAnchor 0 (pt 10 0)] m /\
    model_step (16 * 1) m = Ok (m1, true) /\ model_step (16 * 2) m1 = Ok (m2, true).
Proof. exact batch_case. Qed.
