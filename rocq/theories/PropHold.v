(** * Property C21 in [double] arithmetic *)

From Coq Require Import ZArith Reals Bool List Lia Lra.
From Flocq Require Import Core IEEE754.BinarySingleNaN.
From Verif Require Import Num Geometry Outcome Wobbly Spec SpecDouble SpecHold Cases LemDouble LemQuiet LemHold64.
Import ListNotations.
Local Open Scope R_scope.

(** No anchor is live and the mesh is the grid computed in [double] for its
    corner and size (as in every new model), at rest, corner and size being at
    most [2^48].  A point is grabbed; afterwards, under any sequence of moves of
    the anchor or the model, steps and changes of settings, it is where the
    [double] additions of the displacements put it: stepping and settling
    contribute no error at all.  (As long as the sum is finite.) *)
Theorem C21_single_grab_in_double :
  forall (p : vec f64) (w h : f64) (st : settings f64) (ops : list (op f64)) (m0 m1 m2 : model f64) (g q : vec f64)
         (n fuel fuel' : nat) (ops' : list (op f64)) (us : list out),
    reached p w h st ops m0 -> live_anchors ops = [] ->
    mpos m0 = rounded_grid q (mw m0) (mh m0) -> at_rest64 (mvel m0) ->
    point_within 48 q -> within 48 (mw m0) -> within 48 (mh m0) ->
    is_finite (st_k (mset m0)) = true -> is_finite (st_friction (mset m0)) = true -> nltb nzero (st_range (mset m0)) = true ->
    step_op fuel m0 (OpGrab g) = Ok (m1, OHandle n) ->
    Forall moves_only64 ops' -> run fuel' m1 ops' = Ok (m2, us) ->
    exists x, anchor_point m1 n = Some x /\
      (finite_point (fold_left rounded_sum (displacements n ops') x) ->
       exists y, anchor_point m2 n = Some y /\ same_point_value y (fold_left rounded_sum (displacements n ops') x)).
Proof. exact single_grab64. Qed.
Print Assumptions C21_single_grab_in_double.

(** How far these sums are from the exact ones: while the point stays within
    [2^e] of the origin, each movement contributes at most [2^(e-53)]. *)
Theorem C21_rounding_of_movements :
  forall (e : Z) (x : vec f64) (ds : list (vec f64)),
    (-900 <= e)%Z -> Forall (point_within e) (stations x ds) ->
    let y := fold_left rounded_sum ds x in
    Rabs (B2R (vx y) - (B2R (vx x) + vx (exact_total ds))) <= INR (length ds) * bpow radix2 (e - 53) /\
    Rabs (B2R (vy y) - (B2R (vy x) + vy (exact_total ds))) <= INR (length ds) * bpow radix2 (e - 53).
Proof. intros. apply carry_error; auto. Qed.
Print Assumptions C21_rounding_of_movements.

(** Movements by whole units [2^u] (such as pixels, [u = 0]) are not rounded at
    all while the point stays within [2^(u+52)]. *)
Theorem C21_whole_units_are_exact :
  forall (u : Z) (x : vec f64) (ds : list (vec f64)),
    (-900 <= u)%Z -> Forall (point_within (u + 52)) (stations x ds) -> point_multiple u x -> Forall (point_multiple u) ds ->
    let y := fold_left rounded_sum ds x in
    B2R (vx y) = B2R (vx x) + vx (exact_total ds) /\ B2R (vy y) = B2R (vy x) + vy (exact_total ds).
Proof. intros. apply (carry_exact u); auto. Qed.
Print Assumptions C21_whole_units_are_exact.

(** A new model, grabbed, dragged, stepped and moved. *)
Definition drag : list (op f64) :=
  [OpMoveAnchor 0 (pt 7 5); OpStep 16; OpMoveBy (pt 1 2); OpMoveAnchor 0 (pt (-3) 1); OpStep 40].

Lemma new_model_facts :
  let m0 := start usual in
  reached (pt 0 0) (nof 90) (nof 90) usual [] m0 /\ mpos m0 = rounded_grid (pt 0 0) (mw m0) (mh m0) /\ at_rest64 (mvel m0) /\
  point_within 48 (pt 0 0) /\ within 48 (mw m0) /\ within 48 (mh m0).
Proof.
  assert (V : forall z, (Z.abs z < 2 ^ 48)%Z -> within 48 (nof z : f64)).
  { intros z Hz. destruct (of_ok z) as (F & E); [lia|]. split; auto. rewrite E, <- abs_IZR. eapply Rle_trans; [apply IZR_le; apply Z.lt_le_incl; exact Hz|]. cbn. lra. }
  cbv zeta. split; [exists 60%nat, 0%Z, []; reflexivity|]. split; [reflexivity|].
  split; [|split; [split; apply V; reflexivity|split; apply V; reflexivity]].
  apply Forall_forall. intros v Hv. apply repeat_spec in Hv. subst v. split; apply zero_ok.
Qed.

Example C21_double_case :
  exists m0 m1 m2 : model f64, exists us,
    reached (pt 0 0) (nof 90) (nof 90) usual [] m0 /\ mpos m0 = rounded_grid (pt 0 0) (mw m0) (mh m0) /\ at_rest64 (mvel m0) /\
    point_within 48 (pt 0 0) /\ within 48 (mw m0) /\ within 48 (mh m0) /\
    step_op 60 m0 (OpGrab (pt 31 28)) = Ok (m1, OHandle 0) /\ Forall moves_only64 drag /\ run 60 m1 drag = Ok (m2, us) /\
    length us = 5%nat /\ length (displacements 0 drag) = 3%nat /\
    finite_point (fold_left rounded_sum (displacements 0 drag) (pt 30 30)) /\ anchor_at m2 0 (pt 35 38) = true.
Proof.
  destruct new_model_facts as (A & B & C & D & E & F). exists (start usual).
  destruct (step_op 60 (start usual) (OpGrab (pt 31 28))) as [[m1 u]|e] eqn:E1.
  2:{ exfalso. assert (X : match step_op 60 (start usual) (OpGrab (pt 31 28)) with Ok _ => true | Err _ => false end = true) by (vm_compute; reflexivity).
      rewrite E1 in X. discriminate X. }
  assert (X : match step_op 60 (start usual) (OpGrab (pt 31 28)) with
              | Ok (m, OHandle 0) => match run 60 m drag with
                                     | Ok (m', us) => Nat.eqb (length us) 5 && anchor_at m' 0 (pt 35 38) | Err _ => false end
              | _ => false end = true) by (vm_compute; reflexivity).
  rewrite E1 in X. destruct u as [|[|k]|]; try discriminate X.
  destruct (run 60 m1 drag) as [[m2 us]|e] eqn:E2; [|discriminate X]. apply andb_prop in X. destruct X as (X1 & X2).
  exists m1, m2, us. do 6 (split; [assumption|]). split; [reflexivity|].
  split; [repeat constructor|]. split; [exact E2|]. split; [apply Nat.eqb_eq; exact X1|].
  split; [reflexivity|]. split; [split; vm_compute; reflexivity|exact X2].
Qed.

(** The grid must be the one [double] arithmetic gives for its corner.  A model
    that was moved three times by tenths is a grid up to rounding only; the
    point grabbed on it is shifted, if only by a rounding error, as soon as the
    model is stepped, although nobody moved it. *)
Definition nudged : list (op f64) :=
  [OpMoveBy (mkV (nlit 1 10) (nlit 1 10)); OpMoveBy (mkV (nlit 1 5) (nlit 1 5)); OpMoveBy (mkV (nlit 7 10) (nlit 7 10))].

Theorem C21_exact_after_moving_refuted :
  exists m m1 m2 : model f64, exists x y,
    reached (pt 0 0) (nof 90) (nof 90) usual nudged m /\ at_rest64 (mvel m) /\
    step_op 60 m (OpGrab (pt 61 61)) = Ok (m1, OHandle 0) /\ step_op 60 m1 (OpStep 16) = Ok (m2, OMore false) /\
    anchor_point m1 0 = Some x /\ anchor_point m2 0 = Some y /\ ~ same_point_value y x.
Proof.
  destruct (verdict_reached usual nudged (fun m _ =>
     forallb (fun v => match vx v, vy v with B754_zero _, B754_zero _ => true | _, _ => false end) (mvel m) &&
     match step_op 60 m (OpGrab (pt 61 61)) with
     | Ok (m1, OHandle 0) =>
         match step_op 60 m1 (OpStep 16) with
         | Ok (m2, OMore false) =>
             match anchor_point m1 0, anchor_point m2 0 with
             | Some x, Some y => negb (neqb (vx y) (vx x))
             | _, _ => false
             end
         | _ => false
         end
     | _ => false
     end)) as (m & Hr & us & X); [vm_compute; reflexivity|].
  apply andb_prop in X. destruct X as (V & X). exists m.
  destruct (step_op 60 m (OpGrab (pt 61 61))) as [[m1 [|[|k]|]]|]; try discriminate X.
  destruct (step_op 60 m1 (OpStep 16)) as [[m2 [| |[|]]]|] eqn:E2; try discriminate X.
  destruct (anchor_point m1 0) as [x|] eqn:A1; [|discriminate X]. destruct (anchor_point m2 0) as [y|] eqn:A2; [|discriminate X].
  exists m1, m2, x, y. split; [exact Hr|]. split.
  - rewrite forallb_forall in V. apply Forall_forall. intros v Hv. apply V in Hv.
    destruct v as [[s| | |] [t| | |]]; try discriminate Hv. repeat split; auto.
  - split; [reflexivity|]. split; [exact E2|]. split; [exact A1|]. split; [exact A2|].
    intros ((F & G & Q) & _). rewrite (eqb_ok _ _ F G), Q, Req_bool_true in X by reflexivity. discriminate X.
Qed.
Print Assumptions C21_exact_after_moving_refuted.
