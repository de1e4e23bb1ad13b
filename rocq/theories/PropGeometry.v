(** * Properties C47-C49: points, boxes, four-component vectors *)

From Coq Require Import ZArith Reals Bool List Lra.
From Flocq Require Import Core IEEE754.BinarySingleNaN.
From Verif Require Import Num Geometry LemReal LemGeometry.
Local Open Scope R_scope.

(** ** C47 *)

(** The expectation is false: there are vectors whose assigned copy differs. *)
Theorem C47_assignment_copies_refuted :
  exists a b : vec4 R, v4_assign a b <> b.
Proof.
  exists (mk4 0 0 0 0), (mk4 1 2 3 4). rewrite v4_assign_exact_iff. simpl. lra.
Qed.
Print Assumptions C47_assignment_copies_refuted.

(** What assignment really does, for every element type and all contents: it
    copies [x] and [y] and exchanges [z] and [w]. *)
Theorem C47_assignment_exchanges_z_w :
  forall (T : Type) (a b : vec4 T),
    v4x (v4_assign a b) = v4x b /\ v4y (v4_assign a b) = v4y b /\
    v4z (v4_assign a b) = v4w b /\ v4w (v4_assign a b) = v4z b.
Proof. intros T a b. rewrite v4_assign_eq. simpl. auto. Qed.
Print Assumptions C47_assignment_exchanges_z_w.

(** The copy is right exactly when [z = w], and assigning twice is right. *)
Theorem C47_assignment_exact_iff :
  forall (T : Type) (a b : vec4 T), v4_assign a b = b <-> v4z b = v4w b.
Proof. exact @v4_assign_exact_iff. Qed.
Print Assumptions C47_assignment_exact_iff.

Theorem C47_two_assignments_cancel :
  forall (T : Type) (a b c : vec4 T), v4_assign c (v4_assign a b) = b.
Proof. exact @v4_assign_twice. Qed.
Print Assumptions C47_two_assignments_cancel.

(** Copy construction takes every component from its place. *)
Theorem C47_copy_construction_copies :
  forall (T : Type) (b : vec4 T), v4_copy b = b.
Proof. intros T [x y z w]. reflexivity. Qed.
Print Assumptions C47_copy_construction_copies.

(** [swap] itself, seen from both operands: the first two components change
    places, the third and fourth change places crosswise, nothing is lost. *)
Theorem C47_swap :
  forall (T : Type) (a b : vec4 T),
    v4_swap a b = (mk4 (v4x b) (v4y b) (v4w b) (v4z b), mk4 (v4x a) (v4y a) (v4w a) (v4z a)).
Proof. intros T [ax ay az aw] [bx by_ bz bw]. reflexivity. Qed.
Print Assumptions C47_swap.

Example C47_swap_nonvacuous : v4_swap (mk4 1 2 3 4)%nat (mk4 5 6 7 8)%nat = (mk4 5 6 8 7, mk4 1 2 4 3)%nat.
Proof. reflexivity. Qed.

(** Points are copied, swapped and assigned faithfully, in both operands. *)
Theorem C47_points_are_copied :
  forall (T : Type) (a b : vec T), v_copy b = b /\ v_swap a b = (b, a) /\ v_assign a b = b.
Proof. intros T [ax ay] [bx by_]. repeat split. Qed.
Print Assumptions C47_points_are_copied.

Example C47_points_case : v_swap (mkV 1 2)%nat (mkV 3 4)%nat = (mkV 3 4, mkV 1 2)%nat.
Proof. reflexivity. Qed.

(** ** C48 *)

Theorem C48_contains_is_closed_rectangle :
  forall (b : box R) (p : vec R),
    box_contains b p = true <->
    (vx (b_tl b) <= vx p <= vx (b_br b)) /\ (vy (b_tl b) <= vy p <= vy (b_br b)).
Proof. exact box_contains_R. Qed.
Print Assumptions C48_contains_is_closed_rectangle.

(** In IEEE arithmetic of any precision, for finite coordinates. *)
Theorem C48_contains_ieee :
  forall (prec emax : Z) (Hp : Prec_gt_0 prec) (He : Prec_lt_emax prec emax)
         (b : box (binary_float prec emax)) (p : vec (binary_float prec emax)),
    is_finite (vx (b_tl b)) = true -> is_finite (vy (b_tl b)) = true ->
    is_finite (vx (b_br b)) = true -> is_finite (vy (b_br b)) = true ->
    is_finite (vx p) = true -> is_finite (vy p) = true ->
    (@box_contains _ (Num_IEEE prec emax Hp He) b p = true <->
     (B2R (vx (b_tl b)) <= B2R (vx p) <= B2R (vx (b_br b))) /\
     (B2R (vy (b_tl b)) <= B2R (vy p) <= B2R (vy (b_br b)))).
Proof. exact box_contains_finite. Qed.
Print Assumptions C48_contains_ieee.

Theorem C48_nan_never_contained :
  forall (prec emax : Z) (Hp : Prec_gt_0 prec) (He : Prec_lt_emax prec emax)
         (b : box (binary_float prec emax)) (c : binary_float prec emax),
    @box_contains _ (Num_IEEE prec emax Hp He) b (mkV B754_nan c) = false /\
    @box_contains _ (Num_IEEE prec emax Hp He) b (mkV c B754_nan) = false.
Proof. exact box_contains_nan. Qed.
Print Assumptions C48_nan_never_contained.

Theorem C48_monotone :
  forall (inner outer : box R) (p : vec R),
    box_contains outer (b_tl inner) = true ->
    box_contains outer (b_br inner) = true ->
    box_contains inner p = true -> box_contains outer p = true.
Proof. exact box_contains_mono. Qed.
Print Assumptions C48_monotone.

Example C48_monotone_case :
  box_contains (mkB (mkV 0 0) (mkV 9 9)) (b_tl (mkB (mkV 1 2) (mkV 3 4))) = true /\
  box_contains (mkB (mkV 0 0) (mkV 9 9)) (b_br (mkB (mkV 1 2) (mkV 3 4))) = true /\
  box_contains (mkB (mkV 1 2) (mkV 3 4)) (mkV 1 4) = true /\
  box_contains (mkB (mkV 1 2) (mkV 3 4)) (mkV 1 5) = false.
Proof.
  rewrite <- !not_true_iff_false. rewrite !box_contains_R. simpl. lra.
Qed.

Theorem C48_translation_invariant :
  forall (b : box R) (p d : vec R),
    box_contains (mkB (vadd (b_tl b) d) (vadd (b_br b) d)) (vadd p d) = box_contains b p.
Proof. exact box_contains_translate. Qed.
Print Assumptions C48_translation_invariant.

(** ** C49 *)

(** Each helper acts on each coordinate with the corresponding operation, in any
    arithmetic (so also in IEEE double). *)
Theorem C49_componentwise :
  forall (T : Type) (N : Num T) (a b : vec T) (k : T),
    vadd a b = mkV (nadd (vx a) (vx b)) (nadd (vy a) (vy b)) /\
    vsub a b = mkV (nsub (vx a) (vx b)) (nsub (vy a) (vy b)) /\
    vscale a k = mkV (nmul (vx a) k) (nmul (vy a) k) /\
    vpscale a b = mkV (nmul (vx a) (vx b)) (nmul (vy a) (vy b)) /\
    vpdiv a b = mkV (ndiv (vx a) (vx b)) (ndiv (vy a) (vy b)) /\
    vabs a = mkV (nabs (vx a)) (nabs (vy a)) /\
    v_assign a b = b.
Proof. intros T N a [bx by_] k. repeat split. Qed.
Print Assumptions C49_componentwise.

Theorem C49_add_subtract_inverse :
  forall a d : vec R, vsub (vadd a d) d = a /\ vadd (vsub a d) d = a.
Proof. intros a d. exact (conj (vsub_add a d) (vadd_sub a d)). Qed.
Print Assumptions C49_add_subtract_inverse.

Theorem C49_distance_is_euclidean :
  forall a b : vec R, vdist a b = sqrt ((vx a - vx b) ^ 2 + (vy a - vy b) ^ 2).
Proof. exact dist_R. Qed.
Print Assumptions C49_distance_is_euclidean.

Theorem C49_distance_metric :
  forall a b c d : vec R,
    0 <= vdist a b /\
    vdist a b = vdist b a /\
    (vdist a b = 0 <-> a = b) /\
    vdist a c <= vdist a b + vdist b c /\
    vdist (vadd a d) (vadd b d) = vdist a b.
Proof.
  intros a b c d.
  exact (conj (vdist_nonneg a b) (conj (vdist_comm a b) (conj (vdist_zero a b)
          (conj (vdist_triangle a b c) (vdist_translate a b d))))).
Qed.
Print Assumptions C49_distance_metric.

(** The [equals] helper decides equality of points. *)
Theorem C49_equals_decides : forall a b : vec R, vequals a b = true <-> a = b.
Proof. exact vequals_R. Qed.
Print Assumptions C49_equals_decides.
