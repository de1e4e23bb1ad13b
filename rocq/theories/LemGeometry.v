(** Lemmas behind the geometry properties. *)

From Coq Require Import ZArith Reals Bool List Lia Lra.
From Flocq Require Import Core IEEE754.BinarySingleNaN.
From Verif Require Import Num Geometry LemReal.
Local Open Scope R_scope.

Lemma v4_assign_eq {T} (a b : vec4 T) :
  v4_assign a b = mk4 (v4x b) (v4y b) (v4w b) (v4z b).
Proof. reflexivity. Qed.

Lemma v4_assign_exact_iff {T} (a b : vec4 T) : v4_assign a b = b <-> v4z b = v4w b.
Proof.
  rewrite v4_assign_eq. destruct b as [x y z w]; simpl. split.
  - intros E; inversion E; auto.
  - intros ->; auto.
Qed.

Lemma v4_assign_twice {T} (a b c : vec4 T) : v4_assign c (v4_assign a b) = b.
Proof. destruct b; reflexivity. Qed.

Lemma box_contains_R (b : box R) (p : vec R) :
  box_contains b p = true <->
  (vx (b_tl b) <= vx p <= vx (b_br b)) /\ (vy (b_tl b) <= vy p <= vy (b_br b)).
Proof.
  unfold box_contains; rnum. rewrite !andb_true_iff, !Rleb_iff. tauto.
Qed.

Lemma box_contains_mono (b c : box R) (p : vec R) :
  box_contains c (b_tl b) = true -> box_contains c (b_br b) = true ->
  box_contains b p = true -> box_contains c p = true.
Proof. rewrite !box_contains_R. intuition lra. Qed.

Lemma box_contains_translate (b : box R) (p d : vec R) :
  box_contains (mkB (vadd (b_tl b) d) (vadd (b_br b) d)) (vadd p d) = box_contains b p.
Proof.
  apply eq_true_iff_eq. rewrite !box_contains_R. cbn; rnum. intuition lra.
Qed.

Section IEEE.
Context (prec emax : Z).
Context (Hp : Prec_gt_0 prec) (He : Prec_lt_emax prec emax).
Local Instance NI : Num (binary_float prec emax) := Num_IEEE prec emax Hp He.

Lemma Bleb_nan_r (x : binary_float prec emax) : Bleb x B754_nan = false.
Proof. destruct x as [s|s| |s m e H]; reflexivity. Qed.
Lemma Bleb_nan_l (x : binary_float prec emax) : Bleb B754_nan x = false.
Proof. destruct x as [s|s| |s m e H]; reflexivity. Qed.

Lemma box_contains_nan (b : box (binary_float prec emax)) c :
  box_contains b (mkV B754_nan c) = false /\ box_contains b (mkV c B754_nan) = false.
Proof.
  unfold box_contains; simpl. rewrite !Bleb_nan_r, !Bleb_nan_l.
  rewrite !andb_false_r, !andb_false_l. auto.
Qed.

(** Finite IEEE coordinates compare like the numbers they denote. *)
Lemma box_contains_finite (b : box (binary_float prec emax)) p :
  is_finite (vx (b_tl b)) = true -> is_finite (vy (b_tl b)) = true ->
  is_finite (vx (b_br b)) = true -> is_finite (vy (b_br b)) = true ->
  is_finite (vx p) = true -> is_finite (vy p) = true ->
  (box_contains b p = true <->
   (B2R (vx (b_tl b)) <= B2R (vx p) <= B2R (vx (b_br b))) /\
   (B2R (vy (b_tl b)) <= B2R (vy p) <= B2R (vy (b_br b)))).
Proof.
  intros F1 F2 F3 F4 F5 F6. unfold box_contains. cbn [nleb NI Num_IEEE].
  rewrite !Bleb_correct by assumption. rewrite !andb_true_iff.
  assert (L : forall x y, Rle_bool x y = true <-> x <= y).
  { intros x y. destruct (Rle_bool_spec x y); split; intros; auto; try discriminate; lra. }
  rewrite !L. tauto.
Qed.
End IEEE.

Lemma dist_R (a b : vec R) :
  vdist a b = sqrt ((vx a - vx b) ^ 2 + (vy a - vy b) ^ 2).
Proof. rewrite vdist_sqrt. f_equal. ring. Qed.
