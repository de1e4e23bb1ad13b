(** The magic lamp. *)

From Coq Require Import ZArith Reals Bool List Lia Lra Psatz.
From Flocq Require Import Core IEEE754.BinarySingleNaN.
From Verif Require Import Num Geometry Outcome Steppers Transforms MagicLamp Program SpecAnim LemReal LemBasic LemFloat LemSteppers LemTransforms.
Import ListNotations.
Local Open Scope Z_scope.

(** ** The grid that is written *)

Lemma flat_seq {A} (f : nat -> nat -> A) w h :
  (0 < w)%nat ->
  flat_map (fun j => map (fun i => f j i) (seq 0 w)) (seq 0 h) = map (fun k => f (k / w)%nat (k mod w)%nat) (seq 0 (h * w)).
Proof.
  intros W. induction h as [|h IH]; cbn [Nat.mul]; auto. rewrite seq_S, flat_map_app, IH. cbn [flat_map plus].
  rewrite (Nat.add_comm w (h * w)), seq_app, map_app, app_nil_r. f_equal.
  rewrite <- (Nat.add_0_r (0 + h * w)) at 1. cbn [plus].
  replace (seq (h * w + 0) w) with (map (fun i => (h * w + i)%nat) (seq 0 w)).
  - rewrite map_map. apply map_ext_in. intros i I. apply in_seq in I. f_equal.
    + rewrite Nat.add_comm, Nat.div_add by lia. rewrite Nat.div_small by lia. lia.
    + rewrite Nat.add_comm, Nat.mod_add by lia. rewrite Nat.mod_small; lia.
  - generalize 0%nat as s. generalize (h * w)%nat as o. clear. induction w as [|w IH]; intros o s; cbn; auto. f_equal.
    rewrite IH. f_equal. lia.
Qed.

Lemma skip_skip {A} b : forall a (l : list A), skipn a (skipn b l) = skipn (b + a) l.
Proof. induction b as [|b IH]; intros a [|x l]; cbn; auto. destruct a; reflexivity. Qed.

Section Grid.
Context {F D : Type} `{Num F} `{Num D} `{Conv F D} `{Libm D}.

Definition fits (r : resolution) : Prop := 0 < rw r /\ 0 < rh r /\ rw r * rh r < 2 ^ 64.
Definition vertices (r : resolution) : nat := Z.to_nat (rw r * rh r).

Lemma writes_seq (q : lamp_params F D) r p : fits r ->
  lamp_writes q r p = map (fun k => (Z.of_nat k, lamp_point q r p (Z.of_nat k mod rw r) (Z.of_nat k / rw r))) (seq 0 (vertices r)).
Proof.
  intros [W [H4 B]]. unfold lamp_writes. rewrite (flat_seq (fun j i => (u64 (Z.of_nat j * rw r + Z.of_nat i), lamp_point q r p (Z.of_nat i) (Z.of_nat j)))) by lia.
  replace (Z.to_nat (rh r) * Z.to_nat (rw r))%nat with (vertices r) by (unfold vertices; rewrite Z2Nat.inj_mul by lia; lia).
  apply map_ext_in. intros k I. apply in_seq in I. unfold vertices in I.
  rewrite Nat2Z.inj_div, Nat2Z.inj_mod, !Z2Nat.id by lia. f_equal. unfold u64.
  rewrite Z.mul_comm, <- Z_div_mod_eq_full. apply Z.mod_small. lia.
Qed.

Lemma do_writes_seq (f : nat -> vec D) n : forall s (g : list (vec D)), (s + n <= length g)%nat ->
  do_writes (map (fun k => (Z.of_nat k, f k)) (seq s n)) g = Ok (firstn s g ++ map f (seq s n) ++ skipn (s + n) g).
Proof.
  induction n as [|n IH]; intros s g L; cbn [seq map do_writes].
  - rewrite Nat.add_0_r. cbn [app]. rewrite firstn_skipn. reflexivity.
  - rewrite (proj2 (Z.ltb_lt _ _)) by lia. rewrite Nat2Z.id. rewrite IH by (rewrite list_set_length; lia). f_equal.
    assert (E : list_set s (f s) g = firstn s g ++ f s :: skipn (S s) g).
    { assert (G : forall (l : list (vec D)) i x, (i < length l)%nat -> list_set i x l = firstn i l ++ x :: skipn (S i) l).
      { clear. induction l as [|y l IHl]; intros [|i] x L; cbn [length list_set firstn skipn app] in *; try lia; auto. f_equal. apply IHl. lia. }
      apply G. lia. }
    rewrite E. replace (f s :: map f (seq (S s) n)) with ([f s] ++ map f (seq (S s) n)) by reflexivity.
    rewrite <- !app_assoc. rewrite firstn_app, firstn_firstn, Nat.min_r by lia. rewrite firstn_length, Nat.min_l by lia.
    replace (S s - s)%nat with 1%nat by lia. cbn [firstn]. rewrite <- !app_assoc. f_equal. cbn [app]. f_equal. f_equal.
    rewrite skipn_app, firstn_length, Nat.min_l by lia. rewrite (skipn_all2 (firstn s g)) by (rewrite firstn_length; lia). cbn [app].
    replace (S s + n - s)%nat with (S n) by lia. rewrite skipn_cons, skip_skip. f_equal. lia.
Qed.

(** The grid is completely overwritten when it has the size of the resolution. *)
Definition full_grid (q : lamp_params F D) (r : resolution) (p : F) : list (vec D) :=
  map (fun k => lamp_point q r p (Z.of_nat k mod rw r) (Z.of_nat k / rw r)) (seq 0 (vertices r)).

Lemma move_full (q : lamp_params F D) r p g : fits r -> length g = vertices r -> move_grid q r p g = Ok (full_grid q r p).
Proof.
  intros B L. unfold move_grid. rewrite (writes_seq q r p B), do_writes_seq by lia. cbn [firstn app plus].
  rewrite skipn_all2 by lia. rewrite app_nil_r. reflexivity.
Qed.

Lemma full_length (q : lamp_params F D) r p : length (full_grid q r p) = vertices r.
Proof. unfold full_grid. rewrite map_length, seq_length. reflexivity. Qed.

Lemma full_nth (q : lamp_params F D) r p i j : fits r -> 0 <= i < rw r -> 0 <= j < rh r ->
  nth_error (full_grid q r p) (Z.to_nat (j * rw r + i)) = Some (lamp_point q r p i j).
Proof.
  intros [W [Hh B]] I J. unfold full_grid.
  assert (K : 0 <= j * rw r + i < rw r * rh r) by nia.
  rewrite nth_error_map. rewrite (nth_error_nth' _ 0%nat) by (rewrite seq_length; unfold vertices; lia).
  rewrite seq_nth by (unfold vertices; lia). cbn [option_map plus]. rewrite Z2Nat.id by lia.
  do 2 f_equal.
  - rewrite Z.add_comm, Z_mod_plus_full, Z.mod_small; lia.
  - rewrite Z.add_comm, Z_div_plus_full, Z.div_small; lia.
Qed.

(** Too small a grid. *)
Lemma move_overflow (q : lamp_params F D) r p g : fits r -> (length g < vertices r)%nat -> move_grid q r p g = Err OutOfBounds.
Proof.
  intros B L. unfold move_grid. rewrite (writes_seq q r p B).
  set (f := fun k => lamp_point q r p (Z.of_nat k mod rw r) (Z.of_nat k / rw r)).
  replace (vertices r) with (length g + (vertices r - length g))%nat by lia.
  change (map (fun k => (Z.of_nat k, lamp_point q r p (Z.of_nat k mod rw r) (Z.of_nat k / rw r)))) with (map (fun k => (Z.of_nat k, f k))).
  rewrite seq_app, map_app. cbn [plus].
  assert (A : forall ws ws' (h : list (vec D)), do_writes (ws ++ ws') h = bind (do_writes ws h) (do_writes ws')).
  { induction ws as [|[k v] ws IH]; intros ws' h; cbn [app do_writes bind]; auto. destruct (k <? Z.of_nat (length h)); auto. }
  rewrite A, do_writes_seq by lia. cbn [bind firstn app plus]. rewrite skipn_all, app_nil_r.
  destruct (vertices r - length g)%nat eqn:N; [lia|]. cbn [seq map do_writes]. rewrite map_length, seq_length, Z.ltb_irrefl. reflexivity.
Qed.

Lemma init_length (r : resolution) : fits r -> length (init_grid (D := D) r) = vertices r.
Proof. intros [W [Hh B]]. unfold init_grid, vertices, u64. rewrite repeat_length. rewrite Z.mod_small; auto. nia. Qed.
End Grid.

(** ** Real arithmetic *)

Local Open Scope R_scope.

Definition sig (bend off x : R) : R := / (1 + exp (- bend * (x - off))).

Lemma sig_den bend off x : 0 < 1 + exp (- bend * (x - off)).
Proof. pose proof (exp_pos (- bend * (x - off))). lra. Qed.

Lemma sig_lt bend off x y : 0 < bend -> x < y -> sig bend off x < sig bend off y.
Proof.
  intros B L. unfold sig. apply Rinv_lt_contravar.
  - apply Rmult_lt_0_compat; apply sig_den.
  - apply Rplus_lt_compat_l. apply exp_increasing. nra.
Qed.
Lemma sig_gt bend off x y : bend < 0 -> x < y -> sig bend off y < sig bend off x.
Proof.
  intros B L. unfold sig. apply Rinv_lt_contravar.
  - apply Rmult_lt_0_compat; apply sig_den.
  - apply Rplus_lt_compat_l. apply exp_increasing. nra.
Qed.

(** The normalised sigmoid: 0 at 0, 1 at 1, increasing. *)
Definition nsig (bend off x : R) : R := (sig bend off x - sig bend off 0) / (sig bend off 1 - sig bend off 0).

Lemma sig_ends bend off : bend <> 0 -> sig bend off 1 - sig bend off 0 <> 0.
Proof.
  intros B. destruct (Rtotal_order bend 0) as [L|[E|G]]; try contradiction.
  - pose proof (sig_gt bend off 0 1 L ltac:(lra)). lra.
  - pose proof (sig_lt bend off 0 1 G ltac:(lra)). lra.
Qed.

Lemma nsig_0 bend off : nsig bend off 0 = 0.
Proof. unfold nsig, Rdiv. rewrite Rminus_diag_eq by reflexivity. ring. Qed.
Lemma nsig_1 bend off : bend <> 0 -> nsig bend off 1 = 1.
Proof. intros B. unfold nsig. field. apply sig_ends; auto. Qed.
Lemma nsig_mono bend off x y : bend <> 0 -> x <= y -> nsig bend off x <= nsig bend off y.
Proof.
  intros B [L| ->]; [|lra]. unfold nsig. destruct (Rtotal_order bend 0) as [N|[E|G]]; try contradiction.
  - pose proof (sig_gt bend off 0 1 N ltac:(lra)). pose proof (sig_gt bend off x y N L).
    replace ((sig bend off x - sig bend off 0) / (sig bend off 1 - sig bend off 0)) with ((sig bend off 0 - sig bend off x) / (sig bend off 0 - sig bend off 1)) by (field; lra).
    replace ((sig bend off y - sig bend off 0) / (sig bend off 1 - sig bend off 0)) with ((sig bend off 0 - sig bend off y) / (sig bend off 0 - sig bend off 1)) by (field; lra).
    unfold Rdiv. apply Rmult_le_compat_r; [apply Rlt_le, Rinv_0_lt_compat; lra|lra].
  - pose proof (sig_lt bend off 0 1 G ltac:(lra)). pose proof (sig_lt bend off x y G L).
    unfold Rdiv. apply Rmult_le_compat_r; [apply Rlt_le, Rinv_0_lt_compat; lra|lra].
Qed.

(** Where row [j] is, and how far along the way its points are. *)
Definition row_pos (b : box R) (v : R) : R := vy (b_tl b) + v * (vy (b_br b) - vy (b_tl b)).
Definition col_pos (b : box R) (u : R) : R := vx (b_tl b) + u * (vx (b_br b) - vx (b_tl b)).
Definition row_progress (q : lamp_params R R) (p v : R) : R := Rmin ((1 - p) * / (1 - v * lp_stretch q)) 1.
Definition row_y (q : lamp_params R R) (p v : R) : R :=
  row_pos (lp_target q) v + (row_pos (lp_source q) v - row_pos (lp_target q) v) * row_progress q p v.
Definition row_x (q : lamp_params R R) (p v : R) : R :=
  nsig (lp_bend q) (lp_offset q)
    (Rmin (1 - (vy (b_tl (lp_source q)) - row_y q p v) / (vy (b_tl (lp_source q)) - vy (b_tl (lp_target q)))) 1 * Rmin ((1 - p) * lp_speed q) 1).

Lemma u64_small z : (1 <= z < 2 ^ 64)%Z -> u64 (z - 1) = (z - 1)%Z.
Proof. intros B. unfold u64. apply Z.mod_small. lia. Qed.

Lemma lamp_point_R (q : lamp_params R R) (r : resolution) p i j :
  (1 < rw r < 2 ^ 64)%Z -> (1 < rh r < 2 ^ 64)%Z ->
  let u := IZR i / IZR (rw r - 1) in let v := IZR j / IZR (rh r - 1) in
  lamp_point q r p i j = mkV (col_pos (lp_target q) u + (col_pos (lp_source q) u - col_pos (lp_target q) u) * row_x q p v) (row_y q p v).
Proof.
  intros W Hh. cbv zeta. unfold lamp_point. cbv zeta. rewrite !u64_small by lia. rewrite !nmin2_R.
  cbn [widen narrow Conv_R nadd nsub nmul ndiv nof Num_R].
  assert (N1 : IZR (rw r - 1) <> 0) by (apply not_0_IZR; lia). assert (N2 : IZR (rh r - 1) <> 0) by (apply not_0_IZR; lia).
  assert (S : forall x, sigmoid (F := R) (D := R) x (lp_bend q) (lp_offset q) = sig (lp_bend q) (lp_offset q) x).
  { intros x. unfold sigmoid, sig. cbn [widen narrow Conv_R nadd nsub nmul ndiv nopp nof texp Libm_R Num_R]. unfold Rdiv. ring. }
  rewrite !S.
  assert (Y : row_y q p (IZR j / IZR (rh r - 1)) =
    vy (b_tl (lp_target q)) + IZR j * (vy (b_br (lp_target q)) - vy (b_tl (lp_target q))) / IZR (rh r - 1) +
    (vy (b_tl (lp_source q)) + IZR j * (vy (b_br (lp_source q)) - vy (b_tl (lp_source q))) / IZR (rh r - 1) -
     (vy (b_tl (lp_target q)) + IZR j * (vy (b_br (lp_target q)) - vy (b_tl (lp_target q))) / IZR (rh r - 1))) *
    Rmin ((1 - p) * (1 / (1 - IZR j / IZR (rh r - 1) * lp_stretch q))) 1).
  { unfold row_y, row_pos, row_progress. unfold Rdiv. rewrite Rmult_1_l.
    set (m := Rmin _ 1). set (k := / IZR (rh r - 1)). ring. }
  apply vec_eq; cbn [vx vy].
  - rewrite <- Y. unfold row_x, nsig, col_pos. set (m := Rmin _ 1 * Rmin _ 1). unfold Rdiv at 1 2 4 5 6. unfold Rdiv.
    set (k := / IZR (rw r - 1)). ring.
  - symmetry. exact Y.
Qed.

Lemma row_progress_range (q : lamp_params R R) p v : 0 <= p <= 1 -> 0 <= v <= 1 -> 0 <= lp_stretch q < 1 -> 0 <= row_progress q p v <= 1.
Proof.
  intros P V S. unfold row_progress. assert (D : 0 < 1 - v * lp_stretch q) by nra.
  assert (0 <= (1 - p) * / (1 - v * lp_stretch q)) by (apply Rmult_le_pos; [lra|apply Rlt_le, Rinv_0_lt_compat; auto]).
  unfold Rmin. destruct (Rle_dec _ 1); lra.
Qed.

Lemma row_progress_mono (q : lamp_params R R) p v v' : 0 <= p <= 1 -> 0 <= v <= v' -> v' <= 1 -> 0 <= lp_stretch q < 1 ->
  row_progress q p v <= row_progress q p v'.
Proof.
  intros P V V' S. unfold row_progress. assert (D : 0 < 1 - v * lp_stretch q) by nra. assert (D' : 0 < 1 - v' * lp_stretch q) by nra.
  assert (I : / (1 - v * lp_stretch q) <= / (1 - v' * lp_stretch q)) by (apply Rinv_le_contravar; nra).
  apply Rle_min_compat_r. apply Rmult_le_compat_l; lra.
Qed.

Lemma row_gap (q : lamp_params R R) v : below (lp_source q) (lp_target q) -> 0 <= v <= 1 -> row_pos (lp_target q) v <= row_pos (lp_source q) v.
Proof. intros [A [B [C D]]] V. unfold row_pos. nra. Qed.

Lemma row_y_mono (q : lamp_params R R) p v v' : below (lp_source q) (lp_target q) -> 0 <= p <= 1 -> 0 <= v <= v' -> v' <= 1 -> 0 <= lp_stretch q < 1 ->
  row_y q p v <= row_y q p v'.
Proof.
  intros B P V V' S. pose proof (row_progress_mono q p v v' P V V' S) as M. pose proof (row_progress_range q p v P ltac:(lra) S) as R1.
  pose proof (row_progress_range q p v' P ltac:(lra) S) as R2. pose proof (row_gap q v B ltac:(lra)) as G.
  assert (T : row_pos (lp_target q) v <= row_pos (lp_target q) v') by (destruct B as [_ [_ [C _]]]; unfold row_pos; nra).
  assert (Q : row_pos (lp_source q) v <= row_pos (lp_source q) v') by (destruct B as [_ [_ [_ C]]]; unfold row_pos; nra).
  unfold row_y. set (t := row_pos (lp_target q) v) in *. set (t' := row_pos (lp_target q) v') in *.
  set (s := row_pos (lp_source q) v) in *. set (s' := row_pos (lp_source q) v') in *.
  set (m := row_progress q p v) in *. set (m' := row_progress q p v') in *.
  apply Rle_trans with (t + (s - t) * m'); [nra|]. assert (0 <= (1 - m') * (t' - t)) by nra. assert (0 <= m' * (s' - s)) by nra. lra.
Qed.

Lemma row_x_mono (q : lamp_params R R) p v v' : below (lp_source q) (lp_target q) -> 0 <= p <= 1 -> 0 <= v <= v' -> v' <= 1 -> 0 <= lp_stretch q < 1 ->
  lp_bend q <> 0 -> 0 <= lp_speed q -> row_x q p v <= row_x q p v'.
Proof.
  intros B P V V' S N Sp. pose proof (row_y_mono q p v v' B P V V' S) as Y. unfold row_x. apply nsig_mono; auto.
  assert (K : 0 <= Rmin ((1 - p) * lp_speed q) 1). { unfold Rmin. destruct (Rle_dec _ 1); nra. }
  apply Rmult_le_compat_r; auto. apply Rle_min_compat_r.
  assert (G : 0 < vy (b_tl (lp_source q)) - vy (b_tl (lp_target q))) by (destruct B; lra).
  assert (I : (vy (b_tl (lp_source q)) - row_y q p v') / (vy (b_tl (lp_source q)) - vy (b_tl (lp_target q))) <=
              (vy (b_tl (lp_source q)) - row_y q p v) / (vy (b_tl (lp_source q)) - vy (b_tl (lp_target q)))).
  { unfold Rdiv. apply Rmult_le_compat_r; [apply Rlt_le, Rinv_0_lt_compat; auto|lra]. }
  lra.
Qed.

(** ** The ends *)

Lemma row_end (q : lamp_params R R) v : row_y q 1 v = row_pos (lp_target q) v /\ row_x q 1 v = 0.
Proof.
  assert (Z : forall x, Rmin ((1 - 1) * x) 1 = 0) by (intros x; rewrite Rmin_left; lra).
  split.
  - unfold row_y, row_progress. rewrite Z. ring.
  - unfold row_x. rewrite Z, Rmult_0_r. apply nsig_0.
Qed.

Lemma row_start (q : lamp_params R R) v : 0 <= v <= 1 -> 0 <= lp_stretch q < 1 -> row_y q 0 v = row_pos (lp_source q) v.
Proof.
  intros V S. unfold row_y, row_progress. assert (D : 0 < 1 - v * lp_stretch q <= 1) by nra.
  assert (1 <= / (1 - v * lp_stretch q)). { rewrite <- Rinv_1 at 1. apply Rinv_le_contravar; lra. }
  rewrite Rmin_right by lra. ring.
Qed.

Lemma row_start_x (q : lamp_params R R) v : below (lp_source q) (lp_target q) -> 0 <= v <= 1 -> 0 <= lp_stretch q < 1 -> lp_bend q <> 0 -> 1 <= lp_speed q ->
  row_x q 0 v = 1.
Proof.
  intros B V S N Sp. unfold row_x. rewrite row_start by auto. rewrite (Rmin_right ((1 - 0) * lp_speed q)) by lra.
  rewrite Rmin_right; [rewrite Rmult_1_r; apply nsig_1; auto|].
  assert (G : 0 < vy (b_tl (lp_source q)) - vy (b_tl (lp_target q))) by (destruct B; lra).
  assert (I : (vy (b_tl (lp_source q)) - row_pos (lp_source q) v) / (vy (b_tl (lp_source q)) - vy (b_tl (lp_target q))) <= 0).
  { apply Rmult_le_reg_r with (vy (b_tl (lp_source q)) - vy (b_tl (lp_target q))); auto. unfold Rdiv. rewrite Rmult_assoc, Rinv_l by lra.
    destruct B as [_ [_ [_ C]]]. unfold row_pos. nra. }
  lra.
Qed.

(** ** Interpolation *)

Local Open Scope Z_scope.

Section Interp.
Context {F D : Type} `{Num F} `{Num D} `{Conv F D}.

Definition lerp2 (a b : D) (t : F) : F := narrow (nadd (nmul a (widen (nsub (nof 1) t))) (nmul b (widen t))).

Definition blend (uv : vec D) (r : resolution) (left top : Z) (tl bl tr br : vec D) : vec D :=
  let cell_w : F := ndiv (nof 1) (nof (rw r - 1)) in
  let cell_h : F := ndiv (nof 1) (nof (rh r - 1)) in
  let xu : F := narrow (ndiv (nsub (vx uv) (widen (nmul cell_w (nof left)))) (widen cell_w)) in
  let yu : F := narrow (ndiv (nsub (vy uv) (widen (nmul cell_h (nof top)))) (widen cell_h)) in
  let x_left := lerp2 (vx tl) (vx bl) yu in
  let x_right := lerp2 (vx tr) (vx br) yu in
  let y_top := lerp2 (vy tl) (vy tr) xu in
  let y_bottom := lerp2 (vy bl) (vy br) xu in
  mkV (widen (nadd x_left (nmul (nsub x_right x_left) xu))) (widen (nadd y_top (nmul (nsub y_bottom y_top) yu))).

Lemma grid_at_ok (g : list (vec D)) r i j : fits r -> length g = vertices r -> 0 <= i < rw r -> 0 <= j < rh r ->
  exists v, nth_error g (Z.to_nat (j * rw r + i)) = Some v /\ grid_at g (u64 (i + u64 (j * rw r))) = Ok v.
Proof.
  intros [W [Hh B]] L I J. assert (K : 0 <= j * rw r + i < rw r * rh r) by nia.
  destruct (nth_error g (Z.to_nat (j * rw r + i))) as [v|] eqn:E.
  - exists v. split; auto. unfold grid_at, u64. assert (K1 : 0 <= j * rw r) by nia. rewrite (Z.mod_small (j * rw r)) by lia. rewrite Z.mod_small by lia. replace (i + j * rw r) with (j * rw r + i) by lia.
    rewrite (proj2 (Z.leb_le _ _)) by lia. rewrite (proj2 (Z.ltb_lt _ _)) by (rewrite L; unfold vertices; lia). cbn. rewrite E. reflexivity.
  - apply nth_error_None in E. rewrite L in E. unfold vertices in E. lia.
Qed.

Lemma interpolate_ok (uv : vec D) r g left top : fits r -> length g = vertices r ->
  to_size (nmul (vx uv) (nof (rw r - 1))) = Ok left -> to_size (nmul (vy uv) (nof (rh r - 1))) = Ok top ->
  0 <= left < rw r -> 0 <= top < rh r ->
  let right := Z.min (rw r - 1) (left + 1) in let bottom := Z.min (rh r - 1) (top + 1) in
  exists tl bl tr br,
    nth_error g (Z.to_nat (top * rw r + left)) = Some tl /\ nth_error g (Z.to_nat (bottom * rw r + left)) = Some bl /\
    nth_error g (Z.to_nat (top * rw r + right)) = Some tr /\ nth_error g (Z.to_nat (bottom * rw r + right)) = Some br /\
    interpolate (F := F) uv r g = Ok (blend uv r left top tl bl tr br).
Proof.
  intros Fi L El Et Il It. cbv zeta. assert (Fi' := Fi). destruct Fi' as [W [Hh B]].
  assert (W64 : rw r < 2 ^ 64) by nia. assert (H64 : rh r < 2 ^ 64) by nia.
  destruct (grid_at_ok g r left top Fi L) as [tl [Ntl Gtl]]; try lia.
  destruct (grid_at_ok g r left (Z.min (rh r - 1) (top + 1)) Fi L) as [bl [Nbl Gbl]]; try lia.
  destruct (grid_at_ok g r (Z.min (rw r - 1) (left + 1)) top Fi L) as [tr [Ntr Gtr]]; try lia.
  destruct (grid_at_ok g r (Z.min (rw r - 1) (left + 1)) (Z.min (rh r - 1) (top + 1)) Fi L) as [br [Nbr Gbr]]; try lia.
  exists tl, bl, tr, br. do 4 (split; auto). unfold interpolate. cbv zeta. rewrite !u64_small by lia. rewrite El. cbn [bind]. rewrite Et. cbn [bind].
  assert (U : forall z, 0 <= z < 2 ^ 63 -> u64 (z + 1) = z + 1) by (intros; unfold u64; apply Z.mod_small; lia).
  assert (M : forall a z, 0 <= z < a + 1 -> 0 <= a < 2 ^ 64 - 1 -> Z.min a (u64 (z + 1)) = Z.min a (z + 1)).
  { intros a z Z1 A1. unfold u64. rewrite Z.mod_small by lia. reflexivity. }
  rewrite !M by lia. rewrite Gtl. cbn [bind]. rewrite Gbl. cbn [bind]. rewrite Gtr. cbn [bind]. rewrite Gbr. cbn [bind]. reflexivity.
Qed.
End Interp.

Lemma to_size_R (u : R) n : (0 <= u <= 1)%R -> 1 <= n < 2 ^ 64 ->
  exists k, to_size (u * IZR n)%R = Ok k /\ 0 <= k <= n /\ (IZR k <= u * IZR n < IZR k + 1)%R.
Proof.
  intros U N. assert (P : (1 <= IZR n)%R) by (apply IZR_le; lia). assert (Q : (0 <= u * IZR n)%R) by nra.
  assert (Q' : (u * IZR n <= IZR n)%R) by nra.
  exists (Zfloor (u * IZR n)). unfold to_size. cbn [ntrunc Num_R]. rewrite Ztrunc_floor by auto.
  pose proof (Zfloor_lb (u * IZR n)) as Lb. pose proof (Zfloor_ub (u * IZR n)) as Ub.
  assert (K0 : 0 <= Zfloor (u * IZR n)) by (apply Zfloor_lub; auto).
  assert (Kn : Zfloor (u * IZR n) <= n) by (apply le_IZR; lra).
  rewrite (proj2 (Z.leb_le _ _)) by lia. rewrite (proj2 (Z.ltb_lt _ _)) by lia. cbn. split; auto.
Qed.

Lemma blend_R (uv : vec R) r left top tl bl tr br : rw r - 1 <> 0 -> rh r - 1 <> 0 ->
  let xu := (vx uv * IZR (rw r - 1) - IZR left)%R in let yu := (vy uv * IZR (rh r - 1) - IZR top)%R in
  blend (F := R) uv r left top tl bl tr br =
  mkV (between (between (vx tl) (vx bl) yu) (between (vx tr) (vx br) yu) xu)
      (between (between (vy tl) (vy tr) xu) (between (vy bl) (vy br) xu) yu).
Proof.
  intros W Hh. cbv zeta. unfold blend, lerp2, between. cbv zeta. cbn [widen narrow Conv_R nadd nsub nmul ndiv nof Num_R].
  assert (N1 : IZR (rw r - 1) <> 0%R) by (apply not_0_IZR; auto). assert (N2 : IZR (rh r - 1) <> 0%R) by (apply not_0_IZR; auto).
  replace ((vx uv - 1 / IZR (rw r - 1) * IZR left) / (1 / IZR (rw r - 1)))%R with (vx uv * IZR (rw r - 1) - IZR left)%R by (field; auto).
  replace ((vy uv - 1 / IZR (rh r - 1) * IZR top) / (1 / IZR (rh r - 1)))%R with (vy uv * IZR (rh r - 1) - IZR top)%R by (field; auto).
  apply vec_eq; cbn [vx vy]; ring.
Qed.

Lemma between_bounds a b t lo hi : (0 <= t <= 1 -> lo <= a <= hi -> lo <= b <= hi -> lo <= between a b t <= hi)%R.
Proof. intros T A B. unfold between. split; nra. Qed.

(** In double precision. *)
Lemma to_size_f64 (u : f64) n : is_finite u = true -> (0 <= B2R u <= 1)%R -> 0 <= n <= 2 ^ 53 ->
  exists k, to_size (nmul u (nof n)) = Ok k /\ 0 <= k <= n.
Proof.
  intros Fu U N.
  assert (Hn : is_finite (nof n : f64) = true /\ B2R (nof n : f64) = IZR n).
  { generalize (binary_normalize_correct 53 1024 Hprec64 Hemax64 mode_NE n 0 false). cbv zeta.
    replace (F2R {| Fnum := n; Fexp := 0 |}) with (IZR n) by (unfold F2R; cbn; lra). rewrite rnd64_int by lia.
    rewrite Rlt_bool_true. { intros [A [B _]]. split; auto. }
    rewrite Rabs_pos_eq by (apply IZR_le; lia). apply Rle_lt_trans with (bpow radix2 53); [cbn; apply IZR_le; lia|apply bpow_lt; lia]. }
  destruct Hn as [Fn Rn]. assert (P : (0 <= IZR n)%R) by (apply IZR_le; lia).
  generalize (Bmult_correct 53 1024 Hprec64 Hemax64 mode_NE u (nof n)). change (Bmult mode_NE u (nof n)) with (nmul u (nof n)). rewrite Rn.
  assert (Lo : (0 <= rnd64 (B2R u * IZR n))%R). { rewrite <- (rnd64_int 0) by (cbn; lia). apply rnd64_mono. nra. }
  assert (Hi : (rnd64 (B2R u * IZR n) <= IZR n)%R). { rewrite <- (rnd64_int n) at 2 by lia. apply rnd64_mono. nra. }
  rewrite Rlt_bool_true.
  2: { rewrite Rabs_pos_eq by auto. apply Rle_lt_trans with (bpow radix2 53); [apply Rle_trans with (IZR n); auto; cbn; apply IZR_le; lia|apply bpow_lt; lia]. }
  intros [E [G _]]. rewrite Fu, Fn in G. cbn [andb] in G.
  assert (T : ntrunc (nmul u (nof n)) = Some (Btrunc (nmul u (nof n) : f64))).
  { cbn [ntrunc Num_f64 Num_IEEE]. unfold ieee_trunc. destruct (nmul u (nof n)); try discriminate; reflexivity. }
  assert (C : Btrunc (nmul u (nof n) : f64) = Zfloor (B2R (nmul u (nof n) : f64))).
  { pose proof (Btrunc_correct 53 1024 Hemax64 (nmul u (nof n))) as C. unfold round in C. cbn in C.
    unfold F2R, scaled_mantissa, cexp, FIX_exp in C. cbn in C. rewrite !Rmult_1_r in C. apply eq_IZR in C.
    rewrite <- Ztrunc_floor; [exact C|rewrite E; auto]. }
  exists (Zfloor (B2R (nmul u (nof n) : f64))). unfold to_size. rewrite T, C.
  assert (K0 : 0 <= Zfloor (B2R (nmul u (nof n) : f64))) by (apply Zfloor_lub; rewrite E; auto).
  assert (Kn : Zfloor (B2R (nmul u (nof n) : f64)) <= n). { apply le_IZR. apply Rle_trans with (B2R (nmul u (nof n) : f64)); [apply Zfloor_lb|rewrite E; auto]. }
  rewrite (proj2 (Z.leb_le _ _)) by lia. rewrite (proj2 (Z.ltb_lt _ _)) by lia. cbn. split; auto.
Qed.

(** ** Histories *)

Lemma sensible_fits r : sensible r -> fits r.
Proof. unfold sensible, fits. lia. Qed.
Lemma sensible_bounds r : sensible r -> 1 < rw r < 2 ^ 64 /\ 1 < rh r < 2 ^ 64.
Proof. unfold sensible. intros [A [B C]]. split; nia. Qed.

Section Runs.
Context {F D : Type} `{Num F} `{Num D} `{Conv F D} `{Libm D}.
Context {St : Type} (call : St -> Z -> F * St).

Lemma lamp_new_full (q : lamp_params F D) r s : fits r ->
  lamp_new call q r s = Ok (mkLampAnim q (full_grid q r (fst (call s 0))) r (fst (call s 0)) (snd (call s 0))).
Proof.
  intros B. unfold lamp_new. destruct (call s 0) as [p s1]. rewrite move_full by (auto using init_length). reflexivity.
Qed.

Lemma lamp_step_full ms (a : lamp F D St) : fits (ml_res a) -> length (ml_grid a) = vertices (ml_res a) ->
  let p := clamp_progress (fst (call (ml_stepper a) ms)) in
  lamp_step call ms a = Ok (mkLampAnim (ml_params a) (full_grid (ml_params a) (ml_res a) p) (ml_res a) p (snd (call (ml_stepper a) ms)), more_progress p).
Proof. intros B L. unfold lamp_step. destruct (call (ml_stepper a) ms) as [v s1]. cbn [fst snd]. rewrite move_full by auto. reflexivity. Qed.

Lemma lamp_run_total ops : forall a : lamp F D St, same_resolution ops -> fits (ml_res a) -> length (ml_grid a) = vertices (ml_res a) ->
  exists a', lamp_run call a ops = Ok a' /\ ml_res a' = ml_res a /\ length (ml_grid a') = vertices (ml_res a').
Proof.
  induction ops as [|o ops IH]; intros a S B L; cbn [lamp_run]; [eauto|]. inversion S as [|? ? So Ss]; subst.
  destruct o; cbn [lamp_do]; try contradiction.
  - rewrite lamp_step_full by auto. cbn [bind fst].
    destruct (IH (mkLampAnim (ml_params a) (full_grid (ml_params a) (ml_res a) (clamp_progress (fst (call (ml_stepper a) ms)))) (ml_res a) (clamp_progress (fst (call (ml_stepper a) ms))) (snd (call (ml_stepper a) ms))) Ss) as [a' [E [R L']]]; auto.
    + cbn. apply full_length.
    + exists a'. auto.
  - cbn [bind]. destruct (IH (mkLampAnim q (ml_grid a) (ml_res a) (ml_progress a) (ml_stepper a)) Ss) as [a' [E [R L']]]; auto. exists a'. auto.
  - cbn [bind]. destruct (IH (mkLampAnim (ml_params a) (ml_grid a) (ml_res a) (ml_progress a) s) Ss) as [a' [E [R L']]]; auto. exists a'. auto.
Qed.

Lemma lamp_run_app a b : forall x : lamp F D St, lamp_run call x (a ++ b) = bind (lamp_run call x a) (fun y => lamp_run call y b).
Proof. induction a as [|o a IH]; intros x; cbn [app lamp_run bind]; auto. destruct (lamp_do call x o); cbn [bind]; auto. Qed.

(** After construction, any such history and a [Step]. *)
Lemma lamp_history (q : lamp_params F D) r s ops ms : fits r -> same_resolution ops ->
  exists a0 a, lamp_new call q r s = Ok a0 /\ lamp_run call a0 (ops ++ [MlStep ms]) = Ok a /\
    ml_res a = r /\ ml_grid a = full_grid (ml_params a) r (ml_progress a) /\
    exists b, lamp_run call a0 ops = Ok b /\ ml_progress a = clamp_progress (fst (call (ml_stepper b) ms)).
Proof.
  intros B S. rewrite lamp_new_full by auto. eexists. 
  destruct (lamp_run_total ops (mkLampAnim q (full_grid q r (fst (call s 0))) r (fst (call s 0)) (snd (call s 0))) S B) as [b [E [R L]]].
  { cbn. apply full_length. }
  cbn [ml_res] in R. pose proof (lamp_step_full ms b) as St'. rewrite R in *. specialize (St' B L). cbv zeta in St'.
  eexists. split; [reflexivity|]. rewrite lamp_run_app, E. cbn [bind lamp_run lamp_do]. rewrite St'. cbn [bind fst].
  split; [reflexivity|]. cbn. split; auto. split; auto. exists b. auto.
Qed.
End Runs.

Lemma stepped_full {F D} `{Num F} `{Num D} `{Conv F D} `{Libm D} {St} (call : St -> Z -> F * St)
    q r s ops ms (a : lamp F D St) : fits r -> same_resolution ops -> stepped_lamp call q r s ops ms a ->
  ml_res a = r /\ ml_grid a = full_grid (ml_params a) r (ml_progress a).
Proof.
  intros B S [a0 [E E']]. destruct (lamp_history call q r s ops ms B S) as [b0 [b [F1 [F2 [F3 [F4 _]]]]]].
  rewrite E in F1. injection F1 as <-. rewrite E' in F2. injection F2 as <-. auto.
Qed.

(** ** Regular grids *)

Lemma interpolate_affine (uv : vec R) r (g : list (vec R)) (b : box R) : sensible r -> length g = vertices r -> in_square uv ->
  (forall i j, 0 <= i < rw r -> 0 <= j < rh r -> vertex r g i j = Some (in_box b (IZR i / IZR (rw r - 1)) (IZR j / IZR (rh r - 1)))) ->
  interpolate (F := R) uv r g = Ok (in_box b (vx uv) (vy uv)).
Proof.
  intros S L [U V] G. destruct (sensible_bounds r S) as [W Hh].
  destruct (to_size_R (vx uv) (rw r - 1) U) as [l [El [Il Bl]]]; [lia|].
  destruct (to_size_R (vy uv) (rh r - 1) V) as [t [Et [It Bt]]]; [lia|].
  destruct (interpolate_ok (F := R) uv r g l t (sensible_fits r S) L El Et) as [tl [bl [tr [br [A1 [A2 [A3 [A4 E]]]]]]]]; try lia.
  rewrite E, blend_R by lia.
  assert (N1 : IZR (rw r - 1) <> 0%R) by (apply not_0_IZR; lia). assert (N2 : IZR (rh r - 1) <> 0%R) by (apply not_0_IZR; lia).
  unfold vertex in G. rewrite G in A1, A2, A3, A4 by lia. injection A1 as <-. injection A2 as <-. injection A3 as <-. injection A4 as <-.
  set (xu := (vx uv * IZR (rw r - 1) - IZR l)%R). set (yu := (vy uv * IZR (rh r - 1) - IZR t)%R).
  assert (X : (xu * (IZR (Z.min (rw r - 1) (l + 1)) - IZR l) = xu)%R).
  { destruct (Z.eq_dec l (rw r - 1)) as [->|Ne].
    - assert (xu = 0)%R. { unfold xu in *. assert (vx uv * IZR (rw r - 1) <= IZR (rw r - 1))%R; [|lra]. assert (0 < IZR (rw r - 1))%R by (apply IZR_lt; lia). nra. }
      rewrite H. ring.
    - rewrite Z.min_r by lia. rewrite plus_IZR. ring. }
  assert (Y : (yu * (IZR (Z.min (rh r - 1) (t + 1)) - IZR t) = yu)%R).
  { destruct (Z.eq_dec t (rh r - 1)) as [->|Ne].
    - assert (yu = 0)%R. { unfold yu in *. assert (vy uv * IZR (rh r - 1) <= IZR (rh r - 1))%R; [|lra]. assert (0 < IZR (rh r - 1))%R by (apply IZR_lt; lia). nra. }
      rewrite H. ring.
    - rewrite Z.min_r by lia. rewrite plus_IZR. ring. }
  f_equal. unfold in_box, between. apply vec_eq; cbn [vx vy].
  - transitivity (vx (b_tl b) + (IZR l + xu * (IZR (Z.min (rw r - 1) (l + 1)) - IZR l)) / IZR (rw r - 1) * (vx (b_br b) - vx (b_tl b)))%R; [field; auto|].
    rewrite X. unfold xu. field. auto.
  - transitivity (vy (b_tl b) + (IZR t + yu * (IZR (Z.min (rh r - 1) (t + 1)) - IZR t)) / IZR (rh r - 1) * (vy (b_br b) - vy (b_tl b)))%R; [field; auto|].
    rewrite Y. unfold yu. field. auto.
Qed.

Lemma unit_ratio i n : 0 <= i <= n -> 0 < n -> (0 <= IZR i / IZR n <= 1)%R.
Proof.
  intros I N. assert (P : (0 < IZR n)%R) by (apply IZR_lt; lia). assert (A : (0 <= IZR i)%R) by (apply IZR_le; lia). assert (B : (IZR i <= IZR n)%R) by (apply IZR_le; lia).
  split; [apply Rmult_le_pos; auto; apply Rlt_le, Rinv_0_lt_compat; auto|].
  apply Rmult_le_reg_r with (IZR n); auto. unfold Rdiv. rewrite Rmult_assoc, Rinv_l by lra. lra.
Qed.

Lemma ratio_mono i j n : i <= j -> 0 < n -> (IZR i / IZR n <= IZR j / IZR n)%R.
Proof. intros I N. unfold Rdiv. apply Rmult_le_compat_r; [apply Rlt_le, Rinv_0_lt_compat, IZR_lt; lia|apply IZR_le; auto]. Qed.

(** ** Bounds *)

Lemma interpolate_within (uv : vec R) r (g : list (vec R)) : sensible r -> length g = vertices r -> in_square uv ->
  exists i j i' j' a b c d p,
    i = Zfloor (vx uv * IZR (rw r - 1)) /\ j = Zfloor (vy uv * IZR (rh r - 1)) /\
    i' = Z.min (i + 1) (rw r - 1) /\ j' = Z.min (j + 1) (rh r - 1) /\
    vertex r g i j = Some a /\ vertex r g i' j = Some b /\ vertex r g i j' = Some c /\ vertex r g i' j' = Some d /\
    interpolate (F := R) uv r g = Ok p /\
    forall lo hi, within lo hi a -> within lo hi b -> within lo hi c -> within lo hi d -> within lo hi p.
Proof.
  intros S L [U V]. destruct (sensible_bounds r S) as [W Hh].
  destruct (to_size_R (vx uv) (rw r - 1) U) as [l [El [Il Bl]]]; [lia|].
  destruct (to_size_R (vy uv) (rh r - 1) V) as [t [Et [It Bt]]]; [lia|].
  destruct (interpolate_ok (F := R) uv r g l t (sensible_fits r S) L El Et) as [tl [bl [tr [br [A1 [A2 [A3 [A4 E]]]]]]]]; try lia.
  exists l, t, (Z.min (l + 1) (rw r - 1)), (Z.min (t + 1) (rh r - 1)), tl, tr, bl, br. eexists.
  split; [symmetry; apply Zfloor_imp; rewrite plus_IZR; lra|]. split; [symmetry; apply Zfloor_imp; rewrite plus_IZR; lra|].
  do 2 (split; [reflexivity|]). unfold vertex. rewrite !(Z.min_comm (_ + 1)). do 4 (split; [assumption|]). split; [exact E|].
  rewrite blend_R by lia. intros lo hi [Xa Ya] [Xb Yb] [Xc Yc] [Xd Yd].
  assert (X : (0 <= vx uv * IZR (rw r - 1) - IZR l <= 1)%R) by lra. assert (Y : (0 <= vy uv * IZR (rh r - 1) - IZR t <= 1)%R) by lra.
  split; cbn [vx vy]; repeat apply between_bounds; auto.
Qed.

Lemma interpolate_bilinear (uv : vec R) r (g : list (vec R)) : sensible r -> length g = vertices r -> in_square uv ->
  let i := Zfloor (vx uv * IZR (rw r - 1)) in let j := Zfloor (vy uv * IZR (rh r - 1)) in
  let i' := Z.min (i + 1) (rw r - 1) in let j' := Z.min (j + 1) (rh r - 1) in
  let s := (vx uv * IZR (rw r - 1) - IZR i)%R in let t := (vy uv * IZR (rh r - 1) - IZR j)%R in
  exists a b c d, vertex r g i j = Some a /\ vertex r g i' j = Some b /\ vertex r g i j' = Some c /\ vertex r g i' j' = Some d /\
    let mix f := ((1 - s) * (1 - t) * f a + s * (1 - t) * f b + (1 - s) * t * f c + s * t * f d)%R in
    interpolate (F := R) uv r g = Ok (mkV (mix vx) (mix vy)).
Proof.
  intros S L [U V]. destruct (sensible_bounds r S) as [W Hh].
  destruct (to_size_R (vx uv) (rw r - 1) U) as [l [El [Il Bl]]]; [lia|].
  destruct (to_size_R (vy uv) (rh r - 1) V) as [t [Et [It Bt]]]; [lia|].
  destruct (interpolate_ok (F := R) uv r g l t (sensible_fits r S) L El Et) as [tl [bl [tr [br [A1 [A2 [A3 [A4 E]]]]]]]]; try lia.
  cbv zeta. replace (Zfloor (vx uv * IZR (rw r - 1))) with l by (symmetry; apply Zfloor_imp; rewrite plus_IZR; lra).
  replace (Zfloor (vy uv * IZR (rh r - 1))) with t by (symmetry; apply Zfloor_imp; rewrite plus_IZR; lra).
  exists tl, tr, bl, br. unfold vertex. rewrite !(Z.min_comm (_ + 1)). do 4 (split; [assumption|]).
  rewrite E, blend_R by lia. f_equal. unfold between. apply vec_eq; cbn [vx vy]; ring.
Qed.

Lemma interpolate_node r (g : list (vec R)) i j : sensible r -> length g = vertices r -> 0 <= i < rw r -> 0 <= j < rh r ->
  exists p, vertex r g i j = Some p /\ interpolate (F := R) (mkV (IZR i / IZR (rw r - 1))%R (IZR j / IZR (rh r - 1))%R) r g = Ok p.
Proof.
  intros S L I J. destruct (sensible_bounds r S) as [W Hh].
  pose proof (unit_ratio i (rw r - 1) ltac:(lia) ltac:(lia)) as U. pose proof (unit_ratio j (rh r - 1) ltac:(lia) ltac:(lia)) as V.
  assert (N1 : IZR (rw r - 1) <> 0%R) by (apply not_0_IZR; lia). assert (N2 : IZR (rh r - 1) <> 0%R) by (apply not_0_IZR; lia).
  assert (X : (IZR i / IZR (rw r - 1) * IZR (rw r - 1) = IZR i)%R) by (field; auto).
  assert (Y : (IZR j / IZR (rh r - 1) * IZR (rh r - 1) = IZR j)%R) by (field; auto).
  destruct (to_size_R _ (rw r - 1) U) as [l [El [Il Bl]]]; [lia|]. destruct (to_size_R _ (rh r - 1) V) as [t [Et [It Bt]]]; [lia|].
  rewrite X in Bl. rewrite Y in Bt.
  assert (l = i) as ->. { destruct Bl as [B1 B2]. apply le_IZR in B1. assert (IZR i < IZR (l + 1))%R by (rewrite plus_IZR; lra). apply lt_IZR in H. lia. }
  assert (t = j) as ->. { destruct Bt as [B1 B2]. apply le_IZR in B1. assert (IZR j < IZR (t + 1))%R by (rewrite plus_IZR; lra). apply lt_IZR in H. lia. }
  destruct (interpolate_ok (F := R) (mkV (IZR i / IZR (rw r - 1))%R (IZR j / IZR (rh r - 1))%R) r g i j (sensible_fits r S) L El Et) as [tl [bl [tr [br [A1 [A2 [A3 [A4 E]]]]]]]]; try lia.
  exists tl. split; auto. rewrite E, blend_R by lia. cbn [vx vy]. rewrite X, Y. f_equal. unfold between.
  apply vec_eq; cbn [vx vy]; ring.
Qed.

Lemma interpolate_f64 (uv : vec f64) r (g : list (vec f64)) : sensible r -> rw r <= 2 ^ 53 -> rh r <= 2 ^ 53 -> length g = vertices r ->
  is_finite (vx uv) = true -> is_finite (vy uv) = true -> (0 <= B2R (vx uv) <= 1)%R -> (0 <= B2R (vy uv) <= 1)%R ->
  exists p, interpolate (F := f32) uv r g = Ok p.
Proof.
  intros S W1 H1 L Fu Fv U V. destruct (sensible_bounds r S) as [W Hh].
  destruct (to_size_f64 (vx uv) (rw r - 1) Fu U) as [l [El Il]]; [lia|]. destruct (to_size_f64 (vy uv) (rh r - 1) Fv V) as [t [Et It]]; [lia|].
  destruct (interpolate_ok (F := f32) uv r g l t (sensible_fits r S) L El Et) as [tl [bl [tr [br [A1 [A2 [A3 [A4 E]]]]]]]]; try lia. eauto.
Qed.

(** ** The grid in real arithmetic *)

Lemma vertex_full (q : lamp_params R R) r p i j : sensible r -> 0 <= i < rw r -> 0 <= j < rh r ->
  let u := (IZR i / IZR (rw r - 1))%R in let v := (IZR j / IZR (rh r - 1))%R in
  vertex r (full_grid q r p) i j =
    Some (mkV (col_pos (lp_target q) u + (col_pos (lp_source q) u - col_pos (lp_target q) u) * row_x q p v)%R (row_y q p v)).
Proof.
  intros S I J. cbv zeta. destruct (sensible_bounds r S). unfold vertex. rewrite full_nth by (auto using sensible_fits). rewrite lamp_point_R by auto. reflexivity.
Qed.

Lemma lamp_at_end (q : lamp_params R R) r uv : sensible r -> in_square uv -> interpolate (F := R) uv r (full_grid q r 1%R) = Ok (in_box (lp_target q) (vx uv) (vy uv)).
Proof.
  intros S U. apply interpolate_affine; auto using full_length. intros i j I J. rewrite vertex_full by auto. f_equal.
  destruct (row_end q (IZR j / IZR (rh r - 1))%R) as [-> ->]. unfold in_box, col_pos, row_pos. apply vec_eq; cbn [vx vy]; ring.
Qed.

Lemma lamp_at_start (q : lamp_params R R) r uv : sensible r -> in_square uv -> below (lp_source q) (lp_target q) ->
  (0 <= lp_stretch q < 1)%R -> lp_bend q <> 0%R -> (1 <= lp_speed q)%R ->
  interpolate (F := R) uv r (full_grid q r 0%R) = Ok (in_box (lp_source q) (vx uv) (vy uv)).
Proof.
  intros S U B St N Sp. destruct (sensible_bounds r S) as [W Hh]. apply interpolate_affine; auto using full_length. intros i j I J. rewrite vertex_full by auto. f_equal.
  pose proof (unit_ratio j (rh r - 1) ltac:(lia) ltac:(lia)) as V. rewrite row_start, row_start_x by auto.
  unfold in_box, col_pos, row_pos. apply vec_eq; cbn [vx vy]; ring.
Qed.

Lemma sig_inj bend off x y : (bend <> 0 -> x < y -> sig bend off x <> sig bend off y)%R.
Proof. intros N L. destruct (Rlt_or_le 0 bend) as [P|P]; [pose proof (sig_lt bend off x y P L)|pose proof (sig_gt bend off x y ltac:(lra) L)]; lra. Qed.

(** The source above the target: the bottom row does not start in place. *)
Lemma lamp_above_start (q : lamp_params R R) r i : sensible r -> 0 <= i < rw r ->
  (vy (b_tl (lp_source q)) < vy (b_tl (lp_target q)))%R -> (vy (b_tl (lp_source q)) < vy (b_br (lp_source q)))%R ->
  (0 <= lp_stretch q < 1)%R -> lp_bend q <> 0%R -> (1 <= lp_speed q)%R ->
  let u := (IZR i / IZR (rw r - 1))%R in
  vx (in_box (lp_source q) u 1) <> vx (in_box (lp_target q) u 1) ->
  exists p, vertex r (full_grid q r 0%R) i (rh r - 1) = Some p /\ vx p <> vx (in_box (lp_source q) u 1).
Proof.
  intros S I A Hs St N Sp. cbv zeta. intros Ne. destruct (sensible_bounds r S) as [W Hh]. eexists. split; [apply vertex_full; auto; lia|].
  cbn [vx]. assert (N2 : IZR (rh r - 1) <> 0%R) by (apply not_0_IZR; lia). replace (IZR (rh r - 1) / IZR (rh r - 1))%R with 1%R by (field; auto).
  set (u := (IZR i / IZR (rw r - 1))%R) in *. unfold in_box in *. cbn [vx] in *. fold (col_pos (lp_source q) u) in *. fold (col_pos (lp_target q) u) in *.
  assert (X : row_x q 0 1 <> 1%R).
  { unfold row_x. rewrite row_start by (auto; lra). rewrite (Rmin_right ((1 - 0) * lp_speed q)) by lra. rewrite Rmult_1_r.
    set (y := (_ / _)%R). assert (Y : (0 < y)%R).
    { unfold y, row_pos. set (d := (vy (b_tl (lp_source q)) - vy (b_tl (lp_target q)))%R). assert (d < 0)%R by (unfold d; lra).
      replace ((_ - _) / d)%R with ((vy (b_br (lp_source q)) - vy (b_tl (lp_source q))) * / (- d))%R by (field; lra).
      apply Rmult_lt_0_compat; [lra|apply Rinv_0_lt_compat; lra]. }
    rewrite Rmin_left by lra. unfold nsig. pose proof (sig_ends (lp_bend q) (lp_offset q) N) as E. intros K.
    apply (sig_inj (lp_bend q) (lp_offset q) (1 - y) 1 N); [lra|].
    apply (Rmult_eq_compat_r (sig (lp_bend q) (lp_offset q) 1 - sig (lp_bend q) (lp_offset q) 0)) in K. unfold Rdiv in K. rewrite Rmult_assoc, Rinv_l in K by auto. lra. }
  intros K. apply X. apply (Rmult_eq_reg_l (col_pos (lp_source q) u - col_pos (lp_target q) u)); [|lra]. lra.
Qed.

(** ** Extremes *)

Definition corner4 (p : vec R) : vec4 R := mk4 (vx p) (vy p) 0%R 1%R.

Lemma lamp_corners {St} (a : lamp R R St) : sensible (ml_res a) -> length (ml_grid a) = vertices (ml_res a) ->
  exists c0 c1 c2 c3, vertex (ml_res a) (ml_grid a) 0 0 = Some c0 /\ vertex (ml_res a) (ml_grid a) (rw (ml_res a) - 1) 0 = Some c1 /\
    vertex (ml_res a) (ml_grid a) 0 (rh (ml_res a) - 1) = Some c2 /\ vertex (ml_res a) (ml_grid a) (rw (ml_res a) - 1) (rh (ml_res a) - 1) = Some c3 /\
    lamp_extremes a = Ok [corner4 c0; corner4 c1; corner4 c2; corner4 c3].
Proof.
  intros S L. pose proof (sensible_fits _ S) as B. destruct (sensible_bounds _ S) as [W Hh]. destruct S as [S1 [S2 S3]].
  assert (G : forall k, 0 <= k < rw (ml_res a) * rh (ml_res a) -> exists p, nth_error (ml_grid a) (Z.to_nat k) = Some p /\ grid_at (ml_grid a) k = Ok p).
  { intros k K. unfold grid_at. rewrite (proj2 (Z.leb_le 0 k)) by lia. rewrite (proj2 (Z.ltb_lt k _)) by (rewrite L; unfold vertices; lia). cbn [andb].
    destruct (nth_error (ml_grid a) (Z.to_nat k)) as [p|] eqn:E; [exists p; auto|]. apply nth_error_None in E. rewrite L in E. unfold vertices in E. lia. }
  destruct (G 0) as [c0 [V0 G0]]; [nia|]. destruct (G (rw (ml_res a) - 1)) as [c1 [V1 G1]]; [nia|].
  destruct (G ((rh (ml_res a) - 1) * rw (ml_res a))) as [c2 [V2 G2]]; [nia|].
  destruct (G ((rh (ml_res a) - 1) * rw (ml_res a) + rw (ml_res a) - 1)) as [c3 [V3 G3]]; [nia|].
  exists c0, c1, c2, c3. unfold vertex. rewrite !Z.mul_0_l, !Z.add_0_l, Z.add_0_r. rewrite Z.add_sub_assoc.
  do 4 (split; [auto|]). unfold lamp_extremes. rewrite !u64_small by lia.
  assert (E2 : u64 ((rh (ml_res a) - 1) * rw (ml_res a)) = (rh (ml_res a) - 1) * rw (ml_res a)) by (unfold u64; apply Z.mod_small; nia).
  rewrite E2. assert (E3 : u64 ((rh (ml_res a) - 1) * rw (ml_res a) + rw (ml_res a) - 1) = (rh (ml_res a) - 1) * rw (ml_res a) + rw (ml_res a) - 1) by (unfold u64; apply Z.mod_small; nia).
  rewrite E3, G0, G1, G2, G3. reflexivity.
Qed.

Lemma blend_bounds a b c d t m lo hi : (0 <= t <= 1 -> 0 <= m <= 1 ->
  lo <= a <= hi -> lo <= b <= hi -> lo <= c <= hi -> lo <= d <= hi ->
  lo <= (1 - t) * ((1 - m) * a + m * b) + t * ((1 - m) * c + m * d) <= hi)%R.
Proof.
  intros T M A B C D. pose proof (between_bounds a b m lo hi M A B) as P. pose proof (between_bounds c d m lo hi M C D) as Q.
  unfold between in P, Q. exact (between_bounds _ _ t lo hi T P Q).
Qed.

(** A monotone row factor is between its ends. *)
Lemma as_between lo x hi : (lo <= x <= hi -> exists m, 0 <= m <= 1 /\ x = (1 - m) * lo + m * hi)%R.
Proof.
  intros [A B]. destruct (Req_dec lo hi) as [E|N]; [exists 0%R; lra|]. exists ((x - lo) / (hi - lo))%R. assert (0 < hi - lo)%R by lra. split.
  - split; [apply Rmult_le_pos; [lra|apply Rlt_le, Rinv_0_lt_compat; lra]|]. apply Rmult_le_reg_r with (hi - lo)%R; auto. unfold Rdiv. rewrite Rmult_assoc, Rinv_l by lra. lra.
  - field. lra.
Qed.

Lemma lamp_vertex_within (q : lamp_params R R) r p c0 c1 c2 c3 lo hi i j x : sensible r -> below (lp_source q) (lp_target q) -> (0 <= p <= 1)%R ->
  (0 <= lp_stretch q < 1)%R -> lp_bend q <> 0%R -> (0 <= lp_speed q)%R ->
  vertex r (full_grid q r p) 0 0 = Some c0 -> vertex r (full_grid q r p) (rw r - 1) 0 = Some c1 ->
  vertex r (full_grid q r p) 0 (rh r - 1) = Some c2 -> vertex r (full_grid q r p) (rw r - 1) (rh r - 1) = Some c3 ->
  within lo hi c0 -> within lo hi c1 -> within lo hi c2 -> within lo hi c3 ->
  0 <= i < rw r -> 0 <= j < rh r -> vertex r (full_grid q r p) i j = Some x -> within lo hi x.
Proof.
  intros S B P St N Sp V0 V1 V2 V3 W0 W1 W2 W3 I J V. destruct (sensible_bounds r S) as [W Hh].
  rewrite vertex_full in V0, V1, V2, V3, V by (auto; lia).
  assert (N1 : IZR (rw r - 1) <> 0%R) by (apply not_0_IZR; lia). assert (N2 : IZR (rh r - 1) <> 0%R) by (apply not_0_IZR; lia).
  replace (IZR (rw r - 1) / IZR (rw r - 1))%R with 1%R in * by (field; auto). replace (IZR (rh r - 1) / IZR (rh r - 1))%R with 1%R in * by (field; auto).
  replace (IZR 0 / IZR (rw r - 1))%R with 0%R in * by (field; auto). replace (IZR 0 / IZR (rh r - 1))%R with 0%R in * by (field; auto).
  injection V0 as <-. injection V1 as <-. injection V2 as <-. injection V3 as <-. injection V as <-.
  pose proof (unit_ratio i (rw r - 1) ltac:(lia) ltac:(lia)) as U. pose proof (unit_ratio j (rh r - 1) ltac:(lia) ltac:(lia)) as VV.
  set (u := (IZR i / IZR (rw r - 1))%R) in *. set (v := (IZR j / IZR (rh r - 1))%R) in *.
  pose proof (row_y_mono q p 0 v B P ltac:(lra) ltac:(lra) St) as Y1. pose proof (row_y_mono q p v 1 B P ltac:(lra) ltac:(lra) St) as Y2.
  pose proof (row_x_mono q p 0 v B P ltac:(lra) ltac:(lra) St N Sp) as X1. pose proof (row_x_mono q p v 1 B P ltac:(lra) ltac:(lra) St N Sp) as X2.
  destruct (as_between (row_x q p 0) (row_x q p v) (row_x q p 1) ltac:(lra)) as [m [M E]]. unfold within in *. cbn [vx vy] in *. split; [|lra].
  rewrite E. unfold col_pos in *.
  match goal with |- (_ <= ?e <= _)%R => 
    match type of W0 with (_ <= ?a <= _)%R /\ _ => match type of W1 with (_ <= ?b <= _)%R /\ _ => match type of W2 with (_ <= ?c <= _)%R /\ _ => match type of W3 with (_ <= ?d <= _)%R /\ _ =>
    replace e with ((1 - m) * ((1 - u) * a + u * b) + m * ((1 - u) * c + u * d))%R by ring end end end end end.
  apply blend_bounds; tauto.
Qed.

(** ** Outside the unit square *)

Lemma to_size_R_near (u : R) n : (-1 < u * IZR n < IZR n + 1)%R -> 1 <= n < 2 ^ 64 - 1 ->
  exists k, to_size (u * IZR n)%R = Ok k /\ 0 <= k <= n.
Proof.
  intros U N. unfold to_size. cbn [ntrunc Num_R]. exists (Ztrunc (u * IZR n)).
  assert (K : 0 <= Ztrunc (u * IZR n) <= n).
  { destruct (Rle_or_lt 0 (u * IZR n)) as [P|P].
    - rewrite Ztrunc_floor by auto. pose proof (Zfloor_lb (u * IZR n)) as Lb. split; [apply Zfloor_lub; auto|].
      assert (IZR (Zfloor (u * IZR n)) < IZR (n + 1))%R by (rewrite plus_IZR; lra). apply lt_IZR in H. lia.
    - rewrite Ztrunc_ceil by lra. assert (Zceil (u * IZR n) = 0). { apply Zceil_imp. cbn. lra. } lia. }
  rewrite (proj2 (Z.leb_le _ _)) by lia. rewrite (proj2 (Z.ltb_lt _ _)) by lia. cbn. split; auto.
Qed.

Lemma interpolate_near (uv : vec R) r (g : list (vec R)) : sensible r -> length g = vertices r ->
  (-1 < vx uv * IZR (rw r - 1) < IZR (rw r))%R -> (-1 < vy uv * IZR (rh r - 1) < IZR (rh r))%R ->
  exists p, interpolate (F := R) uv r g = Ok p.
Proof.
  intros S L U V. destruct (sensible_bounds r S) as [W Hh].
  replace (IZR (rw r)) with (IZR (rw r - 1) + 1)%R in U by (rewrite minus_IZR; lra). replace (IZR (rh r)) with (IZR (rh r - 1) + 1)%R in V by (rewrite minus_IZR; lra).
  destruct S as [S1 [S2 S3]].
  destruct (to_size_R_near (vx uv) (rw r - 1) U) as [l [El Il]]; [nia|]. destruct (to_size_R_near (vy uv) (rh r - 1) V) as [t [Et It]]; [nia|].
  destruct (interpolate_ok (F := R) uv r g l t ltac:(unfold fits; lia) L El Et) as [tl [bl [tr [br [A1 [A2 [A3 [A4 E]]]]]]]]; try lia. eauto.
Qed.

Lemma to_size_neg (u : R) : (u <= -1)%R -> to_size u = Err BadCast.
Proof.
  intros U. unfold to_size. cbn [ntrunc Num_R]. assert (Ztrunc u <= -1). { rewrite Ztrunc_ceil by lra. apply Zceil_glb. exact U. }
  rewrite (proj2 (Z.leb_gt _ _)) by lia. reflexivity.
Qed.

Lemma to_size_big (u : R) : (IZR (2 ^ 64) <= u)%R -> to_size u = Err BadCast.
Proof.
  intros U. unfold to_size. cbn [ntrunc Num_R]. assert (2 ^ 64 <= Ztrunc u). { rewrite Ztrunc_floor by (apply Rle_trans with (2 := U); apply IZR_le; lia). apply Zfloor_lub. exact U. }
  rewrite (proj2 (Z.ltb_ge _ _)) by lia. rewrite andb_false_r. reflexivity.
Qed.

Lemma to_size_floor (u : R) : (0 <= u < IZR (2 ^ 64))%R -> to_size u = Ok (Zfloor u).
Proof.
  intros U. unfold to_size. cbn [ntrunc Num_R]. rewrite Ztrunc_floor by apply U. assert (0 <= Zfloor u) by (apply Zfloor_lub; apply U).
  assert (Zfloor u < 2 ^ 64). { apply lt_IZR. apply Rle_lt_trans with u; [apply Zfloor_lb|apply U]. }
  rewrite (proj2 (Z.leb_le _ _)) by lia. rewrite (proj2 (Z.ltb_lt _ _)) by lia. reflexivity.
Qed.

Lemma interpolate_negative (uv : vec R) r (g : list (vec R)) : sensible r ->
  (vx uv * IZR (rw r - 1) <= -1)%R -> interpolate (F := R) uv r g = Err BadCast.
Proof.
  intros S U. destruct (sensible_bounds r S) as [W Hh]. unfold interpolate. cbv zeta. rewrite !u64_small by lia.
  cbn [nmul nof Num_R]. rewrite to_size_neg by auto. reflexivity.
Qed.

(** Below the last row. *)
Lemma interpolate_below (uv : vec R) r (g : list (vec R)) : sensible r -> rh r * rw r * 4 < 2 ^ 64 -> length g = vertices r -> (0 <= vx uv <= 1)%R ->
  (IZR (rh r) <= vy uv * IZR (rh r - 1) < 2 * IZR (rh r))%R -> interpolate (F := R) uv r g = Err OutOfBounds.
Proof.
  intros S Small L U V. destruct (sensible_bounds r S) as [W Hh]. unfold interpolate. cbv zeta. rewrite !u64_small by lia.
  cbn [nmul nof Num_R]. destruct (to_size_R (vx uv) (rw r - 1) U) as [l [El [Il Bl]]]; [lia|]. rewrite El. cbn [bind].
  assert (Bh : (0 < IZR (rh r))%R) by (apply IZR_lt; lia).
  assert (Bh2 : (2 * IZR (rh r) < IZR (2 ^ 64))%R). { rewrite <- (mult_IZR 2). apply IZR_lt. nia. }
  rewrite to_size_floor by (split; [lra|apply Rlt_trans with (2 := Bh2); apply V]). cbn [bind]. set (t := Zfloor _).
  assert (T : rh r <= t < 2 * rh r). { unfold t. split; [apply Zfloor_lub; lra|]. apply lt_IZR. apply Rle_lt_trans with (vy uv * IZR (rh r - 1))%R; [apply Zfloor_lb|]. rewrite mult_IZR. lra. }
  unfold grid_at at 1. assert (E1 : u64 (t * rw r) = t * rw r) by (unfold u64; apply Z.mod_small; nia). rewrite E1.
  assert (E2 : u64 (l + t * rw r) = l + t * rw r) by (unfold u64; apply Z.mod_small; nia). rewrite E2.
  destruct S as [S1 [S2 S3]]. rewrite (proj2 (Z.ltb_ge _ _)); [rewrite andb_false_r; reflexivity|]. rewrite L. unfold vertices. nia.
Qed.

(** Right of the last column: the next row is used. *)
Lemma interpolate_wraps r (g : list (vec R)) : sensible r -> 3 <= rh r -> length g = vertices r ->
  exists p, vertex r g 0 1 = Some p /\ interpolate (F := R) (mkV (IZR (rw r) / IZR (rw r - 1))%R 0%R) r g = Ok p.
Proof.
  intros S H3 L. destruct (sensible_bounds r S) as [W Hh].
  assert (N1 : IZR (rw r - 1) <> 0%R) by (apply not_0_IZR; lia). assert (N2 : IZR (rh r - 1) <> 0%R) by (apply not_0_IZR; lia).
  assert (G : forall k, 0 <= k < rw r * rh r -> exists p, nth_error g (Z.to_nat k) = Some p /\ grid_at g k = Ok p).
  { intros k K. unfold grid_at. rewrite (proj2 (Z.leb_le 0 k)) by lia. rewrite (proj2 (Z.ltb_lt k _)) by (rewrite L; unfold vertices; lia). cbn [andb].
    destruct (nth_error g (Z.to_nat k)) as [p|] eqn:E; [exists p; auto|]. apply nth_error_None in E. rewrite L in E. unfold vertices in E. lia. }
  destruct S as [S1 [S2 S3]].
  assert (Wm : rw r < 2 ^ 63) by nia. assert (Hm : rh r < 2 ^ 63) by nia.
  destruct (G (rw r)) as [tl [V0 G0]]; [nia|]. exists tl. unfold vertex. replace (1 * rw r + 0) with (rw r) by lia. split; auto.
  unfold interpolate. cbv zeta. cbn [vx vy]. rewrite !u64_small by lia. cbn [nmul nof Num_R].
  replace (IZR (rw r) / IZR (rw r - 1) * IZR (rw r - 1))%R with (IZR (rw r)) by (field; auto). rewrite Rmult_0_l.
  assert (Bw : (0 <= IZR (rw r) < IZR (2 ^ 64))%R). { split; [apply IZR_le; lia|apply IZR_lt; lia]. }
  rewrite (to_size_floor (IZR (rw r))) by exact Bw. rewrite (to_size_floor 0) by (split; [apply Rle_refl|apply IZR_lt; reflexivity]). cbn [bind]. rewrite !Zfloor_IZR.
  assert (U1 : u64 (rw r + 1) = rw r + 1) by (unfold u64; apply Z.mod_small; lia). rewrite U1.
  change (u64 (0 + 1)) with 1. change (u64 (0 * rw r)) with 0. rewrite !Z.add_0_r. replace (Z.min (rw r - 1) (rw r + 1)) with (rw r - 1) by lia. replace (Z.min (rh r - 1) 1) with 1 by lia.
  rewrite Z.mul_1_l. replace (u64 (rw r)) with (rw r) by (unfold u64; symmetry; apply Z.mod_small; lia). rewrite G0. cbn [bind].
  rewrite u64_small by lia.
  destruct (G (rw r - 1)) as [tr [V1 G1]]; [nia|]. 
  destruct (G (rw r + rw r)) as [bl [V2 G2]]; [nia|]. destruct (G (rw r - 1 + rw r)) as [br [V3 G3]]; [nia|].
  assert (U2 : u64 (rw r + rw r) = rw r + rw r) by (unfold u64; apply Z.mod_small; lia). rewrite U2, G2. cbn [bind].
  rewrite G1. cbn [bind].
  assert (U3 : u64 (rw r - 1 + rw r) = rw r - 1 + rw r) by (unfold u64; apply Z.mod_small; lia). rewrite U3, G3. cbn [bind].
  f_equal. cbn [widen narrow Conv_R nadd nsub nmul ndiv nof Num_R]. apply vec_eq; cbn [vx vy]; field; auto.
Qed.

(** ** Changing the resolution *)

Section Shrink.
Context {F D : Type} `{Num F} `{Num D} `{Conv F D} `{Libm D}.

Lemma move_longer (q : lamp_params F D) r p g : fits r -> (vertices r <= length g)%nat ->
  move_grid q r p g = Ok (full_grid q r p ++ skipn (vertices r) g).
Proof. intros B L. unfold move_grid. rewrite (writes_seq q r p B), do_writes_seq by lia. reflexivity. Qed.

Lemma grid_at_prefix (g rest : list (vec D)) k v : grid_at g k = Ok v -> grid_at (g ++ rest) k = Ok v.
Proof.
  unfold grid_at. destruct ((0 <=? k) && (k <? Z.of_nat (length g))) eqn:E; [|discriminate]. apply andb_prop in E. destruct E as [E1 E2].
  apply Z.leb_le in E1. apply Z.ltb_lt in E2. rewrite (proj2 (Z.leb_le _ _)) by lia. rewrite (proj2 (Z.ltb_lt _ _)) by (rewrite app_length; lia).
  cbn [andb]. rewrite nth_error_app1 by lia. auto.
Qed.

Lemma interpolate_prefix (uv : vec D) r (g rest : list (vec D)) p : interpolate (F := F) uv r g = Ok p -> interpolate (F := F) uv r (g ++ rest) = Ok p.
Proof.
  unfold interpolate. cbv zeta. destruct (to_size (nmul (vx uv) _)) as [l|]; cbn [bind]; [|discriminate]. destruct (to_size _) as [t|]; cbn [bind]; [|discriminate].
  destruct (grid_at g _) as [a|] eqn:E1; cbn [bind]; [|discriminate]. destruct (grid_at g (u64 (l + _))) as [b|] eqn:E2 in |- *; cbn [bind]; [|discriminate].
  destruct (grid_at g (u64 (Z.min _ _ + u64 (t * _)))) as [c|] eqn:E3; cbn [bind]; [|discriminate]. destruct (grid_at g _) as [d|] eqn:E4 in |- *; cbn [bind]; [|discriminate].
  rewrite (grid_at_prefix _ rest _ _ E1), (grid_at_prefix _ rest _ _ E2), (grid_at_prefix _ rest _ _ E3), (grid_at_prefix _ rest _ _ E4). auto.
Qed.
End Shrink.

Lemma vertices_lt r r' : fits r -> fits r' -> rw r * rh r < rw r' * rh r' -> (vertices r < vertices r')%nat.
Proof. unfold fits, vertices. nia. Qed.
Lemma vertices_le r r' : fits r -> fits r' -> rw r' * rh r' <= rw r * rh r -> (vertices r' <= vertices r)%nat.
Proof. unfold fits, vertices. nia. Qed.

Lemma interpolate_too_small r r' (g : list (vec R)) : sensible r -> length g = vertices r -> sensible r' -> rw r * rh r < rw r' * rh r' ->
  interpolate (F := R) (mkV 1%R 1%R) r' g = Err OutOfBounds.
Proof.
  intros S L S' B. destruct (sensible_bounds r' S') as [W Hh]. unfold interpolate. cbv zeta. cbn [vx vy]. rewrite !u64_small by lia. cbn [nmul nof Num_R]. rewrite !Rmult_1_l.
  rewrite !to_size_floor by (split; [apply IZR_le; lia|apply IZR_lt; lia]). cbn [bind]. rewrite !Zfloor_IZR. destruct S' as [S1 [S2 S3]].
  assert (E1 : u64 ((rh r' - 1) * rw r') = (rh r' - 1) * rw r') by (unfold u64; apply Z.mod_small; nia). rewrite E1.
  assert (E2 : u64 (rw r' - 1 + (rh r' - 1) * rw r') = rw r' - 1 + (rh r' - 1) * rw r') by (unfold u64; apply Z.mod_small; nia). rewrite E2.
  unfold grid_at at 1. rewrite (proj2 (Z.ltb_ge _ _)); [rewrite andb_false_r; reflexivity|]. rewrite L. unfold vertices. destruct S as [? [? ?]]. nia.
Qed.

(** ** Where the arithmetic breaks down *)

Section NotANumber.
Context {L2 : Libm f64}.
Local Notation nan32 := (B754_nan : f32).

Lemma nadd_nan_r64 (x : f64) : nadd x (B754_nan : f64) = B754_nan. Proof. destruct x; reflexivity. Qed.
Lemma nmul_nan_r64 (x : f64) : nmul x (B754_nan : f64) = B754_nan. Proof. destruct x; reflexivity. Qed.
Lemma nadd_nan_l64 (x : f64) : nadd (B754_nan : f64) x = B754_nan. Proof. destruct x; reflexivity. Qed.
Lemma ndiv_nan_r64 (x : f64) : ndiv x (B754_nan : f64) = B754_nan. Proof. destruct x; reflexivity. Qed.
Lemma nsub_nan_l32 (x : f32) : nsub nan32 x = B754_nan. Proof. destruct x; reflexivity. Qed.
Lemma nsub_nan_r32 (x : f32) : nsub x nan32 = B754_nan. Proof. destruct x; reflexivity. Qed.
Lemma nmul_nan_l32 (x : f32) : nmul nan32 x = B754_nan. Proof. destruct x; reflexivity. Qed.
Lemma nmul_nan_r32 (x : f32) : nmul x nan32 = B754_nan. Proof. destruct x; reflexivity. Qed.
Lemma ndiv_nan_l32 (x : f32) : ndiv nan32 x = B754_nan. Proof. destruct x; reflexivity. Qed.
Lemma min_nan32 (x : f32) : nmin2 nan32 x = B754_nan. Proof. unfold nmin2. destruct x; reflexivity. Qed.

(** Zero over zero. *)
Lemma zero_column (x : f32) : ndiv (nmul (nof 0) x) (nof 0) = nan32.
Proof.
  change (nof 0 : f32) with (B754_zero false : f32). destruct x as [s|s| |s m e B]; try reflexivity; destruct s; reflexivity.
Qed.

(** One column. *)
Lemma lamp_one_column (q : lamp_params f32 f64) r p j : rw r = 1 -> vx (lamp_point q r p 0 j) = (B754_nan : f64).
Proof.
  intros W. unfold lamp_point. cbv zeta. rewrite W. change (u64 (1 - 1)) with 0. rewrite !zero_column. cbn [vx].
  change (widen nan32) with (B754_nan : f64). rewrite !nadd_nan_r64. reflexivity.
Qed.

(** One row. *)
Lemma lamp_one_row (q : lamp_params f32 f64) r p i : rh r = 1 -> vy (lamp_point q r p i 0) = (B754_nan : f64).
Proof.
  intros W. unfold lamp_point. cbv zeta. rewrite W. change (u64 (1 - 1)) with 0. rewrite !zero_column. cbn [vy].
  change (widen nan32) with (B754_nan : f64). rewrite !nadd_nan_r64. reflexivity.
Qed.

Lemma sigmoid_nan (Ln : texp (B754_nan : f64) = B754_nan) (b o : f32) : sigmoid (D := f64) nan32 b o = B754_nan.
Proof.
  unfold sigmoid. rewrite nsub_nan_l32, nmul_nan_r32. change (widen nan32) with (B754_nan : f64). rewrite Ln, nadd_nan_r64, ndiv_nan_r64. reflexivity.
Qed.

(** A number divided by itself. *)
Lemma own_quotient (x : f32) : is_finite x = true -> (B2R x <> 0)%R -> B2R (ndiv x x) = 1%R /\ is_finite (ndiv x x) = true /\ Bsign (ndiv x x) = false.
Proof.
  intros Fx Nx. pose proof (Bdiv_correct 24 128 Hprec32 Hemax32 mode_NE x x Nx) as C.
  assert (E : (B2R x / B2R x = 1)%R) by (field; exact Nx). rewrite E in C.
  assert (O : rnd32 1 = 1%R) by (rewrite <- one32_R; apply rnd_gen). rewrite O in C. rewrite Rlt_bool_true in C.
  - destruct C as (C1 & C2 & C3). split; [exact C1|]. split; [rewrite <- Fx; exact C2|].
    change (Bsign (Bdiv mode_NE x x) = false). rewrite C3; [destruct (Bsign x); reflexivity|].
    assert (Fq : is_finite (Bdiv mode_NE x x) = true) by (rewrite <- Fx; exact C2). revert Fq. destruct (Bdiv mode_NE x x); intros; try reflexivity. discriminate.
  - rewrite Rabs_R1. apply (bpow_lt radix2 0 128). lia.
Qed.
Lemma is_one (x : f32) : B2R x = 1%R -> is_finite x = true -> Bsign x = false -> x = one32.
Proof. intros E Fx Sx. apply B2R_Bsign_inj; auto. rewrite one32_R. exact E. Qed.

(** Sizes that fit a 64-bit word. *)
Lemma of_size32 z : 1 <= z < 2 ^ 64 -> is_finite (nof z : f32) = true /\ (1 <= B2R (nof z : f32))%R.
Proof.
  intros Hz. cbn [nof Num_f32 Num_IEEE].
  generalize (binary_normalize_correct 24 128 Hprec32 Hemax32 mode_NE z 0 false).
  cbn zeta. replace (F2R {| Fnum := z; Fexp := 0 |}) with (IZR z) by (unfold F2R; cbn; lra).
  assert (P : (1 <= IZR z)%R) by (apply IZR_le; lia).
  assert (O : rnd32 1 = 1%R) by (rewrite <- one32_R; apply rnd_gen).
  assert (P1 : (1 <= rnd32 (IZR z))%R) by (rewrite <- O at 1; apply rnd_mono; exact P).
  rewrite Rlt_bool_true.
  - intros (E & F & _). split; [exact F|]. rewrite E. exact P1.
  - rewrite Rabs_pos_eq by (apply Rle_trans with 1%R; [lra|exact P1]).
    apply Rle_lt_trans with (bpow radix2 64); [|apply bpow_lt; lia].
    replace (bpow radix2 64) with (rnd32 (bpow radix2 64)).
    + apply rnd_mono. cbn. apply IZR_le. lia.
    + apply round_generic; [apply valid_rnd_round_mode|]. apply generic_format_bpow. cbn. lia.
Qed.

(** Full stretch. *)
Lemma lamp_full_stretch (q : lamp_params f32 f64) r i : 2 <= rh r < 2 ^ 64 -> lp_stretch q = nof 1 ->
  vy (lamp_point q r (nof 1) i (rh r - 1)) = (B754_nan : f64).
Proof.
  intros Hh S. unfold lamp_point. cbv zeta. cbn [vy]. rewrite (u64_small (rh r)) by lia. rewrite S.
  assert (Q : ndiv (nof (rh r - 1)) (nof (rh r - 1)) = one32).
  { destruct (of_size32 (rh r - 1)) as (Fx & Px); [lia|]. destruct (own_quotient (nof (rh r - 1)) Fx) as (Q1 & Q2 & Q3); [lra|]. apply is_one; auto. }
  rewrite Q.
  replace (nmul (nsub (nof 1) (nof 1)) (ndiv (nof 1) (nsub (nof 1) (nmul one32 (nof 1))))) with nan32 by (apply B2SF_inj; vm_compute; reflexivity).
  rewrite min_nan32, nmul_nan_r32. change (widen nan32) with (B754_nan : f64). rewrite nadd_nan_r64. reflexivity.
Qed.

(** No bend. *)
Definition zeroish (x : f64) : bool := match x with B754_zero _ => true | _ => false end.
Lemma flat_sigmoid (x b o : f32) : texp (B754_zero false : f64) = nof 1 -> texp (B754_zero true : f64) = nof 1 ->
  zeroish (widen (nmul (nopp b) (nsub x o))) = true -> sigmoid (D := f64) x b o = narrow (ndiv (nof 1) (nadd (nof 1) (nof 1)) : f64).
Proof.
  intros Lp Lm. unfold sigmoid. destruct (widen (nmul (nopp b) (nsub x o))) as [[|]| | |]; intros E; try discriminate E.
  - rewrite Lm. reflexivity.
  - rewrite Lp. reflexivity.
Qed.
Lemma lamp_no_bend (q : lamp_params f32 f64) : texp (B754_zero false : f64) = nof 1 -> texp (B754_zero true : f64) = nof 1 ->
  q = mkLamp (mkB (mkV (nof 100) (nof 200)) (mkV (nof 200) (nof 300))) (mkB (mkV (nof 0) (nof 0)) (mkV (nof 30) (nof 30))) (nof 0) (nlit 1 2) (nof 0) (nof 1) ->
  vx (lamp_point q (mkRes 2 2) (nof 1) 0 0) = (B754_nan : f64).
Proof.
  intros Lp Lm ->. unfold lamp_point. cbv zeta. cbn [vx lp_source lp_target lp_bend lp_offset lp_stretch lp_speed b_tl b_br vy rw rh].
  rewrite !flat_sigmoid by (try assumption; vm_compute; reflexivity).
  apply B2SF_inj. vm_compute. reflexivity.
Qed.
End NotANumber.
