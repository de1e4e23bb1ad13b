(** * Properties of the wobbly model in [double] arithmetic *)

From Coq Require Import ZArith Reals Bool List Lia Lra.
From Flocq Require Import Core IEEE754.BinarySingleNaN.
From Verif Require Import Num Geometry Outcome Wobbly Spec SpecMotion SpecDouble Cases LemBasic LemHistory LemAnchors LemNan LemDouble LemHang LemQuiet.
Import ListNotations.
Local Open Scope R_scope.

(** Decidable versions of the size conditions, for the cases. *)
Definition smallb (x : f64) : bool := nleb (nabs x) (nof (2 ^ 50)).
Definition small_pointb (p : vec f64) : bool := smallb (vx p) && smallb (vy p).

Lemma smallb_ok x : smallb x = true -> within 50 x.
Proof.
  unfold smallb. destruct (of_ok (2 ^ 50)) as (F & E); [reflexivity|]. set (c := nof (2 ^ 50)) in *. clearbody c.
  intros H. assert (Fx : is_finite x = true).
  { destruct x as [s|s| |s m e B]; auto; exfalso; destruct c as [t|[]| |t m e B]; discriminate. }
  destruct (abs_ok x Fx) as (Fa & Ea). rewrite leb_ok, Ea, E in H by auto. split; auto.
  destruct (Rle_bool_spec (Rabs (B2R x)) (IZR (2 ^ 50))) as [L|L]; [|discriminate].
  eapply Rle_trans; [exact L|]. cbn. lra.
Qed.

Lemma small_pointb_ok p : small_pointb p = true -> point_within 50 p.
Proof. unfold small_pointb. intros H. apply andb_prop in H. destruct H. split; apply smallb_ok; auto. Qed.

(** ** C13 *)

(** While two neighbouring points [a] and [b] are grabbed at least two units off
    their rest vector on some axis, coordinates being at most [2^50] in size,
    neither [MoveModelTo] nor [ResizeModel] returns. *)
Theorem C13_hang_in_double :
  forall (p : vec f64) (w h : f64) (st : settings f64) (ops : list (op f64)) (m : model f64) (a b : nat) (len pa pb : vec f64),
    reached p w h st ops m -> (Z.of_nat (length ops) < two32)%Z -> malive m = true ->
    grabbed m a -> grabbed m b ->
    ((b = a + 1)%nat /\ (a mod 4 <> 3)%nat /\ len = mkV (ndiv (mw m) (nof 3)) (nof 0)) \/
    ((b = a + 4)%nat /\ len = mkV (nof 0) (ndiv (mh m) (nof 3))) ->
    nth_error (mpos m) a = Some pa -> nth_error (mpos m) b = Some pb ->
    point_within 50 pa -> point_within 50 pb -> point_within 50 len ->
    2 <= Rabs (offset_x pa pb len) \/ 2 <= Rabs (offset_y pa pb len) ->
    forall fuel,
      (forall q, step_op fuel m (OpMoveTo q) = Err NoFuel) /\
      (forall w' h', nltb (nof 0) w' = true -> nltb (nof 0) h' = true ->
         neqb (ndiv w' (mw m)) (nof 1) = false \/ neqb (ndiv h' (mh m)) (nof 1) = false ->
         step_op fuel m (OpResize w' h') = Err NoFuel).
Proof.
  intros p w h st ops m a b len pa pb Hr Bd Al Ga Gb Adj Ea Eb Wa Wb Wl Far fuel.
  assert (La : (a < length (mpos m))%nat) by (apply nth_error_Some; congruence).
  assert (Lb : (b < length (mpos m))%nat) by (apply nth_error_Some; congruence).
  rewrite (LemInv.inv_pos _ (inv_reached _ _ _ _ _ _ Hr)) in La, Lb.
  destruct (hang_any p w h st ops m a b len pa pb Hr Bd Al Ga Gb) with (fuel := fuel) as (A & B); auto.
  - destruct Adj as [(-> & N & ->)|(-> & ->)]; [left|right]; repeat split; auto; lia.
  - apply pulls_far; auto.
  - split; [exact A|]. intros w' h' Hw Hh N. apply B; auto. unfold vequals. cbn [vx vy].
    destruct N as [-> | ->]; rewrite ?andb_false_r; reflexivity.
Qed.
Print Assumptions C13_hang_in_double.

Definition pull_apart64 : list (op f64) := [OpGrab (pt 0 0); OpGrab (pt 30 0); OpMoveAnchor 1 (pt 100 0)].

Lemma pull_apart64_case :
  exists m : model f64, reached (pt 0 0) (nof 90) (nof 90) usual pull_apart64 m /\ malive m = true /\
    grabbed m 0 /\ grabbed m 1 /\
    exists pa pb, nth_error (mpos m) 0 = Some pa /\ nth_error (mpos m) 1 = Some pb /\
      point_within 50 pa /\ point_within 50 pb /\ point_within 50 (mkV (ndiv (mw m) (nof 3)) (nof 0)) /\
      2 <= Rabs (offset_x pa pb (mkV (ndiv (mw m) (nof 3)) (nof 0))).
Proof.
  destruct (verdict_reached usual pull_apart64
    (fun m _ => malive m && match lookup_handle (mhandles m) 0, lookup_handle (mhandles m) 1 with
                            | Some (HGrab 0), Some (HGrab 1) => true | _, _ => false end &&
       match nth_error (mpos m) 0, nth_error (mpos m) 1 with
       | Some pa, Some pb => same_pt pa (pt 0 0) && same_pt pb (pt 130 0) && neqb (ndiv (mw m) (nof 3)) (nof 30) && small_pointb pa && small_pointb pb && smallb (ndiv (mw m) (nof 3))
       | _, _ => false end)) as (m & Hr & us & C); [vm_compute; reflexivity|].
  apply andb_prop in C. destruct C as (C & C3). apply andb_prop in C. destruct C as (Al & C2).
  exists m. split; [exact Hr|]. split; [exact Al|].
  destruct (lookup_handle (mhandles m) 0) as [[[|i]|]|] eqn:L0; try discriminate C2.
  destruct (lookup_handle (mhandles m) 1) as [[[|[|i]]|]|] eqn:L1; try discriminate C2.
  split; [exists 0%nat; exact L0|]. split; [exists 1%nat; exact L1|].
  destruct (nth_error (mpos m) 0) as [pa|]; [|discriminate C3]. destruct (nth_error (mpos m) 1) as [pb|]; [|discriminate C3].
  do 5 (apply andb_prop in C3; let X := fresh "X" in destruct C3 as (C3 & X)).
  exists pa, pb. split; [reflexivity|]. split; [reflexivity|].
  apply small_pointb_ok in X0. apply small_pointb_ok in X1. apply smallb_ok in X.
  split; [exact X1|]. split; [exact X0|]. split; [split; [exact X|exact (within_zero 50)]|].
  unfold same_pt, vequals in C3, X3. apply andb_prop in C3. apply andb_prop in X3. destruct C3 as (_ & C3), X3 as (_ & X3).
  assert (V : forall x z, neqb x (nof z : f64) = true -> is_finite x = true -> (Z.abs z < 2 ^ 53)%Z -> B2R x = IZR z).
  { intros x z E F B. destruct (of_ok z B) as (Fz & Ez). rewrite eqb_ok in E by auto. rewrite <- Ez.
    destruct (Req_bool_spec (B2R x) (B2R (nof z : f64))); [auto|discriminate]. }
  unfold offset_x. cbn [vx]. rewrite (V _ _ C3), (V _ _ X3), (V _ _ X2); try reflexivity.
  - rewrite Rabs_right; lra.
  - apply X.
  - apply X0.
  - apply X1.
Qed.

(** A careful client of the real arithmetic can make [MoveModelTo] hang. *)
Theorem C13_move_to_returns_in_double_refuted :
  exists m : model f64, reached (pt 0 0) (nof 90) (nof 90) usual pull_apart64 m /\ careful_history pull_apart64 /\
    forall fuel q, step_op fuel m (OpMoveTo q) = Err NoFuel.
Proof.
  destruct pull_apart64_case as (m & Hr & Al & G0 & G1 & pa & pb & Ea & Eb & Wa & Wb & Wl & Far).
  exists m. split; [exact Hr|]. split; [unfold careful_history, pull_apart64; cbn; auto 10|]. intros fuel q.
  apply (C13_hang_in_double _ _ _ _ _ m 0 1 (mkV (ndiv (mw m) (nof 3)) (nof 0)) pa pb Hr); auto.
  reflexivity.
Qed.
Print Assumptions C13_move_to_returns_in_double_refuted.

(** ** C17 *)

(** A new model whose position and size are at most [2^48] is at rest: every
    [Step] returns false and no point moves. *)
Theorem C17_fresh_model_is_at_rest_in_double :
  forall (fuel : nat) (p : vec f64) (w h : f64) (st : settings f64) (next : Z) (ts : list Z),
    point_within 48 p -> within 48 w -> within 48 h ->
    is_finite (st_k st) = true -> is_finite (st_friction st) = true ->
    exists m', run fuel (model_init p w h st next) (map OpStep ts) = Ok (m', map (fun _ => OMore false) ts) /\
      same_places (model_init p w h st next) m'.
Proof. intros. apply fresh_double; auto. Qed.
Print Assumptions C17_fresh_model_is_at_rest_in_double.

Example C17_double_case :
  point_within 48 (pt 10 20) /\ within 48 (nof 90 : f64) /\ is_finite (st_k usual) = true /\ is_finite (st_friction usual) = true.
Proof.
  assert (V : forall z, (Z.abs z < 2 ^ 53)%Z -> (Z.abs z <= 2 ^ 48)%Z -> within 48 (nof z : f64)).
  { intros z H1 H2. destruct (of_ok z H1) as (F & E). split; auto. rewrite E, <- abs_IZR. eapply Rle_trans; [apply IZR_le; exact H2|]. cbn. lra. }
  split; [split; apply V; lia|]. split; [apply V; lia|]. split; reflexivity.
Qed.

(** Farther out the rounding of the positions alone makes a new model move. *)
Theorem C17_far_away_refuted :
  exists m', step_op 0 (model_init (pt (2 ^ 54) 0) (nof 9) (nof 9) usual 0) (OpStep 16) = Ok (m', OMore true).
Proof.
  destruct (step_op 0 (model_init (pt (2 ^ 54) 0) (nof 9) (nof 9) usual 0) (OpStep 16)) as [[m' u]|e] eqn:E.
  - exists m'. f_equal. f_equal.
    assert (X : match step_op 0 (model_init (pt (2 ^ 54) 0) (nof 9) (nof 9) usual 0) (OpStep 16) with Ok (_, OMore b) => b | _ => false end = true)
      by (vm_compute; reflexivity).
    rewrite E in X. destruct u; try discriminate X. rewrite X. reflexivity.
  - assert (X : match step_op 0 (model_init (pt (2 ^ 54) 0) (nof 9) (nof 9) usual 0) (OpStep 16) with Ok _ => true | _ => false end = true)
      by (vm_compute; reflexivity).
    rewrite E in X. discriminate X.
Qed.
Print Assumptions C17_far_away_refuted.

(** ** C18 *)

(** After any history that leaves none or several anchors held: once [Step] with
    a positive time returns false and the coordinates are not astronomically
    large, all velocities are zero, springs of moderate size are within two units
    of their rest vectors, and every further [Step] returns false and moves
    nothing. *)
Theorem C18_settled_stays_settled_in_double :
  forall (p : vec f64) (w h : f64) (st : settings f64) (ops : list (op f64)) (m m' : model f64) (t : Z),
    reached p w h st ops m -> length (live_anchors ops) <> 1%nat -> malive m = true -> (0 < t)%Z ->
    model_step t m = Ok (m', false) ->
    is_finite (st_k (mset m)) = true -> is_finite (st_friction (mset m)) = true -> not_huge m' ->
    (forall v, In v (mvel m') -> is_zero (vx v) /\ is_zero (vy v)) /\
    (forall s, In s (msprings m') ->
       exists pa pb, place m' (s_pa s) = Some pa /\ place m' (s_pb s) = Some pb /\
         (point_within 50 pa -> point_within 50 pb -> point_within 50 (s_len s) ->
          Rabs (offset_x pa pb (s_len s)) < 2 /\ Rabs (offset_y pa pb (s_len s)) < 2)) /\
    (forall (fuel : nat) (ts : list Z),
       exists m'', run fuel m' (map OpStep ts) = Ok (m'', map (fun _ => OMore false) ts) /\ same_places m' m'').
Proof.
  intros p w h st ops m m' t Hr La Al Ht E Fk Ff Nh.
  destruct (settled_double _ _ _ _ _ _ _ _ Hr La Al Ht E Fk Ff Nh) as (Re & U & Al').
  split; [|split].
  - intros v Hv. pose proof (re_vel _ Re) as Z. rewrite Forall_forall in Z. destruct (Z v Hv) as (A & B). apply zv_R in A. apply zv_R in B. split; auto.
  - intros s Hs. apply settled_springs; auto.
  - intros fuel ts. apply resting_steps; auto.
Qed.
Print Assumptions C18_settled_stays_settled_in_double.

(** The model is dragged, dropped and left alone until it settles. *)
Definition drag_and_drop : list (op f64) :=
  [OpGrab (pt 0 0); OpMoveAnchor 0 (pt 4 0); OpStep 48; OpRelease 0; OpStep 320].
Definition modest (m : model f64) : bool :=
  forallb small_pointb (mpos m) &&
  forallb (fun s => small_pointb (s_len s) && match place m (s_pa s) with Some q => small_pointb q | None => true end &&
                    match place m (s_pb s) with Some q => small_pointb q | None => true end) (msprings m).

Lemma modest_ok m : modest m = true -> not_huge m.
Proof.
  intros H. apply andb_prop in H. destruct H as (A & B). rewrite forallb_forall in A, B.
  assert (Up : forall q, small_pointb q = true -> point_within 1000 q).
  { intros q Q. apply small_pointb_ok in Q. destruct Q as (Q1 & Q2). split; eapply within_le; eauto; lia. }
  split; [auto|]. intros s Hs. specialize (B s Hs). apply andb_prop in B. destruct B as (B & B3). apply andb_prop in B. destruct B as (B1 & B2).
  split; [auto|]. intros l q [-> | ->] E; rewrite E in *; auto.
Qed.

Example C18_double_case :
  exists m m' : model f64,
    reached (pt 0 0) (nof 90) (nof 90) usual drag_and_drop m /\ length (live_anchors drag_and_drop) <> 1%nat /\ malive m = true /\
    model_step 16 m = Ok (m', false) /\ mesh_at m' 0 (pt 0 0) = false /\
    is_finite (st_k (mset m)) = true /\ is_finite (st_friction (mset m)) = true /\ not_huge m'.
Proof.
  destruct (verdict_reached usual drag_and_drop
    (fun m _ => malive m && is_finite (st_k (mset m)) && is_finite (st_friction (mset m)) &&
       match model_step 16 m with Ok (m1, false) => modest m1 && negb (mesh_at m1 0 (pt 0 0)) | _ => false end)) as (m & Hr & us & C);
    [vm_compute; reflexivity|].
  apply andb_prop in C. destruct C as (C & C3). apply andb_prop in C. destruct C as (C & C2). apply andb_prop in C. destruct C as (C0 & C1).
  destruct (model_step 16 m) as [[m1 []]|] eqn:E; try discriminate C3. apply andb_prop in C3. destruct C3 as (C3 & C4).
  exists m, m1. split; [exact Hr|]. split; [discriminate|]. split; [exact C0|]. split; [exact E|]. split; [apply negb_true_iff; exact C4|].
  split; [exact C1|]. split; [exact C2|]. apply modest_ok. exact C3.
Qed.
