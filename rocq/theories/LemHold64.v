(** A held point in [double]. *)

From Coq Require Import ZArith Reals Bool List Lia Lra.
From Flocq Require Import Core IEEE754.BinarySingleNaN.
From Verif Require Import Num Geometry Outcome Wobbly Spec SpecDouble SpecHold LemBasic LemInv LemHistory LemLifo LemAnchors LemMoves LemAnchorFacts LemSettle LemNan LemWhole LemDouble LemHang LemQuiet.
Import ListNotations.
Local Open Scope Z_scope.

(** ** Values *)

Lemma value_cases x y : same_value x y -> x = y \/ zv x /\ zv y.
Proof.
  intros (A & B & C). destruct (Req_dec (B2R x) 0) as [Z|N].
  - right. split; apply zv_of; auto. congruence.
  - left. apply B2R_inj; auto; apply is_finite_strict_B2R; congruence.
Qed.

Lemma zv_add_l (x z : f64) : is_finite x = true -> zv z -> is_finite (nadd z x) = true /\ B2R (nadd z x) = B2R x.
Proof. intros F (s & ->). destruct x as [t| | |t m e H]; try discriminate; [destruct s, t; auto|auto]. Qed.

Lemma same_add (x y d : f64) : same_value x y -> is_finite (nadd x d) = true -> same_value (nadd x d) (nadd y d).
Proof.
  intros S F. destruct (value_cases _ _ S) as [->|(A & B)]; [apply same_refl; auto|].
  apply add_finite in F. destruct F as (_ & F).
  destruct (zv_add_l d x F A) as (F1 & E1). destruct (zv_add_l d y F B) as (F2 & E2). repeat split; auto. congruence.
Qed.

Lemma same_point_add p q d : same_point_value p q -> finite_point (rounded_sum p d) -> same_point_value (rounded_sum p d) (rounded_sum q d).
Proof. intros (A & B) (C & D). split; apply same_add; auto. Qed.

Lemma same_sub_zero (x y : f64) : same_value x y -> zv (nsub x y).
Proof.
  intros S. destruct (value_cases _ _ S) as [->|(A & B)]; [|apply zv_sub; auto].
  destruct S as (F & _ & _). destruct y as [s| | |s m e H]; try discriminate F; [destruct s; eexists; reflexivity|].
  destruct (sub_ok 0 ltac:(lia) (B754_finite s m e H) (B754_finite s m e H) F F) as (F2 & E2).
  - rewrite Rminus_diag_eq by reflexivity. rewrite Rabs_R0. apply bpow_ge_0.
  - apply zv_of; auto. rewrite E2, Rminus_diag_eq by reflexivity. apply rd_0.
Qed.

Lemma zv_sqrt (x : f64) : zv x -> zv (nsqrt x).
Proof. intros (s & ->). destruct s; eexists; reflexivity. Qed.

Lemma zv_dist (p q : vec f64) : same_point_value p q -> zv (vdist p q).
Proof.
  intros (A & B). unfold vdist. cbv zeta. pose proof (same_sub_zero _ _ A) as ZA. pose proof (same_sub_zero _ _ B) as ZB.
  apply zv_sqrt, zv_add; [apply zv_add; [apply zv_zero|]|]; (apply zv_mul; [assumption|apply zv_R; assumption]).
Qed.

Lemma zv_below (z r : f64) : zv z -> nltb nzero r = true -> nltb z r = true.
Proof. intros (s & ->). rewrite zero_form. destruct r as [t|[]| |[] m e H], s; intros E; try discriminate E; reflexivity. Qed.

Lemma constrain_same (r : f64) (t p : vec f64) : same_point_value t p -> nltb nzero r = true -> constrain_point r t p = (p, false).
Proof. intros S R. unfold constrain_point. rewrite (zv_below _ _ (zv_dist _ _ S) R). reflexivity. Qed.

(** ** A point held at its rest position *)

Record pinned64 (n i : nat) (x : vec f64) (m : model f64) : Prop := {
  pin_inv : Inv m;
  pin_handle : lookup_handle (mhandles m) n = Some (HGrab i);
  pin_active : active m = true;
  pin_pos : exists y, nth_error (mpos m) i = Some y /\ same_point_value y x;
  pin_target : exists z, nth_error (mtargets m) i = Some z /\ same_point_value z x;
  pin_range : nltb nzero (st_range (mset m)) = true }.

Lemma pinned_bound n i x m : pinned64 n i x m -> Z.of_nat (length (mhandles m)) < two32.
Proof. intros P. pose proof (pin_active _ _ _ _ P) as A. unfold active in A. apply Z.eqb_eq in A. rewrite (inv_count _ (pin_inv _ _ _ _ P)) in A. rewrite A. reflexivity. Qed.

Lemma nth_error_combine_some {A B} (l : list A) (l' : list B) : forall i a b,
  nth_error l i = Some a -> nth_error l' i = Some b -> nth_error (combine l l') i = Some (a, b).
Proof. revert l'. induction l as [|x l IH]; intros [|y l'] [|i] a b; cbn [nth_error combine]; intros; try discriminate; try congruence. apply IH; auto. Qed.

Lemma pinned_constrained n i x m y : pinned64 n i x m -> nth_error (mpos m) i = Some y -> same_point_value y x ->
  nth_error (fst (constrainment m (mpos m))) i = Some y.
Proof.
  intros P Hy S. unfold constrainment. rewrite (pin_active _ _ _ _ P).
  rewrite constrain_points_map by (rewrite (inv_pos _ (pin_inv _ _ _ _ P)), (inv_tgt _ (pin_inv _ _ _ _ P)); auto).
  destruct (pin_target _ _ _ _ P) as (z & Hz & Sz).
  rewrite nth_error_map. rewrite (nth_error_combine_some (mtargets m) (mpos m) i z y) by auto.
  cbn [option_map fst snd]. rewrite constrain_same; [reflexivity| |apply P].
  eapply same_point_trans; [exact Sz|]. apply same_point_sym. exact S.
Qed.

Lemma pinned_once n i x m m' b : pinned64 n i x m -> integrate_once m = Ok (m', b) -> pinned64 n i x m'.
Proof.
  intros P E. pose proof (pin_inv _ _ _ _ P) as I. destruct (pin_pos _ _ _ _ P) as (y & Hy & Sy).
  assert (Hi : (i < 16)%nat) by (rewrite <- (inv_pos _ I); apply nth_error_Some; rewrite Hy; discriminate).
  destruct (integrate_once_point m m' b i I (pinned_bound _ _ _ _ P) Hi E) as (p & v & f & mm & fe & E1 & _ & _ & _ & G & _).
  rewrite (pinned_constrained _ _ _ _ y P Hy Sy) in E1. injection E1 as <-.
  destruct G as (G & _); [exists n; apply P|].
  pose proof (integrate_once_shape _ _ _ E) as (pp & vv & hh & -> & L1 & L2 & _).
  constructor; try apply P; eauto. destruct I; constructor; cbn [set_sim mpos mvel]; auto; congruence.
Qed.

Lemma pinned_n n i x k : forall m m' b b', pinned64 n i x m -> integrate_n k m b = Ok (m', b') -> pinned64 n i x m'.
Proof.
  induction k; intros m m' b b' P E; cbn [integrate_n] in E; inv_ok; auto.
  destruct a as [m1 b1]. cbn [fst snd] in E. eapply IHk; [|exact E]. eapply pinned_once; eauto.
Qed.

Lemma pinned_flag n i x m b : pinned64 n i x m -> pinned64 n i x (set_unequal m b).
Proof. intros [[] ? ? ? ? ?]. constructor; auto. constructor; auto. Qed.

Lemma pinned_step_time n i x t m m' b : pinned64 n i x m -> model_step t m = Ok (m', b) -> pinned64 n i x m'.
Proof.
  intros P E. unfold model_step in E. inv_ok. destruct a as [m1 b1]. inv_ok.
  match goal with X : integrate_n _ _ _ = Ok _ |- _ => eapply pinned_n in X; [|exact P]; apply (pinned_flag _ _ _ _ ((if (t =? 0)%Z then munequal m else false) || b1)) in X; rename X into Q end.
  destruct (negb _ && active _)%bool; auto.
  destruct Q as [Iq ? ? ? ? ?]. constructor; auto. destruct Iq. constructor; auto.
Qed.

Lemma nth_error_list_set_same {A} i (a : A) l : (i < length l)%nat -> nth_error (list_set i a l) i = Some a.
Proof. revert i. induction l; intros [|i] L; cbn [length] in L; cbn [list_set nth_error]; try lia; auto. apply IHl. lia. Qed.

Definition carry (x : vec f64) (ds : list (vec f64)) : vec f64 := fold_left rounded_sum ds x.

Lemma carry_finite ds : forall x, finite_point (carry x ds) -> finite_point x.
Proof.
  induction ds as [|d ds IH]; intros x F; [exact F|]. apply IH in F. destruct F as (A & B).
  apply add_finite in A. apply add_finite in B. split; tauto.
Qed.

Lemma carry_app x a b : carry x (a ++ b) = carry (carry x a) b.
Proof. apply fold_left_app. Qed.

Lemma displacements_cons n o ops : displacements n (o :: ops) = displacements n [o] ++ displacements n ops.
Proof. destruct o; cbn [displacements app]; auto. destruct (Nat.eqb _ _); auto. Qed.

Lemma pinned_step n i x fuel m o m' u :
  pinned64 n i x m -> moves_only64 o -> finite_point (carry x (displacements n [o])) -> step_op fuel m o = Ok (m', u) ->
  pinned64 n i (carry x (displacements n [o])) m'.
Proof.
  intros P W Fc E. pose proof (inv_step_op _ _ _ _ _ (pin_inv _ _ _ _ P) E) as I'.
  destruct (pin_pos _ _ _ _ P) as (y & Hy & Sy). destruct (pin_target _ _ _ _ P) as (z & Hz & Sz).
  unfold step_op in E. destruct (needs_model o && negb (malive m))%bool; [discriminate|].
  assert (Add : forall d a, same_point_value a x -> finite_point (rounded_sum x d) -> same_point_value (vadd a d) (rounded_sum x d)).
  { intros d a S F. apply same_point_sym. apply (same_point_add x a d); auto. apply same_point_sym. auto. }
  destruct o; try contradiction; cbn [displacements] in *; inv_ok.
  - unfold move_anchor in *. destruct (Nat.eqb_spec n0 n) as [->|Ne].
    + unfold carry in *. cbn [fold_left] in *.
      rewrite (pin_handle _ _ _ _ P) in *. destruct (malive m); [|discriminate]. rewrite (pin_active _ _ _ _ P) in *. inv_ok.
      cbn [set_targets mpos] in *.
      match goal with X : nth_error (mpos m) i = Some ?a |- _ => rewrite Hy in X; injection X as <- end.
      constructor; auto; try apply P; cbn [set_pos set_targets mpos mtargets].
      * exists (vadd y d). split; [|apply Add; auto]. apply nth_error_list_set_same. apply nth_error_Some. rewrite Hy. discriminate.
      * exists (vadd z d). split; [|apply Add; auto]. rewrite nth_error_map, Hz. reflexivity.
    + exfalso. pose proof (pin_active _ _ _ _ P) as A. unfold active in A. apply Z.eqb_eq in A.
      rewrite (inv_count _ (pin_inv _ _ _ _ P)) in A. pose proof (pin_handle _ _ _ _ P) as Hh.
      destruct (mhandles m) as [|[k hd] [|]]; cbn [length] in A; try lia. cbn [lookup_handle] in *.
      destruct (Nat.eqb_spec k n); [|discriminate]. subst k. destruct (Nat.eqb_spec n n0); [congruence|discriminate].
  - unfold carry in *. cbn [fold_left] in *. destruct a as [m1 b1]. eapply pinned_step_time; eauto.
  - match goal with X : move_model_by _ _ = Ok _ |- _ => apply move_model_by_shape in X; destruct X as (hh & -> & _) end.
    unfold carry in *. cbn [fold_left] in *. constructor; auto; try apply P; cbn [set_heap set_pos set_targets mpos mtargets].
    + exists (vadd y d). split; [|apply Add; auto]. rewrite nth_error_map, Hy. reflexivity.
    + exists (vadd z d). split; [|apply Add; auto]. rewrite nth_error_map, Hz. reflexivity.
  - unfold carry in *. cbn [fold_left] in *. destruct P. constructor; auto.
Qed.

Lemma pinned_run n i fuel ops : forall x m m' us,
  pinned64 n i x m -> Forall moves_only64 ops -> finite_point (carry x (displacements n ops)) -> run fuel m ops = Ok (m', us) ->
  pinned64 n i (carry x (displacements n ops)) m'.
Proof.
  induction ops as [|o ops IH]; intros x m m' us P F Fc E; cbn [run] in E; inv_ok; [exact P|].
  inversion F; subst. destruct a as [m1 u1]. destruct a0 as [m2 us2]. cbn [fst snd] in *.
  rewrite displacements_cons, carry_app in *.
  match goal with X : step_op _ m o = Ok _ |- _ => apply (pinned_step _ _ _ _ _ _ _ _ P) in X; auto; [|eapply carry_finite; eauto]; rename X into P1 end.
  eapply IH; eauto.
Qed.

(** ** Prediction on a resting grid *)

Lemma predict_quiet fuel (m : model f64) :
  Inv m -> Forall finite_point (mpos m) -> Forall zvec (mvel m) ->
  Forall (calm_spring (mpos m) []) (base_springs (tile_size (mw m) (mh m)) (mnext_id m)) ->
  is_finite (st_k (mset m)) = true -> is_finite (st_friction (mset m)) = true ->
  exists q, predict (S fuel) m (fun pos => (pos, false)) = Ok q /\ exists p, nth_error (mpos m) 0 = Some p /\ same_point_value p q.
Proof.
  intros I Fp Zv Ca Fk Ff. unfold predict. cbn [predict_loop].
  assert (Va : Forall (spring_valid []) (base_springs (tile_size (mw m) (mh m)) (mnext_id m))) by apply base_springs_valid.
  destruct (spring_step_valid (st_k (mset m)) (st_friction (mset m)) (t_counts (mtracked m)) _ (mpos m) (mvel m) [] (inv_pos _ I) Va)
    as ([[[ps vs] h] b] & E).
  rewrite E. cbn [bind]. unfold spring_step, calculate_forces in E. inv_ok. destruct a as [mm fe].
  match goal with X : apply_all _ _ _ _ = Ok _ |- _ => rename X into E1 end.
  destruct (apply_all_quiet _ Fk _ (mkMem (mpos m) (repeat vzero mesh_n) []) mm false fe Ca E1 (repeat_zvec _)) as (-> & FF).
  pose proof (apply_all_shape _ _ _ _ _ _ E1) as (_ & Lf & _). cbn [m_force] in Lf. rewrite repeat_length in Lf.
  destruct (integrate_quiet (st_friction (mset m)) Ff (t_counts (mtracked m)) (mpos m) (mvel m) (m_force mm)) as (ps' & vs' & Ei & S & Z); auto.
  { rewrite (inv_pos _ I), (inv_cnt _ I). reflexivity. } { rewrite (inv_vel _ I), (inv_cnt _ I). reflexivity. }
  { rewrite Lf, (inv_cnt _ I). reflexivity. }
  rewrite Ei in E. cbn [orb] in E. injection E as <- <- <- <-. cbn [orb bind].
  destruct (nth_error (mpos m) 0) as [p|] eqn:E0; [|apply nth_error_None in E0; rewrite (inv_pos _ I) in E0; lia].
  destruct (same_list_nth _ _ _ _ S E0) as (q & Eq & Sq). exists q. rewrite Eq. split; [reflexivity|]. exists p. auto.
Qed.

Lemma same_grid (p q tile : vec f64) :
  same_point_value p q -> point_within 48 p -> point_within 48 tile ->
  Forall2 same_point_value (position_array p tile) (position_array q tile).
Proof.
  intros (Sx & Sy) P Ti. pose proof (grid_finite p tile P Ti) as F. unfold position_array in *.
  induction (seq 0 mesh_n) as [|i l IH]; cbn [map] in *; constructor.
  - inversion F; subst. match goal with X : finite_point _ |- _ => destruct X as (A & B) end. split; apply same_add; auto.
  - inversion F; subst. auto.
Qed.

Lemma rounded_grid_array q w h : rounded_grid q w h = position_array q (tile_size w h).
Proof. reflexivity. Qed.

Lemma grid_first (q tile : vec f64) p : nth_error (position_array q tile) 0 = Some p -> point_within 48 q -> point_within 48 tile -> same_point_value p q.
Proof.
  intros E (Qx & Qy) (Tx & Ty). rewrite grid_nth in E by lia. injection E as <-.
  assert (Z : forall a t, within 48 a -> within 48 t -> same_value (nadd a (nmul (nof 0) t)) a).
  { intros a t (Fa & _) (Ft & _). assert (Zm : zv (nmul (nof 0) t)) by (apply zv_mul; [exact zv_zero|auto]).
    destruct (add_zv a _ Fa Zm) as (F & E). repeat split; auto. }
  split; cbn [vx vy]; apply Z; auto.
Qed.

Lemma no_live_count {T} `{Num T} p w h st ops (m : model T) : reached p w h st ops m -> live_anchors ops = [] -> mcount m = 0%Z.
Proof.
  intros Hr L. rewrite (inv_count _ (inv_reached _ _ _ _ _ _ Hr)). pose proof (reached_live _ _ _ _ _ _ Hr) as E.
  rewrite L in E. destruct (mhandles m); [reflexivity|discriminate].
Qed.

Lemma at_rest_zvec l : at_rest64 l -> Forall zvec l.
Proof. apply Forall_impl. intros v ((A & B) & (C & D)). split; apply zv_of; auto. Qed.

Lemma grab_pins64 fuel (m m' : model f64) g n q :
  Inv m -> mcount m = 0%Z -> mpos m = rounded_grid q (mw m) (mh m) -> Forall zvec (mvel m) ->
  point_within 48 q -> within 48 (mw m) -> within 48 (mh m) ->
  is_finite (st_k (mset m)) = true -> is_finite (st_friction (mset m)) = true -> nltb nzero (st_range (mset m)) = true ->
  step_op fuel m (OpGrab g) = Ok (m', OHandle n) -> exists i x, nth_error (mpos m') i = Some x /\ pinned64 n i x m'.
Proof.
  intros I C P V Qw Ww Hw Fk Ff Rr E. pose proof (inv_step_op _ _ _ _ _ I E) as I'.
  assert (Ti : point_within 48 (tile_size (mw m) (mh m))) by (split; cbn [tile_size vx vy]; apply tile_within; auto; lia).
  rewrite rounded_grid_array in P.
  assert (Fg : Forall finite_point (mpos m)) by (rewrite P; apply grid_finite; auto).
  unfold step_op in E. destruct (needs_model _ && negb (malive m))%bool; [discriminate|]. inv_ok. destruct a as [m1 k]. cbn [fst snd] in *.
  unfold grab_anchor in Ha. inv_ok.
  match goal with X : closest_index (mpos m) g = Some ?j |- _ => rename X into Ci; rename j into i end.
  match goal with X : activate _ _ = Ok ?a |- _ => rename X into EA; rename a into m1 end.
  unfold activate in EA. cbn [set_count set_unequal mcount] in EA. rewrite C in EA. cbn [Z.add Z.eqb Pos.eqb] in EA.
  destruct fuel as [|fuel]; [discriminate EA|]. unfold recalc_targets in EA.
  destruct (predict_quiet fuel m I Fg V) as (q' & Eq & p0 & Hp0 & S0); auto.
  { apply Forall_forall. intros s Hs. rewrite P. eapply (grid_calm q); [auto|exact Ti|exact Hs]. }
  change (predict (S fuel) (set_count (set_unequal m true) 1) (fun pos => (pos, false))) with (predict (S fuel) m (fun pos => (pos, false))) in EA.
  cbn [set_count set_unequal mw mh] in *. rewrite Eq in EA. cbn [bind] in EA. inv_ok.
  assert (Sq : same_point_value q q').
  { eapply same_point_trans; [|exact S0]. apply same_point_sym. rewrite P in Hp0. eapply grid_first; eauto. }
  pose proof (same_grid q q' _ Sq Qw Ti) as Sg.
  assert (Hx : exists x, nth_error (mpos m) i = Some x).
  { destruct (nth_error (mpos m) i) eqn:X; [eauto|]. exfalso. apply nth_error_None in X. rewrite (inv_pos _ I) in X.
    assert (B : (i < 16)%nat).
    { eapply (inv_grab _ I'). cbn [add_handle set_handles mhandles]. apply in_or_app. right. left. reflexivity. }
    lia. }
  destruct Hx as (x & Hx).
  assert (Fx : finite_point x) by (rewrite Forall_forall in Fg; apply Fg; eapply nth_error_In; eauto).
  exists i, x. split; [exact Hx|]. constructor; auto.
  - cbn [add_handle set_handles set_tracked set_targets set_next_id mhandles mnext_handle].
    rewrite lookup_app.
    match goal with |- match ?l with _ => _ end = _ => replace l with (@None (handle f64)); [|symmetry] end.
    + cbn [lookup_handle]. rewrite Nat.eqb_refl. reflexivity.
    + apply lookup_handle_none. intros Hin. apply (inv_next _ I) in Hin. lia.
  - exists x. split; [exact Hx|apply same_point_refl; auto].
  - cbn [add_handle set_handles set_tracked set_targets set_next_id mtargets].
    pose proof Hx as Hx'. rewrite P in Hx'. destruct (same_list_nth _ _ _ _ Sg Hx') as (z & Hz & Sz).
    exists z. split; [exact Hz|apply same_point_sym; auto].
Qed.

Lemma single_grab64 p w h st ops (m0 m1 m2 : model f64) g q n fuel fuel' ops' us :
  reached p w h st ops m0 -> live_anchors ops = [] -> mpos m0 = rounded_grid q (mw m0) (mh m0) -> at_rest64 (mvel m0) ->
  point_within 48 q -> within 48 (mw m0) -> within 48 (mh m0) ->
  is_finite (st_k (mset m0)) = true -> is_finite (st_friction (mset m0)) = true -> nltb nzero (st_range (mset m0)) = true ->
  step_op fuel m0 (OpGrab g) = Ok (m1, OHandle n) ->
  Forall moves_only64 ops' -> run fuel' m1 ops' = Ok (m2, us) ->
  exists x, anchor_point m1 n = Some x /\
    (finite_point (fold_left rounded_sum (displacements n ops') x) ->
     exists y, anchor_point m2 n = Some y /\ same_point_value y (fold_left rounded_sum (displacements n ops') x)).
Proof.
  intros Hr L P V Qw Ww Hw Fk Ff Rr E F Er. pose proof (inv_reached _ _ _ _ _ _ Hr) as I.
  destruct (grab_pins64 fuel m0 m1 g n q I (no_live_count _ _ _ _ _ _ Hr L) P (at_rest_zvec _ V) Qw Ww Hw Fk Ff Rr E) as (i & x & Hx & Pn).
  exists x. split; [unfold anchor_point; rewrite (pin_handle _ _ _ _ Pn); exact Hx|].
  intros Fc. pose proof (pinned_run n i fuel' ops' x m1 m2 us Pn F Fc Er) as Pm.
  destruct (pin_pos _ _ _ _ Pm) as (y & Hy & Sy). exists y. split; [|exact Sy].
  unfold anchor_point. rewrite (pin_handle _ _ _ _ Pm). exact Hy.
Qed.

(** ** Sums *)

Local Open Scope R_scope.

Lemma add_value (x y : f64) : is_finite (nadd x y) = true -> B2R (nadd x y) = rd (B2R x + B2R y).
Proof.
  intros F. pose proof (add_finite _ _ F) as (Fx & Fy).
  generalize (Bplus_correct 53 1024 Hprec64 Hemax64 mode_NE x y Fx Fy).
  destruct (Rlt_bool _ _); [intros (A & _); exact A|]. intros (A & _). exfalso.
  change (Bplus mode_NE x y) with (nadd x y) in A. destruct (nadd x y) as [s|s| |s m e B]; try discriminate F; try discriminate A.
Qed.

Lemma rd_reach k x : (-900 <= k)%Z -> Rabs (rd x) <= bpow radix2 k -> Rabs x < bpow radix2 (k + 1).
Proof.
  intros Hk L. destruct (Rlt_or_le (Rabs x) (bpow radix2 (k + 1))) as [|G]; [auto|]. exfalso.
  assert (A : bpow radix2 (k + 1) <= Rabs (rd x)).
  { apply abs_round_ge_generic; try typeclasses eauto; auto. apply gen_bpow. lia. }
  pose proof (bpow_lt radix2 k (k + 1) ltac:(lia)). lra.
Qed.

Lemma sum_error e (x d : f64) : (-900 <= e)%Z -> within e (nadd x d) -> Rabs (B2R (nadd x d) - (B2R x + B2R d)) <= bpow radix2 (e - 53).
Proof.
  intros He (F & L). rewrite (add_value x d F) in *. apply rd_reach in L; [|auto].
  replace (e - 53)%Z with (e + 1 - 54)%Z by lia. apply rd_err; [lia|lra].
Qed.

Lemma carry_error_axis (f : vec f64 -> f64) e : (forall x d, f (rounded_sum x d) = nadd (f x) (f d)) -> (-900 <= e)%Z -> forall ds x,
  Forall (fun p => within e (f p)) (stations x ds) ->
  Rabs (B2R (f (fold_left rounded_sum ds x)) - (B2R (f x) + fold_right Rplus 0 (map (fun d => B2R (f d)) ds))) <= INR (length ds) * bpow radix2 (e - 53).
Proof.
  intros Hf He. induction ds as [|d ds IH]; intros x F.
  - cbn [fold_left map fold_right length INR]. rewrite Rplus_0_r, Rminus_diag_eq by reflexivity. rewrite Rabs_R0. lra.
  - cbn [fold_left map fold_right length]. rewrite S_INR. cbn [stations] in F. inversion F as [|? ? F0 F1]; subst. pose proof F1 as F1'.
    apply IH in F1.
    assert (W : within e (nadd (f x) (f d))).
    { rewrite <- Hf. destruct ds; cbn [stations] in F1'; inversion F1'; auto. }
    apply sum_error in W; [|auto]. rewrite <- Hf in W. apply Rabs_le_inv in W. apply Rabs_le_inv in F1. apply Rabs_le. lra.
Qed.

Lemma carry_error e ds x : (-900 <= e)%Z -> Forall (point_within e) (stations x ds) ->
  Rabs (B2R (vx (fold_left rounded_sum ds x)) - (B2R (vx x) + vx (exact_total ds))) <= INR (length ds) * bpow radix2 (e - 53) /\
  Rabs (B2R (vy (fold_left rounded_sum ds x)) - (B2R (vy x) + vy (exact_total ds))) <= INR (length ds) * bpow radix2 (e - 53).
Proof.
  intros He F. split.
  - apply (carry_error_axis vx e); auto. eapply Forall_impl; [|exact F]. intros p (A & B). auto.
  - apply (carry_error_axis vy e); auto. eapply Forall_impl; [|exact F]. intros p (A & B). auto.
Qed.

Lemma sum_exact u (x d : f64) : (-900 <= u)%Z -> multiple u x -> multiple u d -> within (u + 52) (nadd x d) ->
  B2R (nadd x d) = B2R x + B2R d /\ multiple u (nadd x d).
Proof.
  intros Hu (Fx & kx & Ex) (Fd & kd & Ed) (F & L).
  assert (E : B2R x + B2R d = IZR (kx + kd) * bpow radix2 u) by (rewrite Ex, Ed, plus_IZR; ring).
  rewrite (add_value x d F) in *. apply rd_reach in L; [|lia]. replace (u + 52 + 1)%Z with (53 + u)%Z in L by lia.
  rewrite E, Rabs_mult, (Rabs_pos_eq (bpow radix2 u)) in L by apply bpow_ge_0. rewrite bpow_plus in L.
  assert (K : (Z.abs (kx + kd) < 2 ^ 53)%Z).
  { apply Rmult_lt_reg_r in L; [|apply bpow_gt_0]. rewrite <- abs_IZR in L. apply lt_IZR. exact L. }
  assert (R0 : rd (B2R x + B2R d) = B2R x + B2R d) by (rewrite E; apply rd_gen, gen_scaled; [auto|lia]).
  rewrite R0. split; [reflexivity|]. split; [exact F|]. exists (kx + kd)%Z. rewrite (add_value x d F), R0. exact E.
Qed.

Lemma carry_exact_axis (f : vec f64 -> f64) u : (forall x d, f (rounded_sum x d) = nadd (f x) (f d)) -> (-900 <= u)%Z -> forall ds x,
  Forall (fun p => within (u + 52) (f p)) (stations x ds) -> multiple u (f x) -> Forall (fun d => multiple u (f d)) ds ->
  B2R (f (fold_left rounded_sum ds x)) = B2R (f x) + fold_right Rplus 0 (map (fun d => B2R (f d)) ds).
Proof.
  intros Hf Hu. induction ds as [|d ds IH]; intros x F Mx Md.
  - cbn [fold_left map fold_right]. ring.
  - cbn [fold_left map fold_right]. cbn [stations] in F. inversion F as [|? ? F0 F1]; inversion Md as [|? ? Md0 Md1]; subst.
    assert (W : within (u + 52) (nadd (f x) (f d))).
    { rewrite <- Hf. destruct ds; cbn [stations] in F1; inversion F1; auto. }
    destruct (sum_exact u _ _ Hu Mx Md0 W) as (E & M). rewrite <- Hf in E, M. rewrite IH; auto. rewrite E. ring.
Qed.

Lemma carry_exact u ds x : (-900 <= u)%Z -> Forall (point_within (u + 52)) (stations x ds) -> point_multiple u x -> Forall (point_multiple u) ds ->
  B2R (vx (fold_left rounded_sum ds x)) = B2R (vx x) + vx (exact_total ds) /\
  B2R (vy (fold_left rounded_sum ds x)) = B2R (vy x) + vy (exact_total ds).
Proof.
  intros Hu F (Mx & My) Md. split.
  - apply (carry_exact_axis vx u); auto; (eapply Forall_impl; [|eassumption]); intros p (A & B); auto.
  - apply (carry_exact_axis vy u); auto; (eapply Forall_impl; [|eassumption]); intros p (A & B); auto.
Qed.
