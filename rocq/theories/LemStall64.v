(** A mesh that stops before it is at rest, in [double]. *)

From Coq Require Import ZArith Bool List Lia SpecFloat.
From Flocq Require Import IEEE754.BinarySingleNaN.
From Verif Require Import Num Geometry Outcome Wobbly Spec Cases LemBasic LemHistory.
Import ListNotations.

(** ** Equality of values, decided *)

Definition same_sf (a b : SpecFloat.spec_float) : bool :=
  match a, b with
  | S754_zero s, S754_zero t | S754_infinity s, S754_infinity t => Bool.eqb s t
  | S754_nan, S754_nan => true
  | S754_finite s m e, S754_finite t n f => Bool.eqb s t && Pos.eqb m n && Z.eqb e f
  | _, _ => false
  end.

Lemma same_sf_eq a b : same_sf a b = true -> a = b.
Proof.
  destruct a, b; cbn [same_sf]; intros E; try discriminate; try reflexivity.
  - apply eqb_prop in E. congruence.
  - apply eqb_prop in E. congruence.
  - apply andb_prop in E. destruct E as (E & E3). apply andb_prop in E. destruct E as (E1 & E2).
    apply eqb_prop in E1. apply Pos.eqb_eq in E2. apply Z.eqb_eq in E3. congruence.
Qed.

Definition same_f64 (a b : f64) : bool := same_sf (B2SF a) (B2SF b).
Lemma same_f64_eq a b : same_f64 a b = true -> a = b.
Proof. intros E. apply same_sf_eq in E. apply B2SF_inj. exact E. Qed.

Definition same_v64 (a b : vec f64) : bool := same_f64 (vx a) (vx b) && same_f64 (vy a) (vy b).
Lemma same_v64_eq a b : same_v64 a b = true -> a = b.
Proof.
  unfold same_v64. intros E. apply andb_prop in E. destruct E as (E1 & E2). apply same_f64_eq in E1. apply same_f64_eq in E2.
  destruct a as [ax ay], b as [bx b_y]. cbn [vx vy] in *. congruence.
Qed.

Fixpoint same_l64 (a b : list (vec f64)) : bool :=
  match a, b with
  | [], [] => true
  | x :: a, y :: b => same_v64 x y && same_l64 a b
  | _, _ => false
  end.
Lemma same_l64_eq : forall a b, same_l64 a b = true -> a = b.
Proof.
  induction a as [|x a IH]; intros [|y b] E; try discriminate; [reflexivity|]. cbn [same_l64] in E.
  apply andb_prop in E. destruct E as (E1 & E2). apply same_v64_eq in E1. apply IH in E2. congruence.
Qed.

(** ** A state that a spring step leaves as it is, and reports as moving *)

Section Fixed.
Context {T} `{Num T}.

Definition fixed (m : model T) : Prop :=
  malive m = true /\ munequal m = true /\ mcount m = 0%Z /\ mheap m = [] /\
  spring_step (st_k (mset m)) (st_friction (mset m)) (t_counts (mtracked m)) (msprings m) (mpos m) (mvel m) [] =
    Ok (mpos m, mvel m, [], true) /\
  exists h, spring_step (st_k (mset m)) (st_friction (mset m)) (t_counts (mtracked m))
              (base_springs (tile_size (mw m) (mh m)) (mnext_id m)) (mpos m) (mvel m) [] = Ok (mpos m, mvel m, h, true).

Lemma fixed_once m : fixed m -> integrate_once m = Ok (m, true).
Proof.
  intros (Al & U & C & Hp & S1 & _). unfold integrate_once, constrainment, active. rewrite C. cbn [Z.eqb].
  rewrite Hp, S1. cbn [bind orb]. f_equal. f_equal. destruct m. cbn in *. subst. reflexivity.
Qed.

Lemma fixed_n n : forall m b, fixed m -> integrate_n (S n) m b = Ok (m, true).
Proof.
  induction n as [|n IH]; intros m b F.
  - cbn [integrate_n]. rewrite fixed_once by auto. cbn [bind fst snd]. rewrite orb_true_r. reflexivity.
  - change (integrate_n (S (S n)) m b) with (bind (integrate_once m) (fun r => integrate_n (S n) (fst r) (b || snd r))).
    rewrite fixed_once by auto. cbn [bind fst snd]. apply IH. exact F.
Qed.

Lemma fixed_step t m : fixed m -> (0 < t)%Z -> model_step t m = Ok (m, true).
Proof.
  intros F Ht. unfold model_step.
  assert (X : exists n, step_count t = S n).
  { unfold step_count. assert (X : (1 <= (t + 15) / 16)%Z) by (apply Z.div_le_lower_bound; lia).
    exists (Z.to_nat ((t + 15) / 16) - 1)%nat. lia. }
  destruct X as (n & ->). rewrite fixed_n by auto. cbn [bind]. rewrite orb_true_r. cbn [negb andb]. f_equal. f_equal.
  destruct F as (_ & U & _). destruct m. cbn in *. subst. reflexivity.
Qed.

Lemma fixed_run fuel ts m : fixed m -> (forall t, In t ts -> (0 < t)%Z) ->
  run fuel m (map (fun t => OpStep t) ts) = Ok (m, map (fun _ => OMore true) ts).
Proof.
  intros F. pose proof F as (Al & _). induction ts as [|t ts IH]; intros P; [reflexivity|]. cbn [map run].
  unfold step_op. cbn [needs_model]. rewrite Al. cbn [negb andb]. rewrite fixed_step by (auto; apply P; left; auto).
  cbn [bind fst snd]. rewrite IH by (intros t' Ht; apply P; right; auto). reflexivity.
Qed.

Lemma fixed_predict fuel m extra : fixed m -> (forall p, extra p = (p, false)) -> predict fuel m extra = Err NoFuel.
Proof.
  intros (_ & _ & _ & _ & _ & h & S1) X. unfold predict.
  assert (P : predict_loop fuel (st_k (mset m)) (st_friction (mset m)) (t_counts (mtracked m))
                (base_springs (tile_size (mw m) (mh m)) (mnext_id m)) extra (mpos m) (mvel m) = Err NoFuel).
  { induction fuel as [|fuel IH]; [reflexivity|]. cbn [predict_loop]. rewrite S1. cbn [bind]. rewrite X. cbn [orb]. exact IH. }
  rewrite P. reflexivity.
Qed.

Lemma fixed_hangs fuel m : fixed m ->
  (forall q, step_op fuel m (OpMoveTo q) = Err NoFuel) /\
  (forall w h, nltb nzero w = true -> nltb nzero h = true ->
     neqb (ndiv w (mw m)) (nof 1) = false \/ neqb (ndiv h (mh m)) (nof 1) = false -> step_op fuel m (OpResize w h) = Err NoFuel) /\
  (forall q r, step_op fuel m (OpGrab q) <> Ok r) /\
  (forall q, step_op fuel m (OpInsert q) = Err NoFuel).
Proof.
  intros F. pose proof F as (Al & _ & C & _).
  assert (A : active m = false) by (unfold active; rewrite C; reflexivity).
  assert (Tp : target_position fuel m = Err NoFuel).
  { unfold target_position. rewrite A. rewrite fixed_predict; auto. intros p. unfold constrainment. rewrite A. reflexivity. }
  assert (Ac : activate fuel (set_unequal m true) = Err NoFuel).
  { unfold activate. cbn [set_count mcount set_unequal]. rewrite C. cbn [Z.add Z.eqb Pos.eqb]. unfold recalc_targets.
    change (predict fuel (set_count (set_unequal m true) 1) (fun pos => (pos, false))) with (predict fuel m (fun pos => (pos, false))).
    rewrite fixed_predict by auto. reflexivity. }
  split; [|split; [|split]].
  - intros q. unfold step_op. cbn [needs_model]. rewrite Al. cbn [negb andb]. unfold move_model_to. rewrite Tp. reflexivity.
  - intros w h W Hh NE. unfold step_op. cbn [needs_model]. rewrite Al. cbn [negb andb]. unfold resize_model.
    rewrite W, Hh. cbn [negb andb]. cbv zeta. unfold vequals. cbn [vx vy].
    destruct NE as [-> | ->]; rewrite ?andb_false_r; cbn [andb]; rewrite Tp; reflexivity.
  - intros q r E. unfold step_op in E. cbn [needs_model] in E. rewrite Al in E. cbn [negb andb] in E. unfold grab_anchor in E.
    destruct (closest_index (mpos m) q); cbn [of_option bind] in E; [|discriminate].
    rewrite Ac in E. discriminate.
  - intros q. unfold step_op. cbn [needs_model]. rewrite Al. cbn [negb andb]. unfold insert_anchor. rewrite Ac. reflexivity.
Qed.
End Fixed.

(** ** Deciding it *)

Definition stays (r : res (list (vec f64) * list (vec f64) * list (block f64) * bool)) (pos vel : list (vec f64)) : bool :=
  match r with
  | Ok (p, v, [], true) => same_l64 p pos && same_l64 v vel
  | _ => false
  end.

Lemma stays_eq r pos vel : stays r pos vel = true -> r = Ok (pos, vel, [], true).
Proof.
  destruct r as [[[[p v] [|h t]] [|]]|e]; cbn [stays]; intros E; try discriminate.
  apply andb_prop in E. destruct E as (E1 & E2). apply same_l64_eq in E1. apply same_l64_eq in E2. congruence.
Qed.

Definition fixedb (m : model f64) : bool :=
  malive m && munequal m && Z.eqb (mcount m) 0 && match mheap m with [] => true | _ => false end &&
  stays (spring_step (st_k (mset m)) (st_friction (mset m)) (t_counts (mtracked m)) (msprings m) (mpos m) (mvel m) []) (mpos m) (mvel m) &&
  stays (spring_step (st_k (mset m)) (st_friction (mset m)) (t_counts (mtracked m))
           (base_springs (tile_size (mw m) (mh m)) (mnext_id m)) (mpos m) (mvel m) []) (mpos m) (mvel m).

Lemma fixedb_ok m : fixedb m = true -> fixed m.
Proof.
  unfold fixedb. intros E. do 5 (apply andb_prop in E; let X := fresh "X" in destruct E as (E & X)).
  apply stays_eq in X. apply stays_eq in X0. apply Z.eqb_eq in X2.
  split; [exact E|]. split; [exact X3|]. split; [exact X2|]. split; [destruct (mheap m); [reflexivity|discriminate X1]|].
  split; [exact X0|]. eexists. exact X.
Qed.
