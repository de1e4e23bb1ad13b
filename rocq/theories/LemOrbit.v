(** Meshes that keep moving for ever. *)

From Coq Require Import ZArith Bool List Lia.
From Flocq Require Import Core IEEE754.BinarySingleNaN.
From Verif Require Import Num Geometry Outcome Wobbly Spec LemStall64.
Import ListNotations.

Section Orbit.
Context {T} `{Num T}.
Notation state := (list (vec T) * list (vec T))%type.

(** One spring step that reports motion, and moves the mesh in the sense of
    [moved]. *)
Definition nxt (moved : list (vec T) -> list (vec T) -> bool) (k fr : T) (cs : list Z) (ss : list (spring T)) (s : state) : option state :=
  match spring_step k fr cs ss (fst s) (snd s) [] with
  | Ok (p, v, [], true) => if moved (fst s) p then Some (p, v) else None
  | _ => None
  end.

Fixpoint nexts moved k fr cs ss (n : nat) (s : state) : option state :=
  match n with
  | O => Some s
  | S n => match nxt moved k fr cs ss s with Some u => nexts moved k fr cs ss n u | None => None end
  end.

Definition perpetual moved k fr cs ss (s : state) : Prop := forall n, nexts moved k fr cs ss n s <> None.

Lemma nexts_add moved k fr cs ss a b : forall s, nexts moved k fr cs ss (a + b) s =
  match nexts moved k fr cs ss a s with Some u => nexts moved k fr cs ss b u | None => None end.
Proof. induction a as [|a IH]; intros s; cbn [Nat.add nexts]; [reflexivity|]. destruct (nxt moved k fr cs ss s); auto. Qed.

Lemma nexts_less moved k fr cs ss a b s : (a <= b)%nat -> nexts moved k fr cs ss b s <> None -> nexts moved k fr cs ss a s <> None.
Proof. intros L N. replace b with (a + (b - a))%nat in N by lia. rewrite nexts_add in N. destruct (nexts moved k fr cs ss a s); congruence. Qed.

(** A state that comes back goes on for ever. *)
Lemma periodic moved k fr cs ss a b s u : (0 < b)%nat -> nexts moved k fr cs ss a s = Some u -> nexts moved k fr cs ss b u = Some u ->
  perpetual moved k fr cs ss s.
Proof.
  intros B A C n.
  assert (R : forall q, nexts moved k fr cs ss (q * b) u = Some u).
  { induction q as [|q IH]; [reflexivity|]. cbn [Nat.mul]. rewrite nexts_add, C. exact IH. }
  apply nexts_less with (a + n * b)%nat; [nia|]. rewrite nexts_add, A, R. discriminate.
Qed.

Lemma perpetual_next moved k fr cs ss s : perpetual moved k fr cs ss s ->
  exists u, spring_step k fr cs ss (fst s) (snd s) [] = Ok (fst u, snd u, [], true) /\ moved (fst s) (fst u) = true /\ perpetual moved k fr cs ss u.
Proof.
  intros P. pose proof (P 1%nat) as P1. cbn [nexts] in P1. destruct (nxt moved k fr cs ss s) as [u|] eqn:E; [|congruence].
  exists u. unfold nxt in E. destruct (spring_step k fr cs ss (fst s) (snd s) []) as [[[[p v] [|h t]] [|]]|e] eqn:E1; try discriminate.
  destruct (moved (fst s) p) eqn:M; [|discriminate]. injection E as <-. split; [reflexivity|]. split; [exact M|].
  intros n. specialize (P (S n)). cbn [nexts] in P. unfold nxt in P. rewrite E1, M in P. exact P.
Qed.

Lemma perpetual_predict moved k fr cs ss extra fuel : (forall p, extra p = (p, false)) -> forall s,
  perpetual moved k fr cs ss s -> predict_loop fuel k fr cs ss extra (fst s) (snd s) = Err NoFuel.
Proof.
  intros X. induction fuel as [|fuel IH]; intros s P; [reflexivity|]. cbn [predict_loop].
  destruct (perpetual_next _ _ _ _ _ _ P) as (u & E & _ & Pu). rewrite E. cbn [bind]. rewrite X. cbn [orb]. apply IH. exact Pu.
Qed.

(** ** The identifiers of springs do not matter *)

Definition strip (s : spring T) := (s_fa s, s_fb s, s_pa s, s_pb s, s_len s).

Lemma strip_forces k a b m : strip a = strip b -> apply_forces k a m = apply_forces k b m.
Proof. intros E. unfold strip in E. injection E as E1 E2 E3 E4 E5. unfold apply_forces. rewrite E1, E2, E3, E4, E5. reflexivity. Qed.

Lemma strip_all k : forall a b m more, map strip a = map strip b -> apply_all k a m more = apply_all k b m more.
Proof.
  induction a as [|x a IH]; intros [|y b] m more E; try discriminate; [reflexivity|]. cbn [map] in E. injection E as E1 E2 E3 E4 E5 E.
  cbn [apply_all]. rewrite (strip_forces k x y) by (unfold strip; congruence).
  destruct (apply_forces k y m) as [r|e]; [|reflexivity]. cbn [bind]. apply IH. exact E.
Qed.

Lemma strip_step k fr cs a b pos vel heap : map strip a = map strip b -> spring_step k fr cs a pos vel heap = spring_step k fr cs b pos vel heap.
Proof. intros E. unfold spring_step, calculate_forces. rewrite (strip_all k a b) by exact E. reflexivity. Qed.

Lemma strip_number l : forall n n', map strip (number_springs l n) = map strip (number_springs (T:=T) l n').
Proof. induction l as [|[[a b] len] l IH]; intros n n'; [reflexivity|]. cbn [number_springs map]. f_equal. apply IH. Qed.

(** ** Models *)

Context (moved : list (vec T) -> list (vec T) -> bool).

Definition wobbling (m : model T) : Prop :=
  malive m = true /\ munequal m = true /\ mcount m = 0%Z /\ mheap m = [] /\
  map strip (msprings m) = map strip (base_springs (tile_size (mw m) (mh m)) 0) /\
  perpetual moved (st_k (mset m)) (st_friction (mset m)) (t_counts (mtracked m)) (msprings m) (mpos m, mvel m).

Lemma wobbling_once m : wobbling m ->
  exists p v, integrate_once m = Ok (set_sim m p v [], true) /\ moved (mpos m) p = true /\ wobbling (set_sim m p v []).
Proof.
  intros (Al & U & C & Hp & Sp & P). destruct (perpetual_next _ _ _ _ _ _ P) as ((p & v) & E & M & Pu). exists p, v.
  split; [|split; [exact M|]].
  - unfold integrate_once, constrainment, active. rewrite C. cbn [Z.eqb]. rewrite Hp. cbn [fst snd] in E. rewrite E. reflexivity.
  - repeat split; cbn [malive munequal mcount mheap msprings mw mh mset mtracked mpos mvel set_sim]; auto.
Qed.

Lemma wobbling_n n : forall m b, wobbling m -> exists p v, integrate_n (S n) m b = Ok (set_sim m p v [], true) /\ wobbling (set_sim m p v []).
Proof.
  induction n as [|n IH]; intros m b W; destruct (wobbling_once m W) as (p & v & E & _ & W1).
  - exists p, v. cbn [integrate_n]. rewrite E. cbn [bind fst snd]. rewrite orb_true_r. auto.
  - destruct (IH (set_sim m p v []) (b || true) W1) as (p2 & v2 & E2 & W2). exists p2, v2.
    change (integrate_n (S (S n)) m b) with (bind (integrate_once m) (fun r => integrate_n (S n) (fst r) (b || snd r))).
    rewrite E. cbn [bind fst snd]. rewrite E2. auto.
Qed.

Lemma wobbling_unequal m : wobbling m -> set_unequal m true = m.
Proof. intros (_ & U & _). destruct m. cbn in *. subst. reflexivity. Qed.

Lemma wobbling_step t m : wobbling m -> (0 <= t)%Z ->
  exists m', model_step t m = Ok (m', true) /\ wobbling m' /\ ((0 < t <= 16)%Z -> moved (mpos m) (mpos m') = true).
Proof.
  intros W Ht. pose proof W as (_ & U & _). unfold model_step. destruct (step_count t) as [|n] eqn:N.
  - exists m. assert (t = 0)%Z as ->.
    { unfold step_count in N. destruct (Z.eq_dec t 0); auto. assert (X : (1 <= (t + 15) / 16)%Z) by (apply Z.div_le_lower_bound; lia). lia. }
    cbn [integrate_n bind Z.eqb]. rewrite U. cbn [orb negb andb]. rewrite wobbling_unequal by auto.
    split; [reflexivity|]. split; [exact W|lia].
  - destruct (wobbling_n n m false W) as (p & v & E & W1). rewrite E. cbn [bind]. rewrite orb_true_r. cbn [negb andb].
    exists (set_sim m p v []). rewrite wobbling_unequal by exact W1. split; [reflexivity|]. split; [exact W1|]. intros T16.
    assert (n = 0)%nat as ->. { unfold step_count in N. assert (X : ((t + 15) / 16 < 2)%Z) by (apply Z.div_lt_upper_bound; lia). lia. }
    cbn [integrate_n] in E. destruct (wobbling_once m W) as (p1 & v1 & E1 & M & _). rewrite E1 in E. cbn [bind fst snd] in E. injection E as -> ->. exact M.
Qed.

Lemma wobbling_run fuel ts : forall m, wobbling m -> (forall t, In t ts -> (0 <= t)%Z) ->
  exists m', run fuel m (map (fun t => OpStep t) ts) = Ok (m', map (fun _ => OMore true) ts) /\ wobbling m'.
Proof.
  induction ts as [|t ts IH]; intros m W P; [exists m; auto|]. cbn [map run]. pose proof W as (Al & _).
  destruct (wobbling_step t m W) as (m1 & E & W1 & _); [apply P; left; auto|].
  unfold step_op at 1. cbn [needs_model]. rewrite Al. cbn [negb andb]. rewrite E. cbn [bind fst snd].
  destruct (IH m1 W1) as (m2 & E2 & W2); [intros t' Ht; apply P; right; auto|]. rewrite E2. exists m2. auto.
Qed.

Lemma wobbling_predict fuel m extra : wobbling m -> (forall p, extra p = (p, false)) -> predict fuel m extra = Err NoFuel.
Proof.
  intros (_ & _ & _ & _ & Sp & P) X. unfold predict.
  assert (Q : perpetual moved (st_k (mset m)) (st_friction (mset m)) (t_counts (mtracked m))
                (base_springs (tile_size (mw m) (mh m)) (mnext_id m)) (mpos m, mvel m)).
  { assert (N : forall n s, nexts moved (st_k (mset m)) (st_friction (mset m)) (t_counts (mtracked m)) (base_springs (tile_size (mw m) (mh m)) (mnext_id m)) n s =
                            nexts moved (st_k (mset m)) (st_friction (mset m)) (t_counts (mtracked m)) (msprings m) n s).
    { assert (N1 : forall s, nxt moved (st_k (mset m)) (st_friction (mset m)) (t_counts (mtracked m)) (base_springs (tile_size (mw m) (mh m)) (mnext_id m)) s =
                             nxt moved (st_k (mset m)) (st_friction (mset m)) (t_counts (mtracked m)) (msprings m) s).
      { intros s. unfold nxt. rewrite (strip_step _ _ _ _ (msprings m)); [reflexivity|]. rewrite Sp. unfold base_springs. apply strip_number. }
      induction n as [|n IH]; intros s; [reflexivity|]. cbn [nexts]. rewrite N1. destruct (nxt _ _ _ _ (msprings m) s); auto. }
    intros n. rewrite N. apply P. }
  pose proof (perpetual_predict moved _ _ _ _ extra fuel X _ Q) as R. cbn [fst snd] in R. rewrite R. reflexivity.
Qed.

Lemma wobbling_hangs fuel m : wobbling m ->
  (forall q, step_op fuel m (OpMoveTo q) = Err NoFuel) /\
  (forall w h, nltb nzero w = true -> nltb nzero h = true ->
     neqb (ndiv w (mw m)) (nof 1) = false \/ neqb (ndiv h (mh m)) (nof 1) = false -> step_op fuel m (OpResize w h) = Err NoFuel) /\
  (forall q r, step_op fuel m (OpGrab q) <> Ok r) /\
  (forall q, step_op fuel m (OpInsert q) = Err NoFuel).
Proof.
  intros F. pose proof F as (Al & _ & C & _).
  assert (A : active m = false) by (unfold active; rewrite C; reflexivity).
  assert (Tp : target_position fuel m = Err NoFuel).
  { unfold target_position. rewrite A. rewrite wobbling_predict; auto. intros p. unfold constrainment. rewrite A. reflexivity. }
  assert (Ac : activate fuel (set_unequal m true) = Err NoFuel).
  { unfold activate. cbn [set_count mcount set_unequal]. rewrite C. cbn [Z.add Z.eqb Pos.eqb]. unfold recalc_targets.
    change (predict fuel (set_count (set_unequal m true) 1) (fun pos => (pos, false))) with (predict fuel m (fun pos => (pos, false))).
    rewrite wobbling_predict by auto. reflexivity. }
  split; [|split; [|split]].
  - intros q. unfold step_op. cbn [needs_model]. rewrite Al. cbn [negb andb]. unfold move_model_to. rewrite Tp. reflexivity.
  - intros w h W Hh NE. unfold step_op. cbn [needs_model]. rewrite Al. cbn [negb andb]. unfold resize_model.
    rewrite W, Hh. cbn [negb andb]. cbv zeta. unfold vequals. cbn [vx vy].
    destruct NE as [-> | ->]; rewrite ?andb_false_r; cbn [andb]; rewrite Tp; reflexivity.
  - intros q r E. unfold step_op in E. cbn [needs_model] in E. rewrite Al in E. cbn [negb andb] in E. unfold grab_anchor in E.
    destruct (closest_index (mpos m) q); cbn [of_option bind] in E; [|discriminate].
    rewrite Ac in E. discriminate.
  - intros q. unfold step_op. cbn [needs_model]. rewrite Al. cbn [negb andb]. unfold insert_anchor. rewrite Ac. reflexivity.
Qed.
End Orbit.

(** ** Deciding it *)

Definition moved64 (a b : list (vec f64)) : bool := negb (same_l64 a b).

Lemma same_l64_refl : forall a, same_l64 a a = true.
Proof.
  assert (Z1 : forall s : bool, Bool.eqb s s = true) by (intros []; reflexivity).
  assert (F : forall x, same_f64 x x = true).
  { intros x. unfold same_f64. destruct (B2SF x); cbn [same_sf]; rewrite ?Z1, ?Pos.eqb_refl, ?Z.eqb_refl; reflexivity. }
  induction a as [|[x y] a IH]; [reflexivity|]. cbn [same_l64]. unfold same_v64. cbn [vx vy]. rewrite !F, IH. reflexivity.
Qed.

Lemma moved64_ne a b : moved64 a b = true -> b <> a.
Proof. intros M E. subst. unfold moved64 in M. rewrite same_l64_refl in M. discriminate. Qed.

Definition same_strip (a b : spring f64) : bool :=
  loc_eqb (s_fa a) (s_fa b) && loc_eqb (s_fb a) (s_fb b) && loc_eqb (s_pa a) (s_pa b) && loc_eqb (s_pb a) (s_pb b) && same_v64 (s_len a) (s_len b).
Fixpoint same_strips (a b : list (spring f64)) : bool :=
  match a, b with
  | [], [] => true
  | x :: a, y :: b => same_strip x y && same_strips a b
  | _, _ => false
  end.
Lemma loc_eqb_ok a b : loc_eqb a b = true -> a = b.
Proof. destruct a, b; cbn; intros E; try discriminate; apply Nat.eqb_eq in E; congruence. Qed.
Lemma same_strips_eq : forall a b, same_strips a b = true -> map strip a = map strip b.
Proof.
  induction a as [|x a IH]; intros [|y b] E; try discriminate; [reflexivity|]. cbn [same_strips] in E. apply andb_prop in E. destruct E as (E1 & E2).
  unfold same_strip in E1. do 4 (apply andb_prop in E1; let X := fresh "X" in destruct E1 as (E1 & X)).
  apply loc_eqb_ok in E1, X0, X1, X2. apply same_v64_eq in X. cbn [map]. rewrite (IH b E2). unfold strip. congruence.
Qed.

(** The state after [a] steps comes back [b] steps later. *)
Definition wobblesb (a b : nat) (m : model f64) : bool :=
  malive m && munequal m && Z.eqb (mcount m) 0 && match mheap m with [] => true | _ => false end &&
  same_strips (msprings m) (base_springs (tile_size (mw m) (mh m)) 0) && Nat.ltb 0 b &&
  match nexts moved64 (st_k (mset m)) (st_friction (mset m)) (t_counts (mtracked m)) (msprings m) a (mpos m, mvel m) with
  | Some u => match nexts moved64 (st_k (mset m)) (st_friction (mset m)) (t_counts (mtracked m)) (msprings m) b u with
              | Some w => same_l64 (fst w) (fst u) && same_l64 (snd w) (snd u)
              | None => false
              end
  | None => false
  end.

Lemma wobblesb_ok a b m : wobblesb a b m = true -> wobbling moved64 m.
Proof.
  unfold wobblesb. intros E. do 6 (apply andb_prop in E; let X := fresh "X" in destruct E as (E & X)).
  apply Z.eqb_eq in X3. apply same_strips_eq in X1. apply Nat.ltb_lt in X0.
  split; [exact E|]. split; [exact X4|]. split; [exact X3|]. split; [destruct (mheap m); [reflexivity|discriminate X2]|]. split; [exact X1|].
  destruct (nexts moved64 _ _ _ _ a (mpos m, mvel m)) as [u|] eqn:A; [|discriminate X].
  destruct (nexts moved64 _ _ _ _ b u) as [w|] eqn:B; [|discriminate X].
  apply andb_prop in X. destruct X as (Y1 & Y2). apply same_l64_eq in Y1. apply same_l64_eq in Y2.
  apply (periodic moved64 _ _ _ _ a b _ u X0 A). rewrite B. destruct w, u. cbn [fst snd] in *. congruence.
Qed.
