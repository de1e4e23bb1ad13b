(** Predictions that never end, in every arithmetic and in [double]. *)

From Coq Require Import ZArith Reals Bool List Lia Lra.
From Flocq Require Import Core IEEE754.BinarySingleNaN.
From Verif Require Import Num Geometry Outcome Wobbly Spec SpecDouble LemBasic LemInv LemHistory LemLifo LemAnchors LemAnchorFacts LemDouble.
Import ListNotations.
Local Open Scope Z_scope.

Section Any.
Context {T : Type} `{NT : Num T}.
Implicit Types m : model T.

(** The spring of rest vector [len] between [pa] and [pb] exerts a force, as
    computed. *)
Definition pulls (pa pb len : vec T) : bool :=
  let '(da, db) := spring_deltas pa pb len in
  nltb nzero (vx (vadd (vabs da) (vabs db))) || nltb nzero (vy (vadd (vabs da) (vabs db))).

Lemma apply_forces_flag k s (mm mm' : mem T) b pa pb :
  apply_forces k s mm = Ok (mm', b) -> rd_pos mm (s_pa s) = Ok pa -> rd_pos mm (s_pb s) = Ok pb -> b = pulls pa pb (s_len s).
Proof.
  unfold apply_forces, pulls. intros E A B. rewrite A, B in E. cbn [bind] in E.
  destruct (spring_deltas pa pb (s_len s)) as [da db]. inv_ok. reflexivity.
Qed.

Lemma apply_all_flag k s a b pa pb : forall ss (mm mm' : mem T) b0 b1,
  apply_all k ss mm b0 = Ok (mm', b1) -> In s ss \/ b0 = true -> s_pa s = LMesh a -> s_pb s = LMesh b ->
  nth_error (m_pos mm) a = Some pa -> nth_error (m_pos mm) b = Some pb -> pulls pa pb (s_len s) = true -> b1 = true.
Proof.
  induction ss as [|s0 ss IH]; intros mm mm' b0 b1 E Hs Sa Sb Pa Pb Q; cbn [apply_all] in E; inv_ok.
  - destruct Hs as [[]|Hs]; auto.
  - destruct a0 as [m1 b2]. cbn [fst snd] in *.
    match goal with X : apply_forces _ _ _ = Ok _ |- _ => rename X into E1 end.
    pose proof (apply_forces_shape _ _ _ _ _ E1) as (X1 & _ & _). rewrite <- X1 in Pa, Pb.
    eapply IH; [exact E| |exact Sa|exact Sb|exact Pa|exact Pb|exact Q].
    destruct Hs as [[->|Hs]|Hs]; [right|auto|right; rewrite Hs; reflexivity].
    rewrite (apply_forces_flag _ _ _ _ _ pa pb E1), Q; [apply orb_true_r| |].
    + rewrite Sa. cbn [rd_pos]. rewrite <- X1, Pa. reflexivity.
    + rewrite Sb. cbn [rd_pos]. rewrite <- X1, Pb. reflexivity.
Qed.

Lemma spring_step_pulls k fr cs ss pos vel heap pos' vel' heap' more s a b pa pb :
  spring_step (T:=T) k fr cs ss pos vel heap = Ok (pos', vel', heap', more) ->
  In s ss -> s_pa s = LMesh a -> s_pb s = LMesh b ->
  nth_error pos a = Some pa -> nth_error pos b = Some pb -> pulls pa pb (s_len s) = true -> more = true.
Proof.
  unfold spring_step, calculate_forces. intros E Hs Sa Sb Pa Pb Q. inv_ok. destruct a0 as [mm fe].
  match goal with X : apply_all _ _ _ _ = Ok _ |- _ => rename X into E1 end.
  assert (fe = true) as -> by (eapply (apply_all_flag k s a b pa pb); [exact E1|left; exact Hs|exact Sa|exact Sb|exact Pa|exact Pb|exact Q]).
  destruct (integrate_points fr cs pos vel (m_force mm)) as [[p1 v1] mv]. inv_ok. reflexivity.
Qed.

Lemma spring_step_locked k fr cs ss pos vel heap pos' vel' heap' more i c :
  spring_step (T:=T) k fr cs ss pos vel heap = Ok (pos', vel', heap', more) ->
  length pos = 16%nat -> length vel = 16%nat -> (i < 16)%nat -> nth_error cs i = Some c -> (0 <? c) = true ->
  nth_error pos' i = nth_error pos i.
Proof.
  unfold spring_step, calculate_forces. intros E Lp Lv Hi Hc Pc. inv_ok. destruct a as [mm fe].
  match goal with X : apply_all _ _ _ _ = Ok _ |- _ => apply apply_all_shape in X; destruct X as (_ & Lf & _) end.
  cbn [m_force] in Lf. rewrite repeat_length in Lf.
  destruct (nth_error_ex pos i) as (p & Hp); [lia|]. destruct (nth_error_ex vel i) as (v & Hv); [lia|].
  destruct (nth_error_ex (m_force mm) i) as (f & Hf); [unfold mesh_n in Lf; cbn in Lf; lia|].
  destruct (integrate_points fr cs pos vel (m_force mm)) as [[p1 v1] mv] eqn:E1. inv_ok.
  pose proof (integrate_points_nth _ _ _ _ _ _ _ _ _ _ _ _ _ E1 Hc Hp Hv Hf) as X. rewrite Pc in X. rewrite Hp. apply X.
Qed.

Lemma predict_hangs k fr cs ss extra s a b ca cb pa pb :
  Forall (spring_valid []) ss -> (forall p, extra p = (p, false)) ->
  In s ss -> s_pa s = LMesh a -> s_pb s = LMesh b -> (a < 16)%nat -> (b < 16)%nat ->
  nth_error cs a = Some ca -> (0 <? ca) = true -> nth_error cs b = Some cb -> (0 <? cb) = true -> pulls pa pb (s_len s) = true ->
  forall fuel pos vel, length pos = 16%nat -> length vel = 16%nat ->
  nth_error pos a = Some pa -> nth_error pos b = Some pb ->
  predict_loop (T:=T) fuel k fr cs ss extra pos vel = Err NoFuel.
Proof.
  intros V X Hs Sa Sb Ha Hb Ca Pca Cb Pcb Q. induction fuel as [|fuel IH]; intros pos vel Lp Lv Pa Pb; [reflexivity|].
  cbn [predict_loop]. destruct (spring_step_valid k fr cs ss pos vel [] Lp V) as ([[[p1 v1] h1] more] & E). rewrite E. cbn [bind].
  rewrite X. pose proof (spring_step_pulls _ _ _ _ _ _ _ _ _ _ _ s a b pa pb E Hs Sa Sb Pa Pb Q) as ->. cbn [orb].
  pose proof (spring_step_shape _ _ _ _ _ _ _ _ _ _ _ E) as (L1 & L2 & _).
  apply IH; try congruence.
  - rewrite (spring_step_locked _ _ _ _ _ _ _ _ _ _ _ a ca E); auto.
  - rewrite (spring_step_locked _ _ _ _ _ _ _ _ _ _ _ b cb E); auto.
Qed.

Lemma base_spring_in (tile : vec T) next a b len :
  In (a, b, len) (base_spring_specs tile) ->
  exists s, In s (base_springs tile next) /\ s_pa s = LMesh a /\ s_pb s = LMesh b /\ s_len s = len.
Proof.
  unfold base_springs. generalize (base_spring_specs tile). intros l. revert next.
  induction l as [|[[x y] z] l IH]; intros next Hin; [destruct Hin|]. cbn [number_springs].
  destruct Hin as [E|Hin].
  - injection E as -> -> ->. eexists. split; [left; reflexivity|auto].
  - destruct (IH (next + 1) Hin) as (s & Hs & E). exists s. split; [right; auto|auto].
Qed.

Lemma grabbed_two p w h st ops m a b :
  reached p w h st ops m -> grabbed m a -> grabbed m b -> a <> b -> active m = false.
Proof.
  intros Hr (na & Ha) (nb & Hb) N. pose proof (inv_reached _ _ _ _ _ _ Hr) as I. unfold active.
  rewrite (inv_count _ I). apply Z.eqb_neq. intros E.
  destruct (mhandles m) as [|[i1 x1] [|y l]] eqn:Eh; simpl in *; try discriminate; try lia.
  destruct (Nat.eqb i1 na); [|discriminate]. destruct (Nat.eqb i1 nb); [|discriminate]. congruence.
Qed.

Lemma hang_any p w h st ops m a b len pa pb :
  reached p w h st ops m -> Z.of_nat (length ops) < two32 -> malive m = true ->
  grabbed m a -> grabbed m b -> adjacent (tile_size (mw m) (mh m)) a b len ->
  nth_error (mpos m) a = Some pa -> nth_error (mpos m) b = Some pb -> pulls pa pb len = true ->
  forall fuel,
    (forall q, step_op fuel m (OpMoveTo q) = Err NoFuel) /\
    (forall w' h', nltb nzero w' = true -> nltb nzero h' = true ->
       vequals (mkV (ndiv w' (mw m)) (ndiv h' (mh m))) (mkV (nof 1) (nof 1)) = false ->
       step_op fuel m (OpResize w' h') = Err NoFuel).
Proof.
  intros Hr Bd Al Ga Gb Adj Ea Eb NS fuel. pose proof (inv_reached _ _ _ _ _ _ Hr) as I.
  assert (Ha : (a < 16)%nat) by (rewrite <- (inv_pos _ I); apply nth_error_Some; congruence).
  assert (Hb : (b < 16)%nat) by (rewrite <- (inv_pos _ I); apply nth_error_Some; congruence).
  assert (Act : active m = false).
  { apply (grabbed_two _ _ _ _ _ _ a b Hr Ga Gb). destruct Adj as [(_ & -> & _)|(_ & -> & _)]; lia. }
  destruct (counts_held m a I (reached_bound _ _ _ _ _ _ Hr Bd) Ha) as (ca & Eca & Hca).
  destruct (counts_held m b I (reached_bound _ _ _ _ _ _ Hr Bd) Hb) as (cb & Ecb & Hcb).
  apply base_adjacent in Adj.
  assert (P : predict fuel m (constrainment m) = Err NoFuel).
  { unfold predict. destruct (base_spring_in _ (mnext_id m) _ _ _ Adj) as (s & Hs & Es1 & Es2 & Es3).
    rewrite (predict_hangs _ _ _ _ _ s a b ca cb pa pb); auto.
    - apply base_springs_valid.
    - intros pp. unfold constrainment. rewrite Act. reflexivity.
    - apply Hca; auto.
    - apply Hcb; auto.
    - rewrite Es3. auto.
    - apply (inv_pos _ I).
    - apply (inv_vel _ I). }
  assert (Tp : target_position fuel m = Err NoFuel) by (unfold target_position; rewrite Act, P; reflexivity).
  split.
  - intros q. unfold step_op. cbn [needs_model]. rewrite Al. cbn [negb andb]. unfold move_model_to. rewrite Tp. reflexivity.
  - intros w' h' W' H' NE. unfold step_op. cbn [needs_model]. rewrite Al. cbn [negb andb]. unfold resize_model.
    rewrite W', H'. cbn [andb negb]. cbv zeta. rewrite NE, Tp. reflexivity.
Qed.
End Any.

(** ** In [double] *)

Local Open Scope R_scope.

Lemma neg_one_ok : is_finite (nof (-1) : f64) = true /\ B2R (nof (-1) : f64) = -1.
Proof. apply (of_ok (-1)). reflexivity. Qed.

Lemma neg_len (k : Z) (l : f64) : (-1000 <= k <= 1023)%Z -> within k l -> within k (nmul l (nof (-1))) /\ B2R (nmul l (nof (-1))) = - B2R l.
Proof.
  intros Hk (F & L). destruct neg_one_ok as (F1 & R1). destruct (mul_ok k Hk l (nof (-1)) F F1) as (A & B).
  - rewrite R1. replace (B2R l * -1) with (- B2R l) by lra. rewrite Rabs_Ropp. auto.
  - rewrite R1 in B. replace (B2R l * -1) with (- B2R l) in B by lra. rewrite rd_opp, rd_val in B.
    split; [|exact B]. split; [exact A|]. rewrite B, Rabs_Ropp. auto.
Qed.

(** The halved offset of a spring on one axis, as computed. *)
Definition offset (a b l : f64) : f64 := nmul (nlit 1 2) (nadd (nsub b a) l).

Lemma offset_ok k (a b l : f64) : (-900 <= k <= 1020)%Z -> within k a -> within k b -> within k l ->
  is_finite (offset a b l) = true /\
  B2R (offset a b l) = rd (1 / 2 * rd (rd (B2R b - B2R a) + B2R l)) /\
  Rabs (B2R (offset a b l)) <= bpow radix2 (k + 1).
Proof.
  intros Hk (Fa & La) (Fb & Lb) (Fl & Ll). unfold offset. destruct half_ok as (Fh & Rh).
  assert (P1 : bpow radix2 (k + 1) = 2 * bpow radix2 k) by (rewrite bpow_plus; cbn; lra).
  assert (P2 : bpow radix2 (k + 2) = 4 * bpow radix2 k) by (rewrite bpow_plus; cbn; lra).
  pose proof (bpow_ge_0 radix2 k) as P0.
  assert (D : Rabs (B2R b - B2R a) <= bpow radix2 (k + 1)).
  { rewrite P1. apply Rabs_le. apply Rabs_le_inv in La. apply Rabs_le_inv in Lb. lra. }
  destruct (sub_ok (k + 1) ltac:(lia) b a Fb Fa D) as (A1 & B1).
  pose proof (rd_bound (k + 1) _ ltac:(lia) D) as D'.
  assert (S : Rabs (B2R (nsub b a) + B2R l) <= bpow radix2 (k + 2)).
  { rewrite B1, P2. apply Rabs_le. apply Rabs_le_inv in D'. apply Rabs_le_inv in Ll. rewrite P1 in D'. lra. }
  destruct (add_ok (k + 2) ltac:(lia) (nsub b a) l A1 Fl S) as (A2 & B2).
  pose proof (rd_bound (k + 2) _ ltac:(lia) S) as S'.
  assert (H : Rabs (B2R (nlit 1 2 : f64) * B2R (nadd (nsub b a) l)) <= bpow radix2 (k + 1)).
  { rewrite Rh, B2, P1. rewrite P2 in S'. apply Rabs_le. apply Rabs_le_inv in S'. lra. }
  destruct (mul_ok (k + 1) ltac:(lia) (nlit 1 2) (nadd (nsub b a) l) Fh A2 H) as (A3 & B3).
  pose proof (rd_bound (k + 1) _ ltac:(lia) H) as H'.
  split; [exact A3|]. split.
  - rewrite B3, Rh, B2, B1. reflexivity.
  - rewrite B3. exact H'.
Qed.

Definition clipped (c : f64) : f64 := if nltb (nabs c) (nlit 1 2) then nzero else c.

Lemma clipped_ok k (c : f64) : within k c -> within k (clipped c) /\
  (Rabs (B2R c) < 1 / 2 -> B2R (clipped c) = 0) /\ (1 / 2 <= Rabs (B2R c) -> B2R (clipped c) = B2R c).
Proof.
  intros (F & L). unfold clipped. destruct (abs_ok c F) as (Fa & Ra). destruct half_ok as (Fh & Rh). destruct zero_ok as (Fz & Rz).
  rewrite ltb_ok, Ra, Rh by auto. case Rlt_bool_spec; intros C; (split; [split; auto|split]); auto; try lra.
  rewrite Rz, Rabs_R0. apply bpow_ge_0.
Qed.

Lemma offset_far (a b l : f64) : within 50 a -> within 50 b -> within 50 l ->
  2 <= Rabs (B2R b - B2R a + B2R l) -> 1 / 2 <= Rabs (B2R (offset a b l)).
Proof.
  intros Wa Wb Wl Far. destruct (offset_ok 50 a b l ltac:(lia) Wa Wb Wl) as (_ & E & _). rewrite E.
  destruct Wa as (Fa & La), Wb as (Fb & Lb), Wl as (Fl & Ll).
  assert (D : Rabs (rd (B2R b - B2R a) - (B2R b - B2R a)) <= bpow radix2 (-3)).
  { apply (rd_err 51); [lia|]. apply Rabs_le. apply Rabs_le_inv in La. apply Rabs_le_inv in Lb. cbn in *. lra. }
  apply Rabs_le_inv in D. assert (bpow radix2 (-3) = 1 / 8) as Q by (cbn; lra). rewrite Q in D.
  set (x := rd (B2R b - B2R a)) in *. unfold Rabs in Far. destruct (Rcase_abs (B2R b - B2R a + B2R l)) as [N|P].
  - pose proof (rd_le (-1) 0 (x + B2R l) ltac:(reflexivity) ltac:(lia)) as H1. cbn in H1.
    pose proof (rd_le (-1) (-1) (1 / 2 * rd (x + B2R l)) ltac:(reflexivity) ltac:(lia)) as H2. cbn in H2.
    rewrite Rabs_left; lra.
  - pose proof (rd_ge 1 0 (x + B2R l) ltac:(reflexivity) ltac:(lia)) as H1. cbn in H1.
    pose proof (rd_ge 1 (-1) (1 / 2 * rd (x + B2R l)) ltac:(reflexivity) ltac:(lia)) as H2. cbn in H2.
    rewrite Rabs_right; lra.
Qed.

Lemma offset_near (a b l : f64) : within 50 a -> within 50 b -> within 50 l ->
  Rabs (B2R b - B2R a + B2R l) <= 1 / 2 -> Rabs (B2R (offset a b l)) < 1 / 2.
Proof.
  intros Wa Wb Wl Near. destruct (offset_ok 50 a b l ltac:(lia) Wa Wb Wl) as (_ & E & _). rewrite E.
  destruct Wa as (Fa & La), Wb as (Fb & Lb), Wl as (Fl & Ll).
  assert (D : Rabs (rd (B2R b - B2R a) - (B2R b - B2R a)) <= bpow radix2 (-3)).
  { apply (rd_err 51); [lia|]. apply Rabs_le. apply Rabs_le_inv in La. apply Rabs_le_inv in Lb. cbn in *. lra. }
  apply Rabs_le_inv in D. assert (bpow radix2 (-3) = 1 / 8) as Q by (cbn; lra). rewrite Q in D.
  set (x := rd (B2R b - B2R a)) in *. apply Rabs_le_inv in Near.
  pose proof (rd_le 3 (-2) (x + B2R l) ltac:(reflexivity) ltac:(lia)) as H1. cbn in H1.
  pose proof (rd_ge (-3) (-2) (x + B2R l) ltac:(reflexivity) ltac:(lia)) as H2. cbn in H2.
  pose proof (rd_le 3 (-3) (1 / 2 * rd (x + B2R l)) ltac:(reflexivity) ltac:(lia)) as H3. cbn in H3.
  pose proof (rd_ge (-3) (-3) (1 / 2 * rd (x + B2R l)) ltac:(reflexivity) ltac:(lia)) as H4. cbn in H4.
  apply Rabs_def1; lra.
Qed.

Definition sum_abs (x y : f64) : f64 := nadd (nabs x) (nabs y).

Lemma sum_abs_ok k (x y : f64) : (-900 <= k <= 1020)%Z -> within k x -> within k y ->
  is_finite (sum_abs x y) = true /\ (0 < B2R (sum_abs x y) <-> B2R x <> 0 \/ B2R y <> 0).
Proof.
  intros Hk (Fx & Lx) (Fy & Ly). unfold sum_abs. destruct (abs_ok x Fx) as (Ax & Rx). destruct (abs_ok y Fy) as (Ay & Ry).
  destruct (add_ok (k + 1) ltac:(lia) (nabs x) (nabs y) Ax Ay) as (A & B).
  { rewrite Rx, Ry, Rabs_right by (pose proof (Rabs_pos (B2R x)); pose proof (Rabs_pos (B2R y)); lra). rewrite bpow_plus. cbn. lra. }
  split; [exact A|]. rewrite B, Rx, Ry. pose proof (Rabs_pos (B2R x)) as Px. pose proof (Rabs_pos (B2R y)) as Py. split.
  - intros H. destruct (Req_dec (B2R x) 0) as [E|E]; auto. destruct (Req_dec (B2R y) 0) as [E'|E']; auto.
    rewrite E, E', Rabs_R0, Rplus_0_r, rd_0 in H. lra.
  - intros [N|N].
    + apply Rlt_le_trans with (Rabs (B2R x)); [apply Rabs_pos_lt; auto|]. rewrite <- Rx, <- (rd_val (nabs x)) at 1.
      apply rd_mono. rewrite Rx. lra.
    + apply Rlt_le_trans with (Rabs (B2R y)); [apply Rabs_pos_lt; auto|]. rewrite <- Ry, <- (rd_val (nabs y)) at 1.
      apply rd_mono. rewrite Ry. lra.
Qed.

Notation moderate := (point_within 50).

Lemma pulls_unfold (pa pb len : vec f64) :
  pulls pa pb len =
    nltb nzero (sum_abs (clipped (offset (vx pa) (vx pb) (nmul (vx len) (nof (-1))))) (clipped (offset (vx pb) (vx pa) (vx len)))) ||
    nltb nzero (sum_abs (clipped (offset (vy pa) (vy pb) (nmul (vy len) (nof (-1))))) (clipped (offset (vy pb) (vy pa) (vy len)))).
Proof. reflexivity. Qed.

Lemma within_le j k x : (j <= k)%Z -> within j x -> within k x.
Proof. intros L (F & B). split; auto. eapply Rle_trans; [exact B|apply bpow_le; auto]. Qed.

Lemma axis_ok (a b l : f64) : within 50 a -> within 50 b -> within 50 l ->
  let f := nltb nzero (sum_abs (clipped (offset a b (nmul l (nof (-1))))) (clipped (offset b a l))) in
  (2 <= Rabs (B2R b - B2R a - B2R l) -> f = true) /\ (Rabs (B2R b - B2R a - B2R l) <= 1 / 2 -> f = false).
Proof.
  intros Wa Wb Wl. destruct (neg_len 50 l ltac:(lia) Wl) as (Wn & Rn).
  destruct (offset_ok 50 a b _ ltac:(lia) Wa Wb Wn) as (F1 & _ & L1). destruct (offset_ok 50 b a l ltac:(lia) Wb Wa Wl) as (F2 & _ & L2).
  assert (W1 : within 51 (offset a b (nmul l (nof (-1))))) by (split; auto). assert (W2 : within 51 (offset b a l)) by (split; auto).
  destruct (clipped_ok 51 _ W1) as (C1 & Z1 & K1). destruct (clipped_ok 51 _ W2) as (C2 & Z2 & K2).
  destruct (sum_abs_ok 51 _ _ ltac:(lia) C1 C2) as (Fs & Ps). destruct zero_ok as (Fz & Rz). cbv zeta. rewrite ltb_ok, Rz by auto. split; intros H.
  - apply Rlt_bool_true. apply Ps. left.
    assert (X : 1 / 2 <= Rabs (B2R (offset a b (nmul l (nof (-1)))))).
    { apply offset_far; auto. rewrite Rn. exact H. }
    rewrite K1 by auto. intros E. rewrite E, Rabs_R0 in X. lra.
  - apply Rlt_bool_false. apply Rnot_lt_le. intros Q. apply Ps in Q. destruct Q as [Q|Q]; apply Q.
    + apply Z1. apply offset_near; auto. rewrite Rn. exact H.
    + apply Z2. apply offset_near; auto. rewrite <- Rabs_Ropp. replace (- (B2R a - B2R b + B2R l)) with (B2R b - B2R a - B2R l) by lra. exact H.
Qed.

Lemma pulls_far pa pb len : moderate pa -> moderate pb -> moderate len ->
  2 <= Rabs (offset_x pa pb len) \/ 2 <= Rabs (offset_y pa pb len) -> pulls pa pb len = true.
Proof.
  intros (A1 & A2) (B1 & B2) (L1 & L2) H. rewrite pulls_unfold. apply orb_true_iff.
  destruct H as [H|H]; [left|right]; apply axis_ok; auto.
Qed.

Lemma pulls_near pa pb len : moderate pa -> moderate pb -> moderate len ->
  Rabs (offset_x pa pb len) <= 1 / 2 -> Rabs (offset_y pa pb len) <= 1 / 2 -> pulls pa pb len = false.
Proof.
  intros (A1 & A2) (B1 & B2) (L1 & L2) H1 H2. rewrite pulls_unfold. apply orb_false_iff. split; apply axis_ok; auto.
Qed.
