(** Free meshes as damped oscillators: when they calm down and when they do not. *)

From Coq Require Import ZArith Reals Bool List Lia Lra Psatz.
From Verif Require Import Num Geometry Outcome Wobbly Spec SpecStall SpecStable LemBasic LemReal LemInv LemSprings LemHistory LemNetwork
  LemAnchors LemLifo LemMoves LemForce LemRest LemSettle LemStill LemWhole LemStall LemLyap LemGrid.
Import ListNotations.
Local Open Scope R_scope.

(** ** One axis *)

Definition co (c : bool) (p : vec R) : R := if c then vx p else vy p.
Definition off (c : bool) (w h : R) (i : nat) : R := if c then INR (i mod 4) * (w / 3) else INR (i / 4) * (h / 3).
Definition place_on (c : bool) (w h : R) (pos : list (vec R)) (i : nat) : R := co c (nth i pos vzero) - off c w h i.
Definition speed_on (c : bool) (vel : list (vec R)) (i : nat) : R := co c (nth i vel vzero).

Lemma specs_edges (tile : vec R) : map fst (base_spring_specs tile) = edges.
Proof. rewrite specs_eq. reflexivity. Qed.

Lemma spec_off c w h a b len : In (a, b, len) (base_spring_specs (tile_size w h)) -> off c w h b - off c w h a = co c len.
Proof.
  rewrite specs_eq. cbv zeta. unfold tile_size. cbn [vx vy]. rnum. cbn [In]. intros Hin.
  repeat (destruct Hin as [Hin|Hin]; [injection Hin as <- <- <-; destruct c; unfold off, co;
    cbn [Nat.div Nat.modulo Nat.divmod Nat.sub fst snd vx vy INR]; lra|]).
  destruct Hin.
Qed.

Lemma co_pull c k pa pb len : co c (pull k pa pb len) = k * clip (1 / 2) ((co c pb - co c pa - co c len) / 2).
Proof. destruct c; reflexivity. Qed.
Lemma co_vadd c a b : co c (vadd a b) = co c a + co c b.
Proof. destruct c; reflexivity. Qed.
Lemma co_vneg c a : co c (vneg a) = - co c a.
Proof. destruct c; reflexivity. Qed.
Lemma co_vzero c : co c vzero = 0.
Proof. destruct c; reflexivity. Qed.

Lemma clip_near t x : 0 < t -> Rabs (clip t x - x) <= t.
Proof. intros Ht. unfold clip. destruct (Rlt_dec (Rabs x) t); [replace (0 - x) with (- x) by lra; rewrite Rabs_Ropp; lra|]. replace (x - x) with 0 by lra. rewrite Rabs_R0. lra. Qed.

Lemma net_axis c k w h pos heap i : 0 <= k -> forall l next,
  (forall a b len, In (a, b, len) l -> off c w h b - off c w h a = co c len) ->
  Rabs (co c (net_force k (place_of pos heap) (LMesh i) (number_springs l next)) + k / 2 * lapE (map fst l) (place_on c w h pos) i) <= k / 2 * INR (length l).
Proof.
  intros Hk l. induction l as [|[[a b] len] l IH]; intros next O.
  - cbn [number_springs net_force map lapE length INR]. rewrite co_vzero. replace (0 + k / 2 * 0) with 0 by ring. rewrite Rabs_R0. lra.
  - rewrite body_force. cbn [fst snd map lapE]. specialize (IH (next + 1)%Z (fun a b len H => O a b len (or_intror H))).
    specialize (O a b len (or_introl eq_refl)).
    cbn [length]. rewrite S_INR. rewrite !co_vadd. cbn [loc_eqb place_of].
    set (F := co c (net_force _ _ _ _)) in *. set (L := lapE (map fst l) (place_on c w h pos) i) in *.
    assert (P : exists d, Rabs d <= k / 2 /\ co c (pull k (nth a pos vzero) (nth b pos vzero) len) = k / 2 * (place_on c w h pos b - place_on c w h pos a) + d).
    { rewrite co_pull. unfold place_on. replace (co c (nth b pos vzero) - off c w h b - (co c (nth a pos vzero) - off c w h a)) with (co c (nth b pos vzero) - co c (nth a pos vzero) - co c len) by lra.
      set (e := co c (nth b pos vzero) - co c (nth a pos vzero) - co c len). exists (k * (clip (1 / 2) (e / 2) - e / 2)). split.
      - rewrite Rabs_mult, (Rabs_pos_eq k) by auto. pose proof (clip_near (1 / 2) (e / 2) ltac:(lra)). nra.
      - field. }
    destruct P as (d & Hd & P).
    assert (S1 : co c (if Nat.eqb a i then pull k (nth a pos vzero) (nth b pos vzero) len else vzero) = (k / 2 * (place_on c w h pos b - place_on c w h pos a) + d) * (if Nat.eqb i a then 1 else 0)).
    { rewrite Nat.eqb_sym. destruct (Nat.eqb i a); [rewrite P; ring|]. rewrite co_vzero. ring. }
    assert (S2 : co c (if Nat.eqb b i then vneg (pull k (nth a pos vzero) (nth b pos vzero) len) else vzero) = - (k / 2 * (place_on c w h pos b - place_on c w h pos a) + d) * (if Nat.eqb i b then 1 else 0)).
    { rewrite Nat.eqb_sym. destruct (Nat.eqb i b); [rewrite co_vneg, P; ring|]. rewrite co_vzero. ring. }
    rewrite S1, S2. set (ia := if Nat.eqb i a then 1 else 0). set (ib := if Nat.eqb i b then 1 else 0).
    replace (_ + _) with (d * (ia - ib) + (F + k / 2 * L)) by field.
    eapply Rle_trans; [apply Rabs_triang|]. assert (Hi : Rabs (ia - ib) <= 1) by (unfold ia, ib; destruct (Nat.eqb i a), (Nat.eqb i b); apply Rabs_le; lra).
    rewrite Rabs_mult. pose proof (Rabs_pos d). pose proof (Rabs_pos (ia - ib)). nra.
Qed.

Definition slip (k : R) : R := 1 / 10 + 12 * k / 15.

(** ** One round *)

Lemma euler_axis c k fr w h next pos vel cs i : 0 <= k -> (i < 16)%nat -> (0 <? nth i cs 0)%Z = false ->
  let r := rstep k fr cs (base_springs (tile_size w h) next) [] pos vel in
  Rabs (speed_on c (snd (fst r)) i - ((1 - fr / 15) * speed_on c vel i - k / 30 * lap edges (place_on c w h pos) i)) <= slip k /\
  place_on c w h (fst (fst r)) i = place_on c w h pos i + speed_on c (snd (fst r)) i / 2.
Proof.
  intros Hk Hi U r. unfold r, speed_on, place_on at 2 3. rewrite rstep_pos_nth, rstep_vel_nth by auto. unfold step_point. rewrite U.
  pose proof (net_axis c k w h pos [] i Hk (base_spring_specs (tile_size w h)) next (spec_off c w h)) as NA. fold (base_springs (tile_size w h) next) in NA.
  rewrite specs_edges in NA. fold (lap edges) in NA. change (lapE edges) with (lap edges) in NA.
  change (length (base_spring_specs (tile_size w h))) with 24%nat in NA. replace (k / 2 * INR 24) with (12 * k) in NA by (cbn [INR]; field).
  set (f := net_force _ _ _ _) in *. pose proof (euler_moves fr (nth i pos vzero) (nth i vel vzero) f) as [Mv Mp].
  set (v' := snd (fst (euler fr (nth i pos vzero) (nth i vel vzero) f))) in *. set (p' := fst (fst (euler _ _ _ _))) in *.
  assert (Cv : co c v' = clip (1 / 10) (co c (nth i vel vzero) + (co c f - fr * co c (nth i vel vzero)) / 15)) by (rewrite Mv; destruct c; reflexivity).
  assert (Cp : co c p' = co c (nth i pos vzero) + co c v' / 2) by (rewrite Mp; destruct c; reflexivity).
  split; [|rewrite Cp; ring].
  set (y := co c (nth i vel vzero) + (co c f - fr * co c (nth i vel vzero)) / 15) in *. rewrite Cv.
  set (L := lap edges (place_on c w h pos) i) in *.
  replace (clip (1 / 10) y - ((1 - fr / 15) * co c (nth i vel vzero) - k / 30 * L)) with ((clip (1 / 10) y - y) + (co c f + k / 2 * L) / 15) by (unfold y; field).
  eapply Rle_trans; [apply Rabs_triang|]. pose proof (clip_near (1 / 10) y ltac:(lra)). unfold slip. set (X := co c f + k / 2 * L) in *.
  assert (Rabs (X / 15) <= 12 * k / 15); [|lra]. pose proof (Rle_abs X). pose proof (Rle_abs (- X)). rewrite Rabs_Ropp in *. apply Rabs_le. lra.
Qed.

(** A free mesh without locks. *)
Definition loose (m : model R) : Prop := free_mesh m /\ forall i, (i < 16)%nat -> (0 <? nth i (t_counts (mtracked m)) 0)%Z = false.

Definition axis_step (k fr w h : R) (m m1 : model R) : Prop := forall c i, (i < 16)%nat ->
  Rabs (speed_on c (mvel m1) i - ((1 - fr / 15) * speed_on c (mvel m) i - k / 30 * lap edges (place_on c w h (mpos m)) i)) <= slip k /\
  place_on c w h (mpos m1) i = place_on c w h (mpos m) i + speed_on c (mvel m1) i / 2.

Lemma loose_once m : loose m -> 0 <= st_k (mset m) ->
  exists m1 b, integrate_once m = Ok (m1, b) /\ loose m1 /\ mset m1 = mset m /\ mw m1 = mw m /\ mh m1 = mh m /\ malive m1 = malive m /\
    axis_step (st_k (mset m)) (st_friction (mset m)) (mw m) (mh m) m m1.
Proof.
  intros (F & U) Hk. assert (V : Forall (spring_valid (mheap m)) (msprings m)).
  { eapply Forall_impl; [|exact (free_mesh_only m F)]. intros s Hs. apply mesh_only_valid. exact Hs. }
  destruct (integrate_once_R m (proj1 F) V) as (h & E & _). cbv zeta in E.
  unfold constrainment in E. rewrite (free_inactive m F) in E. cbn [fst snd orb] in E. rewrite free_rstep in E by auto.
  set (r := rstep _ _ _ _ _ _ _) in E. exists (set_sim m (fst (fst r)) (snd (fst r)) h), (snd r). split; [exact E|].
  assert (L : length (fst (fst r)) = 16%nat /\ length (snd (fst r)) = 16%nat) by apply rstep_length.
  split; [|split; [reflexivity|split; [reflexivity|split; [reflexivity|split; [reflexivity|]]]]].
  - split; [|exact U]. destruct F as (I & C & N). split; [|split; [exact C|exact N]]. apply inv_sim; tauto.
  - intros c i Hi. cbn [set_sim mpos mvel]. apply (euler_axis c); auto.
Qed.

(** ** Many rounds *)

Section Rounds.
Context (k fr : R) (Hk : 0 <= k) (P : nat -> model R -> Prop).
Context (P_step : forall n m m1, P n m -> mw m1 = mw m -> mh m1 = mh m -> axis_step k fr (mw m) (mh m) m m1 -> P (S n) m1).
Context (P_less : forall n n' m, (n <= n')%nat -> P n' m -> P n m).
Context (P_unequal : forall n m b, P n m -> P n (set_unequal m b)).

Definition kept (m : model R) : Prop := loose m /\ st_k (mset m) = k /\ st_friction (mset m) = fr /\ malive m = true.

Lemma kept_once m : kept m -> exists m1 b, integrate_once m = Ok (m1, b) /\ kept m1 /\ mw m1 = mw m /\ mh m1 = mh m /\ axis_step k fr (mw m) (mh m) m m1.
Proof.
  intros (L & E1 & E2 & Al). destruct (loose_once m L) as (m1 & b & E & L1 & S1 & W1 & H1 & A1 & X); [lra|]. exists m1, b. split; [auto|].
  rewrite E1, E2 in X. split; [|auto]. split; [auto|]. rewrite S1, A1. auto.
Qed.

Lemma kept_n j : forall m b n, kept m -> P n m -> exists m1 b1, integrate_n j m b = Ok (m1, b1) /\ kept m1 /\ P (n + j) m1.
Proof.
  induction j as [|j IH]; intros m b n Km Wn.
  - exists m, b. rewrite Nat.add_0_r. auto.
  - destruct (kept_once m Km) as (m1 & b1 & E & K1 & W1 & H1 & X). cbn [integrate_n]. rewrite E. cbn [bind fst snd].
    destruct (IH m1 (b || b1) (S n) K1 (P_step _ _ _ Wn W1 H1 X)) as (m2 & b2 & E2 & K2 & W2).
    exists m2, b2. split; [exact E2|]. split; [auto|]. replace (n + S j)%nat with (S n + j)%nat by lia. exact W2.
Qed.

Lemma kept_inactive m : kept m -> active m = false.
Proof. intros ((F & _) & _). apply free_inactive. exact F. Qed.

Lemma kept_unequal m b : kept m -> kept (set_unequal m b).
Proof. intros ((F & U) & E). split; [|exact E]. split; [|exact U]. destruct F as (I & C & N). split; [destruct I; constructor; auto|auto]. Qed.

Lemma kept_step t m n : kept m -> P n m -> exists m1 b, model_step t m = Ok (m1, b) /\ kept m1 /\ P (n + step_count t) m1.
Proof.
  intros Km Wn. destruct (kept_n (step_count t) m false n Km Wn) as (m1 & b1 & E & K1 & W1).
  unfold model_step. rewrite E. cbn [bind]. set (more := _ || b1). exists (set_unequal m1 more), more.
  pose proof (kept_unequal m1 more K1) as K2. split; [|split; [exact K2|apply P_unequal; exact W1]].
  rewrite (kept_inactive _ K2), andb_false_r. reflexivity.
Qed.

Lemma kept_run fuel ts : forall m n, kept m -> P n m ->
  exists m1 us, run fuel m (map (fun t => OpStep t) ts) = Ok (m1, us) /\ kept m1 /\
    P n m1 /\ ((forall t, In t ts -> (0 < t)%Z) -> P (n + length ts) m1).
Proof.
  induction ts as [|t ts IH]; intros m n Km Wn.
  - exists m, []. split; [reflexivity|]. split; [auto|]. split; [auto|]. intros _. cbn [length]. rewrite Nat.add_0_r. exact Wn.
  - destruct (kept_step t m n Km Wn) as (m1 & b & E & K1 & W1). cbn [map run].
    rewrite step_op_step by apply Km. rewrite E. cbn [bind fst snd].
    destruct (IH m1 (n + step_count t)%nat K1 W1) as (m2 & us & E2 & K2 & W2 & P2). rewrite E2. cbn [bind fst snd].
    exists m2, (OMore b :: us). split; [reflexivity|]. split; [auto|]. split.
    + eapply P_less; [|exact W2]. lia.
    + intros Q. apply (P_less _ (n + step_count t + length ts)); [|apply P2; intros; apply Q; right; auto].
      destruct (step_count_pos t) as (j & ->); [apply Q; left; auto|]. cbn [length]. lia.
Qed.
End Rounds.

Lemma kept_reached p w h st ops (m : model R) :
  0 < w -> 0 < h -> reached p w h st ops m -> calm_history ops -> live_anchors ops = [] -> (Z.of_nat (length ops) < two32)%Z -> malive m = true ->
  kept (st_k (mset m)) (st_friction (mset m)) m.
Proof.
  intros W Hh Hr Ca L Bd Al. split; [|auto]. split; [exact (free_reached p w h st ops m W Hh Hr Ca L)|]. intros i Hi. exact (no_lock p w h st ops m i Hr L Bd Hi).
Qed.

(** ** Tame motion on both axes *)

Lemma edge_spec w h e : In e edges -> exists len, In (fst e, snd e, len) (base_spring_specs (tile_size w h)).
Proof.
  intros He. rewrite <- (specs_edges (tile_size w h)) in He. apply in_map_iff in He. destruct He as ([[a b] len] & <- & Hin). exists len. exact Hin.
Qed.

Lemma extension_on c w h pos a b len : In (a, b, len) (base_spring_specs (tile_size w h)) ->
  co c (extension (nth a pos vzero) (nth b pos vzero) len) = place_on c w h pos b - place_on c w h pos a.
Proof. intros Hin. pose proof (spec_off c w h a b len Hin). unfold place_on, extension. destruct c; cbn [co vx vy] in *; lra. Qed.

Lemma tame_intro r m :
  (forall c i, (i < 16)%nat -> Rabs (speed_on c (mvel m) i) <= r) ->
  (forall c e, In e edges -> - r <= place_on c (mw m) (mh m) (mpos m) (fst e) - place_on c (mw m) (mh m) (mpos m) (snd e) <= r) -> tame r m.
Proof.
  intros Sp Ed i Hi. split; [apply (Sp true i Hi)|]. split; [apply (Sp false i Hi)|]. intros n Hn. cbv zeta.
  assert (X : forall c, Rabs (co c (extension (nth i (mpos m) vzero) (nth (fst n) (mpos m) vzero) (snd n))) <= r); [|split; [apply (X true)|apply (X false)]].
  intros c. assert (Ine : forall a b len, In (a, b, len) (base_spring_specs (tile_size (mw m) (mh m))) -> In (a, b) edges).
  { intros a b len Hin. rewrite <- (specs_edges (tile_size (mw m) (mh m))). apply (in_map fst) in Hin. exact Hin. }
  destruct (neighbour_spec _ _ _ _ Hi Hn) as [S1|S1].
  - rewrite (extension_on c _ _ _ _ _ _ S1). specialize (Ed c _ (Ine _ _ _ S1)). cbn [fst snd] in Ed. apply Rabs_le. lra.
  - specialize (Ed c _ (Ine _ _ _ S1)). cbn [fst snd] in Ed. pose proof (extension_on c _ _ (mpos m) _ _ _ S1) as Ee.
    assert (En : co c (extension (nth i (mpos m) vzero) (nth (fst n) (mpos m) vzero) (snd n)) = - co c (extension (nth (fst n) (mpos m) vzero) (nth i (mpos m) vzero) (vneg (snd n)))).
    { unfold extension, vneg. destruct c; cbn [co vx vy]; lra. }
    rewrite En, Ee. apply Rabs_le. lra.
Qed.

Lemma tame_elim r m : tame r m ->
  (forall c i, (i < 16)%nat -> Rabs (speed_on c (mvel m) i) <= r) /\
  (forall c e, In e edges -> - r <= place_on c (mw m) (mh m) (mpos m) (fst e) - place_on c (mw m) (mh m) (mpos m) (snd e) <= r).
Proof.
  intros Tm. split.
  - intros c i Hi. destruct (Tm i Hi) as (A & B & _). destruct c; auto.
  - intros c e He. destruct (edge_spec (mw m) (mh m) e He) as (len & Hin). destruct (spec_neighbour _ _ _ _ _ Hin) as (Ha & Hn).
    destruct (Tm _ Ha) as (_ & _ & X). specialize (X _ Hn). cbv zeta in X. cbn [fst snd] in X.
    assert (Y : Rabs (co c (extension (nth (fst e) (mpos m) vzero) (nth (snd e) (mpos m) vzero) len)) <= r) by (destruct c; apply X).
    rewrite (extension_on c _ _ _ _ _ _ Hin) in Y.
    set (z := place_on c (mw m) (mh m) (mpos m) (snd e) - place_on c (mw m) (mh m) (mpos m) (fst e)) in Y.
    pose proof (Rle_abs z). pose proof (Rle_abs (- z)). rewrite Rabs_Ropp in *. unfold z in *. lra.
Qed.

(** ** Calming down *)

Definition bound (rho K : R) (n : nat) (e : R) : R := rho ^ n * e + K / (1 - rho).

Lemma bound_step rho K n e x y : 0 <= rho < 1 -> x <= bound rho K n e -> y <= rho * x + K -> y <= bound rho K (S n) e.
Proof.
  intros Hr Hx Hy. unfold bound in *. cbn [pow]. assert (rho * x <= rho * (rho ^ n * e + K / (1 - rho))) by (apply Rmult_le_compat_l; lra).
  assert (rho * (K / (1 - rho)) + K = K / (1 - rho)) by (field; lra). lra.
Qed.

Lemma bound_le rho K n n' e : 0 <= rho < 1 -> 0 <= e -> (n <= n')%nat -> bound rho K n' e <= bound rho K n e.
Proof.
  intros Hr He L. unfold bound. assert (P : rho ^ n' <= rho ^ n).
  { replace n' with (n + (n' - n))%nat by lia. rewrite pow_add. assert (0 <= rho ^ n) by (apply pow_le; lra).
    assert (rho ^ (n' - n) <= 1). { rewrite <- (pow1 (n' - n)). apply pow_incr. lra. } assert (0 <= rho ^ (n' - n)) by (apply pow_le; lra). nra. }
  assert (rho ^ n' * e <= rho ^ n * e) by (apply Rmult_le_compat_r; auto). lra.
Qed.

Lemma sqrt2_coef k fr : (2 + sqrt 2) / 4 * k + fr < 30 <-> k / 30 * lam < 4 * (1 + (1 - fr / 15)).
Proof. unfold lam. split; intros; lra. Qed.

Lemma calms_down k fr : damped k fr -> exists r, forall m, kept k fr m ->
  (exists big, forall fuel ts, exists m' us, run fuel m (map (fun t => OpStep t) ts) = Ok (m', us) /\ tame big m') /\
  (exists n, forall fuel ts, (forall t, In t ts -> (0 < t)%Z) -> (n <= length ts)%nat ->
     exists m' us, run fuel m (map (fun t => OpStep t) ts) = Ok (m', us) /\ tame r m').
Proof.
  intros (Hk & Hf & Hd). destruct sqrt2 as (_ & S2).
  assert (Hf30 : fr < 30) by nra.
  assert (Hsl : 0 <= slip k) by (unfold slip; lra).
  destruct (energy_shrinks edges edges_ok lam 576 lam_pos ltac:(lra) edges_stiff edges_tight (1 - fr / 15) (k / 30) (slip k))
    as (en & rho & K & ka & Hr & HK & Hka & Low & Step); [lra|lra|apply sqrt2_coef; auto|auto|].
  set (power := fun (c : bool) (m : model R) => en (place_on c (mw m) (mh m) (mpos m)) (speed_on c (mvel m))).
  assert (Pos : forall x v, 0 <= en x v).
  { intros x v. apply Rle_trans with (ka * (dot v v + bil edges x x)); [|apply Low]. pose proof (dot_pos v). pose proof (bil_pos edges x). apply Rmult_le_pos; lra. }
  assert (Tame : forall E m, 0 <= E -> (forall c, power c m <= E) -> tame (sqrt (E / ka)) m).
  { intros E m HE Pw. assert (HEk : 0 <= E / ka) by (apply Rmult_le_pos; [auto|left; apply Rinv_0_lt_compat; auto]).
    set (r := sqrt (E / ka)). assert (Hr0 : 0 <= r) by apply sqrt_pos. assert (Er : r * r = E / ka) by (apply sqrt_sqrt; auto).
    assert (G : forall c, dot (speed_on c (mvel m)) (speed_on c (mvel m)) + bil edges (place_on c (mw m) (mh m) (mpos m)) (place_on c (mw m) (mh m) (mpos m)) <= r * r).
    { intros c. rewrite Er. apply Rmult_le_reg_l with ka; [auto|]. replace (ka * (E / ka)) with E by (field; lra). eapply Rle_trans; [apply Low|]. apply Pw. }
    apply tame_intro.
    - intros c i Hi. apply sq_le_abs; [|auto]. specialize (G c). pose proof (bil_pos edges (place_on c (mw m) (mh m) (mpos m))).
      assert (speed_on c (mvel m) i * speed_on c (mvel m) i <= dot (speed_on c (mvel m)) (speed_on c (mvel m))).
      { apply (sumn_term (fun i => speed_on c (mvel m) i * speed_on c (mvel m) i)); auto. intros. apply Rle_0_sqr. } lra.
    - intros c e He. apply edge_bound; auto. specialize (G c). pose proof (dot_pos (speed_on c (mvel m))). lra. }
  assert (HKr : 0 <= K / (1 - rho)) by (apply Rmult_le_pos; [auto|left; apply Rinv_0_lt_compat; lra]).
  exists (sqrt ((1 + K / (1 - rho)) / ka)). intros m Km.
  set (e := power true m + power false m).
  assert (Pp : forall c m, 0 <= power c m) by (intros; apply Pos).
  assert (He : 0 <= e) by (unfold e; pose proof (Pp true m); pose proof (Pp false m); lra).
  set (P := fun (n : nat) (m : model R) => forall c, power c m <= bound rho K n e).
  assert (P0 : P 0%nat m).
  { intros c. unfold bound, e. cbn [pow]. pose proof (Pp true m). pose proof (Pp false m). destruct c; lra. }
  assert (R : forall fuel ts, exists m1 us, run fuel m (map (fun t => OpStep t) ts) = Ok (m1, us) /\ kept k fr m1 /\
    P 0%nat m1 /\ ((forall t, In t ts -> (0 < t)%Z) -> P (0 + length ts)%nat m1)).
  { intros fuel ts. apply (kept_run k fr ltac:(lra) P); auto.
    - intros n m0 m1 Pn W1 H1 X c. apply (bound_step rho K n e (power c m0)); auto. unfold power. rewrite W1, H1. apply Step; intros i Hi; apply (X c i Hi).
    - intros n n' m0 L Pn c. eapply Rle_trans; [apply Pn|]. apply bound_le; auto. }
  split.
  - exists (sqrt ((e + K / (1 - rho)) / ka)). intros fuel ts. destruct (R fuel ts) as (m1 & us & E & _ & P1 & _). exists m1, us. split; [exact E|].
    apply Tame; [lra|]. intros c. specialize (P1 c). unfold bound in P1. cbn [pow] in P1. lra.
  - destruct (pow_lt_1_zero rho) with (y := / (1 + e)) as (n & Hn); [rewrite Rabs_pos_eq; lra|apply Rinv_0_lt_compat; lra|].
    exists n. intros fuel ts Pt Ln. destruct (R fuel ts) as (m1 & us & E & _ & _ & P1). exists m1, us. split; [exact E|].
    apply Tame; [lra|]. intros c. specialize (P1 Pt c). eapply Rle_trans; [exact P1|]. unfold bound. cbn [Nat.add].
    specialize (Hn (length ts) Ln). rewrite Rabs_pos_eq in Hn by (apply pow_le; lra).
    assert (rho ^ length ts * e <= 1); [|lra]. apply Rle_trans with (/ (1 + e) * e); [apply Rmult_le_compat_r; lra|].
    apply Rmult_le_reg_l with (1 + e); [lra|]. replace ((1 + e) * (/ (1 + e) * e)) with e by (field; lra). lra.
Qed.

(** ** Blowing up *)

(** The eigenvalue below -1. *)
Lemma wild_root a g : 2 * (1 + a) < g -> exists z, z < -1 /\ z * z - (1 + a - g) * z + a = 0 /\ (0 < g -> z <> a).
Proof.
  intros G. set (s := 1 + a - g). set (D := s * s - 4 * a).
  assert (Hs : s < - (1 + a)) by (unfold s; lra).
  assert (HD : 0 <= D).
  { unfold D. pose proof (Rle_0_sqr s) as Q. unfold Rsqr in Q. destruct (Rle_dec a 0); [lra|].
    assert ((1 + a) * (1 + a) <= (- s) * (- s)) by (apply Rmult_le_compat; lra). pose proof (Rle_0_sqr (1 - a)) as Q2. unfold Rsqr in Q2. lra. }
  set (d := sqrt D). assert (Ed : d * d = D) by (apply sqrt_sqrt; auto). assert (Hd : 0 <= d) by apply sqrt_pos.
  exists ((s - d) / 2). assert (Hz : (s - d) / 2 < -1).
  { destruct (Rlt_dec ((s - d) / 2) (-1)); auto. exfalso. assert (Hle : d <= s + 2) by lra. assert (d * d <= (s + 2) * (s + 2)) by (apply Rmult_le_compat; lra). unfold D in Ed. lra. }
  split; [exact Hz|]. assert (Ez : (s - d) / 2 * ((s - d) / 2) - (1 + a - g) * ((s - d) / 2) + a = 0).
  { change (1 + a - g) with s. replace ((s - d) / 2 * ((s - d) / 2) - s * ((s - d) / 2) + a) with ((d * d - (s * s - 4 * a)) / 4) by field. rewrite Ed. unfold D. field. }
  split; [exact Ez|]. intros Hg E. rewrite E in Ez. assert (g * a = 0) by lra. assert (a = 0) by nra. lra.
Qed.

Lemma dot_mode_bound (d : nat -> R) D : 0 <= D -> (forall i, (i < 16)%nat -> Rabs (d i) <= D) -> Rabs (dot mode d) <= 112 * D.
Proof.
  intros HD Hd. assert (X : forall i, (i < 16)%nat -> - (7 * D) <= mode i * d i <= 7 * D).
  { intros i Hi. assert (Rabs (mode i * d i) <= 7 * D).
    { rewrite Rabs_mult. apply Rmult_le_compat; try apply Rabs_pos; auto. apply mode_bound; auto. }
    pose proof (Rle_abs (mode i * d i)). pose proof (Rle_abs (- (mode i * d i))). rewrite Rabs_Ropp in *. lra. }
  apply Rabs_le. split.
  - replace (- (112 * D)) with (sumn (fun _ => - (7 * D)) 16) by (rewrite sumn_const; cbn [INR]; ring). apply sumn_le. intros i Hi. apply X. auto.
  - replace (112 * D) with (sumn (fun _ => 7 * D) 16) by (rewrite sumn_const; cbn [INR]; ring). apply sumn_le. intros i Hi. apply X. auto.
Qed.

Section Wild.
Context (k fr z : R) (Hk : 0 < k) (Hz : z < -1).
Context (Ez : z * z - (1 + (1 - fr / 15) - k / 30 * lam / 2) * z + (1 - fr / 15) = 0).
Let a := 1 - fr / 15.

Definition wild (m : model R) : R := a * dot mode (speed_on true (mvel m)) + 2 * (z - a) * dot mode (place_on true (mw m) (mh m) (mpos m)).

Lemma wild_step m m1 : mw m1 = mw m -> mh m1 = mh m -> axis_step k fr (mw m) (mh m) m m1 -> Rabs (wild m1 - z * wild m) <= - z * (112 * slip k).
Proof.
  intros W1 H1 X. unfold wild. rewrite W1, H1. set (x := place_on true (mw m) (mh m) (mpos m)). set (v := speed_on true (mvel m)).
  set (x' := place_on true (mw m) (mh m) (mpos m1)). set (v' := speed_on true (mvel m1)).
  set (d := fun i => v' i - (a * v i - k / 30 * lap edges x i)).
  assert (Hd : Rabs (dot mode d) <= 112 * slip k). { apply dot_mode_bound; [unfold slip; lra|]. intros i Hi. apply (X true i Hi). }
  assert (Ev : dot mode v' = a * dot mode v - k / 30 * (lam * dot mode x) + dot mode d).
  { rewrite <- mode_dot_lap. rewrite (dot_sym mode v'), (dot_ext v' (fun i => 1 * (a * v i + - (k / 30) * lap edges x i) + 1 * d i) mode mode) by (intros; unfold d; auto; ring).
    rewrite dot_lin, dot_lin, !(dot_sym _ mode). ring. }
  assert (Ex : dot mode x' = dot mode x + dot mode v' / 2).
  { rewrite (dot_sym mode x'), (dot_ext x' (fun i => 1 * x i + 1 / 2 * v' i) mode mode) by (intros i Hi; auto; pose proof (proj2 (X true i Hi)) as Y; change (x' i = x i + v' i / 2) in Y; lra).
    rewrite dot_lin, !(dot_sym _ mode). field. }
  rewrite Ex, Ev. set (dm := dot mode d) in *. set (nu := dot mode v). set (xi := dot mode x).
  replace (_ - _) with (z * dm - 2 * (z * z - (1 + a - k / 30 * lam / 2) * z + a) * xi) by field.
  change (z * z - (1 + a - k / 30 * lam / 2) * z + a) with (z * z - (1 + (1 - fr / 15) - k / 30 * lam / 2) * z + (1 - fr / 15)). rewrite Ez.
  replace (z * dm - 2 * 0 * xi) with (z * dm) by ring. rewrite Rabs_mult, (Rabs_left z) by lra. apply Rmult_le_compat_l; lra.
Qed.

Let c0 := - z * (112 * slip k) / (- z - 1).
Definition grown (n : nat) (m : model R) : Prop := (- z) ^ n + c0 <= Rabs (wild m).

Lemma grown_step n m m1 : grown n m -> mw m1 = mw m -> mh m1 = mh m -> axis_step k fr (mw m) (mh m) m m1 -> grown (S n) m1.
Proof.
  unfold grown. intros G W1 H1 X. pose proof (wild_step m m1 W1 H1 X) as D. cbn [pow].
  assert (T : Rabs (z * wild m) <= Rabs (wild m1) + - z * (112 * slip k)).
  { replace (z * wild m) with (wild m1 + - (wild m1 - z * wild m)) by ring. eapply Rle_trans; [apply Rabs_triang|]. rewrite Rabs_Ropp. lra. }
  rewrite Rabs_mult, (Rabs_left z) in T by lra.
  assert (- z * ((- z) ^ n + c0) <= - z * Rabs (wild m)) by (apply Rmult_le_compat_l; lra).
  assert (- z * c0 - - z * (112 * slip k) = c0) by (unfold c0; field; lra). lra.
Qed.

Lemma grown_less n n' m : (n <= n')%nat -> grown n' m -> grown n m.
Proof. unfold grown. intros L G. assert ((- z) ^ n <= (- z) ^ n') by (apply Rle_pow; [lra|auto]). lra. Qed.

Lemma tame_wild r m : 0 <= r -> tame r m -> Rabs (wild m) <= Rabs a * (112 * r) + 2 * Rabs (z - a) * (112 * (6 * r)).
Proof.
  intros Hr Tm. destruct (tame_elim r m Tm) as (Sp & Ed). unfold wild. eapply Rle_trans; [apply Rabs_triang|]. rewrite !Rabs_mult, (Rabs_pos_eq 2) by lra.
  assert (Hv : Rabs (dot mode (speed_on true (mvel m))) <= 112 * r) by (apply dot_mode_bound; auto).
  set (x := place_on true (mw m) (mh m) (mpos m)) in *.
  assert (Hx : Rabs (dot mode x) <= 112 * (6 * r)).
  { replace (dot mode x) with (dot mode (fun i => x i - x 0%nat)).
    - apply dot_mode_bound; [lra|]. intros i Hi. apply spread; auto. intros e He. apply (Ed true e He).
    - rewrite (dot_sym mode (fun i => _)), (dot_ext (fun i => x i - x 0%nat) (fun i => 1 * x i + - x 0%nat * (fun _ => 1) i) mode mode) by (intros; auto; ring).
      rewrite dot_lin, !(dot_sym _ mode), mode_sum. ring. }
  pose proof (Rabs_pos a). pose proof (Rabs_pos (z - a)). apply Rplus_le_compat; [apply Rmult_le_compat_l; auto|]. apply Rmult_le_compat_l; lra.
Qed.

Lemma blows_up m : kept k fr m -> 1 + c0 <= Rabs (wild m) -> forall r, exists n, forall fuel ts,
  (forall t, In t ts -> (0 < t)%Z) -> (n <= length ts)%nat -> exists m' us, run fuel m (map (fun t => OpStep t) ts) = Ok (m', us) /\ ~ tame r m'.
Proof.
  intros Km G r. set (r' := Rmax r 0). set (top := Rabs a * (112 * r') + 2 * Rabs (z - a) * (112 * (6 * r'))).
  destruct (Pow_x_infinity (- z)) with (b := top - c0 + 1) as (n & Hn); [rewrite Rabs_pos_eq; lra|].
  exists n. intros fuel ts Pt Ln.
  destruct (kept_run k fr ltac:(lra) grown grown_step grown_less) with (fuel := fuel) (ts := ts) (m := m) (n := 0%nat) as (m1 & us & E & _ & _ & P1); auto.
  exists m1, us. split; [exact E|]. intros Tm. specialize (P1 Pt). unfold grown in P1. cbn [Nat.add] in P1.
  specialize (Hn (length ts) Ln). rewrite Rabs_pos_eq in Hn by (apply pow_le; lra).
  assert (Tm' : tame r' m1).
  { intros i Hi. destruct (Tm i Hi) as (A & B & C). assert (r <= r') by apply Rmax_l. split; [lra|]. split; [lra|]. intros x Hx. specialize (C x Hx). cbv zeta in *. lra. }
  pose proof (tame_wild r' m1 (Rmax_r _ _) Tm') as U. fold top in U. lra.
Qed.
End Wild.

(** The pull that starts it: one corner, by [d]. *)
Lemma tug_place d i : (i < 16)%nat -> place_on true 90 60 (list_set 0 (mkV d 0) (position_array (mkV 0 0) (tile_size 90 60))) i = if Nat.eqb i 0 then d else 0.
Proof.
  intros Hi. unfold place_on. rewrite grid_9060. cbn [list_set].
  do 16 (destruct i as [|i]; [cbn [nth]; unfold off; cbn [Nat.eqb Nat.modulo Nat.divmod Nat.sub fst snd co vx vy INR]; lra|]). lia.
Qed.

Lemma wild_tug fr z d (m : model R) : mpos m = list_set 0 (mkV d 0) (position_array (mkV 0 0) (tile_size 90 60)) -> motionless m -> mw m = 90 -> mh m = 60 ->
  wild fr z m = 2 * (z - (1 - fr / 15)) * d.
Proof.
  intros P V W H. unfold wild. rewrite P, W, H, V.
  rewrite (dot_sym mode (speed_on _ _)), (dot_ext (speed_on true (repeat vzero 16)) (fun i => 0 * mode i + 0 * mode i) mode mode).
  - rewrite dot_lin, (dot_sym mode (place_on _ _ _ _)). rewrite (dot_ext (place_on _ _ _ _) (fun i => if Nat.eqb i 0 then d else 0) mode mode) by (intros; auto; apply tug_place; auto).
    unfold dot. cbn [sumn Nat.eqb]. replace (mode 0%nat) with 1 by (unfold mode, mode1; cbn; ring). ring.
  - intros i Hi. unfold speed_on. rewrite nth_repeat, co_vzero. ring.
  - auto.
Qed.

Lemma amplified_tug k fr range : amplified k fr -> exists d (m : model R), reached (mkV 0 0) 90 60 (mkSettings k fr range) (tug_by d) m /\ malive m = true /\
  forall r, exists n, forall fuel ts, (forall t, In t ts -> (0 < t)%Z) -> (n <= length ts)%nat ->
    exists m' us, run fuel m (map (fun t => OpStep t) ts) = Ok (m', us) /\ ~ tame r m'.
Proof.
  intros (Hk & Am). pose proof lam_pos as Lp.
  destruct (wild_root (1 - fr / 15) (k / 30 * lam / 2)) as (z & Hz & Ez & Hza); [unfold lam; lra|].
  assert (Hn : z <> 1 - fr / 15) by (apply Hza; apply Rmult_lt_0_compat; [apply Rmult_lt_0_compat; lra|lra]).
  set (c0 := - z * (112 * slip k) / (- z - 1)). set (d := (1 + c0) / (2 * (z - (1 - fr / 15)))).
  destruct (tug_reached_by d (mkSettings k fr range)) as (m & Hr & P & V & Al & W & H & St).
  exists d, m. split; [exact Hr|]. split; [exact Al|]. apply (blows_up k fr z Hk Hz Ez).
  - replace k with (st_k (mset m)) by (rewrite St; reflexivity). replace fr with (st_friction (mset m)) by (rewrite St; reflexivity).
    apply (kept_reached (mkV 0 0) 90 60 (mkSettings k fr range) (tug_by d)); auto; try lra; try reflexivity.
    unfold calm_history, tug_by; cbn; intuition discriminate.
  - rewrite (wild_tug fr z d m P V W H). unfold d. replace (2 * (z - (1 - fr / 15)) * ((1 + c0) / (2 * (z - (1 - fr / 15))))) with (1 + c0) by (field; lra).
    fold c0. apply Rle_abs.
Qed.
