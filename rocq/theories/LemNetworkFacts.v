(** Facts about the network, safety and rest over whole histories, in the form
    in which the properties use them. *)

From Coq Require Import ZArith Reals Bool List Lia Lra Permutation.
From Verif Require Import Num Geometry Outcome Wobbly Spec LemBasic LemReal LemInv LemSprings LemHistory LemNetwork LemLifo LemAnchors LemMoves LemForce LemRest LemSettle LemSafe LemStill LemAnchorFacts.
Import ListNotations.
Local Open Scope R_scope.
Local Arguments vdist : simpl never.

Lemma restored_resized p w h st next fuel ops (m : model R) us :
  0 < w -> 0 < h -> run fuel (model_init p w h st next) ops = Ok (m, us) ->
  live_inserted ops = [] -> calm_history ops ->
  Permutation (msprings m) (msprings (model_init p (mw m) (mh m) st next)).
Proof.
  intros Hw Hh E L C. pose proof (no_inserted_reached _ _ _ _ _ _ _ _ _ E L) as X.
  pose proof (net_run _ _ _ _ _ _ (net_init p w h st next) E) as N.
  apply regular_restored; auto.
  exact (regular_run next fuel ops _ _ _ _ (net_init p w h st next) (agrees_init p w h st next) C
           (regular_init p w h st next Hw Hh) E).
Qed.

Section Safe.
Context {T : Type} `{Num T}.

Lemma lifo_safe p w h st next fuel (ops : list (op T)) e :
  careful_history ops -> lifo_history ops -> run fuel (model_init p w h st next) ops = Err e ->
  e <> UseAfterFree /\ e <> OutOfBounds /\ e <> NullDeref /\ e <> MovedFrom.
Proof.
  intros C L E.
  assert (X : e = NoFuel \/ e = AssertFailed \/ e = Threw).
  { apply (run_err (base_ids next) fuel ops (model_init p w h st next) client_start e); auto.
    - apply net_init.
    - apply rinv_init.
    - apply agrees_init. }
  destruct X as [->|[->| ->]]; repeat split; discriminate.
Qed.

Lemma base_network p w h st next :
  let m := model_init (T:=T) p w h st next in
  length (msprings m) = 24%nat /\
  NoDup (map (fun s => (s_pa s, s_pb s)) (msprings m)) /\
  (forall s, In s (msprings m) -> s_fa s = s_pa s /\ s_fb s = s_pb s) /\
  (forall la lb len,
     (exists s, In s (msprings m) /\ s_pa s = la /\ s_pb s = lb /\ s_len s = len) <->
     exists row col, (row < 4 /\ col < 4)%nat /\ la = LMesh (row * 4 + col) /\
       ((col + 1 < 4)%nat /\ lb = LMesh (row * 4 + col + 1) /\ len = mkV (ndiv w (nof 3)) nzero \/
        (row + 1 < 4)%nat /\ lb = LMesh ((row + 1) * 4 + col) /\ len = mkV nzero (ndiv h (nof 3)))).
Proof.
  intros m. unfold m. clear m. cbn [model_init msprings].
  unfold base_springs, base_spring_specs, mesh_w, mesh_h, tile_size.
  cbn [flat_map seq app Nat.ltb Nat.leb Nat.mul Nat.add Nat.sub number_springs vx vy].
  split; [reflexivity|]. split.
  { cbn [map s_pa s_pb]. repeat (constructor; [cbn [In]; intuition discriminate|]). constructor. }
  split.
  { cbn [In]. intros s X. repeat (destruct X as [<-|X]; [split; reflexivity|]). destruct X. }
  intros la lb len. split.
  - intros (s & X & <- & <- & <-). cbn [In] in X.
    repeat (destruct X as [<-|X]; [cbn [s_pa s_pb s_len];
      match goal with |- exists r c, _ /\ LMesh ?i = _ /\ _ =>
        exists (Nat.div i 4), (Nat.modulo i 4); cbn [Nat.div Nat.modulo Nat.divmod fst snd Nat.sub Nat.mul Nat.add];
        split; [lia|split; [reflexivity|]];
        ((left; split; [lia|split; reflexivity]) || (right; split; [lia|split; reflexivity])) end|]).
    destruct X.
  - intros (row & col & (Hr & Hc) & -> & D).
    assert (R4 : (row = 0 \/ row = 1 \/ row = 2 \/ row = 3)%nat) by lia.
    assert (C4 : (col = 0 \/ col = 1 \/ col = 2 \/ col = 3)%nat) by lia.
    clear Hr Hc.
    destruct D as [(L & -> & ->)|(L & -> & ->)];
    destruct R4 as [->|[->|[->| ->]]]; destruct C4 as [->|[->|[->| ->]]]; cbn [Nat.mul Nat.add] in *; try lia; clear L;
    match goal with |- exists s, _ /\ s_pa s = ?la /\ s_pb s = ?lb /\ s_len s = ?len =>
      eexists (mkSpring la lb la lb len _) end; cbn [In]; (split; [repeat ((left; reflexivity) || right)|repeat split]).
Qed.

Lemma settings_reached p w h st ops (m : model T) :
  reached p w h st ops m -> mset m = last_settings st ops.
Proof. intros (fuel & next & us & E). apply settings_run in E. exact E. Qed.

Lemma settings_only p w h st st' next fuel (m m' : model T) u :
  (step_op fuel m (OpSettings st') = Ok (m', u) ->
     set_settings m' (mset m) = m /\ mset m' = st' /\ u = ONone) /\
  step_op fuel (model_init p w h st next) (OpSettings st') = Ok (model_init p w h st' next, ONone).
Proof.
  split; [|reflexivity]. intros E. cbn [step_op needs_model andb] in E. injection E as <- <-.
  destruct m; auto.
Qed.

End Safe.

Lemma settled_stays p w h st ops (m m' : model R) t :
  0 < w -> 0 < h -> reached p w h st ops m -> calm_history ops ->
  (forall n, live_anchors ops <> [(n, KInsert)]) -> malive m = true -> (0 < t)%Z ->
  model_step t m = Ok (m', false) ->
  (forall v, In v (mvel m') -> v = vzero) /\
  (forall s, In s (msprings m') ->
     exists pa pb, place m' (s_pa s) = Some pa /\ place m' (s_pb s) = Some pb /\ slack pa pb (s_len s)) /\
  (forall fuel ts,
     exists m'', run fuel m' (map OpStep ts) = Ok (m'', map (fun _ => OMore false) ts) /\ same_geometry m' m'').
Proof.
  intros Hw Hh Hr C NI Al Ht E.
  destruct (settle_reached _ _ _ _ _ _ _ _ Hw Hh Hr C NI Ht Al E) as (S1 & I & U & Hm & Al').
  split; [|split].
  - intros v Hv. destruct S1 as (S1 & _). rewrite S1 in Hv. apply still_zero. auto.
  - intros s Hs. apply settled_slack; auto.
  - intros fuel ts. apply steps_settled; auto.
Qed.

(** Two grabs of the top-left point, moved by half a unit: deformed, but no
    spring is extended by a unit. *)
Definition nudge : list (op R) := [OpGrab (mkV 0 0); OpGrab (mkV 0 0); OpMoveAnchor 0 (mkV (1 / 2) 0)].

Lemma grab_corner fuel (m m' : model R) q n :
  Inv m -> nth_error (mpos m) 0 = Some q -> step_op fuel m (OpGrab q) = Ok (m', OHandle n) ->
  mhandles m' = mhandles m ++ [(mnext_handle m, HGrab 0)] /\ mnext_handle m' = S (mnext_handle m).
Proof.
  intros I H0 E. unfold step_op in E. destruct (needs_model (OpGrab q) && negb (malive m))%bool; [discriminate|].
  unfold grab_anchor in E. destruct (closest_index (mpos m) q) as [i|] eqn:C; [|discriminate].
  assert (i = 0)%nat as ->.
  { apply closest_index_nearest in C. destruct C as (r & _ & Hm). specialize (Hm 0%nat q H0).
    rewrite euclid_same in Hm. assert (0 <= euclid q r) by apply sqrt_pos. destruct Hm as [|[_ ?]]; [lra|lia]. }
  cbn [of_option bind] in E. inv_ok.
  match goal with X : activate _ _ = Ok _ |- _ => apply activate_shape in X; destruct X as (tg & id & -> & _) end.
  auto.
Qed.

Lemma nudge_reached st next :
  exists m, run 1 (model_init (mkV 0 0) 90 60 st next) nudge = Ok (m, [OHandle 0; OHandle 1; ONone]) /\
    mpos m = list_set 0 (mkV (1 / 2) 0) (position_array (mkV 0 0) (tile_size 90 60)) /\ mvel m = still /\
    msprings m = base_springs (tile_size 90 60) next /\ mheap m = [] /\ mset m = st /\
    mhandles m = [(0%nat, HGrab 0); (1%nat, HGrab 0)] /\ mcount m = 2%Z /\ malive m = true /\ mw m = 90 /\ mh m = 60.
Proof.
  destruct (fresh_grab_twice 0 (mkV 0 0) 90 60 st next) as (m' & us & E).
  cbn [run] in E. remember (model_init (mkV 0 0) 90 60 st next) as m0 eqn:E0.
  assert (I0 : Inv m0) by (subst; apply inv_init).
  destruct (step_op 1 m0 (OpGrab (mkV 0 0))) as [[m1 u1]|] eqn:E1; [|discriminate E].
  cbn [bind fst snd] in E.
  destruct (step_op 1 m1 (OpGrab (mkV 0 0))) as [[m2 u2]|] eqn:E2; [|discriminate E]. clear E.
  assert (H0 : nth_error (mpos m0) 0 = Some (mkV 0 0)) by (subst; apply grid_nth0).
  destruct (handles_step _ _ _ _ _ E1) as (h1 & _ & ->). destruct (handles_step _ _ _ _ _ E2) as (h2 & _ & ->).
  assert (I1 : Inv m1) by (eapply inv_step_op; eauto).
  pose proof (grab_step _ _ _ _ _ E1) as (P1 & V1 & W1 & Hh1 & S1 & Hp1 & St1 & C1 & _ & A1).
  pose proof (grab_step _ _ _ _ _ E2) as (P2 & V2 & W2 & Hh2 & S2 & Hp2 & St2 & C2 & _ & A2).
  destruct (grab_corner _ _ _ _ _ I0 H0 E1) as (G1 & N1).
  assert (H1 : nth_error (mpos m1) 0 = Some (mkV 0 0)) by congruence.
  destruct (grab_corner _ _ _ _ _ I1 H1 E2) as (G2 & N2).
  assert (K0 : mhandles m0 = [] /\ mnext_handle m0 = 0%nat /\ mcount m0 = 0%Z /\ malive m0 = true) by (subst; auto).
  destruct K0 as (K1 & K2 & K3 & K4). rewrite K1, K2 in G1. rewrite K2 in N1. rewrite G1, N1 in G2. cbn [app] in G2.
  exists (set_pos m2 (list_set 0 (mkV (1 / 2) 0) (mpos m2))).
  split.
  - unfold nudge. cbn [run]. rewrite E1. cbn [bind fst snd]. rewrite E2. cbn [bind fst snd].
    cbn [step_op needs_model andb]. unfold move_anchor. rewrite G2. cbn [lookup_handle Nat.eqb].
    rewrite A2, A1, K4. unfold active. rewrite C2, C1, K3. cbn [Z.add Pos.add Pos.succ Z.eqb Pos.eqb].
    rewrite P2, H1. cbn [of_option bind fst snd]. rewrite N1, K2.
    do 5 f_equal. apply vec_eq; cbn [vadd vx vy]; rnum; lra.
  - cbn [set_pos mpos mvel msprings mheap mset mhandles mcount malive mw mh].
    rewrite P2, P1, V2, V1, S2, S1, Hp2, Hp1, St2, St1, G2, C2, C1, K3, A2, A1, K4, W2, W1, Hh2, Hh1. subst m0.
    repeat split.
Qed.

Lemma nudge_quiet next : quiet (place_of (list_set 0 (mkV (1 / 2) 0) (position_array (mkV 0 0) (tile_size 90 60))) [])
  (base_springs (tile_size 90 60) next).
Proof.
  apply quiet_forall. unfold base_springs, base_spring_specs, tile_size, position_array, mesh_n, mesh_w, mesh_h.
  cbn [flat_map seq app Nat.ltb Nat.leb Nat.mul Nat.add Nat.sub number_springs vx vy map list_set Nat.div Nat.modulo Nat.divmod fst snd vadd Z.of_nat Pos.of_succ_nat Pos.succ].
  rnum. unfold nzero. rnum.
  repeat (constructor; [cbn [s_pa s_pb s_len place_of nth]; split; unfold extension, vadd; cbn [vx vy]; rnum; apply Rabs_def1; lra|]).
  constructor.
Qed.

Lemma settle_case :
  exists m m' : model R,
    reached (mkV 0 0) 90 60 (mkSettings 8 3 500) nudge m /\
    calm_history nudge /\ (forall n, live_anchors nudge <> [(n, KInsert)]) /\
    malive m = true /\ nth_error (mpos m) 0 = Some (mkV (1 / 2) 0) /\ model_step 16 m = Ok (m', false).
Proof.
  destruct (nudge_reached (mkSettings 8 3 500) 0) as (m & E & P & V & Sp & Hp & St & G & C & A & _).
  assert (Hr : reached (mkV 0 0) 90 60 (mkSettings 8 3 500) nudge m) by (exists 1%nat, 0%Z; eauto).
  assert (S : settled m).
  { unfold settled. rewrite V, P, Sp, Hp. split; auto. split; [apply nudge_quiet|]. split.
    - unfold constrainment, active. rewrite C. reflexivity.
    - apply base_springs_valid. }
  assert (NA : active m = false) by (unfold active; rewrite C; reflexivity).
  destruct (settled_n (step_count 16) m false (inv_reached _ _ _ _ _ _ Hr) S) as (h & Es & _).
  exists m. eexists. split; [exact Hr|]. split; [unfold calm_history, nudge; simpl; repeat split; discriminate|].
  split; [discriminate|]. split; [auto|]. split; [rewrite P; reflexivity|].
  unfold model_step. rewrite Es. cbn [bind Z.eqb orb negb andb].
  unfold active in *. cbn [set_unequal set_sim mcount]. rewrite NA. reflexivity.
Qed.
