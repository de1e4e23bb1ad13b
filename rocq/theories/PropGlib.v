(** * Properties C58 and C61-C64: the GObject wobbly model and its anchors *)

From Coq Require Import ZArith Reals Bool List Lia Lra.
From Flocq Require Import Core IEEE754.BinarySingleNaN.
From Verif Require Import Num Geometry Outcome Wobbly Spec Cases LemReal LemBasic LemNetworkFacts
  GlibWobbly SpecGlib LemGlib.
Import ListNotations.

(** ** C61: the objects are the native model *)

(** In every arithmetic: whatever is called on the objects, the native model has
    received exactly the calls the history stands for and returned the results
    the client saw. *)
Theorem C61_objects_follow_native_model :
  forall (T : Type) (N : Num T) (p s : vec T) (k friction range : option T) (next : Z) (fuel : nat)
         (g g' : gworld T) (ops : list (gop T)) (calls : list (op T)) (us : list out),
    gw_new (Some p) (Some s) k friction range next = Ok g ->
    gw_run fuel g ops = Ok (g', (calls, us)) ->
    let st := settings_new k friction range in
    calls = meanings gclient_start st ops /\
    run fuel (model_init p (vx s) (vy s) st next) (meanings gclient_start st ops) = Ok (gw_model g', us).
Proof.
  intros T N p s k f r next fuel g g' ops calls us E R st.
  pose proof (rel_run _ _ _ _ _ _ _ _ (rel_new _ _ _ _ _ _ _ E) R) as (R1 & R2 & _ & _).
  injection E as <-. cbn in R1, R2. subst calls. auto.
Qed.
Print Assumptions C61_objects_follow_native_model.

(** The corners and the deformation the object reports are those of that native
    model, in every arithmetic [L] for [long double]; after finalization asking
    is a use after free. *)
Theorem C61_queries_are_native :
  forall (T L : Type) (N : Num T) (NL : Num L) (C : Conv T L) (p s : vec T) (k friction range : option T) (next : Z) (fuel : nat)
         (g g' : gworld T) (ops : list (gop T)) (calls : list (op T)) (us : list out),
    gw_new (Some p) (Some s) k friction range next = Ok g ->
    gw_run fuel g ops = Ok (g', (calls, us)) ->
    let st := settings_new k friction range in
    exists m us', run fuel (model_init p (vx s) (vy s) st next) (meanings gclient_start st ops) = Ok (m, us') /\
      forall uv,
        if malive m then gw_extremes g' = Ok (extremes m) /\ gw_deform (L := L) g' uv = Ok (deform_texcoords (L := L) m uv)
        else gw_extremes g' = Err UseAfterFree /\ gw_deform (L := L) g' uv = Err UseAfterFree.
Proof.
  intros T L N NL C p s k f r next fuel g g' ops calls us E R st.
  destruct (C61_objects_follow_native_model _ _ _ _ _ _ _ _ _ _ _ _ _ _ E R) as (_ & Q).
  exists (gw_model g'), us. split; [exact Q|]. intros uv. unfold gw_extremes, gw_deform. destruct (malive (gw_model g')); auto.
Qed.
Print Assumptions C61_queries_are_native.

(** Hence every property of [reached] models holds of the model object. *)
Theorem C61_object_models_are_reached :
  forall (T : Type) (N : Num T) (p s : vec T) (k friction range : option T) (next : Z) (fuel : nat)
         (g g' : gworld T) (ops : list (gop T)) (r : list (op T) * list out),
    gw_new (Some p) (Some s) k friction range next = Ok g ->
    gw_run fuel g ops = Ok (g', r) ->
    reached p (vx s) (vy s) (settings_new k friction range)
      (meanings gclient_start (settings_new k friction range) ops) (gw_model g').
Proof.
  intros T N p s k f r next fuel g g' ops [calls us] E R.
  exists fuel, next, us. exact (proj2 (C61_objects_follow_native_model _ _ _ _ _ _ _ _ _ _ _ _ _ _ E R)).
Qed.
Print Assumptions C61_object_models_are_reached.

(** Conversely nothing is refused: when the client uses its objects carefully
    and the native calls return, so does the history on the objects. *)
Theorem C61_careful_histories_return :
  forall (T : Type) (N : Num T) (p s : vec T) (k friction range : option T) (next : Z) (fuel : nat)
         (ops : list (gop T)) (m : model T) (us : list out),
    let st := settings_new k friction range in
    geach gcareful gclient_start ops ->
    run fuel (model_init p (vx s) (vy s) st next) (meanings gclient_start st ops) = Ok (m, us) ->
    exists g g', gw_new (Some p) (Some s) k friction range next = Ok g /\
      gw_run fuel g ops = Ok (g', (meanings gclient_start st ops, us)) /\ gw_model g' = m.
Proof.
  intros T N p s k f r next fuel ops m us st C E.
  eexists. assert (X : gw_new (Some p) (Some s) k f r next =
    Ok (mkGW (model_init p (vx s) (vy s) st next) p s [])) by reflexivity.
  destruct (gw_complete fuel ops _ _ _ m us (rel_new _ _ _ _ _ _ _ X) C E) as (g' & G1 & G2).
  exists g'. split; [exact X|]. split; [exact G1|exact G2].
Qed.
Print Assumptions C61_careful_histories_return.

(** A history with grabs, insertions, a release used twice and a move after it. *)
Definition gcase : list (gop f64) :=
  [GPropK (nof 7); GSetRange (nof 2000); GPropFriction (nof 200); GGrab (pt 0 0); GInsert (pt 40 0);
   GAnchorMove 0 (pt 5 5); GStep 16; GAnchorRelease 1; GAnchorRelease 1; GAnchorMove 1 (pt 3 3);
   GAnchorFinalize 1; GPropSize (Some (pt 60 60)); GMoveBy (pt 1 1); GAnchorFinalize 0; GStep 32; GModelFinalize].
Definition gverdict (ops : list (gop f64)) : option err :=
  match gw_new (Some (pt 0 0)) (Some (pt 90 90)) None None None 0 with
  | Ok g => match gw_run 60 g ops with Ok _ => None | Err e => Some e end
  | Err e => Some e
  end.
Lemma gverdict_run ops : gverdict ops = None -> exists g g' r,
  gw_new (Some (pt 0 0)) (Some (pt 90 90)) None None None 0 = Ok g /\ gw_run 60 g ops = Ok (g', r).
Proof.
  unfold gverdict. destruct (gw_new _ _ _ _ _ _) as [g|]; [|discriminate].
  destruct (gw_run 60 g ops) as [[g' r]|] eqn:E; [|discriminate]. eauto.
Qed.

Lemma gcase_returns : gverdict gcase = None.
Proof. vm_compute. reflexivity. Qed.

Example C61_case :
  geach gcareful gclient_start gcase /\
  exists g g' r, gw_new (Some (pt 0 0)) (Some (pt 90 90)) None None None 0 = Ok g /\ gw_run 60 g gcase = Ok (g', r).
Proof.
  split; [|apply gverdict_run, gcase_returns].
  unfold gcase. simpl. repeat split; try discriminate; try (eexists _, _; split; [reflexivity|discriminate]).
  intros a (k & X). destruct a as [|[|[|a]]]; discriminate X.
Qed.

(** What the history stands for. *)
Example C61_meaning : forall N : Num f64, @inside f64 N (nlit 1 10) (nof 7) (nof 10) = true ->
  @inside f64 N (nlit 1 10) (nof 200) (nof 10) = false ->
  forall st, st_friction st = nof 3 -> st_range st = nof 500 ->
  meanings gclient_start st
    [GPropK (nof 7); GSetRange (nof 2000); GPropFriction (nof 200); GGrab (pt 0 0); GAnchorMove 0 (pt 5 5);
     GAnchorRelease 0; GAnchorRelease 0; GAnchorMove 0 (pt 1 1)] =
  [OpSettings (mkSettings (nof 7) (nof 3) (nof 500)); OpSettings (mkSettings (nof 7) (nof 3) (nof 2000));
   OpGrab (pt 0 0); OpMoveAnchor 0 (pt 5 5); OpRelease 0].
Proof. intros N A B st F R. simpl. rewrite A. simpl. rewrite B, F, R. reflexivity. Qed.

(** ** C58: anchor objects *)

(** In every arithmetic: after [release] and before finalization, [move_by] and
    [release] make no native call and change nothing, and finalization releases
    nothing. *)
Theorem C58_inert_after_release :
  forall (T : Type) (N : Num T) (position size : option (vec T)) (k friction range : option T) (next : Z)
         (fuel : nat) (g g' : gworld T) (ops : list (gop T)) (r : list (op T) * list out) (a : nat),
    gw_new position size k friction range next = Ok g ->
    gw_run fuel g ops = Ok (g', r) -> In (GAnchorRelease a) ops -> ~ In (GAnchorFinalize a) ops ->
    (forall d, gw_do fuel g' (GAnchorMove a d) = Ok (g', ([], []))) /\
    gw_do fuel g' (GAnchorRelease a) = Ok (g', ([], [])) /\
    exists g'', gw_do fuel g' (GAnchorFinalize a) = Ok (g'', ([], [])) /\ gw_model g'' = gw_model g'.
Proof.
  intros T N p s k f r next fuel g g' ops [calls us] a E R I F.
  pose proof (rel_new _ _ _ _ _ _ _ E) as R0.
  destruct (released_after _ _ _ _ _ _ _ R0 R I F) as (kd & X).
  destruct (rel_run _ _ _ _ _ _ _ _ R0 R) as (_ & _ & _ & R1). eapply inert; eauto.
Qed.
Print Assumptions C58_inert_after_release.

(** The native anchor of an object is released exactly once if the object is
    ever released or finalized, and not at all otherwise. *)
Theorem C58_released_exactly_once :
  forall (T : Type) (N : Num T) (position size : option (vec T)) (k friction range : option T) (next : Z)
         (fuel : nat) (g g' : gworld T) (ops : list (gop T)) (calls : list (op T)) (us : list out) (a : nat),
    gw_new position size k friction range next = Ok g ->
    gw_run fuel g ops = Ok (g', (calls, us)) ->
    (let_go a ops -> releases a calls = 1) /\ (~ let_go a ops -> releases a calls = 0).
Proof.
  intros T N p s k f r next fuel g g' ops calls us a E R.
  eapply released_once; [eapply rel_new; exact E|reflexivity|exact R].
Qed.
Print Assumptions C58_released_exactly_once.

(** No native anchor is moved after it was released. *)
Theorem C58_no_move_after_release :
  forall (T : Type) (N : Num T) (position size : option (vec T)) (k friction range : option T) (next : Z)
         (fuel : nat) (g g' : gworld T) (ops : list (gop T)) (us : list out) (a : nat) (d : vec T)
         (before after : list (op T)),
    gw_new position size k friction range next = Ok g ->
    gw_run fuel g ops = Ok (g', (before ++ OpRelease a :: after, us)) ->
    ~ In (OpMoveAnchor a d) after.
Proof.
  intros T N p s k f r next fuel g g' ops us a d l1 l2 E R.
  destruct (rel_run _ _ _ _ _ _ _ _ (rel_new _ _ _ _ _ _ _ E) R) as (_ & R2 & _ & _).
  eapply no_moves_after. symmetry. exact R2.
Qed.
Print Assumptions C58_no_move_after_release.

(** A client that uses no finalized object, passes no NULL, keeps the model
    until its anchors are gone, and lets go of inserted anchors newest first,
    never makes the library touch freed storage, leave an array or dereference
    null. *)
Theorem C58_careful_clients_are_safe :
  forall (T : Type) (N : Num T) (p s : vec T) (k friction range : option T) (next : Z)
         (fuel : nat) (g : gworld T) (ops : list (gop T)) (e : err),
    gw_new (Some p) (Some s) k friction range next = Ok g ->
    geach gcareful gclient_start ops -> geach gnewest_first gclient_start ops ->
    gw_run fuel g ops = Err e ->
    e <> UseAfterFree /\ e <> OutOfBounds /\ e <> NullDeref /\ e <> MovedFrom.
Proof.
  intros T N p s k f r next fuel g ops e E C L X.
  pose proof (rel_new _ _ _ _ _ _ _ E) as R0. injection E as <-.
  destruct (gsafe fuel p (vx s) (vy s) (settings_new k f r) next ops [] [] _ _ e R0) as (pre & P1 & P2 & P3);
    auto; try exact I.
  eapply lifo_safe; eauto.
Qed.
Print Assumptions C58_careful_clients_are_safe.

Example C58_case :
  geach gcareful gclient_start gcase /\ geach gnewest_first gclient_start gcase /\
  In (GAnchorRelease 1) gcase /\ let_go 1 gcase /\ ~ let_go 2 gcase /\ gverdict gcase = None.
Proof.
  split; [apply C61_case|]. split; [|split; [|split; [|split]]].
  - unfold gcase. simpl. repeat split; intros X b Xb; try discriminate X;
      destruct b as [|[|[|b]]]; try discriminate Xb; lia.
  - unfold gcase. simpl. auto 20.
  - left. unfold gcase. simpl. auto 20.
  - unfold gcase. intros [X|X]; simpl in X;
      repeat match goal with X : _ \/ _ |- _ => destruct X as [X|X] end; try discriminate X; auto.
  - apply gcase_returns.
Qed.

(** ** C62: anchors that outlive the model object *)

(** The expectation that an anchor object can be dropped at any time is false:
    whatever happened before, once the model object is finalized while the
    anchor is held, moving, releasing and finalizing the anchor use freed
    storage. *)
Theorem C62_anchor_outlives_model_refuted :
  forall (T : Type) (N : Num T) (position size : option (vec T)) (k friction range : option T) (next : Z)
         (fuel : nat) (g g' : gworld T) (ops : list (gop T)) (r : list (op T) * list out) (a : nat) (d : vec T),
    gw_new position size k friction range next = Ok g ->
    gw_run fuel g ops = Ok (g', r) -> In GModelFinalize ops -> holds (gclient_after ops) a ->
    gw_do fuel g' (GAnchorMove a d) = Err UseAfterFree /\
    gw_do fuel g' (GAnchorRelease a) = Err UseAfterFree /\
    gw_do fuel g' (GAnchorFinalize a) = Err UseAfterFree.
Proof.
  intros T N p s k f r next fuel g g' ops [calls us] a d E R I A.
  destruct (rel_run _ _ _ _ _ _ _ _ (rel_new _ _ _ _ _ _ _ E) R) as (_ & _ & _ & R1).
  pose proof (gone_in ops gclient_start I) as G.
  repeat split; eapply outlived; eauto.
Qed.
Print Assumptions C62_anchor_outlives_model_refuted.

Example C62_case :
  let ops := [GGrab (pt 0 0); GInsert (pt 40 0); GStep 16; GAnchorRelease 1; GModelFinalize] in
  gverdict ops = None /\ In GModelFinalize ops /\ holds (gclient_after ops) 0.
Proof. intros ops. split; [vm_compute; reflexivity|]. split; [simpl; auto 10|]. exists KGrab. reflexivity. Qed.

(** ** C63: settings *)

(** The settings the model works with, and that the properties read back, are
    those of the construction with every assignment of the history applied in
    order. *)
Theorem C63_settings_follow_assignments :
  forall (T : Type) (N : Num T) (position size : option (vec T)) (k friction range : option T) (next : Z)
         (fuel : nat) (g g' : gworld T) (ops : list (gop T)) (r : list (op T) * list out),
    gw_new position size k friction range next = Ok g ->
    gw_run fuel g ops = Ok (g', r) ->
    gw_read g' = settings_after (settings_new k friction range) ops /\ mset (gw_model g') = gw_read g'.
Proof.
  intros T N p s k f r next fuel g g' ops [calls us] E R.
  destruct (rel_run _ _ _ _ _ _ _ _ (rel_new _ _ _ _ _ _ _ E) R) as (_ & _ & R3 & _).
  split; [|reflexivity]. unfold gw_read. rewrite R3. unfold gw_new in E.
  destruct p; [|discriminate E]. destruct s; [|discriminate E]. injection E as <-. reflexivity.
Qed.
Print Assumptions C63_settings_follow_assignments.

(** Construction from values inside the ranges and assignment of properties only
    keep the settings inside the ranges. *)
Definition settings_inside (st : settings R) : Prop :=
  (1 / 10 <= st_k st <= 10 /\ 1 / 10 <= st_friction st <= 10 /\ 10 <= st_range st <= 1000)%R.
Definition range_or_none (lo hi : R) (v : option R) : Prop :=
  match v with Some v => (lo <= v <= hi)%R | None => True end.
Definition sets_unchecked {T} (o : gop T) : Prop :=
  match o with GSetK _ | GSetFriction _ | GSetRange _ => True | _ => False end.

Lemma inside_R lo v hi : @inside R Num_R lo v hi = true <-> (lo <= v <= hi)%R.
Proof. unfold inside. rewrite andb_true_iff. cbn. unfold Rleb. destruct (Rle_dec lo v), (Rle_dec v hi); split; intros [] || intros ?; try split; auto; try discriminate; try tauto. Qed.

Theorem C63_properties_stay_in_range :
  forall (position size : option (vec R)) (k friction range : option R) (next : Z)
         (fuel : nat) (g g' : gworld R) (ops : list (gop R)) (r : list (op R) * list out),
    gw_new position size k friction range next = Ok g ->
    gw_run fuel g ops = Ok (g', r) ->
    range_or_none (1 / 10) 10 k -> range_or_none (1 / 10) 10 friction -> range_or_none 10 1000 range ->
    (forall o, In o ops -> ~ sets_unchecked o) ->
    settings_inside (gw_read g').
Proof.
  intros p s k f r next fuel g g' ops rr E R Hk Hf Hr C.
  destruct (C63_settings_follow_assignments _ _ _ _ _ _ _ _ _ _ _ _ _ E R) as [-> _].
  assert (S : settings_inside (settings_new k f r)).
  { unfold settings_new, settings_inside, given. cbn [st_k st_friction st_range].
    assert (L : (nlit 1 10 = 1 / 10)%R) by reflexivity.
    repeat split; destruct k, f, r; simpl in *; rewrite ?L;
      repeat match goal with |- context [inside ?a ?b ?c] => destruct (inside a b c) eqn:?;
        [|exfalso; assert (inside a b c = true) by (apply inside_R; cbn; lra); congruence] end; cbn; lra. }
  clear - S C. unfold settings_after. revert S. generalize (settings_new k f r). induction ops as [|o t IH]; intros st S; auto.
  simpl. apply IH; [intros x Hx; apply C; right; auto|].
  assert (D : ~ sets_unchecked o) by (apply C; left; auto).
  destruct o; simpl in *; try tauto;
    match goal with |- context [inside ?a ?b ?c] => destruct (inside a b c) eqn:F; [apply inside_R in F|auto] end;
    destruct S as (S1 & S2 & S3); unfold settings_inside; cbn in *; repeat split; lra.
Qed.
Print Assumptions C63_properties_stay_in_range.

(** The expectation that the documented ranges always hold is false: the setter
    functions store any value, and a value outside its range given at
    construction leaves zero, not the nearest bound. *)
Theorem C63_settings_always_in_range_refuted :
  (forall (T : Type) (N : Num T) (position size : option (vec T)) (next : Z) (fuel : nat) (g : gworld T) (v : T),
     gw_new position size None None None next = Ok g ->
     exists g' r, gw_run fuel g [GSetK v; GSetFriction v; GSetRange v] = Ok (g', r) /\
       gw_read g' = mkSettings v v v) /\
  (forall (position size : option (vec R)) (next : Z) (g : gworld R) (k friction range : R),
     gw_new position size (Some k) (Some friction) (Some range) next = Ok g ->
     ~ (1 / 10 <= k <= 10)%R -> ~ (1 / 10 <= friction <= 10)%R -> ~ (10 <= range <= 1000)%R ->
     gw_read g = mkSettings 0%R 0%R 0%R).
Proof.
  split.
  - intros T N p s next fuel g v E.
    assert (A : malive (gw_model g) = true).
    { unfold gw_new in E. destruct p; [|discriminate E]. destruct s; [|discriminate E]. injection E as <-. reflexivity. }
    assert (R : exists g' r, gw_run fuel g [GSetK v; GSetFriction v; GSetRange v] = Ok (g', r)).
    { destruct (set_ok fuel g v (GSetK v) A) as (g1 & r1 & E1 & A1); auto.
      destruct (set_ok fuel g1 v (GSetFriction v) A1) as (g2 & r2 & E2 & A2); auto.
      destruct (set_ok fuel g2 v (GSetRange v) A2) as (g3 & r3 & E3 & A3); auto.
      cbn [gw_run]. rewrite E1. cbn [bind fst snd]. rewrite E2. cbn [bind fst snd]. rewrite E3.
      cbn [bind fst snd]. eexists _, _. reflexivity. }
    destruct R as (g' & r & R). exists g', r. split; [exact R|].
    destruct (C63_settings_follow_assignments _ _ _ _ _ _ _ _ _ _ _ _ _ E R) as [-> _]. reflexivity.
  - intros p s next g k f r E A B C.
    destruct (C63_settings_follow_assignments _ _ _ _ _ _ _ _ 0 _ _ [] _ E eq_refl) as [-> _].
    unfold settings_after, settings_new, given. cbn [fold_left].
    assert (X : forall lo v hi, ~ (lo <= v <= hi)%R -> @inside R Num_R lo v hi = false).
    { intros lo v hi Hn. destruct (inside lo v hi) eqn:F; auto. apply inside_R in F. tauto. }
    assert (L : (@nlit R Num_R 1 10 = 1 / 10)%R) by reflexivity.
    assert (L1 : @nof R Num_R 10 = 10%R) by reflexivity. assert (L2 : @nof R Num_R 1000 = 1000%R) by reflexivity.
    rewrite L, L1, L2, (X _ _ _ A), (X _ _ _ B), (X _ _ _ C). reflexivity.
Qed.
Print Assumptions C63_settings_always_in_range_refuted.

Example C63_case :
  exists g g' r, gw_new (Some (mkV 0 0)%R) (Some (mkV 90 90)%R) (Some 7%R) None None 0 = Ok g /\
    gw_run 60 g [GPropK 11%R; GPropFriction 2%R] = Ok (g', r) /\ gw_read g' = mkSettings 7%R 2%R 500%R.
Proof.
  assert (L : (@nlit R Num_R 1 10 = 1 / 10)%R) by reflexivity.
  assert (A : @inside R Num_R (nlit 1 10) 7%R (nof 10) = true) by (apply inside_R; rewrite L; change (@nof R Num_R 10) with 10%R; lra).
  assert (B : @inside R Num_R (nlit 1 10) 11%R (nof 10) = false).
  { apply not_true_is_false. intros F. apply inside_R in F. destruct F as [_ F]. change (11 <= 10)%R in F. lra. }
  assert (C : @inside R Num_R (nlit 1 10) 2%R (nof 10) = true) by (apply inside_R; rewrite L; change (@nof R Num_R 10) with 10%R; lra).
  destruct (C61_careful_histories_return R _ (mkV 0 0)%R (mkV 90 90)%R (Some 7%R) None None 0 60
    [GPropK 11%R; GPropFriction 2%R] (set_settings (model_init (mkV 0 0)%R 90%R 90%R
      (settings_new (Some 7%R) None None) 0) (mkSettings 7%R 2%R 500%R)) [ONone]) as (g & g' & E & R & M).
  - simpl. auto.
  - unfold settings_new, given. cbn [meanings meaning settings_do]. rewrite A, B, C. reflexivity.
  - exists g, g'. eexists. split; [exact E|]. split; [exact R|].
    destruct (C63_settings_follow_assignments _ _ _ _ _ _ _ _ _ _ _ _ _ E R) as [-> _].
    unfold settings_after, settings_new, given. cbn [fold_left settings_do]. rewrite A, B, C. reflexivity.
Qed.

(** ** C64: NULL vectors *)

(** The expectation that every property of the model may be left out or unset is
    false: without a position and a size construction dereferences NULL, and so
    does assigning NULL to either later. *)
Theorem C64_null_vectors_refuted :
  (forall (T : Type) (N : Num T) (position size : option (vec T)) (k friction range : option T) (next : Z),
     (position = None \/ size = None) <-> gw_new position size k friction range next = Err NullDeref) /\
  (forall (T : Type) (N : Num T) (fuel : nat) (g : gworld T),
     gw_do fuel g (GPropPosition None) = Err NullDeref /\ gw_do fuel g (GPropSize None) = Err NullDeref).
Proof.
  split; [|split; reflexivity]. intros T N p s k f r next. unfold gw_new.
  destruct p, s; simpl; split; try discriminate; auto. intros [X|X]; discriminate X.
Qed.
Print Assumptions C64_null_vectors_refuted.
