(** * Property C50: property setters *)

From Coq Require Import ZArith Reals Bool List Lra Lia.
From Flocq Require Import Core IEEE754.BinarySingleNaN.
From Verif Require Import Num Geometry Outcome Steppers Transforms MagicLamp Program SpecAnim LemReal LemBasic LemFloat LemSteppers LemTransforms LemLamp.
Import ListNotations.
Local Open Scope Z_scope.

Section Any.
Context (F D : Type) (NF : Num F) (ND : Num D) (C : Conv F D) (LF : Libm F) (LD : Libm D) (St : Type) (call : St -> Z -> F * St).

(** Which call assigns which property. *)
Definition sets_initial (o : bounce_op F St) := match o with BnSetInitial v => Some v | _ => None end.
Definition sets_maximum (o : bounce_op F St) := match o with BnSetMaximum v => Some v | _ => None end.
Definition sets_n (o : bounce_op F St) := match o with BnSetN v => Some v | _ => None end.
Definition sets_distance (o : glide_op F St) := match o with GlSetDistance v => Some v | _ => None end.
Definition sets_xrot (o : glide_op F St) := match o with GlSetXRot v => Some v | _ => None end.
Definition sets_yrot (o : glide_op F St) := match o with GlSetYRot v => Some v | _ => None end.
Definition sets_xaxis (o : glide_op F St) := match o with GlSetXAxis v => Some v | _ => None end.
Definition sets_yaxis (o : glide_op F St) := match o with GlSetYAxis v => Some v | _ => None end.
Definition sets_from (o : zoom_op D St) := match o with ZmSetFrom v => Some v | _ => None end.
Definition sets_params (o : lamp_op F D St) := match o with MlSetParams v => Some v | _ => None end.
Definition sets_resolution (o : lamp_op F D St) := match o with MlSetResolution v => Some v | _ => None end.

(** After any history of steps and assignments every getter returns the value
    assigned last, and the constructor's value if there was none. *)
Theorem C50_getters :
  (forall (a : bounce F D St) ops, let b := fold_left (bounce_do call) ops a in
     bn_initial b = latest sets_initial (bn_initial a) ops /\ bn_maximum b = latest sets_maximum (bn_maximum a) ops /\
     bn_n b = latest sets_n (bn_n a) ops /\ bn_target b = bn_target a) /\
  (forall (a : glide F D St) ops, let b := fold_left (glide_do call) ops a in
     gl_distance b = latest sets_distance (gl_distance a) ops /\ gl_xrot b = latest sets_xrot (gl_xrot a) ops /\
     gl_yrot b = latest sets_yrot (gl_yrot a) ops /\ gl_xaxis b = latest sets_xaxis (gl_xaxis a) ops /\
     gl_yaxis b = latest sets_yaxis (gl_yaxis a) ops /\ gl_target b = gl_target a) /\
  (forall (a : zoom F D St) ops, let b := fold_left (zoom_do call) ops a in
     zm_from b = latest sets_from (zm_from a) ops /\ zm_to b = zm_to a) /\
  (forall (a b : lamp F D St) ops, lamp_run call a ops = Ok b ->
     ml_params b = latest sets_params (ml_params a) ops /\ ml_res b = latest sets_resolution (ml_res a) ops).
Proof.
  split; [|split; [|split]].
  - intros a ops. cbv zeta. rewrite !(latest_fold sets_initial bn_initial), !(latest_fold sets_maximum bn_maximum), !(latest_fold sets_n bn_n),
      (latest_fold (fun _ => None) bn_target);
      try (intros b o; destruct o; cbn [bounce_do sets_initial sets_maximum sets_n]; unfold bounce_step; try destruct (call _ _); reflexivity).
    repeat split; auto. induction ops; cbn; auto.
  - intros a ops. cbv zeta. rewrite !(latest_fold sets_distance gl_distance), !(latest_fold sets_xrot gl_xrot), !(latest_fold sets_yrot gl_yrot),
      !(latest_fold sets_xaxis gl_xaxis), !(latest_fold sets_yaxis gl_yaxis), (latest_fold (fun _ => None) gl_target);
      try (intros b o; destruct o; cbn [glide_do sets_distance sets_xrot sets_yrot sets_xaxis sets_yaxis]; unfold glide_step; try destruct (call _ _); reflexivity).
    repeat split; auto. induction ops; cbn; auto.
  - intros a ops. cbv zeta. rewrite !(latest_fold sets_from zm_from), zoom_to_fixed;
      try (intros b o; destruct o; cbn [zoom_do sets_from]; unfold zoom_step; try destruct (call _ _); reflexivity). auto.
  - intros a b ops. revert a. induction ops as [|o ops IH]; intros a E; cbn [lamp_run latest] in *; [injection E as <-; auto|].
    destruct (lamp_do call a o) as [a'|] eqn:Ea; cbn [bind] in E; [|discriminate]. destruct (IH a' E) as [-> ->].
    destruct o; cbn [lamp_do sets_params sets_resolution] in *; try (injection Ea as <-; auto).
    unfold lamp_step in Ea. destruct (call (ml_stepper a) ms) as [v s1]. destruct (move_grid _ _ _ _) as [g|]; cbn [bind] in Ea; [|discriminate].
    injection Ea as <-. auto.
Qed.

(** Without a [Step] nothing that is shown changes. *)
Theorem C50_setters_keep_the_picture :
  (forall (a : bounce F D St) ops, existsb bn_is_step ops = false -> let b := fold_left (bounce_do call) ops a in
     bn_transform b = bn_transform a /\ bn_progress b = bn_progress a /\ forall p, bounce_extreme b p = bounce_extreme a p) /\
  (forall (a : glide F D St) ops, existsb gl_is_step ops = false -> let b := fold_left (glide_do call) ops a in
     gl_transform b = gl_transform a /\ gl_progress b = gl_progress a /\ forall p, glide_extreme b p = glide_extreme a p) /\
  (forall (a : zoom F D St) ops, existsb zm_is_step ops = false -> let b := fold_left (zoom_do call) ops a in
     zm_transform b = zm_transform a /\ zm_progress b = zm_progress a /\ forall p, zoom_extreme b p = zoom_extreme a p) /\
  (forall (a : lamp F D St) ops, existsb ml_is_step ops = false -> same_resolution ops ->
     exists b, lamp_run call a ops = Ok b /\ ml_progress b = ml_progress a /\
       lamp_extremes b = lamp_extremes a /\ forall uv, lamp_deform b uv = lamp_deform a uv).
Proof.
  split; [|split; [|split]].
  - intros a ops N. cbv zeta. destruct (bounce_sets call ops a N) as [E P]. unfold bounce_extreme. rewrite E, P. auto.
  - intros a ops N. cbv zeta. destruct (glide_sets call ops a N) as [E P]. unfold glide_extreme. rewrite E, P. auto.
  - intros a ops N. cbv zeta. destruct (zoom_sets call ops a N) as [E P]. unfold zoom_extreme. rewrite E, P. auto.
  - intros a ops. revert a. induction ops as [|o ops IH]; intros a N S; cbn [lamp_run existsb] in *; [exists a; auto|].
    apply orb_false_iff in N. destruct N as [N1 N2]. inversion S as [|? ? So Ss]; subst.
    destruct o; cbn [lamp_do bind ml_is_step] in *; try discriminate; try contradiction.
    + destruct (IH (mkLampAnim q (ml_grid a) (ml_res a) (ml_progress a) (ml_stepper a)) N2 Ss) as [b [E [P [X D']]]]. exists b. auto.
    + destruct (IH (mkLampAnim (ml_params a) (ml_grid a) (ml_res a) (ml_progress a) s) N2 Ss) as [b [E [P [X D']]]]. exists b. auto.
Qed.

(** [Step] shows what a new animation shows that is built with the current
    property values and a stepper at the new progress. *)
Theorem C50_step_uses_current_values :
  (forall (a : bounce F D St) ms, let b := fst (bounce_step call ms a) in
     let fresh := bounce_new (fun (s : F) (_ : Z) => (s, s)) (bn_initial a) (bn_maximum a) (bn_n a) (bn_target a) (bn_progress b) in
     bn_transform b = bn_transform fresh /\ forall p, bounce_extreme b p = bounce_extreme fresh p) /\
  (forall (a : glide F D St) ms, let b := fst (glide_step call ms a) in
     let fresh := glide_new (fun (s : F) (_ : Z) => (s, s)) (gl_distance a) (gl_xrot a) (gl_yrot a) (gl_xaxis a) (gl_yaxis a) (gl_width a) (gl_target a) (gl_progress b) in
     gl_transform b = gl_transform fresh /\ forall p, glide_extreme b p = glide_extreme fresh p) /\
  (forall (a : zoom F D St) ms, let b := fst (zoom_step call ms a) in
     let fresh := zoom_new (fun (s : F) (_ : Z) => (s, s)) (zm_from a) (zm_to a) (zm_progress b) in
     zm_from fresh = zm_from a -> zm_to fresh = zm_to a ->
     zm_transform b = zm_transform fresh /\ forall p, zoom_extreme b p = zoom_extreme fresh p) /\
  (forall (a : lamp F D St) ms, 0 < rw (ml_res a) -> 0 < rh (ml_res a) -> rw (ml_res a) * rh (ml_res a) < 2 ^ 64 ->
     length (ml_grid a) = Z.to_nat (rw (ml_res a) * rh (ml_res a)) ->
     exists b more fresh, lamp_step call ms a = Ok (b, more) /\
       lamp_new (fun (s : F) (_ : Z) => (s, s)) (ml_params a) (ml_res a) (ml_progress b) = Ok fresh /\
       lamp_extremes b = lamp_extremes fresh /\ forall uv, lamp_deform b uv = lamp_deform fresh uv).
Proof.
  split; [|split; [|split]].
  - intros a ms. cbv zeta. unfold bounce_step, bounce_new, bounce_extreme. destruct (call (bn_stepper a) ms). split; reflexivity.
  - intros a ms. cbv zeta. unfold glide_step, glide_new, glide_extreme. destruct (call (gl_stepper a) ms). split; reflexivity.
  - intros a ms. cbv zeta. unfold zoom_step, zoom_new, zoom_extreme. destruct (call (zm_stepper a) ms). cbn [fst zm_from zm_to zm_transform zm_progress].
    intros -> ->. split; reflexivity.
  - intros a ms W Hh B L. rewrite lamp_step_full by (auto; unfold fits; auto). cbn [ml_progress]. do 3 eexists. split; [reflexivity|].
    split; [apply lamp_new_full; unfold fits; auto|]. unfold lamp_extremes, lamp_deform. cbn [ml_res ml_grid fst]. auto.
Qed.
End Any.
Print Assumptions C50_getters.
Print Assumptions C50_setters_keep_the_picture.
Print Assumptions C50_step_uses_current_values.

(** The picture of a lamp can change with the resolution alone: after it is
    halved, the bottom right extreme is another vertex. *)
Theorem C50_resolution_refuted :
  exists (q : lamp_params R R) a b p p',
    lamp_new (fun (s : R) (_ : Z) => (s, s)) q (mkRes 2 4) 1%R = Ok a /\
    lamp_run (fun (s : R) (_ : Z) => (s, s)) a [MlSetResolution (mkRes 2 2)] = Ok b /\
    lamp_deform a (mkV 1 1)%R = Ok p /\ lamp_deform b (mkV 1 1)%R = Ok p' /\ vy p = 30%R /\ vy p' = 10%R.
Proof.
  set (q := (mkLamp (mkB (mkV 100 200) (mkV 200 300)) (mkB (mkV 0 0) (mkV 30 30)) 10 (1 / 2) 0 1)%R : lamp_params R R).
  assert (S : sensible (mkRes 2 4)) by (unfold sensible; cbn [rw rh]; lia). assert (S2 : sensible (mkRes 2 2)) by (unfold sensible; cbn [rw rh]; lia).
  exists q. rewrite lamp_new_full by (apply sensible_fits; auto). cbn [fst snd]. do 4 eexists. split; [reflexivity|]. cbn [lamp_run lamp_do bind].
  split; [reflexivity|]. unfold lamp_deform. cbn [ml_res ml_grid].
  split; [apply lamp_at_end; auto; unfold in_square; cbn; lra|].
  assert (G : full_grid q (mkRes 2 4) 1%R = [lamp_point q (mkRes 2 4) 1%R 0 0; lamp_point q (mkRes 2 4) 1%R 1 0; lamp_point q (mkRes 2 4) 1%R 0 1; lamp_point q (mkRes 2 4) 1%R 1 1] ++
     [lamp_point q (mkRes 2 4) 1%R 0 2; lamp_point q (mkRes 2 4) 1%R 1 2; lamp_point q (mkRes 2 4) 1%R 0 3; lamp_point q (mkRes 2 4) 1%R 1 3]) by reflexivity.
  rewrite G. split.
  - apply interpolate_prefix. destruct (interpolate_node (mkRes 2 2) [lamp_point q (mkRes 2 4) 1%R 0 0; lamp_point q (mkRes 2 4) 1%R 1 0; lamp_point q (mkRes 2 4) 1%R 0 1; lamp_point q (mkRes 2 4) 1%R 1 1] 1 1 S2) as [p [V E]];
      [reflexivity|cbn; lia|cbn; lia|]. cbn in V. injection V as <-. cbn [rw rh] in E. replace (IZR 1 / IZR (2 - 1))%R with 1%R in E by (cbn; lra). exact E.
  - split; [cbn; lra|]. rewrite lamp_point_R by (cbn [rw rh]; lia). cbn [vy rh]. destruct (row_end q (IZR 1 / IZR (4 - 1))%R) as [-> _]. unfold row_pos. cbn. lra.
Qed.
Print Assumptions C50_resolution_refuted.

(** A history with several assignments between two steps. *)
Example C50_case :
  let ops := [BnSetInitial 2%R; BnSetN 7; BnSetInitial 3%R] in
  let a := fold_left (bounce_do linear_call) [BnStep 16; BnSetInitial 1%R] (bounce_new linear_call 0%R 2%R 3 (mkB (mkV 0 0) (mkV 10 10))%R (linear_new 100%R)) in
  existsb bn_is_step ops = false /\ latest (sets_initial R (linear R)) (bn_initial a) ops = 3%R /\ bn_initial a = 1%R.
Proof. cbv zeta. repeat split. Qed.
