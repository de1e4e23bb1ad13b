(** * Properties C75-C77: what the GObject wrappers of animations report *)

From Coq Require Import ZArith Reals Bool String List Lia Lra.
From Flocq Require Import Core IEEE754.BinarySingleNaN.
From Verif Require Import Num Geometry Outcome Steppers Transforms MagicLamp Program SpecAnim LemReal LemBasic LemSteppers LemTransforms LemLamp
  PropTransforms GlibParams GlibAnim SpecGlibAnim LemGlibAnim GlibQuery SpecQuery LemQuery.
Import ListNotations.
Local Open Scope nat_scope.

(** ** C75: queries *)

(** In every arithmetic: leaving the queries out of a history changes no object
    and no result of the other calls. *)
Theorem C75_queries_change_nothing :
  forall (F D : Type) (NF : Num F) (ND : Num D) (C : Conv F D) (LF : Libm F) (LD : Libm D)
         (ops : list (qop F D)) q us,
    q_run q_start ops = Ok (q, us) -> Forall (fun o => only_asks o \/ exists c, o = QCall c) ops ->
    ga_run ga_start (calls_only ops) = Ok (qw_objects q, results_only us).
Proof. intros F D NF ND C LF LD ops q us E A. exact (queries_erased _ _ _ _ E A). Qed.
Print Assumptions C75_queries_change_nothing.

(** [g_object_get] of "stepper" is the exception: like the getter function it
    makes a stepper object that observes the animation's stepper. *)
Theorem C75_get_stepper_is_the_getter :
  forall (F D : Type) (NF : Num F) (ND : Num D) (C : Conv F D) (LF : Libm F) (LD : Libm D) (q : qworld F D) a x,
    the_ganim (qw_objects q) a = Ok x -> class_of x <> CLamp ->
    exists i w, ga_do (qw_objects q) (AGetStepper a) = Ok (w, RStepper i) /\
      q_do q (QGet a "stepper") = Ok (mkQW w (qw_views q), QValue (Some (VObject (Some i)))).
Proof.
  intros F D NF ND C LF LD q a x X K. cbn [ga_do q_do]. rewrite X. cbn [bind]. eexists _, _. split; [reflexivity|].
  destruct x; try (cbn in K; congruence); reflexivity.
Qed.
Print Assumptions C75_get_stepper_is_the_getter.

(** The pointer [animation_transform_animation_matrix] returns shows the matrix
    of the animation as it is when the pointer is read, whatever was called in
    between, and is dangling once the animation is finalized. *)
Theorem C75_matrix_is_a_view :
  forall (F D : Type) (NF : Num F) (ND : Num D) (C : Conv F D) (LF : Libm F) (LD : Libm D)
         (before after : list (qop F D)) a q us p col row,
    q_run q_start (before ++ QMatrix a :: after) = Ok (q, us) ->
    nth_error us (length before) = Some (QView p) -> col < 4 -> row < 4 ->
    (forall x, the_ganim (qw_objects q) a = Ok x ->
       exists m, matrix_is x m /\ q_do q (QRead p (4 * col + row)) = Ok (q, QNumber (in_column_row m col row))) /\
    (the_ganim (qw_objects q) a = Err UseAfterFree -> q_do q (QRead p (4 * col + row)) = Err UseAfterFree).
Proof.
  intros F D NF ND C LF LD before after a q us p col row E N K1 K2. destruct (pointer_kept _ _ _ _ _ _ E N) as (V & M).
  cbn [q_do]. rewrite V. cbn [of_option bind]. split.
  - intros x X. destruct (M x X) as (m & Em). exists m. split; [apply matrix_shown; exact Em|].
    rewrite X. cbn [bind]. rewrite Em. cbn [bind]. rewrite entry_at by assumption. reflexivity.
  - intros X. rewrite X. reflexivity.
Qed.
Print Assumptions C75_matrix_is_a_view.

(** Extremes asked for without corners or without a place to put them, and
    deformations and resolutions without a place to put them, are refused without
    touching anything. *)
Theorem C75_null_arguments_are_refused :
  forall (F D : Type) (NF : Num F) (ND : Num D) (C : Conv F D) (LF : Libm F) (LD : Libm D) (q : qworld F D) a x uv corners out,
    the_ganim (qw_objects q) a = Ok x ->
    q_do q (QExtremes a None out) = Ok (q, QNothing) /\ q_do q (QExtremes a corners false) = Ok (q, QNothing) /\
    q_do q (QDeform a uv false) = Ok (q, QNothing) /\ q_do q (QResolution a false) = Ok (q, QNothing).
Proof.
  intros F D NF ND C LF LD q a x uv corners out X. cbn [q_do]. rewrite X. cbn [bind]. split; [reflexivity|]. split; [destruct corners; reflexivity|].
  split; reflexivity.
Qed.
Print Assumptions C75_null_arguments_are_refused.

(** So it is no copy: a [Step] changes the numbers behind it. *)
Theorem C75_matrix_is_a_copy_refuted :
  exists (q : qworld R R) u1 u2 u3 (v v' : R),
    q_run q_start [QCall (ANew (GZoom (F := R) (Some (mkB (mkV 0 0) (mkV 2 2))%R) None None)); QMatrix 0; QRead 0 0;
                   QCall (AStep 0 300); QRead 0 0] = Ok (q, [u1; u2; QNumber v; u3; QNumber v']) /\ v <> v'.
Proof.
  cbn [q_run q_do ga_do qw_objects q_start]. rewrite anim_object_eq.
  cbn [args_of stepper_arg stepper_of bind anim_new ga_anims ga_start app fst snd length the_ganim nth_error qw_objects qw_views].
  unfold set_again, zoom_new. cbn -[Rmin Rmax IZR clamp_progress zoom_step zoom_transform m_entries].
  unfold zoom_step. cbn -[Rmin Rmax IZR clamp_progress zoom_transform].
  do 6 eexists. split; [reflexivity|]. rewrite clamp_R.
  unfold zoom_transform, ensure_non_zero, box_or_unit. cbn -[Rmin Rmax IZR Reqb].
  rewrite Rmax_right, Rmin_left by lra. unfold Reqb. repeat destruct (Req_EM_T _ _); lra.
Qed.
Print Assumptions C75_matrix_is_a_copy_refuted.

Example C75_case :
  let ops := [QCall (ANew (GZoom (F := R) (D := R) None None None)); QMatrix 0; QProgress 0; QCall (AStep 0 300); QGet 0 "from"; QRead 0 5] in
  Forall (fun o => only_asks o \/ exists c, o = QCall c) ops /\
  exists q us p, q_run q_start ops = Ok (q, us) /\ nth_error us 1 = Some (QView p) /\ exists x, the_ganim (qw_objects q) 0 = Ok x.
Proof.
  split.
  - repeat (apply Forall_cons; [first [right; eexists; reflexivity|left; cbn; exact I|left; cbn; discriminate]|]). apply Forall_nil.
  - cbn [q_run q_do ga_do qw_objects q_start]. rewrite anim_object_eq.
    cbn [args_of stepper_arg stepper_of bind anim_new ga_anims ga_start app fst snd length the_ganim nth_error qw_objects qw_views].
    unfold set_again, zoom_new. cbn -[Rmin Rmax IZR clamp_progress zoom_step zoom_transform m_entries].
    unfold zoom_step. cbn -[Rmin Rmax IZR clamp_progress zoom_transform m_entries].
    do 3 eexists. split; [reflexivity|]. split; [reflexivity|]. eexists. reflexivity.
Qed.

(** ** C76: the object is the native animation *)

(** In every arithmetic: a bounce object whose stepper is neither replaced nor
    handed out is, at every moment, the native animation made from the values
    given (and the defaults), on which the calls the history makes on it were
    made: [Step], the setter functions and those [g_object_set] calls that the
    documented range allows. *)
Theorem C76_bounce_is_native :
  forall (F D : Type) (NF : Num F) (ND : Num D) (C : Conv F D) (LF : Libm F) (LD : Libm D)
         before i m n t st (after : list (gaop F D)) w us a x,
    ga_run ga_start (before ++ ANew (GBounce i m n t st) :: after) = Ok (w, us) -> nth_error us (length before) = Some (RAnim a) ->
    Forall (keeps_stepper a) after -> the_ganim w a = Ok x ->
    exists s, stepper_at before st s /\
      x = ABounce (fold_left (bounce_do gcall) (BnSetStepper s :: flat_map (bounce_call a) after)
            (bounce_new gcall (given (nlit 7 10) i) (given (nlit 12 10) m) (given 1%Z n) (box_or_unit t) s)).
Proof. intros F D NF ND C LF LD before i m n t st after w us a x E N K X. exact (bounce_life _ _ _ _ _ _ _ _ _ _ _ E N K X). Qed.
Print Assumptions C76_bounce_is_native.

Theorem C76_glide_is_native :
  forall (F D : Type) (NF : Num F) (ND : Num D) (C : Conv F D) (LF : Libm F) (LD : Libm D)
         before d xr yr xa ya wd t st (after : list (gaop F D)) w us a x,
    ga_run ga_start (before ++ ANew (GGlide d xr yr xa ya wd t st) :: after) = Ok (w, us) -> nth_error us (length before) = Some (RAnim a) ->
    Forall (keeps_stepper a) after -> the_ganim w a = Ok x ->
    exists s, stepper_at before st s /\
      x = AGlide (fold_left (glide_do gcall) (GlSetStepper s :: flat_map (glide_call a) after)
            (glide_new gcall (given (nlit (-3) 10) d) (given (nof 0) xr) (given (nof 0) yr) (given (nlit 2 10) xa) (given (nlit 5 10) ya)
               (given 1%Z wd) (box_or_unit t) s)).
Proof. intros F D NF ND C LF LD before d xr yr xa ya wd t st after w us a x E N K X. exact (glide_life _ _ _ _ _ _ _ _ _ _ _ _ _ _ E N K X). Qed.
Print Assumptions C76_glide_is_native.

(** A zoom object given a 'from' box has it set a second time (see C68). *)
Theorem C76_zoom_is_native :
  forall (F D : Type) (NF : Num F) (ND : Num D) (C : Conv F D) (LF : Libm F) (LD : Libm D)
         before f t st (after : list (gaop F D)) w us a x,
    ga_run ga_start (before ++ ANew (GZoom f t st) :: after) = Ok (w, us) -> nth_error us (length before) = Some (RAnim a) ->
    Forall (keeps_stepper a) after -> the_ganim w a = Ok x ->
    exists s, stepper_at before st s /\
      x = AZoom (fold_left (zoom_do gcall)
            ((match f with Some b => [ZmSetFrom b] | None => [] end) ++ ZmSetStepper s :: flat_map (zoom_call a) after)
            (zoom_new gcall (box_or_unit f) (box_or_unit t) s)).
Proof. intros F D NF ND C LF LD before f t st after w us a x E N K X. exact (zoom_life _ _ _ _ _ _ _ _ _ E N K X). Qed.
Print Assumptions C76_zoom_is_native.

(** A magic lamp object; its resolution is 10 by 10 or the given one without
    fractions. *)
Theorem C76_lamp_is_native :
  forall (F D : Type) (NF : Num F) (ND : Num D) (C : Conv F D) (LF : Libm F) (LD : Libm D)
         before f t r b o st sp stp (after : list (gaop F D)) w us a x,
    ga_run ga_start (before ++ ANew (GLamp f t r b o st sp stp) :: after) = Ok (w, us) -> nth_error us (length before) = Some (RAnim a) ->
    Forall (keeps_stepper a) after -> the_ganim w a = Ok x ->
    exists s cols rows l0 l, stepper_at before stp s /\
      ntrunc (vx (given (mkV (nof 10) (nof 10)) r)) = Some cols /\ ntrunc (vy (given (mkV (nof 10) (nof 10)) r)) = Some rows /\
      let q := mkLamp (box_or_unit f) (box_or_unit t) (given (nof 10) b) (given (nlit 5 10) o) (given (nlit 45 100) st) (given (nlit 23 10) sp) in
      lamp_new gcall q (mkRes cols rows) s = Ok l0 /\ lamp_run gcall l0 (MlSetStepper s :: lamp_calls a after q) = Ok l /\ x = ALamp l.
Proof.
  intros F D NF ND C LF LD before f t r b o st sp stp after w us a x E N K X.
  destruct (lamp_life _ _ _ _ _ _ _ _ _ _ _ _ _ _ E N K X) as (s & cols & rows & l0 & l & S & C1 & C2 & L).
  exists s, cols, rows, l0, l. split; [exact S|]. split; [|split; [|exact L]].
  - unfold to_size in C1. destruct (ntrunc _) as [z|]; [|discriminate C1]. destruct (_ && _) in C1; [|discriminate C1]. injection C1 as ->. reflexivity.
  - unfold to_size in C2. destruct (ntrunc _) as [z|]; [|discriminate C2]. destruct (_ && _) in C2; [|discriminate C2]. injection C2 as ->. reflexivity.
Qed.
Print Assumptions C76_lamp_is_native.

(** A bounce object among others: a range check, a setter and a step. *)
Example C76_case :
  let after := [ASetTo 0 "initial-scale" (SetFloat 5%R); ASet 0 "maximum-scale" (VFloat 2%R); ASet 0 "maximum-scale" (VFloat 4%R);
                ANew (GZoom (F := R) (D := R) None None None); AStep 1 10; AStep 0 100; ASet 0 "n-bounce" (VUint 3)] in
  Forall (keeps_stepper (F := R) (D := R) 0) after /\
  flat_map (bounce_call (St := gstepper R) 0) after = [BnSetInitial 5%R; BnSetMaximum 2%R; BnStep 100; BnSetN 3] /\
  exists w us x, ga_run ga_start ([] ++ ANew (GBounce None None None None None) :: after) = Ok (w, us) /\
    nth_error us 0 = Some (RAnim 0) /\ the_ganim w 0 = Ok x.
Proof.
  cbv zeta. split; [|split].
  - repeat (apply Forall_cons; [cbn; first [exact I|right; discriminate]|]). apply Forall_nil.
  - cbn -[IZR Rleb]. unfold accepted, documented. cbn -[IZR Rleb]. unfold Rleb.
    destruct (Rle_dec 1 2); [|lra]. destruct (Rle_dec 2 3); [|lra]. destruct (Rle_dec 1 4); [|lra]. destruct (Rle_dec 4 3); [lra|]. reflexivity.
  - destruct (careful_run_ok (F := R) (D := R) ([] ++ ANew (GBounce None None None None None) ::
      [ASetTo 0 "initial-scale" (SetFloat 5%R); ASet 0 "maximum-scale" (VFloat 2%R); ASet 0 "maximum-scale" (VFloat 4%R);
                ANew (GZoom (F := R) (D := R) None None None); AStep 1 10; AStep 0 100; ASet 0 "n-bounce" (VUint 3)]) ga_start aclient_start arel_start start_steppable)
      as (w & us & E).
    + cbn; unfold present; cbn; auto 20.
    + repeat constructor.
    + exists w, us. pose proof (arel_run _ _ _ _ _ arel_start E) as Ar.
      destruct (there w _ 0 Ar) as (x & X); [reflexivity|]. exists x. split; [exact E|]. split; [|exact X].
      cbn [app] in E. apply run_cons in E. destruct E as (w1 & u & us' & E1 & _ & ->).
      apply ga_do_cases in E1. destruct E1 as (y & _ & -> & _). reflexivity.
Qed.

(** Over the reals, whatever the history (getters, shared and replaced steppers
    included): after a [Step] to progress 1 the reported corners are the corners
    asked about, at one depth. *)
Theorem C76_transform_objects_end_where_they_belong :
  forall (ops : list (qop R R)) a ms q us x c1 c2 c3 c4,
    q_run q_start (ops ++ [QCall (AStep a ms)]) = Ok (q, us) -> the_ganim (qw_objects q) a = Ok x -> class_of x <> CLamp ->
    (forall y, x = AGlide y -> (0 < gl_width y)%Z) ->
    q_do q (QProgress a) = Ok (q, QNumber 1%R) ->
    exists z, q_do q (QExtremes a (Some (c1, c2, c3, c4)) true) =
              Ok (q, QCorners (map (fun c => mk4 (vx c) (vy c) z 1%R) [c1; c2; c3; c4])).
Proof.
  intros ops a ms q us x c1 c2 c3 c4 E X K Wd P. apply q_app in E. destruct E as (q0 & us1 & us2 & E1 & E2 & -> & _).
  apply q_cons in E2. destruct E2 as (q1 & u & us3 & E3 & E4 & ->). injection E4 as <- <-.
  destruct (q_as_calls _ _ _ _ E1) as (l & us' & R1 & _). cbn [q_start qw_objects] in R1.
  cbn [q_do] in E3. destruct (ga_do (qw_objects q0) (AStep a ms)) as [[w1 v]|] eqn:S; [|discriminate E3]. cbn [bind fst snd] in E3. injection E3 as <- <-.
  cbn [qw_objects] in X. apply ga_do_cases in S. destruct S as (y & y' & r & Y & S & -> & ->).
  apply the_ganim_nth in X. pose proof (set_own _ _ (Some y') _ Y) as X'. rewrite X' in X. injection X as ->. clear X'.
  cbn [q_do qw_objects] in P |- *.
  match type of P with context [the_ganim ?w a] =>
    assert (XG : the_ganim w a = Ok x) by exact (proj2 (the_ganim_nth _ _ _) (set_own _ _ (Some x) _ Y)) end. rewrite XG in P. cbn [bind] in P.
  enough (Ex : exists z, anim_extremes x (c1, c2, c3, c4) = Ok (map (fun c => mk4 (vx c) (vy c) z 1%R) [c1; c2; c3; c4])).
  { destruct Ex as (z & Ez). exists z. rewrite XG. cbn [bind]. rewrite Ez. reflexivity. }
  assert (P1 : anim_progress x = 1%R) by (injection P; auto). clear P.
  pose proof (all_run _ l zoom_extent_kept zoom_extent_new ga_start _ _ ltac:(intros [|]; discriminate) R1 _ _ Y) as Z. cbv beta in Z.
  destruct y as [y|y|y|y]; cbn [anim_step] in S.
  - destruct (bounce_step gcall ms y) as [y1 r1] eqn:B. injection S as <- <-. cbn [anim_progress] in P1. exists 0%R. cbn [anim_extremes bind map].
    assert (G : y1 = fold_left (bounce_do gcall) ([] ++ [BnStep ms]) y) by (cbn; rewrite B; reflexivity). rewrite G in *.
    rewrite !(proj1 (C39_bounce_ends_at_identity _ gcall y [] ms _) P1). reflexivity.
  - destruct (glide_step gcall ms y) as [y1 r1] eqn:B. injection S as <- <-. cbn [anim_progress] in P1. cbn [anim_extremes bind map].
    assert (G : y1 = fold_left (glide_do gcall) ([] ++ [GlStep ms]) y) by (cbn; rewrite B; reflexivity). rewrite G in *.
    destruct (C41_glide_ends_flat _ gcall y [] ms (Wd _ eq_refl) P1) as (z & Hz). exists z. rewrite !Hz. reflexivity.
  - destruct (zoom_step gcall ms y) as [y1 r1] eqn:B. injection S as <- <-. cbn [anim_progress] in P1. exists 0%R. cbn [anim_extremes bind map].
    assert (G : y1 = zoom_do gcall y (ZmStep ms)) by (cbn; rewrite B; reflexivity).
    assert (T : zm_transform y1 = zoom_transform 1%R (zm_from y1) (zm_to y1)) by (rewrite <- P1, G; apply zoom_step_transform).
    assert (To : zm_to y1 = zm_to y) by (rewrite G; apply (zoom_to_fixed gcall [ZmStep ms])). rewrite <- To in Z.
    assert (Id : forall c, zoom_extreme y1 c = mk4 (vx c) (vy c) 0%R 1%R).
    { intros [cx cy]. unfold zoom_extreme. rewrite T, zoom_point. cbv zeta. cbn [vx vy]. apply mk4_eq; try reflexivity; field; lra. }
    rewrite !Id. reflexivity.
  - destruct (lamp_step gcall ms y) as [[l1 r1]|]; [|discriminate S]. injection S as <- <-. exfalso. apply K. reflexivity.
Qed.
Print Assumptions C76_transform_objects_end_where_they_belong.

(** A magic lamp object shows every texture coordinate at its place of the
    target. *)
Theorem C76_lamp_objects_end_on_target :
  forall (ops : list (qop R R)) a ms q us cols rows t uv,
    q_run q_start (ops ++ [QCall (AStep a ms)]) = Ok (q, us) ->
    q_do q (QResolution a true) = Ok (q, QPoint (mkV (IZR cols) (IZR rows))) -> sensible (mkRes cols rows) ->
    q_do q (QGet a "target") = Ok (q, QValue (Some (VBox (Some t)))) ->
    (exists l, the_ganim (qw_objects q) a = Ok (ALamp l) /\ lamp_regular (ml_params l)) ->
    q_do q (QProgress a) = Ok (q, QNumber 1%R) -> in_square uv ->
    q_do q (QDeform a uv true) = Ok (q, QPoint (in_box t (vx uv) (vy uv))).
Proof.
  intros ops a ms q us cols rows t uv E Rs Sn T _ P U. apply q_app in E. destruct E as (q0 & us1 & us2 & E1 & E2 & -> & _).
  apply q_cons in E2. destruct E2 as (q1 & u & us3 & E3 & E4 & ->). injection E4 as <- <-.
  destruct (q_as_calls _ _ _ _ E1) as (l & us' & R1 & _). cbn [q_start qw_objects] in R1.
  cbn [q_do] in E3. destruct (ga_do (qw_objects q0) (AStep a ms)) as [[w1 v]|] eqn:S; [|discriminate E3]. cbn [bind fst snd] in E3. injection E3 as <- <-.
  apply ga_do_cases in S. destruct S as (y & x & r & Y & S & -> & ->).
  pose proof (all_run _ l kept_full new_full ga_start _ _ ltac:(intros [|]; discriminate) R1 _ _ Y) as Z.
  cbn [q_do qw_objects] in Rs, T, P |- *.
  match type of P with context [the_ganim ?w a] =>
    assert (XG : the_ganim w a = Ok x) by exact (proj2 (the_ganim_nth _ _ _) (set_own _ _ (Some x) _ Y)) end. rewrite XG in Rs, T, P |- *. cbn [bind] in Rs, T, P |- *.
  assert (P1 : anim_progress x = 1%R) by (injection P; auto). clear P.
  destruct y as [y|y|y|y]; cbn [anim_step] in S;
    [destruct (bounce_step gcall ms y); injection S as <- <-; discriminate Rs|destruct (glide_step gcall ms y); injection S as <- <-; discriminate Rs
    |destruct (zoom_step gcall ms y); injection S as <- <-; discriminate Rs|].
  destruct (lamp_step gcall ms y) as [[l1 r1]|] eqn:B; [|discriminate S]. injection S as <- <-.
  cbn [anim_resolution bind] in Rs. assert (Rq : ml_res l1 = mkRes cols rows).
  { destruct (ml_res l1) as [c0 r0]. injection Rs as Q1 Q2. apply eq_IZR in Q1, Q2. subst. reflexivity. }
  cbn [lamp_full] in Z. assert (Ry : ml_res y = ml_res l1).
  { unfold lamp_step in B. destruct (gcall _ ms). destruct (move_grid _ _ _ _); [|discriminate B]. injection B as <- <-. reflexivity. }
  pose proof (sensible_fits _ Sn) as Fi. rewrite <- Rq, <- Ry in Fi.
  pose proof (lamp_step_full gcall ms y Fi (Z Fi)) as B2. cbv zeta in B2. rewrite B2 in B. injection B as <- _.
  cbn [anim_progress ml_progress ml_res ml_params] in *. cbn [anim_deform]. unfold lamp_deform. cbn [ml_res ml_grid]. rewrite P1.
  assert (Tq : lp_target (ml_params y) = t) by (injection T; auto).
  rewrite lamp_at_end; [|rewrite Rq; exact Sn|exact U]. rewrite Tq. reflexivity.
Qed.
Print Assumptions C76_lamp_objects_end_on_target.

(** Not so, in machine arithmetic, with the largest stretch factor the property
    accepts: the bottom edge of this lamp object ends nowhere. *)
Theorem C76_full_stretch_refuted :
  forall (LF : Libm f32) (LD : Libm f64), exists q us p,
    q_run (F := f32) (D := f64) q_start
      [QCall (ANew (GLamp (Some (mkB (mkV (nof 100) (nof 200)) (mkV (nof 200) (nof 300)))) (Some (mkB (mkV (nof 0) (nof 0)) (mkV (nof 30) (nof 30))))
         (Some (mkV (nof 2) (nof 2))) None None (Some (nof 1)) None None));
       QCall (AStep 0 300); QProgress 0; QDeform 0 (mkV (nof 0) (nof 1)) true] = Ok (q, us) /\
    (exists x, nth_error us 2 = Some (QNumber x) /\ is_finite x = true /\ B2R x = 1%R) /\
    nth_error us 3 = Some (QPoint p) /\ vy p = B754_nan.
Proof.
  intros LF LD.
  match goal with |- exists q us p, ?r = Ok (q, us) /\ _ =>
    assert (E : match r with
                | Ok (_, [_; _; QNumber x; QPoint p]) => is_finite x && (Beqb x (nof 1) && is_nan (vy p))
                | _ => false end = true) by (vm_compute; reflexivity); revert E; generalize r end.
  intros r E. destruct r as [[q us]|]; [|discriminate E].
  destruct us as [|u0 [|u1 [|u2 [|u3 us]]]]; try discriminate E; try (destruct u2; discriminate E).
  destruct u2 as [| | |x| | |]; try discriminate E. destruct u3 as [| | | | |p|]; try discriminate E. destruct us; [|discriminate E].
  apply andb_prop in E. destruct E as (E1 & E2). apply andb_prop in E2. destruct E2 as (E2 & E3).
  rewrite Beqb_correct in E2 by (exact E1 || reflexivity). revert E2. case Req_bool_spec; intros E2 K; [|discriminate K].
  exists q, [u0; u1; QNumber x; QPoint p], p. split; [reflexivity|]. split; [exists x; split; [reflexivity|split; [exact E1|rewrite E2; exact one32_R]]|].
  split; [reflexivity|]. destruct (vy p); try discriminate E3. reflexivity.
Qed.
Print Assumptions C76_full_stretch_refuted.

(** Objects of a 300 ms default stepper, stepped once to the end. *)
Example C76_case_ends : exists q us x,
  q_run (F := R) (D := R) q_start ([QCall (ANew (GZoom (Some (mkB (mkV 1 2) (mkV 3 5)))%R None None)); QGet 0 "stepper"] ++ [QCall (AStep 0 300)]) = Ok (q, us) /\
  the_ganim (qw_objects q) 0 = Ok x /\ class_of x <> CLamp /\ (forall y, x = AGlide y -> (0 < gl_width y)%Z) /\ q_do q (QProgress 0) = Ok (q, QNumber 1%R).
Proof.
  cbn [q_run q_do ga_do qw_objects q_start app]. rewrite anim_object_eq.
  cbn [args_of stepper_arg stepper_of bind anim_new ga_anims ga_start app fst snd length the_ganim nth_error qw_objects qw_views].
  unfold set_again, zoom_new. cbn -[Rmin Rmax IZR clamp_progress zoom_step zoom_transform m_entries].
  unfold zoom_step. cbn -[Rmin Rmax IZR clamp_progress zoom_transform m_entries].
  do 3 eexists. split; [reflexivity|]. cbn -[Rmin Rmax IZR clamp_progress zoom_transform m_entries]. split; [reflexivity|]. split; [discriminate|]. split; [intros y E; discriminate E|].
  cbn [anim_progress zm_progress]. rewrite clamp_R. rewrite Rmax_right, Rmin_left by lra. reflexivity.
Qed.

Example C76_case_lamp_end : exists q us,
  let t := mkB (mkV 5%R 6%R) (mkV 7%R 9%R) in
  q_run (F := R) (D := R) q_start ([QCall (ANew (GLamp (F := R) None (Some t) None None None None None None))] ++ [QCall (AStep 0 300)]) = Ok (q, us) /\
  q_do q (QResolution 0 true) = Ok (q, QPoint (mkV 10 10)%R) /\ sensible (mkRes 10 10) /\
  q_do q (QGet 0 "target") = Ok (q, QValue (Some (VBox (Some t)))) /\
  (exists l, the_ganim (qw_objects q) 0 = Ok (ALamp l) /\ lamp_regular (ml_params l)) /\
  q_do q (QProgress 0) = Ok (q, QNumber 1%R).
Proof.
  destruct (careful_run_ok (F := R) (D := R) ([] ++ ANew (GLamp None (Some (mkB (mkV 5%R 6%R) (mkV 7%R 9%R))) None None None None None None) ::
      [AStep 0 300]) ga_start aclient_start arel_start start_steppable)
      as (w & us & E).
  - cbn. unfold present; cbn; auto 20.
  - apply Forall_cons; [|apply Forall_cons; [exact I|apply Forall_nil]]. cbn [good_resolution]. exists 10%Z, 10%Z. cbn [vx vy].
    cbn [nof ntrunc Num_R]. rewrite (Ztrunc_IZR 10). do 2 (split; [reflexivity|]). lia.
  - pose proof (arel_run _ _ _ _ _ arel_start E) as Ar.
    destruct (there w _ 0 Ar) as (x & X); [reflexivity|].
    assert (N : nth_error us 0 = Some (RAnim 0)).
    { cbn [app] in E. apply run_cons in E. destruct E as (w1 & u & us' & E1 & _ & ->).
      apply ga_do_cases in E1. destruct E1 as (y & _ & -> & _). reflexivity. }
    destruct (C76_lamp_is_native R R _ _ _ _ _ [] _ _ _ _ _ _ _ _ _ _ _ _ x E N) as (s & cols & rows & l0 & l & (w0 & us0 & _ & ->) & C1 & C2 & L0 & L1 & ->); [repeat constructor|exact X|].
    cbn [given vx vy nof ntrunc Num_R] in C1, C2. rewrite (Ztrunc_IZR 10) in C1, C2. injection C1 as <-. injection C2 as <-.
    cbn [lamp_calls Nat.eqb app] in L1. cbn [lamp_run lamp_do bind] in L1. unfold lamp_step in L1. cbn [ml_stepper ml_params ml_res ml_grid] in L1.
    unfold lamp_new in L0. 
    destruct (gcall _ 0) as [p0 s0] in L0. destruct (move_grid _ _ p0 _) as [g0|] eqn:G0 in L0; [|discriminate L0]. cbn [bind] in L0. injection L0 as <-.
    cbn [ml_stepper ml_params ml_res ml_grid] in L1.
    destruct (gcall _ 300) as [p1 s1] eqn:S1 in L1. cbn in S1. 
    destruct (move_grid _ _ _ _) as [g1|] in L1; [|discriminate L1]. cbn [bind fst] in L1. injection L1 as <-.
    exists (mkQW w []), (map QOut us). cbv zeta. split.
    { cbn [app q_run q_do qw_objects q_start] in E |- *. apply run_cons in E. destruct E as (w1 & u & us' & E1 & E2 & ->).
      apply run_cons in E2. destruct E2 as (w2 & u2 & us2 & E2 & E3 & ->). injection E3 as <- <-.
      rewrite E1. cbn [bind fst snd qw_objects qw_views]. rewrite E2. reflexivity. }
    cbn [q_do qw_objects]. rewrite X. cbn -[IZR Rmin Rmax clamp_progress].
    split; [reflexivity|]. split; [unfold sensible; cbn; lia|]. split; [reflexivity|].
    split; [eexists; split; [reflexivity|]; unfold lamp_regular; cbn; repeat split; lra|].
    injection S1 as <- <-.
    rewrite clamp_R, Rmax_right, Rmin_left by lra. reflexivity.
Qed.

(** The resolution of a lamp object never changes. *)
Theorem C76_lamp_resolution_fixed :
  forall (F D : Type) (NF : Num F) (ND : Num D) (C : Conv F D) (LF : Libm F) (LD : Libm D)
         (before after : list (gaop F D)) f t r b o st sp stp w us a l cols rows,
    ga_run ga_start (before ++ ANew (GLamp f t r b o st sp stp) :: after) = Ok (w, us) -> nth_error us (length before) = Some (RAnim a) ->
    ntrunc (vx (given (mkV (nof 10) (nof 10)) r)) = Some cols -> ntrunc (vy (given (mkV (nof 10) (nof 10)) r)) = Some rows ->
    the_ganim w a = Ok (ALamp l) -> ml_res l = mkRes cols rows.
Proof.
  intros F D NF ND C LF LD before after f t r b o st sp stp w us a l cols rows E N C1 C2 X. apply the_ganim_nth in X.
  apply run_app in E. destruct E as (w0 & us1 & us2 & E1 & E2 & -> & L).
  apply run_cons in E2. destruct E2 as (w1 & u & us3 & E3 & E4 & ->). pose proof (ga_do_cases _ _ _ _ E3) as Cs. cbn in Cs.
  destruct Cs as (x0 & O & -> & ->). rewrite nth_error_app2, L, Nat.sub_diag in N by lia. injection N as <-.
  assert (S : lamp_shape (mkRes cols rows) x0).
  { rewrite anim_object_eq in O. cbn [args_of stepper_arg] in O. cbv zeta in O.
    change (match r with Some p => p | None => mkV (nof 10) (nof 10) end) with (given (mkV (nof 10) (nof 10)) r) in O.
    unfold to_size in O. rewrite C1, C2 in O. destruct (_ && _) in O; [|discriminate O]. cbn [bind] in O. destruct (_ && _) in O; [|discriminate O].
    cbn [bind] in O. destruct (stepper_of w0 stp); [|discriminate O]. cbn [bind anim_new] in O. unfold lamp_new in O. destruct (gcall _ 0).
    destruct (move_grid _ _ _ _); [|discriminate O]. cbn [bind] in O. injection O as <-. reflexivity. }
  refine (kept_run (lamp_shape (mkRes cols rows)) (length (ga_anims w0)) after (kept_shape _) _ _ _ x0 (ALamp l) E4 _ S X).
  cbn [ga_anims]. rewrite nth_error_app2, Nat.sub_diag by lia. reflexivity.
Qed.
Print Assumptions C76_lamp_resolution_fixed.

(** ** C71: what is given once *)

(** In every arithmetic: whatever is called afterwards, the surface an animation
    object ends on is the one it was made with. *)
Theorem C71_target_is_given_once :
  forall (F D : Type) (NF : Num F) (ND : Num D) (C : Conv F D) (LF : Libm F) (LD : Libm D)
         (before after : list (gaop F D)) g w us a x name,
    ga_run ga_start (before ++ ANew g :: after) = Ok (w, us) -> nth_error us (length before) = Some (RAnim a) ->
    the_ganim w a = Ok x -> (name = "target" \/ name = "to")%string ->
    class_of x = gargs_class g /\ read_box name x = given_box g name.
Proof.
  intros F D NF ND C LF LD before after g w us a x name E N X Nm. apply the_ganim_nth in X.
  apply run_app in E. destruct E as (w0 & us1 & us2 & E1 & E2 & -> & L).
  apply run_cons in E2. destruct E2 as (w1 & u & us3 & E3 & E4 & ->). pose proof (ga_do_cases _ _ _ _ E3) as Cs. cbn in Cs.
  destruct Cs as (x0 & O & -> & ->). rewrite nth_error_app2, L, Nat.sub_diag in N by lia. injection N as <-.
  assert (N0 : nth_error (ga_anims w0 ++ [Some x0]) (length (ga_anims w0)) = Some (Some x0)) by (rewrite nth_error_app2, Nat.sub_diag by lia; reflexivity).
  apply object_reads in O. destruct O as (_ & _ & B & K & _). rewrite <- (B name), <- K.
  assert (K' : class_of x = class_of x0) by (exact (kept_run _ _ _ (kept_class (class_of x0)) _ _ _ _ _ E4 N0 eq_refl X)).
  split; [exact K'|]. clear B K.
  assert (H : forall r, fixed_box r x0 -> fixed_box r x) by (intros r R0; exact (kept_run _ _ _ (kept_fixed r) _ _ _ _ _ E4 N0 R0 X)).
  destruct x0 as [y|y|y|y], x as [z|z|z|z]; try discriminate K'; destruct Nm as [-> | ->]; try reflexivity;
  specialize (H _ eq_refl); cbn [fixed_box] in H; cbn; congruence.
Qed.
Print Assumptions C71_target_is_given_once.

Example C71_case_target : exists w us x,
  ga_run (F := R) (D := R) ga_start ([ANewLinear (Some 5%Z)] ++ ANew (GZoom None None (Some 0)) :: [AStep 0 3; ASet 0 "to" (VBox (Some (mkB (mkV 1%R 1%R) (mkV 9%R 9%R))))]) = Ok (w, us) /\
  nth_error us 1 = Some (RAnim 0) /\ the_ganim w 0 = Ok x.
Proof.
  cbn [ga_run ga_do app]. rewrite linear_object_ok. cbn [bind add_stepper]. rewrite anim_object_eq. eexists _, _, _. split; [reflexivity|]. split; reflexivity.
Qed.

(** No query of a lamp object in the unit square reads outside its vertices, in
    double precision too. *)
Theorem C76_lamp_queries_in_bounds :
  forall (LF : Libm f32) (LD : Libm f64) (ops : list (qop f32 f64)) q us a l (uv : vec f64),
    q_run q_start ops = Ok (q, us) -> the_ganim (qw_objects q) a = Ok (ALamp l) ->
    sensible (ml_res l) -> (rw (ml_res l) <= 2 ^ 53)%Z -> (rh (ml_res l) <= 2 ^ 53)%Z ->
    is_finite (vx uv) = true -> is_finite (vy uv) = true -> (0 <= B2R (vx uv) <= 1)%R -> (0 <= B2R (vy uv) <= 1)%R ->
    exists p, q_do q (QDeform a uv true) = Ok (q, QPoint p).
Proof.
  intros LF LD ops q us a l uv E X S W Hh F1 F2 U1 U2. destruct (q_as_calls _ _ _ _ E) as (c & us' & R1 & _). cbn [q_start qw_objects] in R1.
  pose proof X as X'. apply the_ganim_nth in X'.
  pose proof (all_run _ c kept_full new_full ga_start _ _ ltac:(intros [|]; discriminate) R1 _ _ X' (sensible_fits _ S)) as G.
  destruct (interpolate_f64 uv _ _ S W Hh G F1 F2 U1 U2) as (p & I). exists p. cbn [q_do]. rewrite X. cbn [bind anim_deform]. unfold lamp_deform. rewrite I. reflexivity.
Qed.
Print Assumptions C76_lamp_queries_in_bounds.

(** ** C77: [g_object_get] *)

(** In every arithmetic: every property declared readable other than "stepper" has a
    value, and it is the one the getter function returns. *)
Theorem C77_get_is_the_getter :
  forall (F D : Type) (NF : Num F) (ND : Num D) (C : Conv F D) (LF : Libm F) (LD : Libm D) (q : qworld F D) a x name,
    the_ganim (qw_objects q) a = Ok x -> declared_readable (class_of x) name ->
    exists v, q_do q (QGet a name) = Ok (q, QValue (Some v)) /\
      match v with
      | VFloat f => read_float name x = Some f
      | VUint n => read_uint name x = Some n
      | VBox (Some b) => read_box name x = Some b
      | _ => False
      end.
Proof.
  intros F D NF ND C LF LD [w vs] a x name X Dr. destruct (declared_listed _ _ Dr) as [I N]. cbn [q_do qw_objects] in *. rewrite X. cbn [bind]. unfold get_property.
  replace (existsb (String.eqb name) (readable (class_of x))) with true.
  2:{ symmetry. apply existsb_exists. exists name. split; [exact I|apply String.eqb_refl]. }
  rewrite (proj2 (String.eqb_neq _ _) N). cbn [fst snd qw_views].
  destruct x as [x|x|x|x]; cbn in I; repeat (destruct I as [<-|I]; [eexists; split; [reflexivity|reflexivity]|]); destruct I as [<-|[]]; congruence.
Qed.
Print Assumptions C77_get_is_the_getter.

(** Setting a readable number in its documented range and getting it returns the
    number. *)
Theorem C77_set_then_get :
  forall (F D : Type) (NF : Num F) (ND : Num D) (C : Conv F D) (LF : Libm F) (LD : Libm D) (q : qworld F D) a x name (lo hi v : F),
    the_ganim (qw_objects q) a = Ok x -> documented (class_of x) name = Some (lo, hi) -> declared_readable (class_of x) name ->
    nleb lo v = true -> nleb v hi = true ->
    exists q', q_run q [QCall (ASet a name (VFloat v)); QGet a name] = Ok (q', [QOut RNone; QValue (Some (VFloat v))]).
Proof.
  intros F D NF ND C LF LD [w vs] a x name lo hi v X DN Dr L Hh. destruct (declared_listed _ _ Dr) as [I N]. clear Dr N. cbn [qw_objects] in X. cbn [q_run q_do ga_do qw_objects]. rewrite X. cbn [bind].
  assert (A : object_set w name (VFloat v) x = Ok (set_float name v x)).
  { unfold object_set. replace (existsb (String.eqb name) (settable (class_of x))) with true.
    - replace (valid (class_of x) name (VFloat v)) with true; [reflexivity|]. symmetry.
      destruct (class_of x); cbn [documented] in DN; cbn [valid]; unfold float_ok; rewrite ?eqb_dec;
      repeat (match goal with Hd : context [if string_dec name ?m then _ else _] |- _ => destruct (string_dec name m) end);
      try discriminate DN; injection DN as <- <-; rewrite L, Hh; reflexivity.
    - symmetry. destruct (class_of x); cbn in I; cbn [documented] in DN; cbn [settable existsb];
      repeat (match goal with Hd : context [if string_dec name ?m then _ else _] |- _ => destruct (string_dec name m) as [->|] end);
      try discriminate DN; try reflexivity; cbn in I; intuition discriminate. }
  rewrite A. cbn [bind fst snd qw_objects].
  assert (Y : the_ganim (set_ganim w a (Some (set_float name v x))) a = Ok (set_float name v x)).
  { apply the_ganim_nth. eapply set_own. apply the_ganim_nth. exact X. }
  assert (G : forall w', get_property w' a (set_float name v x) name = (w', QValue (Some (VFloat v)))).
  { intros w'. unfold get_property. replace (class_of (set_float name v x)) with (class_of x) by (symmetry; apply (kept_class (class_of x)); reflexivity).
    destruct (class_of x) eqn:K; destruct x; cbn in K; try discriminate K; cbn [documented] in DN;
      repeat (match goal with Hd : context [if string_dec name ?m then _ else _] |- _ => destruct (string_dec name m) as [->|] end);
      try discriminate DN; try reflexivity; cbn in I; intuition discriminate. }
  rewrite Y. cbn [bind]. rewrite G. eexists. reflexivity.
Qed.
Print Assumptions C77_set_then_get.

(** Three documented properties of the magic lamp cannot be read: "stepper" is
    declared readable but the class has no case for it, "stretch-factor" and
    "resolution" are write-only although getter functions exist. *)
Theorem C77_lamp_unreadable_refuted :
  forall (F D : Type) (NF : Num F) (ND : Num D) (C : Conv F D) (LF : Libm F) (LD : Libm D) (q : qworld F D) a l name,
    the_ganim (qw_objects q) a = Ok (ALamp l) -> In name ["stepper"; "stretch-factor"; "resolution"]%string ->
    q_do q (QGet a name) = Ok (q, QValue None).
Proof.
  intros F D NF ND C LF LD [w vs] a l name X I. cbn [q_do qw_objects] in *. rewrite X. cbn [bind].
  destruct I as [<-|[<-|[<-|[]]]]; reflexivity.
Qed.
Print Assumptions C77_lamp_unreadable_refuted.

Example C77_case :
  documented (F := R) CLamp "bend-factor" = Some (1%R, 20%R) /\ declared_readable CLamp "bend-factor" /\
  nleb 1%R 3%R = true /\ nleb 3%R 20%R = true /\
  exists w us l, ga_run (F := R) (D := R) ga_start [ANew (GLamp None None (Some (mkV 4%R 5%R)) (Some 3%R) None None None None)] = Ok (w, us) /\
    the_ganim w 0 = Ok (ALamp l).
Proof.
  split; [reflexivity|]. split; [cbn; auto|]. split; [unfold nleb; cbn; unfold Rleb; destruct (Rle_dec 1 3); [reflexivity|lra]|].
  split; [unfold nleb; cbn; unfold Rleb; destruct (Rle_dec 3 20); [reflexivity|lra]|].
  destruct (careful_run_ok (F := R) (D := R) [ANew (GLamp None None (Some (mkV 4%R 5%R)) (Some 3%R) None None None None)] ga_start aclient_start arel_start start_steppable)
    as (w & us & E).
  - cbn. auto.
  - repeat constructor. exists 4%Z, 5%Z. cbn. rewrite (Ztrunc_IZR 4), (Ztrunc_IZR 5). repeat split; lia.
  - pose proof E as E0. cbn [ga_run ga_do] in E. destruct (anim_object ga_start _) as [x|] eqn:O; [|discriminate E]. cbn [bind fst snd] in E. injection E as <- <-.
    pose proof (object_reads _ _ _ O) as (_ & _ & _ & K & _). destruct x as [x|x|x|x]; try discriminate K.
    eexists _, _, x. split; [exact E0|]. reflexivity.
Qed.
