(** * Texture coordinates anywhere (C44), and C12 and C68 in the arithmetic of
      the code *)

From Coq Require Import ZArith Reals Bool List Lia Lra.
From Flocq Require Import Core IEEE754.BinarySingleNaN.
From Verif Require Import Num Geometry Outcome Steppers Transforms MagicLamp Program SpecAnim GlibAnim Wobbly Spec Cases
  LemReal LemBasic LemDouble LemSteppers LemTransforms LemLamp LemEdge LemGlibAnim LemFinal LemZoom32 SpecGlibAnim PropLamp PropFinal PropPixel SpecDouble SpecFinal SpecPixel.
Import ListNotations.
Local Open Scope Z_scope.

(** ** C44, completely: which coordinates are safe

    For any grid below 2^31 by 2^31 and any coordinates whose whole cell numbers
    [l] and [t] (truncated towards zero, in whatever arithmetic) are below 2^31:
    negative numbers are an invalid conversion; otherwise the four reads exist
    exactly if the cell is in a row of the grid and its lower left vertex, counted
    through the rows, is in the grid; otherwise the reads leave the grid. *)
Theorem C44_exactly :
  forall (F D : Type) (NF : Num F) (ND : Num D) (C : Conv F D) (L : Libm D) (St : Type) (a : lamp F D St) (uv : vec D) (l t : Z),
    let w := rw (ml_res a) in let h := rh (ml_res a) in
    1 <= w < 2 ^ 31 -> 1 <= h < 2 ^ 31 -> length (ml_grid a) = Z.to_nat (w * h) ->
    ntrunc (nmul (vx uv) (nof (w - 1))) = Some l -> ntrunc (nmul (vy uv) (nof (h - 1))) = Some t -> l < 2 ^ 31 -> t < 2 ^ 31 ->
    (l < 0 \/ t < 0 -> lamp_deform a uv = Err BadCast) /\
    (0 <= l -> 0 <= t -> t < h /\ l + Z.min (h - 1) (t + 1) * w < w * h -> exists p, lamp_deform a uv = Ok p) /\
    (0 <= l -> 0 <= t -> ~ (t < h /\ l + Z.min (h - 1) (t + 1) * w < w * h) -> lamp_deform a uv = Err OutOfBounds).
Proof.
  intros F D NF ND C L St a uv l t w h W Hh G El Et Bl Bt.
  destruct (interpolate_exactly (F := F) uv (ml_res a) (ml_grid a) l t W Hh G El Et Bl Bt) as (A & B & E).
  assert (X : l + Z.min (h - 1) (t + 1) * w < w * h <-> l < w * (h - Z.min (h - 1) (t + 1))) by nia.
  split; [exact A|]. split; intros Pl Pt K; [apply B|apply E]; auto; fold w h; tauto.
Qed.
Print Assumptions C44_exactly.

(** In real numbers: with [x] columns and [y] rows from the top left corner. *)
Theorem C44_exactly_real :
  forall (St : Type) (a : lamp R R St) (uv : vec R),
    let w := rw (ml_res a) in let h := rh (ml_res a) in
    let x := (vx uv * IZR (w - 1))%R in let y := (vy uv * IZR (h - 1))%R in
    1 <= w < 2 ^ 31 -> 1 <= h < 2 ^ 31 -> length (ml_grid a) = Z.to_nat (w * h) -> (x < IZR (2 ^ 31))%R -> (y < IZR (2 ^ 31))%R ->
    (lamp_deform a uv = Err BadCast <-> (x <= -1 \/ y <= -1)%R) /\
    ((exists p, lamp_deform a uv = Ok p) <->
     (-1 < x)%R /\ (-1 < y)%R /\
     ((IZR (h - 1) <= y < IZR h /\ x < IZR w)%R \/ (y < IZR (h - 1) /\ x < IZR (w * (h - 1 - Ztrunc y)))%R)).
Proof.
  intros St a uv w h x y W Hh G Bx By.
  assert (Tx : Ztrunc x < 2 ^ 31) by (apply trunc_lt; auto; lia). assert (Ty : Ztrunc y < 2 ^ 31) by (apply trunc_lt; auto; lia).
  destruct (C44_exactly R R Num_R Num_R Conv_R Libm_R St a uv (Ztrunc x) (Ztrunc y) W Hh G eq_refl eq_refl Tx Ty) as (A & B & E). fold w h in A, B, E.
  pose proof (trunc_neg x) as Nx. pose proof (trunc_neg y) as Ny.
  assert (Q : 0 <= Ztrunc y -> (Ztrunc y < h /\ Ztrunc x + Z.min (h - 1) (Ztrunc y + 1) * w < w * h <->
    (IZR (h - 1) <= y < IZR h /\ x < IZR w)%R \/ (y < IZR (h - 1) /\ x < IZR (w * (h - 1 - Ztrunc y)))%R)).
  { intros Py. destruct (Z.lt_ge_cases (Ztrunc y) (h - 1)) as [T|T].
    - assert (Yh : (y < IZR (h - 1))%R) by (apply trunc_lt; lia). rewrite Z.min_r by lia.
      assert (N : 0 < w * (h - 1 - Ztrunc y)) by nia. pose proof (trunc_lt x _ N) as [K1 K2]. split.
      + intros (_ & K). right. split; [exact Yh|]. apply K1. lia.
      + intros [((K & _) & _)|(_ & K)]; [lra|]. split; [lia|]. apply K2 in K. lia.
    - assert (Yh : (IZR (h - 1) <= y)%R).
      { destruct (Rle_or_lt (IZR (h - 1)) y) as [|K]; auto. exfalso.
        destruct (Z.eq_dec h 1) as [->|N1]; [|apply trunc_lt in K; lia].
        assert (0 <= Ztrunc y) by lia. cbn in K. destruct (Req_dec y 0); [lra|].
        assert (y = 0)%R by (unfold y; cbn [Z.sub Z.opp Z.add Z.pos_sub IZR]; lra). lra. }
      rewrite Z.min_l by lia. pose proof (trunc_lt y h ltac:(lia)) as [K1 K2]. pose proof (trunc_lt x w ltac:(lia)) as [K3 K4]. split.
      + intros (K & K'). left. split; [split; [exact Yh|apply K1, K]|]. apply K3. nia.
      + intros [((_ & K) & K')|(K & _)]; [|lra]. apply K2 in K. apply K4 in K'. split; [lia|nia]. }
  destruct (Z.lt_ge_cases (Ztrunc x) 0) as [X|X].
  { rewrite (A (or_introl X)). assert (x <= -1)%R by (apply Nx, X). split; [tauto|]. split; [intros (p & K); discriminate K|lra]. }
  destruct (Z.lt_ge_cases (Ztrunc y) 0) as [Y|Y].
  { rewrite (A (or_intror Y)). assert (y <= -1)%R by (apply Ny, Y). split; [tauto|]. split; [intros (p & K); discriminate K|lra]. }
  assert (X' : ~ (x <= -1)%R) by (intros K; apply Nx in K; lia). assert (Y' : ~ (y <= -1)%R) by (intros K; apply Ny in K; lia).
  specialize (Q Y).
  destruct (Z_lt_dec (Ztrunc y) h) as [T|T]; [destruct (Z_lt_dec (Ztrunc x + Z.min (h - 1) (Ztrunc y + 1) * w) (w * h)) as [S|S]|].
  - destruct (B X Y (conj T S)) as (p & K). rewrite K. split; [split; [discriminate|lra]|]. split; [intros _|intros _; exists p; reflexivity].
    split; [lra|]. split; [lra|]. apply Q. auto.
  - rewrite (E X Y) by tauto. split; [split; [discriminate|lra]|]. split; [intros (p & K); discriminate K|]. intros (_ & _ & K). apply Q in K. lia.
  - rewrite (E X Y) by tauto. split; [split; [discriminate|lra]|]. split; [intros (p & K); discriminate K|]. intros (_ & _ & K). apply Q in K. lia.
Qed.
Print Assumptions C44_exactly_real.

(** A new lamp of 4 by 3 vertices: two columns right of the grid in the first row
    all reads exist (they are in later rows), nine columns right they do not. *)
Example C44_exactly_case :
  forall q, exists a, lamp_new constant q (mkRes 4 3) 0%R = Ok a /\ length (ml_grid a) = Z.to_nat (4 * 3) /\
    (exists p, lamp_deform a (mkV (5 / 3) 0)%R = Ok p) /\ lamp_deform a (mkV 4 0)%R = Err OutOfBounds.
Proof.
  intros q. destruct (C45_same_resolution R R _ _ _ _ R constant q (mkRes 4 3) 0%R []) as (a & a' & E & E' & R1 & G); try (cbn; lia); [constructor|].
  injection E' as <-. exists a. split; [exact E|]. split; [exact G|].
  destruct (C44_exactly_real R a (mkV (5 / 3) 0)%R) as (_ & K); rewrite ?R1; cbn [rw rh vx vy]; try lia; try (cbn; lra); auto.
  destruct (C44_exactly R R Num_R Num_R Conv_R Libm_R R a (mkV 4 0)%R 12 0) as (_ & _ & K'); rewrite ?R1; cbn [rw rh vx vy]; try lia; auto.
  { cbn [ntrunc nmul nof Num_R]. f_equal. rewrite <- mult_IZR. apply Ztrunc_IZR. }
  { cbn [ntrunc nmul nof Num_R]. f_equal. rewrite Rmult_0_l. apply Ztrunc_IZR. }
  split.
  - apply K. rewrite R1. cbn [rw rh vx vy]. replace (0 * IZR (3 - 1))%R with 0%R by lra. rewrite Ztrunc_IZR. cbn. lra.
  - apply K'; rewrite ?R1; cbn; lia.
Qed.

(** ** C12 in [double]: a model at rest that is moved from x = 1.7 to x = 0.6 stays
    beside it *)
Theorem C12_at_rest_double_refuted :
  exists (p q t : vec f64) (m m1 m2 : model f64) (u : out),
    reached p (nof 90) (nof 90) usual [] m /\ step_op 10 m (OpMoveTo q) = Ok (m1, u) /\
    run 10 m1 [OpStep 16] = Ok (m2, [OMore false]) /\
    nth_error (mpos m2) 0 = Some t /\ neqb (vx t) (vx t) = true /\ neqb (vx t) (vx q) = false.
Proof.
  set (p := mkV (ndiv (nof 17) (nof 10) : f64) (nof 0 : f64)). set (q := mkV (ndiv (nof 6) (nof 10) : f64) (nof 0 : f64)).
  set (m := model_init p (nof 90) (nof 90) usual 0).
  assert (C : match step_op 10 m (OpMoveTo q) with
              | Ok (m1, u) => match run 10 m1 [OpStep 16] with
                              | Ok (m2, [OMore false]) => match nth_error (mpos m2) 0 with Some t => neqb (vx t) (vx t) && negb (neqb (vx t) (vx q)) | None => false end
                              | _ => false end
              | Err _ => false end = true) by (vm_compute; reflexivity).
  destruct (step_op 10 m (OpMoveTo q)) as [[m1 u]|e] eqn:E; [|discriminate C].
  destruct (run 10 m1 [OpStep 16]) as [[m2 us]|e] eqn:E'; [|discriminate C].
  destruct us as [|x us]; [discriminate C|]. destruct x as [|n|x]; [discriminate C|discriminate C|]. destruct x; [discriminate C|]. destruct us; [|discriminate C].
  destruct (nth_error (mpos m2) 0) as [t|] eqn:N; [|discriminate C].
  apply andb_prop in C. destruct C as (C1 & C2). apply negb_true_iff in C2.
  exists p, q, t, m, m1, m2, u. split; [exists 10%nat, 0%Z, []; reflexivity|]. auto.
Qed.
Print Assumptions C12_at_rest_double_refuted.

(** ** C68 in [float] and [double]

    A zoom object with an empty 'from' box draws every point of a surface of at
    least one pixel within 2^(k-19) of one place at progress 0. *)
Theorem C68_empty_from_collapses_float_refuted :
  forall (L1 : Libm f32) (L2 : Libm f64) (w w1 w2 : gaworld f32 f64) (b : box f64) (t : option (box f64)) (s : option nat) a ms o z (k : Z),
    ga_do w (ANew (GZoom (F := f32) (Some b) t s)) = Ok (w1, RAnim a) -> b_tl b = b_br b ->
    ga_do w1 (AStep a ms) = Ok (w2, o) -> the_ganim w2 a = Ok (AZoom z) -> B2R (zm_progress z) = 0%R ->
    0 <= k <= 100 -> box_within k b -> box_within k (zm_to z) -> of_some_size (real_box (zm_to z)) ->
    forall (p : vec f64) (u v : R), lies_at p (real_box (zm_to z)) u v ->
      drawn_near (bpow radix2 (k - 19)) (zoom_extreme z p)
        (B2R (vx (b_tl b)) - B2R (vx (b_tl (zm_to z)))) (B2R (vy (b_tl b)) - B2R (vy (b_tl (zm_to z)))).
Proof.
  intros L1 L2 w w1 w2 b t s a ms o z k E B S Z P Hk Wb Wt Sz p u v At.
  pose proof (ga_do_cases _ _ _ _ E) as (x & X & A & ->). injection A as ->. rewrite anim_object_eq in X. cbn [args_of stepper_arg] in X.
  destruct (stepper_of w s) as [st|]; [|discriminate X]. cbn [bind anim_new] in X. injection X as <-.
  apply ga_do_cases in S. destruct S as (y & y' & r & Y & S & _ & ->).
  cbn [ga_anims] in Y. rewrite nth_error_app2, Nat.sub_diag in Y by lia. injection Y as <-.
  apply the_ganim_nth in Z. cbn [set_ganim ga_anims] in Z. rewrite nth_error_list_set_eq in Z by (rewrite app_length; cbn; lia). injection Z as ->.
  assert (ZE : z = fold_left (zoom_do gcall) ([ZmSetFrom b; ZmSetStepper st] ++ [ZmStep ms]) (zoom_new gcall b (box_or_unit t) st)).
  { unfold set_again in S. 
    match type of S with anim_step gcall ms ?y = _ =>
      change y with (AZoom (F := f32) (fold_left (zoom_do gcall) [ZmSetFrom b; ZmSetStepper st] (zoom_new gcall b (box_or_unit t) st))) in S end.
    cbn [anim_step] in S. rewrite fold_left_app.
    set (z0 := fold_left (zoom_do gcall) [ZmSetFrom b; ZmSetStepper st] (zoom_new gcall b (box_or_unit t) st)) in *.
    cbn [fold_left zoom_do]. destruct (zoom_step gcall ms z0) as [z1 r1]. injection S as <- _. reflexivity. }
  assert (FB : zm_from z = b).
  { rewrite ZE. cbn [app fold_left zoom_do]. unfold zoom_step. cbn [zm_stepper]. destruct (gcall st ms). reflexivity. }
  pose proof (C37_zoom_near_float L1 L2 _ gcall (zoom_new gcall b (box_or_unit t) st) [ZmSetFrom b; ZmSetStepper st] ms k p u v) as K. cbv zeta in K.
  rewrite <- ZE, FB in K. destruct (K Hk Wb Wt Sz At) as (_ & _ & D). rewrite P in D. unfold between, in_box, real_box in D. cbn [b_tl b_br vx vy] in D.
  rewrite <- B in D. unfold real_point in D. cbn [vx vy] in D.
  match type of D with drawn_near _ _ ?x ?y =>
    replace x with (B2R (vx (b_tl b)) - B2R (vx (b_tl (zm_to z))))%R in D by lra;
    replace y with (B2R (vy (b_tl b)) - B2R (vy (b_tl (zm_to z))))%R in D by lra end.
  exact D.
Qed.
Print Assumptions C68_empty_from_collapses_float_refuted.

Lemma eqb_zero (x : f32) : match x with B754_zero _ => true | _ => false end = true -> B2R x = 0%R.
Proof. destruct x; try discriminate. reflexivity. Qed.

(** An object with the empty box at (5, 6) and the square of side 100 at (200, 300),
    before it has advanced: all corners are drawn within 1/512 of (5, 6). *)
Example C68_float_case : forall (L1 : Libm f32) (L2 : Libm f64),
  let b := mkB (mkV (nof 5) (nof 6)) (mkV (nof 5) (nof 6)) : box f64 in
  exists (w1 w2 : gaworld f32 f64) o z,
    ga_do ga_start (ANew (GZoom (F := f32) (Some b) (Some to0) None)) = Ok (w1, RAnim 0) /\
    ga_do w1 (AStep 0 0%Z) = Ok (w2, o) /\ the_ganim w2 0 = Ok (AZoom z) /\ B2R (zm_progress z) = 0%R /\
    box_within 10 b /\ box_within 10 (zm_to z) /\ of_some_size (real_box (zm_to z)) /\
    lies_at (mkV (nof 100) (nof 25)) (real_box (zm_to z)) 1 (1 / 4).
Proof.
  intros L1 L2 b. cbn [ga_do]. rewrite anim_object_eq. cbn [args_of stepper_arg stepper_of bind anim_new].
  eexists _, _, _, _. split; [reflexivity|]. split; [reflexivity|]. split; [reflexivity|].
  split; [apply eqb_zero; vm_compute; reflexivity|]. split; [split; split; apply small_pixel; cbn; lia|].
  match goal with |- box_within 10 (zm_to ?z) /\ _ => change (zm_to z) with to0 end.
  split; [exact small_to|]. split; apply corner_at.
Qed.
