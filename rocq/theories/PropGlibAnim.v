(** * Properties C59, C60 and C65-C71: the GObject steppers and animations *)

From Coq Require Import ZArith Reals Bool String List Lia Lra.
From Flocq Require Import Core IEEE754.BinarySingleNaN.
From Verif Require Import Num Geometry Outcome Steppers Transforms MagicLamp Program SpecAnim LemReal LemBasic LemFloat
  LemSteppers LemTransforms LemLamp PropTransforms GlibParams GlibAnim SpecGlibAnim LemGlibAnim.
Import ListNotations.

(** ** C60: construct parameters *)

(** A constructor sees, for each property it asked for, the last value given and
    NULL if there is none; it sees no property it did not ask for. *)
Theorem C60_values_looked_up :
  forall (V : Type) (wanted : list string) (ps : list (string * V)) (name : string),
    (In name wanted -> lookup_gvalue ps (values_for_specs wanted ps) name = last_value name ps) /\
    (~ In name wanted -> lookup_gvalue ps (values_for_specs wanted ps) name = None).
Proof. intros. apply values_spec. Qed.
Print Assumptions C60_values_looked_up.

(** The default replaces a NULL value and nothing else; every other parameter
    stays what and where it was.  Without a parameter of that name the process
    aborts. *)
Theorem C60_default_only_when_null :
  forall (V : Type) (is_null : V -> bool) (before after : list (string * V)) (name : string) (v d : V),
    ~ In name (map fst before) ->
    replace_if_null is_null (before ++ (name, v) :: after) name d =
    Ok (before ++ (name, if is_null v then d else v) :: after, is_null v).
Proof. intros. apply replace_null_first. auto. Qed.
Print Assumptions C60_default_only_when_null.

Theorem C60_replaced :
  forall (V : Type) (before after : list (string * V)) (name : string) (v d : V),
    ~ In name (map fst before) ->
    replace_construct_param (before ++ (name, v) :: after) name d = Ok (before ++ (name, d) :: after).
Proof. intros. apply replace_first. auto. Qed.
Print Assumptions C60_replaced.

Theorem C60_unknown_name_aborts :
  forall (V : Type) (is_null : V -> bool) (ps : list (string * V)) (name : string) (d : V),
    (replace_if_null is_null ps name d = Err AssertFailed <-> ~ In name (map fst ps)) /\
    (replace_construct_param ps name d = Err AssertFailed <-> ~ In name (map fst ps)).
Proof.
  intros V is_null ps name d. split; split; intros E; try (apply replace_absent; exact E); try (apply replace_null_absent; exact E).
  - intros I. destruct (first_named name ps I) as (b & v & a & -> & N). rewrite replace_null_first in E by exact N. discriminate E.
  - intros I. destruct (first_named name ps I) as (b & v & a & -> & N). rewrite replace_first in E by exact N. discriminate E.
Qed.
Print Assumptions C60_unknown_name_aborts.

Example C60_case :
  let ps := [("a", 1); ("b", 0); ("c", 3); ("a", 4)]%string in
  lookup_gvalue ps (values_for_specs ["a"; "c"]%string ps) "a" = Some 4 /\
  lookup_gvalue ps (values_for_specs ["a"; "c"]%string ps) "b" = None /\
  replace_if_null (Nat.eqb 0) ps "b" 7 = Ok ([("a", 1); ("b", 7); ("c", 3); ("a", 4)]%string, true) /\
  replace_if_null (Nat.eqb 0) ps "c" 7 = Ok (ps, false) /\ ~ In "d"%string (map fst ps).
Proof. cbn. repeat split; intuition discriminate. Qed.

(** ** C59: the stepper getter *)

(** Whatever was done before: dropping the last reference to a stepper object
    got from an animation frees memory that was never allocated (or, once the
    animation is gone, memory that was freed). *)
Theorem C59_release_refuted :
  forall (F D : Type) (NF : Num F) (ND : Num D) (C : Conv F D) (LF : Libm F) (LD : Libm D)
         (ops : list (gaop F D)) w us i a,
    ga_run ga_start ops = Ok (w, us) ->
    nth_error (ac_steppers (aclient_after ops)) i = Some (Some (Observes a)) ->
    (present (aclient_after ops) a -> ga_do w (AStepperFinalize i) = Err BadFree) /\
    (~ present (aclient_after ops) a -> ga_do w (AStepperFinalize i) = Err UseAfterFree).
Proof.
  intros F D NF ND C LF LD ops w us i a E O. pose proof (arel_run _ _ _ _ _ arel_start E) as [R1 R2].
  unfold aclient_after in *. unfold present. rewrite R1, nth_error_map in O. rewrite R2, nth_error_map.
  cbn [ga_do]. unfold stepper_finalize. destruct (nth_error (ga_steppers w) i) as [[s|b|]|]; try discriminate O. injection O as ->.
  destruct (nth_error (ga_anims w) a) as [[x|]|]; cbn; split; intros P; try reflexivity; try congruence; exfalso; apply P; reflexivity.
Qed.
Print Assumptions C59_release_refuted.

(** The object is no copy either: stepping it moves the animation on. *)
Theorem C59_shared_with_animation_refuted :
  forall (F D : Type) (NF : Num F) (ND : Num D) (C : Conv F D) (LF : Libm F) (LD : Libm D)
         (ops : list (gaop F D)) w us a x m n,
    ga_run ga_start ops = Ok (w, us) -> the_ganim w a = Ok x ->
    exists i v b1 b2 w1 w2 x1 x2,
      ga_run w [AGetStepper a; AStepperStep i m; AStep a n] = Ok (w1, [RStepper i; RValue v; RMore b1]) /\
      ga_run w [AStep a m; AStep a n] = Ok (w2, [b2; RMore b1]) /\
      the_ganim w1 a = Ok x1 /\ the_ganim w2 a = Ok x2 /\
      anim_progress x1 = anim_progress x2 /\ anim_stepper x1 = anim_stepper x2.
Proof.
  intros F D NF ND C LF LD ops w us a x m n E X. pose proof (run_steppable _ _ _ _ start_steppable E) as A.
  pose proof X as X'. apply the_ganim_nth in X'. pose proof (A _ _ X') as S.
  assert (L : (a < length (ga_anims w))%nat) by (apply nth_error_Some; congruence).
  destruct (step_total gcall m x S) as (y & c & Y & T). destruct (step_total gcall n y T) as (z & d & Z & _).
  assert (S' : steppable (anim_set_stepper gcall (snd (gcall (anim_stepper x) m)) x)) by (apply set_stepper_steppable; exact S).
  destruct (step_total gcall n _ S') as (z' & d' & Z' & _).
  destruct (step_progress _ _ _ _ _ Y) as (P1 & P2 & P3). destruct (step_progress _ _ _ _ _ Z) as (Q1 & Q2 & Q3).
  destruct (step_progress _ _ _ _ _ Z') as (R1 & R2 & R3). rewrite (proj1 (set_stepper_facts _ _)) in R1, R2. rewrite P2 in Q1, Q2.
  exists (length (ga_steppers w)), (fst (gcall (anim_stepper x) m)), d, (RMore c).
  assert (G : d' = d) by congruence. rewrite G in Z'. clear G R3 Q3 P3.
  eexists _, _, z', z. split; [|split; [|split; [|split]]].
  - cbn [ga_run ga_do]. rewrite X. cbn [bind fst snd]. unfold stepper_step, read_stepper.
    replace (nth_error (ga_steppers (add_stepper w (SWrapper a))) (length (ga_steppers w))) with (Some (SWrapper (F := F) a))
      by (cbn; rewrite nth_error_app2, Nat.sub_diag by lia; reflexivity).
    replace (nth_error (ga_anims (add_stepper w (SWrapper a))) a) with (Some (Some x)) by (cbn; auto).
    cbn [bind]. rewrite (surjective_pairing (gcall (anim_stepper x) m)). cbn [bind fst snd].
    unfold the_ganim. cbn [set_ganim ga_anims add_stepper]. rewrite nth_error_list_set_eq by exact L. cbn [bind]. rewrite Z'.
    cbn [bind fst snd]. reflexivity.
  - cbn [ga_run ga_do]. rewrite X. cbn [bind]. rewrite Y. cbn [bind fst snd].
    unfold the_ganim. cbn [set_ganim ga_anims]. rewrite nth_error_list_set_eq by exact L. cbn [bind]. rewrite Z. cbn [bind fst snd]. reflexivity.
  - unfold the_ganim. cbn. rewrite nth_error_list_set_eq by (rewrite list_set_length; exact L). reflexivity.
  - unfold the_ganim. cbn. rewrite nth_error_list_set_eq by (rewrite list_set_length; exact L). reflexivity.
  - split; congruence.
Qed.
Print Assumptions C59_shared_with_animation_refuted.

(** What does hold: a client that uses no finalized object, assigns no NULL
    stepper and keeps every stepper object it got from an animation never
    touches invalid memory, and its calls all succeed if its magic lamps have
    a countable resolution. *)
Theorem C59_careful_clients_are_safe :
  forall (F D : Type) (NF : Num F) (ND : Num D) (C : Conv F D) (LF : Libm F) (LD : Libm D) (ops : list (gaop F D)),
    aeach acareful aclient_start ops ->
    (forall e, ga_run ga_start ops = Err e -> e <> UseAfterFree /\ e <> BadFree /\ e <> NullDeref) /\
    (Forall (fun o => match o with ANew g => good_resolution g | _ => True end) ops ->
     exists w us, ga_run ga_start ops = Ok (w, us)).
Proof.
  intros F D NF ND C LF LD ops A. split.
  - intros e E. exact (careful_run _ _ _ _ arel_start A E).
  - intros G. exact (careful_run_ok _ _ _ arel_start start_steppable A G).
Qed.
Print Assumptions C59_careful_clients_are_safe.

(** A client that meets them, with all four classes, getters and
    finalizations. *)
Definition usual_objects : list (gaop R R) :=
  [ANewLinear (Some 100%Z); ANewReverse (Some 0%nat); ANew (GBounce None None None None (Some 1%nat)); AGetStepper 0;
   AStepperStep 2 10; AStepperFinalize 0; AStep 0 10; ASetStepper 0 (Some 2%nat);
   ANew (GGlide None None None None None None None (Some 2%nat)); ANew (GZoom (F := R) None None None);
   ANew (GLamp None None None None None None None (Some 1%nat)); AStep 3 20; ASet 1 "stepper" (VObject (Some 1%nat));
   AFinalize 1; ASet 3 "bend-factor" (VFloat 100%R)].
Example C59_case :
  aeach acareful aclient_start usual_objects /\
  Forall (fun o => match o with ANew g => good_resolution g | _ => True end) usual_objects /\
  nth_error (ac_steppers (aclient_after usual_objects)) 2 = Some (Some (Observes 0)).
Proof.
  split; [|split; [|reflexivity]].
  - unfold usual_objects. cbn [aeach]. repeat split; try exact I; try reflexivity;
      try (left; reflexivity); try (right; exists 0%nat; split; reflexivity).
    + exists 2%nat. split; [reflexivity|]. right. exists 0%nat. split; reflexivity.
    + exists 1%nat. split; [reflexivity|]. left. reflexivity.
  - unfold usual_objects. repeat constructor. cbn. exists 10%Z, 10%Z. rewrite (Ztrunc_IZR 10). repeat split; lia.
Qed.

(** ** C65: steppers are private *)

(** Whatever else happens, a linear stepper object returns what a native linear
    stepper stepped by its own calls returns. *)
Theorem C65_stepper_objects_private :
  forall (F D : Type) (NF : Num F) (ND : Num D) (C : Conv F D) (LF : Libm F) (LD : Libm D)
         (before after : list (gaop F D)) (n : Z) w us1 i us2,
    ga_run ga_start (before ++ ANewLinear (Some n) :: after) = Ok (w, us1 ++ RStepper i :: us2) ->
    length us1 = length before ->
    stepper_values i after us2 = fst (calls linear_call (linear_new (nof n)) (stepper_times i after)).
Proof.
  intros F D NF ND C LF LD before after n w us1 i us2 E L. destruct (run_cut _ _ _ _ _ _ _ _ E L) as (w1 & w2 & E1 & E2 & E3).
  apply linear_made in E2. destruct E2 as [X M]. injection X as ->.
  destruct (private_run _ _ _ _ _ _ E3 M) as [V _]. rewrite V, calls_lin. reflexivity.
Qed.
Print Assumptions C65_stepper_objects_private.

(** An animation object owns a copy of the stepper it was given: its results
    are those of that stepper, in the state it had at construction, stepped by
    the animation's own [Step]s alone. *)
Theorem C65_animations_own_their_stepper :
  forall (F D : Type) (NF : Num F) (ND : Num D) (C : Conv F D) (LF : Libm F) (LD : Libm D)
         (ops1 ops2 ops3 : list (gaop F D)) (n : Z) (g : gargs F D) w us1 i us2 a us3,
    ga_run ga_start ((ops1 ++ ANewLinear (Some n) :: ops2) ++ ANew g :: ops3) =
      Ok (w, (us1 ++ RStepper i :: us2) ++ RAnim a :: us3) ->
    length us1 = length ops1 -> length us2 = length ops2 ->
    stepper_arg g = Some i -> Forall (keeps_stepper a) ops3 ->
    let s : linear F := snd (calls linear_call (linear_new (nof n)) (stepper_times i ops2)) in
    step_results a ops3 us3 =
    map (fun v => more_progress (clamp_progress v)) (fst (calls linear_call s (step_times a ops3))).
Proof.
  intros F D NF ND C LF LD ops1 ops2 ops3 n g w us1 i us2 a us3 E L1 L2 SA K s.
  destruct (run_cut _ _ _ _ _ _ _ _ E) as (w1 & w2 & E1 & E2 & E3); [rewrite !app_length; cbn; congruence|].
  apply ga_do_cases in E2. destruct E2 as (x & X & A & ->). injection A as ->.
  apply object_reads in X. destruct X as (_ & _ & _ & _ & t & T & Q & _). rewrite SA in T. cbn in T.
  pose proof (linear_later _ _ _ _ _ _ _ _ E1 L1 T) as ->.
  erewrite anim_run; [| exact E3 | | |exact K].
  - rewrite Q, calls_lin. reflexivity.
  - intros j J. cbn in J. apply (wrappers_run _ _ _ _ start_wrappers E1) in J. lia.
  - cbn. rewrite nth_error_app2, Nat.sub_diag by lia. reflexivity.
Qed.
Print Assumptions C65_animations_own_their_stepper.

(** The same with the default stepper. *)
Theorem C65_default_stepper :
  forall (F D : Type) (NF : Num F) (ND : Num D) (C : Conv F D) (LF : Libm F) (LD : Libm D)
         (before after : list (gaop F D)) (g : gargs F D) w us1 a us2,
    ga_run ga_start (before ++ ANew g :: after) = Ok (w, us1 ++ RAnim a :: us2) ->
    length us1 = length before -> stepper_arg g = None -> Forall (keeps_stepper a) after ->
    step_results a after us2 =
    map (fun v => more_progress (clamp_progress v)) (fst (calls linear_call (linear_new (nof 300 : F)) (step_times a after))).
Proof.
  intros F D NF ND C LF LD before after g w us1 a us2 E L SA K.
  destruct (run_cut _ _ _ _ _ _ _ _ E L) as (w1 & w2 & E1 & E2 & E3).
  apply ga_do_cases in E2. destruct E2 as (x & X & A & ->). injection A as ->.
  apply object_reads in X. destruct X as (_ & _ & _ & _ & t & T & Q & _). rewrite SA in T. cbn in T. injection T as <-.
  erewrite anim_run; [| exact E3 | | |exact K].
  - rewrite Q, calls_lin. reflexivity.
  - intros j J. cbn in J. apply (wrappers_run _ _ _ _ start_wrappers E1) in J. lia.
  - cbn. rewrite nth_error_app2, Nat.sub_diag by lia. reflexivity.
Qed.
Print Assumptions C65_default_stepper.

(** Calls that do not name an animation leave it alone, if its stepper was not
    handed out. *)
Theorem C65_animations_independent :
  forall (F D : Type) (NF : Num F) (ND : Num D) (C : Conv F D) (LF : Libm F) (LD : Libm D)
         (before after : list (gaop F D)) w us w' us' a x,
    ga_run ga_start before = Ok (w, us) -> ~ In (AGetStepper a) before ->
    the_ganim w a = Ok x -> ga_run w after = Ok (w', us') -> Forall (fun o => ~ names a o) after ->
    the_ganim w' a = Ok x.
Proof.
  intros F D NF ND C LF LD before after w us w' us' a x E N X E' A. apply the_ganim_nth. apply the_ganim_nth in X.
  eapply anim_frame_run; eauto. eapply unobserved_run; [|exact E|exact N]. intros [|i]; discriminate.
Qed.
Print Assumptions C65_animations_independent.

(** One linear stepper, stepped, given to two animations and stepped again. *)
Definition later_calls : list (gaop R R) :=
  [ANew (GZoom (F := R) None None (Some 0%nat)); AStep 0 50; AStepperStep 0 10; AStep 1 20;
   ASetTo 0 "maximum-scale" (SetFloat 2%R); AStep 0 50].
Example C65_case :
  exists w us3,
    ga_run ga_start (([] ++ ANewLinear (Some 100%Z) :: [AStepperStep 0 30%Z]) ++ ANew (GBounce None None None None (Some 0%nat)) :: later_calls) =
      Ok (w, ([] ++ RStepper 0 :: [RValue (3 / 10)%R]) ++ RAnim 0 :: us3) /\
    Forall (keeps_stepper 0) later_calls /\ step_times 0 later_calls = [50; 50]%Z /\ step_results 0 later_calls us3 = [true; false].
Proof.
  destruct (careful_run_ok (F := R) (D := R)
    (([] ++ [ANewLinear (Some 100%Z); AStepperStep 0 30%Z]) ++ ANew (GBounce None None None None (Some 0%nat)) :: later_calls)
    ga_start aclient_start arel_start start_steppable) as (w & us & E).
  { unfold later_calls. cbn [app aeach]. repeat split; try exact I; try reflexivity; left; reflexivity. }
  { repeat constructor. }
  destruct (run_app _ _ _ _ _ E) as (w1 & us1 & v & E1 & E2 & -> & L).
  assert (U1 : us1 = [RStepper 0; RValue (3 / 10)%R]).
  { cbn [app ga_run ga_do] in E1. rewrite linear_object_ok in E1. cbn [bind fst snd] in E1. unfold stepper_step in E1.
    cbn in E1. injection E1 as _ <-. do 3 f_equal. lra. }
  pose proof E2 as E2'. apply run_cons in E2. destruct E2 as (w2 & u & us3 & D2 & E2 & ->).
  assert (U2 : u = RAnim 0).
  { pose proof (ga_do_cases _ _ _ _ D2) as (x & _ & -> & _). cbn in E1. injection E1 as <- _. reflexivity. }
  subst. exists w, us3. split; [exact E|]. assert (K0 : Forall (keeps_stepper 0) later_calls) by (repeat constructor).
  split; [exact K0|]. split; [reflexivity|].
  pose proof (C65_animations_own_their_stepper R R _ _ _ _ _ [] [AStepperStep 0 30%Z] _ 100%Z (GBounce None None None None (Some 0%nat))
    w [] 0%nat [RValue (3 / 10)%R] 0%nat us3 E eq_refl eq_refl eq_refl K0) as K. cbv zeta in K. rewrite K.
  change (step_times 0 later_calls) with [50; 50]%Z. change (stepper_times 0 [AStepperStep (F := R) (D := R) 0 30%Z]) with [30%Z].
  cbn [calls linear_call linear_new lin_progress lin_length fst snd map nadd ndiv nof nzero Num_R].
  f_equal; [|f_equal].
  - apply more_R. lra.
  - apply not_true_is_false. rewrite more_R. lra.
Qed.

(** ** C66: construction *)

(** In every arithmetic: a new animation object has the values it was given and
    the documented defaults of the others, a copy of the stepper it was given
    (not stepped yet), and the progress the stepper reports at 0; nothing else
    changes. *)
Theorem C66_constructed_as_given :
  forall (F D : Type) (NF : Num F) (ND : Num D) (C : Conv F D) (LF : Libm F) (LD : Libm D)
         (w w' : gaworld F D) (g : gargs F D) u,
    ga_do w (ANew g) = Ok (w', u) ->
    u = RAnim (length (ga_anims w)) /\ ga_steppers w' = ga_steppers w /\
    exists x s, ga_anims w' = ga_anims w ++ [Some x] /\
      (forall name, read_float name x = given_float g name) /\
      (forall name, read_uint name x = given_uint g name) /\
      (forall name, read_box name x = given_box g name) /\
      match stepper_arg g with
      | Some i => read_stepper w i = Ok s
      | None => s = GLin (linear_new (nof 300))
      end /\
      anim_stepper x = s /\ anim_progress x = fst (gcall s 0).
Proof.
  intros F D NF ND C LF LD w w' g u E. apply ga_do_cases in E. destruct E as (x & X & -> & ->).
  split; [reflexivity|]. split; [reflexivity|]. apply object_reads in X. destruct X as (A & B & BX & _ & s & S & P & Q).
  exists x, s. repeat split; auto. destruct (stepper_arg g); cbn in S; [exact S|]. injection S as <-. reflexivity.
Qed.
Print Assumptions C66_constructed_as_given.

(** Every class can be constructed, with any stepper object in use. *)
Theorem C66_construction_succeeds :
  forall (F D : Type) (NF : Num F) (ND : Num D) (C : Conv F D) (LF : Libm F) (LD : Libm D)
         (ops : list (gaop F D)) w us (g : gargs F D),
    ga_run ga_start ops = Ok (w, us) -> usable_or_null (aclient_after ops) (stepper_arg g) -> good_resolution g ->
    exists w', ga_do w (ANew g) = Ok (w', RAnim (length (ga_anims w))).
Proof.
  intros F D NF ND C LF LD ops w us g E U G.
  destruct (careful_ok w (aclient_after ops) (ANew g) (arel_run _ _ _ _ _ arel_start E) (run_steppable _ _ _ _ start_steppable E) U G) as ([w' u] & X).
  pose proof (ga_do_cases _ _ _ _ X) as (x & _ & -> & _). eauto.
Qed.
Print Assumptions C66_construction_succeeds.

Example C66_case :
  given_float (GLamp (F := R) (D := R) None None (Some (mkV 4%R 5%R)) (Some 3%R) None None None None) "bend-factor" = Some 3%R /\
  given_float (GLamp (F := R) (D := R) None None (Some (mkV 4%R 5%R)) (Some 3%R) None None None None) "stretch-factor" = Some (45 / 100)%R /\
  good_resolution (GLamp (F := R) (D := R) None None (Some (mkV 4%R 5%R)) (Some 3%R) None None None None).
Proof. repeat split. exists 4%Z, 5%Z. cbn. rewrite (Ztrunc_IZR 4), (Ztrunc_IZR 5). repeat split; lia. Qed.

(** ** C67: ranges *)

(** In every arithmetic: if the numbers given (and the defaults) are in their
    documented ranges, [g_object_set] never takes them out again. *)
Theorem C67_set_keeps_range :
  forall (F D : Type) (NF : Num F) (ND : Num D) (C : Conv F D) (LF : Libm F) (LD : Libm D)
         (before after : list (gaop F D)) (g : gargs F D) w us1 a us2 x,
    ga_run ga_start (before ++ ANew g :: after) = Ok (w, us1 ++ RAnim a :: us2) -> length us1 = length before ->
    given_in_range g -> (forall name v, ~ In (ASetTo a name v) after) ->
    the_ganim w a = Ok x -> in_documented_range x.
Proof.
  intros F D NF ND C LF LD before after g w us1 a us2 x E L G NS X. apply the_ganim_nth in X.
  destruct (run_cut _ _ _ _ _ _ _ _ E L) as (w1 & w2 & E1 & E2 & E3).
  apply ga_do_cases in E2. destruct E2 as (y & Y & A & ->). injection A as ->. apply object_reads in Y. destruct Y as (A & B & _ & K & _).
  eapply range_run; [exact E3|exact NS| | |exact X].
  - cbn. rewrite app_length. cbn. lia.
  - intros z Z. cbn in Z. rewrite nth_error_app2, Nat.sub_diag in Z by lia. injection Z as <-.
    destruct G as [G1 G2]. split.
    + intros n lo hi v DN V. rewrite K in DN. rewrite A in V. eauto.
    + intros n V. rewrite B in V. eauto.
Qed.
Print Assumptions C67_set_keeps_range.

(** The documented defaults are in range, in single precision and in R. *)
Example C67_case :
  (forall g : gargs f32 f64,
     g = GBounce None None None None None \/ g = GGlide None None None None None None None None \/
     g = GZoom (F := f32) None None None \/ g = GLamp None None None None None None None None -> given_in_range g) /\
  (forall g : gargs R R,
     g = GBounce None None None None None \/ g = GGlide None None None None None None None None \/
     g = GZoom (F := R) None None None \/ g = GLamp None None None None None None None None -> given_in_range g).
Proof.
  assert (some_inj : forall (A : Type) (x y : A), Some x = Some y -> x = y) by congruence.
  assert (some_pair : forall (A : Type) (x y z w : A), Some (x, y) = Some (z, w) -> x = z /\ y = w)
    by (intros A x y z w E; split; congruence).
  assert (U : forall (F D : Type) (NF : Num F) (ND : Num D) (g : gargs F D),
    g = GBounce None None None None None \/ g = GGlide None None None None None None None None \/
    g = GZoom (F := F) None None None \/ g = GLamp None None None None None None None None ->
    forall n, given_uint g "n-bounce" = Some n -> (1 <= n <= 10)%Z).
  { intros F D NF ND g [-> | [-> | [-> | ->]]] n E; try discriminate E. injection E as <-. lia. }
  split; intros g G; (split; [|exact (U _ _ _ _ g G)]); intros n lo hi v;
    destruct G as [-> | [-> | [-> | ->]]]; cbn [gargs_class documented given_float];
    repeat (match goal with |- context [string_dec n ?m] => destruct (string_dec n m) end);
    intros E V; (lazymatch type of E with None = _ => discriminate E | _ => idtac end);
    apply some_pair in E; destruct E as [<- <-]; apply some_inj in V; subst v.
  1-11: split; vm_compute; reflexivity.
  all: unfold nlit; cbn [nleb nof ndiv Num_R]; unfold Rleb; split; destruct (Rle_dec _ _); try reflexivity; exfalso; lra.
Qed.

(** Construction itself checks nothing: any number is taken, as it is by the
    [animation_..._set_...] functions. *)
Theorem C67_construction_unchecked_refuted :
  forall (F D : Type) (NF : Num F) (ND : Num D) (C : Conv F D) (LF : Libm F) (LD : Libm D) (w : gaworld F D) (v : F),
    exists w', ga_do w (ANew (GBounce (Some v) None None None None)) = Ok (w', RAnim (length (ga_anims w))) /\
      exists x, the_ganim w' (length (ga_anims w)) = Ok x /\ read_float "initial-scale" x = Some v.
Proof.
  intros F D NF ND C LF LD w v. cbn [ga_do]. rewrite anim_object_eq. cbn [args_of stepper_arg stepper_of bind anim_new].
  eexists. split; [reflexivity|]. eexists. split.
  - unfold the_ganim. cbn [ga_anims]. rewrite nth_error_app2, Nat.sub_diag by lia. reflexivity.
  - unfold set_again, bounce_new. destruct (gcall _ 0). reflexivity.
Qed.
Print Assumptions C67_construction_unchecked_refuted.

(** A linear stepper object of length 0 (documented range: from 1) returns NaN
    when first stepped by 0 ms. *)
Theorem C67_zero_length_refuted :
  forall (LF : Libm f32) (LD : Libm f64) (w : gaworld f32 f64),
    exists w' w'', ga_do w (ANewLinear (Some 0%Z)) = Ok (w', RStepper (length (ga_steppers w))) /\
      ga_do w' (AStepperStep (length (ga_steppers w)) 0) = Ok (w'', RValue B754_nan).
Proof.
  intros LF LD w. cbn [ga_do]. rewrite linear_object_ok. cbn [bind]. do 2 eexists. split; [reflexivity|].
  unfold stepper_step. rewrite read_added. cbn [bind]. cbn [ga_steppers add_stepper]. rewrite nth_error_app2, Nat.sub_diag by lia. cbn [nth_error].
  replace (gcall (GLin (linear_new (nof 0 : f32))) 0) with (B754_nan : f32, GLin (mkLinear (B754_nan : f32) (nof 0))).
  - cbn [bind fst snd]. reflexivity.
  - cbn [gcall]. unfold linear_call, linear_new. cbn [lin_progress lin_length].
    replace (ndiv (nof 0 : f32) (nof 0)) with (B754_nan : f32) by (vm_compute; reflexivity).
    replace (nadd nzero (B754_nan : f32)) with (B754_nan : f32) by (vm_compute; reflexivity). reflexivity.
Qed.
Print Assumptions C67_zero_length_refuted.

(** ** C70: reverse stepper objects *)

(** A reverse stepper object returns 1 minus what its base would have returned
    had it, in the state it was in, received these calls; stepping one does not
    step the other. *)
Theorem C70_reverse_object :
  forall (F D : Type) (NF : Num F) (ND : Num D) (C : Conv F D) (LF : Libm F) (LD : Libm D)
         (ops1 ops2 ops3 : list (gaop F D)) (n : Z) w us1 i us2 j us3,
    ga_run ga_start ((ops1 ++ ANewLinear (Some n) :: ops2) ++ ANewReverse (Some i) :: ops3) =
      Ok (w, (us1 ++ RStepper i :: us2) ++ RStepper j :: us3) ->
    length us1 = length ops1 -> length us2 = length ops2 ->
    let base : linear F := snd (calls linear_call (linear_new (nof n)) (stepper_times i ops2)) in
    stepper_values j ops3 us3 = map (fun v => nsub (nof 1) v) (fst (calls linear_call base (stepper_times j ops3))) /\
    stepper_values i ops3 us3 = fst (calls linear_call base (stepper_times i ops3)).
Proof.
  intros F D NF ND C LF LD ops1 ops2 ops3 n w us1 i us2 j us3 E L1 L2 base.
  destruct (run_cut _ _ _ _ _ _ _ _ E) as (w1 & w2 & E1 & E2 & E3); [rewrite !app_length; cbn; congruence|].
  pose proof E2 as E2'. apply ga_do_cases in E2. destruct E2 as (J & s & S & ->). injection J as ->. cbn in S.
  pose proof (linear_later _ _ _ _ _ _ _ _ E1 L1 S) as ->. split.
  - destruct (private_run _ _ _ _ _ _ E3 (added _ _)) as [V _]. rewrite V, calls_rev, calls_lin. reflexivity.
  - destruct (run_cut _ _ _ _ _ _ _ _ E1 L1) as (v1 & v2 & F1 & F2 & F3). apply linear_made in F2. destruct F2 as [X M]. injection X as ->.
    destruct (private_run _ _ _ _ _ _ F3 M) as [_ [G|G]].
    { unfold read_stepper in S. rewrite G in S. discriminate S. }
    assert (N : nth_error (ga_steppers (add_stepper w1 (SHolder (GRev (GLin (snd (calls linear_call (made_linear (Some n)) (stepper_times (length (ga_steppers v1)) ops2))))))) ) (length (ga_steppers v1)) =
      Some (SHolder (snd (calls gcall (GLin (made_linear (Some n))) (stepper_times (length (ga_steppers v1)) ops2))))).
    { cbn. rewrite nth_error_app1; [exact G|]. apply nth_error_Some. congruence. }
    destruct (private_run _ _ _ _ _ _ E3 N) as [V _]. rewrite V, !calls_lin. cbn [snd fst]. rewrite calls_lin. reflexivity.
Qed.
Print Assumptions C70_reverse_object.

(** Without a base it reverses a linear stepper of 300 ms. *)
Theorem C70_default_base :
  forall (F D : Type) (NF : Num F) (ND : Num D) (C : Conv F D) (LF : Libm F) (LD : Libm D)
         (before after : list (gaop F D)) w us1 j us2,
    ga_run ga_start (before ++ ANewReverse None :: after) = Ok (w, us1 ++ RStepper j :: us2) -> length us1 = length before ->
    stepper_values j after us2 = map (fun v => nsub (nof 1) v) (fst (calls linear_call (linear_new (nof 300)) (stepper_times j after))).
Proof.
  intros F D NF ND C LF LD before after w us1 j us2 E L. destruct (run_cut _ _ _ _ _ _ _ _ E L) as (w1 & w2 & E1 & E2 & E3).
  apply ga_do_cases in E2. destruct E2 as (J & s & S & ->). injection J as ->. cbn in S. injection S as <-.
  destruct (private_run _ _ _ _ _ _ E3 (added _ _)) as [V _]. rewrite V, calls_rev, calls_lin. reflexivity.
Qed.
Print Assumptions C70_default_base.

Example C70_case : exists w us3,
  ga_run (F := R) (D := R) ga_start (([] ++ ANewLinear (Some 100%Z) :: [AStepperStep 0 30%Z]) ++ ANewReverse (Some 0%nat) ::
    [AStepperStep 1 20%Z; AStepperStep 0 10%Z; AStepperStep 1 10%Z]) =
  Ok (w, ([] ++ RStepper 0 :: [RValue (3 / 10)%R]) ++ RStepper 1 :: us3) /\
  us3 = [RValue (1 / 2)%R; RValue (4 / 10)%R; RValue (4 / 10)%R].
Proof.
  eexists _, _. split; [|reflexivity]. cbn [app ga_run ga_do]. rewrite linear_object_ok. cbn -[IZR].
  match goal with |- Ok (_, ?l) = Ok (_, ?r) => replace r with l end; [reflexivity|].
  assert (A : forall a b c d a' b' c' d' : R, a = a' -> b = b' -> c = c' -> d = d' ->
    [RStepper 0; RValue a; RStepper 1; RValue b; RValue c; RValue d] = [RStepper 0; RValue a'; RStepper 1; RValue b'; RValue c'; RValue d'])
    by (intros; subst; reflexivity).
  apply A; lra.
Qed.

(** ** C71: one property at a time *)

(** In every arithmetic: the function that sets a number changes what its
    getter returns to that number, and nothing else. *)
Theorem C71_setter_changes_only_its_property :
  forall (F D : Type) (NF : Num F) (ND : Num D) (C : Conv F D) (LF : Libm F) (LD : Libm D)
         (w w' : gaworld F D) a name v u x,
    the_ganim w a = Ok x -> ga_do w (ASetTo a name (SetFloat v)) = Ok (w', u) ->
    exists x', the_ganim w' a = Ok x' /\
      (forall other, read_float other x' =
         if string_dec other name then match read_float name x with Some _ => Some v | None => None end
         else read_float other x) /\
      (forall other, read_uint other x' = read_uint other x) /\
      (forall other, read_box other x' = read_box other x) /\
      anim_progress x' = anim_progress x /\ anim_stepper x' = anim_stepper x /\
      ga_steppers w' = ga_steppers w /\
      (forall b, b <> a -> nth_error (ga_anims w') b = nth_error (ga_anims w) b).
Proof.
  intros F D NF ND C LF LD w w' a name v u x X E. apply the_ganim_nth in X. apply ga_do_cases in E.
  destruct E as (y & Y & ->). rewrite X in Y. injection Y as <-. exists (set_float name v x).
  split; [apply the_ganim_nth; cbn; apply nth_error_list_set_eq, nth_error_Some; congruence|].
  destruct (set_float_reads name v x) as (A & B & CC). destruct (set_float_facts name v x) as (P & Q & _).
  repeat split; auto. intros b NB. cbn. rewrite nth_error_list_set_neq; auto.
Qed.
Print Assumptions C71_setter_changes_only_its_property.

(** [g_object_set] of a number in its documented range does the same, unless
    the property is construct-only ("stretch-factor"); of a number out of range
    it does nothing. *)
Theorem C71_object_set_number :
  forall (F D : Type) (NF : Num F) (ND : Num D) (C : Conv F D) (LF : Libm F) (LD : Libm D)
         (w : gaworld F D) a name (lo hi v : F) x,
    the_ganim w a = Ok x -> documented (class_of x) name = Some (lo, hi) ->
    (nleb lo v = true -> nleb v hi = true -> name <> "stretch-factor"%string ->
     ga_do w (ASet a name (VFloat v)) = ga_do w (ASetTo a name (SetFloat v))) /\
    (nleb lo v = false \/ nleb v hi = false \/ name = "stretch-factor"%string ->
     exists w', ga_do w (ASet a name (VFloat v)) = Ok (w', RNone) /\ the_ganim w' a = Ok x /\
       ga_steppers w' = ga_steppers w /\ (forall b, b <> a -> nth_error (ga_anims w') b = nth_error (ga_anims w) b)).
Proof.
  intros F D NF ND C LF LD w a name lo hi v x X DN. cbn [ga_do]. rewrite X. cbn [bind]. unfold object_set.
  assert (V : valid (D := D) (class_of x) name (VFloat v) = nleb lo v && nleb v hi /\
    (existsb (String.eqb name) (settable (class_of x)) = true \/ name = "stretch-factor"%string) /\
    (name = "stretch-factor"%string -> existsb (String.eqb name) (settable (class_of x)) = false)).
  { destruct (class_of x); cbn [documented] in DN; cbn [valid settable existsb]; unfold float_ok; rewrite !eqb_dec;
    repeat (match type of DN with context [string_dec name ?m] => destruct (string_dec name m) end); try discriminate DN;
    injection DN as <- <-; subst; (split; [reflexivity|split; [(left; reflexivity) || (right; reflexivity)|intros Q; (discriminate Q || reflexivity)]]). }
  destruct V as (V & ST & SF). rewrite V. split.
  - intros A B N. destruct ST as [->|?]; [|contradiction]. rewrite A, B. reflexivity.
  - intros O. replace (_ && (nleb lo v && nleb v hi)) with false.
    + cbn [bind]. apply the_ganim_nth in X. eexists. split; [reflexivity|]. split.
      * apply the_ganim_nth. cbn. apply nth_error_list_set_eq, nth_error_Some. congruence.
      * split; [reflexivity|]. intros b NB. cbn. rewrite nth_error_list_set_neq; auto.
    + destruct O as [-> | [-> | ->]]; [rewrite andb_false_r; reflexivity|rewrite !andb_false_r; reflexivity|].
      rewrite SF by reflexivity. reflexivity.
Qed.
Print Assumptions C71_object_set_number.

(** [g_object_set] of a box changes the 'from' box of a zoom animation or the
    'source' box of a magic lamp to the box given, and nothing else; every other
    box (and NULL) is left alone. *)
Theorem C71_object_set_box :
  forall (F D : Type) (NF : Num F) (ND : Num D) (C : Conv F D) (LF : Libm F) (LD : Libm D)
         (w : gaworld F D) a name (b : option (box D)) x,
    the_ganim w a = Ok x ->
    exists w' x', ga_do w (ASet a name (VBox b)) = Ok (w', RNone) /\ the_ganim w' a = Ok x' /\
      (forall other, read_box other x' =
         match b with
         | Some v => if string_dec other name
                     then match class_of x, read_box name x with
                          | CZoom, Some old => if string_dec name "from" then Some v else Some old
                          | CLamp, Some old => if string_dec name "source" then Some v else Some old
                          | _, r => r
                          end
                     else read_box other x
         | None => read_box other x
         end) /\
      (forall other, read_float other x' = read_float other x) /\
      (forall other, read_uint other x' = read_uint other x) /\
      anim_progress x' = anim_progress x /\ anim_stepper x' = anim_stepper x /\
      ga_steppers w' = ga_steppers w /\
      (forall c, c <> a -> nth_error (ga_anims w') c = nth_error (ga_anims w) c).
Proof.
  intros F D NF ND C LF LD w a name b x X. cbn [ga_do]. rewrite X. cbn [bind].
  assert (O : object_set w name (VBox b) x = Ok (set_box name b x)).
  { unfold object_set. destruct x as [x|x|x|x], b as [b|]; cbn [class_of settable valid existsb set_property set_box andb]; rewrite ?andb_true_r;
    try (match goal with |- (if ?c then _ else _) = _ => destruct c; reflexivity end);
    rewrite !eqb_dec; repeat destruct (string_dec name _); try reflexivity; subst; discriminate. }
  rewrite O. cbn [bind]. apply the_ganim_nth in X. eexists _, (set_box name b x). split; [reflexivity|].
  split; [apply the_ganim_nth; cbn; apply nth_error_list_set_eq, nth_error_Some; congruence|].
  assert (B : forall c, c <> a -> nth_error (ga_anims (set_ganim w a (Some (set_box name b x)))) c = nth_error (ga_anims w) c)
    by (intros c NC; cbn; rewrite nth_error_list_set_neq; auto).
  destruct (set_box_facts name b x) as (P & Q & _).
  split; [|split; [|split; [|split; [exact Q|split; [exact P|split; [reflexivity|exact B]]]]]];
  intros other; destruct x as [x|x|x|x], b as [b|]; cbn [set_box class_of]; try reflexivity; cbn [read_box read_float read_uint]; rewrite ?eqb_dec;
  repeat (match goal with |- context [string_dec ?p ?q] => destruct (string_dec p q) end); subst; cbn [read_box read_float read_uint]; rewrite ?eqb_dec;
  repeat (match goal with |- context [string_dec ?p ?q] => destruct (string_dec p q) end); subst; try reflexivity; try contradiction; try discriminate.
Qed.
Print Assumptions C71_object_set_box.

(** [g_object_set] of the bounce count, from 1 to 10, changes that count and
    nothing else; any other unsigned number is ignored. *)
Theorem C71_object_set_count :
  forall (F D : Type) (NF : Num F) (ND : Num D) (C : Conv F D) (LF : Libm F) (LD : Libm D)
         (w : gaworld F D) a name (n : Z) x,
    the_ganim w a = Ok x ->
    exists w' x', ga_do w (ASet a name (VUint n)) = Ok (w', RNone) /\ the_ganim w' a = Ok x' /\
      (forall other, read_uint other x' =
         match class_of x with
         | CBounce => if string_dec other "n-bounce"
                      then (if string_dec name "n-bounce"
                            then if Z_le_dec 1 n then if Z_le_dec n 10 then Some n else read_uint other x else read_uint other x
                            else read_uint other x)
                      else None
         | _ => None
         end) /\
      (forall other, read_float other x' = read_float other x) /\
      (forall other, read_box other x' = read_box other x) /\
      anim_progress x' = anim_progress x /\ anim_stepper x' = anim_stepper x /\
      ga_steppers w' = ga_steppers w /\
      (forall c, c <> a -> nth_error (ga_anims w') c = nth_error (ga_anims w) c).
Proof.
  intros F D NF ND C LF LD w a name n x X. cbn [ga_do]. rewrite X. cbn [bind].
  assert (O : exists y, object_set w name (VUint n) x = Ok y /\ (y = x \/ y = set_uint name n x) /\
    (class_of x = CBounce -> name = "n-bounce"%string -> (1 <= n <= 10)%Z -> y = set_uint name n x) /\
    (~ (1 <= n <= 10)%Z -> name = "n-bounce"%string -> y = x)).
  { unfold object_set. destruct (existsb _ _ && _) eqn:E; cbn [set_property]; eexists; (split; [reflexivity|]); (split; [auto|]).
    - split; [reflexivity|]. intros B ->. destruct x; try (cbn; reflexivity). cbn in E. unfold uint_ok in E. lia.
    - split; [|reflexivity]. intros K -> B. destruct x; try discriminate K. cbn in E. unfold uint_ok in E. lia. }
  destruct O as (y & -> & Y & YS & YN). cbn [bind]. apply the_ganim_nth in X. eexists _, y. split; [reflexivity|].
  split; [apply the_ganim_nth; cbn; apply nth_error_list_set_eq, nth_error_Some; congruence|].
  assert (B : forall c, c <> a -> nth_error (ga_anims (set_ganim w a (Some y))) c = nth_error (ga_anims w) c)
    by (intros c NC; cbn; rewrite nth_error_list_set_neq; auto).
  assert (PQ : anim_stepper y = anim_stepper x /\ anim_progress y = anim_progress x)
    by (destruct Y as [-> | ->]; [auto|]; destruct (set_uint_facts name n x) as (P & Q & _); auto).
  destruct PQ as [P Q].
  split; [|split; [|split; [|split; [exact Q|split; [exact P|split; [reflexivity|exact B]]]]]].
  - intros other. destruct (string_dec name "n-bounce") as [N|N].
    + destruct (Z_le_dec 1 n); [destruct (Z_le_dec n 10)|]; [|rewrite YN by (lia || exact N)..].
      * destruct x as [x|x|x|x]; [rewrite YS by (lia || reflexivity || exact N)|destruct Y as [-> | ->]; reflexivity..].
        subst name. cbn [class_of set_uint]. rewrite String.eqb_refl. cbn [read_uint]. rewrite eqb_dec. destruct (string_dec other "n-bounce"); reflexivity.
      * destruct x; cbn [class_of read_uint]; rewrite ?eqb_dec; repeat destruct (string_dec other _); reflexivity.
      * destruct x; cbn [class_of read_uint]; rewrite ?eqb_dec; repeat destruct (string_dec other _); reflexivity.
    + assert (y = x) as ->. { destruct Y as [-> | ->]; [reflexivity|]. destruct x; try reflexivity. cbn [set_uint]. rewrite eqb_dec. destruct (string_dec name _); [contradiction|reflexivity]. }
      destruct x; cbn [class_of read_uint]; rewrite ?eqb_dec; repeat destruct (string_dec other _); reflexivity.
  - intros other. destruct Y as [-> | ->]; [reflexivity|]. destruct x; try reflexivity. cbn [set_uint]. destruct (String.eqb name _); reflexivity.
  - intros other. destruct Y as [-> | ->]; [reflexivity|]. destruct x; try reflexivity. cbn [set_uint]. destruct (String.eqb name _); reflexivity.
Qed.
Print Assumptions C71_object_set_count.

(** The functions that set a box do what [g_object_set] does with it; the one
    that sets the bounce count takes any count, in its documented range or not,
    and changes nothing else. *)
Theorem C71_setter_of_box_or_count :
  forall (F D : Type) (NF : Num F) (ND : Num D) (C : Conv F D) (LF : Libm F) (LD : Libm D)
         (w : gaworld F D) a name (b : box D) (n : Z) x,
    the_ganim w a = Ok x ->
    ga_do w (ASetTo a name (SetBox b)) = ga_do w (ASet a name (VBox (Some b))) /\
    exists w' x', ga_do w (ASetTo a name (SetUint n)) = Ok (w', RNone) /\ the_ganim w' a = Ok x' /\
      (forall other, read_uint other x' =
         if string_dec other name then match read_uint name x with Some _ => Some n | None => None end
         else read_uint other x) /\
      (forall other, read_float other x' = read_float other x) /\
      (forall other, read_box other x' = read_box other x) /\
      anim_progress x' = anim_progress x /\ anim_stepper x' = anim_stepper x /\
      ga_steppers w' = ga_steppers w /\
      (forall c, c <> a -> nth_error (ga_anims w') c = nth_error (ga_anims w) c).
Proof.
  intros F D NF ND C LF LD w a name b n x X. split.
  - cbn [ga_do]. rewrite X. cbn [bind set_to]. unfold object_set.
    destruct x as [x|x|x|x]; cbn [class_of settable valid existsb set_property set_box andb]; rewrite ?andb_true_r;
    try (match goal with |- _ = (r <- (if ?c then _ else _) ;; _) => destruct c; reflexivity end);
    rewrite !eqb_dec; repeat destruct (string_dec name _); try reflexivity; subst; discriminate.
  - cbn [ga_do]. rewrite X. cbn [bind set_to]. apply the_ganim_nth in X. eexists _, (set_uint name n x). split; [reflexivity|].
    split; [apply the_ganim_nth; cbn; apply nth_error_list_set_eq, nth_error_Some; congruence|].
    destruct (set_uint_facts name n x) as (P & Q & _). split; [|split; [|split; [|split; [exact Q|split; [exact P|split; [reflexivity|]]]]]].
    + intros other. destruct x as [x|x|x|x]; cbn [set_uint]; try (cbn; destruct (string_dec other name); reflexivity).
      rewrite eqb_dec. destruct (string_dec name "n-bounce") as [->|N]; cbn [read_uint]; rewrite ?eqb_dec; repeat (match goal with |- context [string_dec ?p ?q] => destruct (string_dec p q) end); cbn; congruence || auto.
    + intros other. destruct x; cbn [set_uint]; try destruct (String.eqb name _); reflexivity.
    + intros other. destruct x; cbn [set_uint]; try destruct (String.eqb name _); reflexivity.
    + intros c NC. cbn. rewrite nth_error_list_set_neq; auto.
Qed.
Print Assumptions C71_setter_of_box_or_count.

Example C71_case : exists w x,
  ga_run (F := R) (D := R) ga_start [ANew (GBounce None None None None None)] = Ok (w, [RAnim 0]) /\
  the_ganim w 0 = Ok x /\ documented (class_of x) "maximum-scale" = Some (1%R, 3%R) /\ read_float "maximum-scale" x = Some (12 / 10)%R.
Proof.
  cbn [ga_run ga_do]. rewrite anim_object_eq. eexists _, _. split; [reflexivity|]. split; [reflexivity|]. split; reflexivity.
Qed.
Example C71_case_box : exists w x,
  ga_run (F := R) (D := R) ga_start [ANew (GZoom None None None)] = Ok (w, [RAnim 0]) /\ the_ganim w 0 = Ok x /\ class_of x = CZoom.
Proof.
  cbn [ga_run ga_do]. rewrite anim_object_eq. eexists _, _. split; [reflexivity|]. split; reflexivity.
Qed.

(** ** C68: an empty 'from' box *)

(** A native zoom animation widens an empty 'from' box (C38).  A zoom object
    does not: the box given is set once more after the native constructor, and
    at progress 0 the whole surface is drawn in one point. *)
Theorem C68_empty_from_collapses_refuted :
  forall (w w1 w2 : gaworld R R) (b : box R) (t : option (box R)) (s : option nat) a ms u z,
    ga_do w (ANew (GZoom (F := R) (Some b) t s)) = Ok (w1, RAnim a) -> b_tl b = b_br b ->
    ga_do w1 (AStep a ms) = Ok (w2, u) -> the_ganim w2 a = Ok (AZoom z) -> zm_progress z = 0%R ->
    forall p q, let e := zoom_extreme z (on_surface (zm_to z) p q) in
      (vx (b_tl (zm_to z)) + v4x e = vx (b_tl b) /\ vy (b_tl (zm_to z)) + v4y e = vy (b_tl b))%R.
Proof.
  intros w w1 w2 b t s a ms u z E B S Z P p q e.
  pose proof (ga_do_cases _ _ _ _ E) as (x & X & A & ->). injection A as ->. rewrite anim_object_eq in X. cbn [args_of stepper_arg] in X.
  destruct (stepper_of w s) as [st|]; [|discriminate X]. cbn [bind anim_new] in X. injection X as <-.
  apply ga_do_cases in S. destruct S as (y & y' & r & Y & S & _ & ->).
  cbn [ga_anims] in Y. rewrite nth_error_app2, Nat.sub_diag in Y by lia. injection Y as <-.
  apply the_ganim_nth in Z. cbn [set_ganim ga_anims] in Z. rewrite nth_error_list_set_eq in Z by (rewrite app_length; cbn; lia). injection Z as ->.
  pose proof (C37_zoom_interpolates _ gcall b (box_or_unit t) st [ZmSetFrom b; ZmSetStepper st] ms p q) as K. cbv zeta in K.
  assert (ZE : z = fold_left (zoom_do gcall) ([ZmSetFrom b; ZmSetStepper st] ++ [ZmStep ms]) (zoom_new gcall b (box_or_unit t) st)).
  { unfold set_again in S. 
    match type of S with anim_step gcall ms ?y = _ =>
      change y with (AZoom (F := R) (fold_left (zoom_do gcall) [ZmSetFrom b; ZmSetStepper st] (zoom_new gcall b (box_or_unit t) st))) in S end.
    cbn [anim_step] in S. rewrite fold_left_app.
    set (z0 := fold_left (zoom_do gcall) [ZmSetFrom b; ZmSetStepper st] (zoom_new gcall b (box_or_unit t) st)) in *.
    cbn [fold_left zoom_do]. destruct (zoom_step gcall ms z0) as [z1 r1]. injection S as <- _. reflexivity. }
  rewrite <- ZE in K. destruct K as (_ & K1 & K2 & _). fold e in K1, K2. rewrite P in K1, K2. unfold between in K1, K2.
  assert (FB : zm_from z = b).
  { rewrite ZE. cbn [app fold_left zoom_do]. unfold zoom_step. cbn [zm_stepper]. destruct (gcall st ms). reflexivity. }
  rewrite FB in K1, K2. unfold in_box in K1, K2 at 1. cbn [vx vy] in K1, K2. rewrite <- B in K1, K2. split; lra.
Qed.
Print Assumptions C68_empty_from_collapses_refuted.

(** The hypotheses are met, and a native animation with the same boxes draws two
    corners in different places. *)
Example C68_case :
  let b := (mkB (mkV 5 6) (mkV 5 6))%R in let to := (mkB (mkV 0 0) (mkV 100 100))%R in
  exists (w1 w2 : gaworld R R) u z,
    ga_do ga_start (ANew (GZoom (F := R) (Some b) (Some to) None)) = Ok (w1, RAnim 0) /\
    ga_do w1 (AStep 0 0%Z) = Ok (w2, u) /\ the_ganim w2 0 = Ok (AZoom z) /\ zm_progress z = 0%R /\
    let n := fold_left (zoom_do linear_call) ([] ++ [ZmStep 0%Z]) (zoom_new linear_call b to (linear_new 300%R)) in
    zm_progress n = 0%R /\ zoom_extreme n (on_surface (zm_to n) 0%R 0%R) <> zoom_extreme n (on_surface (zm_to n) 1%R 1%R).
Proof.
  cbv zeta. cbn [ga_do]. rewrite anim_object_eq. cbn [args_of stepper_arg stepper_of bind anim_new].
  eexists _, _, _, _. split; [reflexivity|]. split; [reflexivity|]. split; [reflexivity|].
  assert (ZP : clamp_progress (0 + 0 / 300)%R = 0%R) by (rewrite clamp_R; unfold Rmin, Rmax; destruct (Rle_dec _ _), (Rle_dec _ _); lra).
  assert (ZQ : clamp_progress (0 + 0 / 300 + 0 / 300)%R = 0%R) by (rewrite clamp_R; unfold Rmin, Rmax; destruct (Rle_dec _ _), (Rle_dec _ _); lra).
  split.
  - unfold zoom_new. cbn. exact ZP.
  - split; [unfold zoom_new; cbn; exact ZQ|].
    pose proof (C37_zoom_ends _ linear_call (mkB (mkV 5 6) (mkV 5 6))%R (mkB (mkV 0 0) (mkV 100 100))%R (linear_new 300%R) [] 0%Z 0%R 0%R) as [K0 _].
    pose proof (C37_zoom_ends _ linear_call (mkB (mkV 5 6) (mkV 5 6))%R (mkB (mkV 0 0) (mkV 100 100))%R (linear_new 300%R) [] 0%Z 1%R 1%R) as [K1 _].
    cbv zeta in K0, K1. set (n := fold_left _ _ _) in *. assert (NP : zm_progress n = 0%R) by (unfold n, zoom_new; cbn; exact ZQ).
    specialize (K0 NP). specialize (K1 NP). intros EQ. rewrite EQ, K1 in K0.
    assert (FR : zm_from n = (mkB (mkV 5 6) (mkV 6 7))%R).
    { unfold n, zoom_new. cbn. unfold ensure_non_zero. cbn. unfold Reqb. destruct (Req_EM_T 5%R 5%R); [|congruence].
      destruct (Req_EM_T 6%R 6%R); [|congruence]. cbn. f_equal. apply vec_eq; cbn; lra. }
    rewrite FR in K0. apply (f_equal vx) in K0. unfold in_box in K0. cbn in K0. lra.
Qed.

(** ** C69: the convenience constructors *)

(** [animation_glide_new] takes a length in milliseconds and drops it: the
    animation always takes 300 ms. *)
Theorem C69_glide_length_refuted :
  forall (d xr yr xa ya : R) (wd : Z) (t : option (box R)) (len ms : Z),
    exists w u x, ga_run ga_start [ANew (glide_object_new d xr yr xa ya wd t len); AStep 0 ms] = Ok (w, u) /\
      the_ganim w 0 = Ok x /\ anim_progress x = Rmin 1 (Rmax 0 (IZR ms / 300)).
Proof.
  intros d xr yr xa ya wd t len ms. unfold glide_object_new. cbn [ga_run ga_do]. rewrite anim_object_eq.
  cbn [args_of stepper_arg stepper_of bind anim_new ga_anims ga_start app fst snd length the_ganim nth_error].
  unfold set_again, glide_new. cbn -[Rmin Rmax IZR clamp_progress glide_step].
  unfold glide_step. cbn -[Rmin Rmax IZR clamp_progress].
  eexists _, _, _. split; [reflexivity|]. split; [reflexivity|]. cbn -[Rmin Rmax IZR clamp_progress]. rewrite clamp_R. f_equal. f_equal. lra.
Qed.
Print Assumptions C69_glide_length_refuted.

(** [animation_magiclamp_new] drops the four factors. *)
Theorem C69_lamp_factors_refuted :
  forall (F D : Type) (NF : Num F) (ND : Num D) (C : Conv F D) (LF : Libm F) (LD : Libm D)
         (w w' : gaworld F D) source target r bend offset stretch speed s a x,
    ga_do w (ANew (lamp_object_new source target r bend offset stretch speed s)) = Ok (w', RAnim a) ->
    the_ganim w' a = Ok x ->
    read_float "bend-factor" x = Some (nof 10) /\ read_float "offset-factor" x = Some (nlit 5 10) /\
    read_float "stretch-factor" x = Some (nlit 45 100) /\ read_float "deform-speed-factor" x = Some (nlit 23 10).
Proof.
  intros F D NF ND C LF LD w w' source target r bend offset stretch speed s a x E X. apply ga_do_cases in E.
  destruct E as (y & Y & A & ->). injection A as ->. apply the_ganim_nth in X. cbn in X. rewrite nth_error_app2, Nat.sub_diag in X by lia.
  injection X as ->. apply object_reads in Y. destruct Y as (Y & _). rewrite !Y. repeat split; reflexivity.
Qed.
Print Assumptions C69_lamp_factors_refuted.

(** [animation_bounce_new] and [animation_zoom_new] hand on what they are
    given, except for the 'current' box of the latter. *)
Theorem C69_bounce_and_zoom_new :
  forall (F D : Type) (NF : Num F) (ND : Num D) (C : Conv F D) (LF : Libm F) (LD : Libm D)
         (w : gaworld F D) i m n (t current from to : box D) s w1 w2 a1 a2 x1 x2,
    ga_do w (ANew (bounce_object_new i m n (Some t) s)) = Ok (w1, RAnim a1) -> the_ganim w1 a1 = Ok x1 ->
    ga_do w (ANew (zoom_object_new (Some current) (Some from) (Some to) s)) = Ok (w2, RAnim a2) -> the_ganim w2 a2 = Ok x2 ->
    read_float "initial-scale" x1 = Some i /\ read_float "maximum-scale" x1 = Some m /\ read_uint "n-bounce" x1 = Some n /\
    read_box "target" x1 = Some t /\ read_box "from" x2 = Some from /\ read_box "to" x2 = Some (ensure_non_zero to).
Proof.
  intros F D NF ND C LF LD w i m n t current from to s w1 w2 a1 a2 x1 x2 E1 X1 E2 X2. apply ga_do_cases in E1, E2.
  destruct E1 as (y1 & Y1 & A1 & ->). injection A1 as ->. apply the_ganim_nth in X1. cbn in X1. rewrite nth_error_app2, Nat.sub_diag in X1 by lia.
  destruct E2 as (y2 & Y2 & A2 & ->). injection A2 as ->. apply the_ganim_nth in X2. cbn in X2. rewrite nth_error_app2, Nat.sub_diag in X2 by lia.
  injection X1 as ->. injection X2 as ->. apply object_reads in Y1, Y2. destruct Y1 as (F1 & U1 & B1 & _). destruct Y2 as (_ & _ & B2 & _).
  rewrite !F1, !U1, !B1, !B2. repeat split; reflexivity.
Qed.
Print Assumptions C69_bounce_and_zoom_new.

(** [animation_glide_new] hands on everything else it is given, and so does
    [animation_magiclamp_new]. *)
Theorem C69_glide_and_lamp_new :
  forall (F D : Type) (NF : Num F) (ND : Num D) (C : Conv F D) (LF : Libm F) (LD : Libm D)
         (w : gaworld F D) d xr yr xa ya wd len (t source target : box D) r bend offset stretch speed s w1 w2 a1 a2 x1 x2,
    ga_do w (ANew (glide_object_new d xr yr xa ya wd (Some t) len)) = Ok (w1, RAnim a1) -> the_ganim w1 a1 = Ok x1 ->
    ga_do w (ANew (lamp_object_new (Some source) (Some target) (Some r) bend offset stretch speed s)) = Ok (w2, RAnim a2) ->
    the_ganim w2 a2 = Ok x2 ->
    (read_float "initial-distance" x1 = Some d /\
     read_float "x-rotation-angle-degrees" x1 = Some xr /\ read_float "y-rotation-angle-degrees" x1 = Some yr /\
     read_float "x-axis-location-unit" x1 = Some xa /\ read_float "y-axis-location-unit" x1 = Some ya /\
     exists g, x1 = AGlide g /\ gl_width g = wd /\ gl_target g = t) /\
    (read_box "source" x2 = Some source /\ read_box "target" x2 = Some target /\
     (exists l, x2 = ALamp l /\ ntrunc (vx r) = Some (rw (ml_res l)) /\ ntrunc (vy r) = Some (rh (ml_res l))) /\
     forall i, s = Some i -> read_stepper w i = Ok (anim_stepper x2)).
Proof.
  intros F D NF ND C LF LD w d xr yr xa ya wd len t source target r bend offset stretch speed s w1 w2 a1 a2 x1 x2 E1 X1 E2 X2. apply ga_do_cases in E1, E2.
  destruct E1 as (y1 & Y1 & A1 & ->). injection A1 as ->. apply the_ganim_nth in X1. cbn in X1. rewrite nth_error_app2, Nat.sub_diag in X1 by lia.
  destruct E2 as (y2 & Y2 & A2 & ->). injection A2 as ->. apply the_ganim_nth in X2. cbn in X2. rewrite nth_error_app2, Nat.sub_diag in X2 by lia.
  injection X1 as ->. injection X2 as ->. pose proof (object_reads _ _ _ Y1) as (F1 & _). pose proof (object_reads _ _ _ Y2) as (_ & _ & B2 & _ & st & St1 & St2 & _).
  rewrite !F1, !B2. cbn [given_float given_box glide_object_new lamp_object_new].
  rewrite anim_object_eq in Y1, Y2. split.
  - do 5 (split; [reflexivity|]). cbn [glide_object_new args_of stepper_arg stepper_of bind anim_new] in Y1. unfold glide_new in Y1.
    destruct (gcall _ 0) in Y1. injection Y1 as <-. eexists. split; [reflexivity|]. split; reflexivity.
  - split; [reflexivity|]. split; [reflexivity|]. split.
    + cbn [lamp_object_new args_of stepper_arg] in Y2. unfold to_size in Y2.
      destruct (ntrunc (vx r)) as [zx|]; [|discriminate Y2]. destruct (_ && _) in Y2; [|discriminate Y2]. cbn [bind] in Y2.
      destruct (ntrunc (vy r)) as [zy|]; [|discriminate Y2]. destruct (_ && _) in Y2; [|discriminate Y2]. cbn [bind] in Y2.
      destruct (stepper_of w s); [|discriminate Y2]. cbn [bind anim_new] in Y2. unfold lamp_new in Y2.
      destruct (gcall _ 0) in Y2. destruct (move_grid _ _ _ _) in Y2; [|discriminate Y2]. injection Y2 as <-.
      eexists. split; [reflexivity|]. split; reflexivity.
    + intros i ->. cbn [lamp_object_new stepper_arg stepper_of] in St1. rewrite St1, St2. reflexivity.
Qed.
Print Assumptions C69_glide_and_lamp_new.

Example C69_case : exists (w' : gaworld R R) x,
  ga_do ga_start (ANew (lamp_object_new (F := R) None None (Some (mkV 3%R 3%R)) 1%R 1%R 1%R 1%R None)) = Ok (w', RAnim 0) /\ the_ganim w' 0 = Ok x.
Proof.
  destruct (C66_construction_succeeds R R _ _ _ _ _ [] ga_start [] (lamp_object_new (F := R) None None (Some (mkV 3%R 3%R)) 1%R 1%R 1%R 1%R None)) as (w' & E).
  - reflexivity.
  - exact I.
  - exists 3%Z, 3%Z. cbn. rewrite (Ztrunc_IZR 3). repeat split; lia.
  - pose proof (ga_do_cases _ _ _ _ E) as (x & _ & _ & ->). eexists _, x. split; [exact E|reflexivity].
Qed.
Example C69_case_boxes : exists (w1 w2 : gaworld R R) x1 x2,
  ga_do ga_start (ANew (glide_object_new (F := R) 1%R 2%R 3%R 4%R 5%R 6 (Some (mkB (mkV 0%R 0%R) (mkV 7%R 8%R))) 9)) = Ok (w1, RAnim 0) /\ the_ganim w1 0 = Ok x1 /\
  ga_do ga_start (ANew (lamp_object_new (F := R) (Some (mkB (mkV 0%R 0%R) (mkV 7%R 8%R))) (Some (mkB (mkV 0%R 0%R) (mkV 1%R 1%R)))
    (Some (mkV 3%R 4%R)) 1%R 1%R 1%R 1%R None)) = Ok (w2, RAnim 0) /\ the_ganim w2 0 = Ok x2.
Proof.
  destruct (C66_construction_succeeds R R _ _ _ _ _ [] ga_start [] (glide_object_new (F := R) 1%R 2%R 3%R 4%R 5%R 6 (Some (mkB (mkV 0%R 0%R) (mkV 7%R 8%R))) 9)) as (w1 & E1).
  - reflexivity.
  - exact I.
  - exact I.
  - destruct (C66_construction_succeeds R R _ _ _ _ _ [] ga_start [] (lamp_object_new (F := R) (Some (mkB (mkV 0%R 0%R) (mkV 7%R 8%R))) (Some (mkB (mkV 0%R 0%R) (mkV 1%R 1%R)))
      (Some (mkV 3%R 4%R)) 1%R 1%R 1%R 1%R None)) as (w2 & E2).
    + reflexivity.
    + exact I.
    + exists 3%Z, 4%Z. cbn. rewrite (Ztrunc_IZR 3), (Ztrunc_IZR 4). repeat split; lia.
    + pose proof (ga_do_cases _ _ _ _ E1) as (x1 & _ & _ & ->). pose proof (ga_do_cases _ _ _ _ E2) as (x2 & _ & _ & ->).
      eexists _, _, x1, x2. split; [exact E1|]. split; [reflexivity|]. split; [exact E2|reflexivity].
Qed.
