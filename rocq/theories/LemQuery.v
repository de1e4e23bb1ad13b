(** * The queries of animation objects *)

From Coq Require Import ZArith Reals Bool String List Lia.
From Verif Require Import Num Geometry Outcome Steppers Transforms MagicLamp Program SpecAnim LemBasic LemSteppers LemTransforms LemLamp
  GlibParams GlibAnim SpecGlibAnim LemGlibAnim GlibQuery SpecQuery.
Import ListNotations.
Local Open Scope nat_scope.

Section Queries.
Context {F D : Type} `{Num F} `{Num D} `{Conv F D} `{Libm F} `{Libm D}.
Implicit Types (w : gaworld F D) (q : qworld F D).

Lemma asks_nothing q o q' u : q_do q o = Ok (q', u) -> only_asks o ->
  qw_objects q' = qw_objects q /\ match u with QOut _ => False | _ => True end.
Proof.
  destruct o as [c|a n|a|p k|a|a cs out|a uv out|a out]; cbn [q_do only_asks]; intros E A; [tauto|..].
  - inv_ok. unfold get_property. destruct (existsb _ _); [|cbn; auto].
    destruct (String.eqb_spec n "stepper"); [contradiction|]. cbn. auto.
  - inv_ok. cbn. auto.
  - inv_ok. cbn. auto.
  - inv_ok. cbn. auto.
  - destruct cs; [destruct out|]; inv_ok; cbn; auto.
  - inv_ok. destruct out; inv_ok; cbn; auto.
  - inv_ok. destruct out; inv_ok; cbn; auto.
Qed.

Lemma q_cons q o t q' us : q_run q (o :: t) = Ok (q', us) ->
  exists q1 u us', q_do q o = Ok (q1, u) /\ q_run q1 t = Ok (q', us') /\ us = u :: us'.
Proof.
  cbn [q_run]. destruct (q_do q o) as [[q1 u]|]; [|discriminate]. cbn [bind fst snd].
  destruct (q_run q1 t) as [[q2 us']|] eqn:E2; [|discriminate]. intros E. injection E as <- <-. eauto 8.
Qed.

Lemma queries_erased ops : forall q q' us,
  q_run q ops = Ok (q', us) -> Forall (fun o => only_asks o \/ exists c, o = QCall c) ops ->
  ga_run (qw_objects q) (calls_only ops) = Ok (qw_objects q', results_only us).
Proof.
  induction ops as [|o t IH]; intros q q' us E A.
  - injection E as <- <-. reflexivity.
  - apply q_cons in E. destruct E as (q1 & u & us' & E1 & E2 & ->). inversion A as [|? ? A1 A2]; subst.
    specialize (IH _ _ _ E2 A2). destruct A1 as [A1|(c & ->)].
    + destruct (asks_nothing _ _ _ _ E1 A1) as (Q & U). rewrite Q in IH.
      replace (calls_only (o :: t)) with (calls_only t) by (destruct o; [destruct A1|..]; reflexivity).
      replace (results_only (u :: us')) with (results_only us') by (destruct u; [destruct U|..]; reflexivity). exact IH.
    + cbn [q_do] in E1. destruct (ga_do (qw_objects q) c) as [[w1 v]|] eqn:X; [|discriminate E1]. cbn [bind fst snd] in E1. injection E1 as <- <-.
      change (calls_only (QCall c :: t)) with (c :: calls_only t). change (results_only (QOut v :: us')) with (v :: results_only us').
      cbn [ga_run]. rewrite X. cbn [bind fst snd qw_objects] in *. rewrite IH. reflexivity.
Qed.

(** ** The native animation of an object *)

(** One call that does not touch the stepper. *)
Definition plain_do w (a : nat) (o : gaop F D) (x : ganim F D) : res (ganim F D) :=
  match o with
  | AStep b ms => if Nat.eqb b a then r <- anim_step gcall ms x ;; Ok (fst r) else Ok x
  | ASetTo b n v => if Nat.eqb b a then Ok (set_to n v x) else Ok x
  | ASet b n v => if Nat.eqb b a then object_set w n v x else Ok x
  | _ => Ok x
  end.

Lemma set_other w (a b : nat) y x : b <> a -> nth_error (ga_anims w) a = Some x -> nth_error (ga_anims (set_ganim w b y)) a = Some x.
Proof. intros N E. cbn. rewrite nth_error_list_set_neq; auto. Qed.
Lemma set_own w (a : nat) y x : nth_error (ga_anims w) a = Some x -> nth_error (ga_anims (set_ganim w a y)) a = Some y.
Proof. intros E. cbn. apply nth_error_list_set_eq. apply nth_error_Some. congruence. Qed.

Lemma plain_step w o w' u (a : nat) x : ga_do w o = Ok (w', u) -> unobserved w a -> nth_error (ga_anims w) a = Some (Some x) ->
  keeps_stepper a o -> o <> AFinalize a -> exists x', plain_do w a o x = Ok x' /\ nth_error (ga_anims w') a = Some (Some x').
Proof.
  intros E U N K NF. apply ga_do_cases in E. destruct o as [n|b|i ms|i|g|b ms|b i|b|b n v|b n v|b]; cbn [plain_do keeps_stepper] in *.
  - destruct E as [-> _]. eauto.
  - destruct E as (_ & s & _ & ->). eauto.
  - exists x. split; [reflexivity|]. destruct E as (s & _ & _ & [[M ->]|(b & y & M & Y & _ & ->)]); [exact N|].
    apply set_other; auto. intros ->. exact (U _ M).
  - destruct E as (s & _ & ->). eauto.
  - destruct E as (y & _ & _ & ->). exists x. split; [reflexivity|]. cbn. rewrite nth_error_app1; [exact N|]. apply nth_error_Some. congruence.
  - destruct E as (y & y' & r & Y & S & _ & ->). destruct (Nat.eqb_spec b a) as [->|Ne].
    + assert (y = x) by congruence. subst y. rewrite S. cbn [bind fst]. eexists; split; [reflexivity|]. eapply set_own; eauto.
    + exists x. split; [reflexivity|]. apply set_other; auto.
  - destruct E as (y & j & s & Y & _ & _ & ->). exists x. split; [reflexivity|]. apply set_other; auto.
  - destruct E as (y & Y & _ & ->). eauto.
  - destruct E as (y & Y & ->). destruct (Nat.eqb_spec b a) as [->|Ne].
    + assert (y = x) by congruence. subst y. eexists; split; [reflexivity|]. eapply set_own; eauto.
    + exists x. split; [reflexivity|]. apply set_other; auto.
  - destruct E as (y & y' & Y & O & ->). destruct (Nat.eqb_spec b a) as [->|Ne].
    + assert (y = x) by congruence. subst y. eexists; split; [exact O|]. eapply set_own; eauto.
    + exists x. split; [reflexivity|]. apply set_other; auto.
  - destruct E as (y & Y & ->). exists x. split; [reflexivity|]. apply set_other; [congruence|exact N].
Qed.

Lemma gone_stays ops : forall w w' us (a : nat), ga_run w ops = Ok (w', us) -> nth_error (ga_anims w) a = Some None -> nth_error (ga_anims w') a = Some None.
Proof.
  induction ops as [|o t IH]; intros w w' us a E N; [injection E as <- <-; exact N|].
  apply run_cons in E. destruct E as (w1 & u & us' & E1 & E2 & ->). eapply IH; [exact E2|]. clear E2.
  assert (S : forall b y, nth_error (ga_anims w) b = Some (Some y) -> forall z, nth_error (ga_anims (set_ganim w b z)) a = Some None).
  { intros b y Y z. apply set_other; auto. congruence. }
  apply ga_do_cases in E1. destruct o as [n|b|i ms|i|g|b ms|b i|b|b n v|b n v|b].
  - destruct E1 as [-> _]. exact N.
  - destruct E1 as (_ & s & _ & ->). exact N.
  - destruct E1 as (s & _ & _ & [[M ->]|(b & y & M & Y & _ & ->)]); [exact N|eauto].
  - destruct E1 as (s & _ & ->). exact N.
  - destruct E1 as (y & _ & _ & ->). cbn. rewrite nth_error_app1; [exact N|]. apply nth_error_Some. congruence.
  - destruct E1 as (y & y' & r & Y & S' & _ & ->). eauto.
  - destruct E1 as (y & j & s & Y & _ & _ & ->). eauto.
  - destruct E1 as (y & Y & _ & ->). exact N.
  - destruct E1 as (y & Y & ->). eauto.
  - destruct E1 as (y & y' & Y & O & ->). eauto.
  - destruct E1 as (y & Y & ->). eauto.
Qed.

Lemma not_finalized o t w w1 u w' us (a : nat) x y : ga_do w o = Ok (w1, u) -> ga_run w1 t = Ok (w', us) ->
  nth_error (ga_anims w) a = Some (Some x) -> nth_error (ga_anims w') a = Some (Some y) -> o <> AFinalize a.
Proof.
  intros E1 E2 N M ->. apply ga_do_cases in E1. destruct E1 as (z & Z & ->).
  pose proof (gone_stays _ _ _ _ a E2 (set_own _ _ None _ Z)). congruence.
Qed.

(** Any relation that the calls keep holds at the end. *)
Lemma object_ind (P : list (gaop F D) -> ganim F D -> Prop) (a : nat) :
  (forall past w o x x', P past x -> keeps_stepper a o -> plain_do w a o x = Ok x' -> P (past ++ [o]) x') ->
  forall ops past w w' us x y, ga_run w ops = Ok (w', us) -> unobserved w a -> Forall (keeps_stepper a) ops ->
    nth_error (ga_anims w) a = Some (Some x) -> nth_error (ga_anims w') a = Some (Some y) -> P past x -> P (past ++ ops) y.
Proof.
  intros Step. induction ops as [|o t IH]; intros past w w' us x y E U K N M Px.
  - injection E as <- <-. rewrite app_nil_r. assert (x = y) by congruence. subst y. exact Px.
  - apply run_cons in E. destruct E as (w1 & u & us' & E1 & E2 & ->). inversion K as [|? ? K1 K2]; subst.
    assert (NF : o <> AFinalize a) by (eapply not_finalized; eauto).
    destruct (plain_step _ _ _ _ _ _ E1 U N K1 NF) as (x1 & P1 & N1).
    replace (past ++ o :: t) with ((past ++ [o]) ++ t) by (rewrite <- app_assoc; reflexivity).
    eapply IH; [exact E2| |exact K2|exact N1|exact M|eapply Step; eauto].
    eapply unobserved_do; eauto. intros ->. exact (K1 eq_refl).
Qed.

(** Numbers [g_object_set] accepts, in the model and in the specification. *)
Lemma unname (name s : string) : (if string_dec name s then true else false) = String.eqb name s.
Proof. destruct (string_dec name s), (String.eqb_spec name s); congruence. Qed.

Ltac names n :=
  repeat (match goal with
          | |- context [string_dec n ?m] => destruct (string_dec n m); [subst n|]
          | |- context [String.eqb n ?m] => destruct (String.eqb_spec n m); [congruence|]
          end).

Lemma bounce_sim w (a : nat) o (b : bounce F D (gstepper F)) x' : keeps_stepper a o -> plain_do w a o (ABounce b) = Ok x' ->
  x' = ABounce (fold_left (bounce_do gcall) (bounce_call a o) b).
Proof.
  intros K E. destruct o as [n|b0|i ms|i|g|b0 ms|b0 i|b0|b0 n v|b0 n v|b0]; cbn [plain_do bounce_call keeps_stepper] in *; try (injection E as <-; reflexivity).
  - destruct (Nat.eqb b0 a); [|injection E as <-; reflexivity]. cbn [anim_step] in E. cbn [fold_left bounce_do].
    destruct (bounce_step gcall ms b). injection E as <-. reflexivity.
  - destruct (Nat.eqb b0 a); injection E as <-; [|destruct v; reflexivity]. destruct v as [v|m|f]; cbn [set_to set_uint set_box andb]; [|rewrite eqb_dec; destruct (string_dec n _); reflexivity|reflexivity].
    unfold bounce_number. cbn [set_float].
    destruct (string_dec n "initial-scale") as [->|N1]; [reflexivity|]. rewrite (proj2 (String.eqb_neq _ _) N1).
    destruct (string_dec n "maximum-scale") as [->|N2]; [reflexivity|]. rewrite (proj2 (String.eqb_neq _ _) N2). reflexivity.
  - destruct (Nat.eqb_spec b0 a) as [->|Ne]; cbn [andb]; [|injection E as <-; destruct v; reflexivity].
    destruct K as [K|K]; [congruence|]. unfold object_set in E. cbn [class_of settable] in E.
    destruct v as [v|m|v|v|v|v|v]; cbn [fold_left].
    + unfold accepted, documented. cbn [existsb valid] in E. unfold bounce_number.
      destruct (string_dec n "initial-scale") as [->|N1].
      { cbn in E. unfold float_ok in E. cbn [orb andb] in E. destruct (nleb (nlit 1 10) v && nleb v (nof 1)); injection E as <-; reflexivity. }
      destruct (string_dec n "maximum-scale") as [->|N2].
      { cbn in E. unfold float_ok in E. cbn [orb andb] in E. destruct (nleb (nof 1) v && nleb v (nof 3)); injection E as <-; reflexivity. }
      destruct (_ && _) in E; injection E as <-; [|reflexivity]. cbn [set_float].
      rewrite (proj2 (String.eqb_neq _ _) N1), (proj2 (String.eqb_neq _ _) N2). reflexivity.
    + destruct (string_dec n "n-bounce") as [->|N1].
      { cbn in E. unfold uint_ok in E. cbn [orb andb] in E. destruct ((1 <=? m)%Z && (m <=? 10)%Z); injection E as <-; reflexivity. }
      destruct (_ && _) in E; injection E as <-; [|reflexivity]. cbn [set_uint]. rewrite (proj2 (String.eqb_neq _ _) N1). reflexivity.
    + destruct (_ && _) in E; injection E as <-; [destruct v|]; reflexivity.
    + destruct (_ && _) in E; injection E as <-; reflexivity.
    + destruct (_ && _) in E; [|injection E as <-; reflexivity]. cbn [set_property] in E. rewrite (proj2 (String.eqb_neq _ _) K) in E. injection E as <-. reflexivity.
    + destruct (_ && _) in E; injection E as <-; reflexivity.
    + destruct (_ && _) in E; injection E as <-; reflexivity.
Qed.

Lemma glide_sim w (a : nat) o (b : glide F D (gstepper F)) x' : keeps_stepper a o -> plain_do w a o (AGlide b) = Ok x' ->
  x' = AGlide (fold_left (glide_do gcall) (glide_call a o) b).
Proof.
  intros K E. destruct o as [n|b0|i ms|i|g|b0 ms|b0 i|b0|b0 n v|b0 n v|b0]; cbn [plain_do glide_call keeps_stepper] in *; try (injection E as <-; reflexivity).
  - destruct (Nat.eqb b0 a); [|injection E as <-; reflexivity]. cbn [anim_step] in E. cbn [fold_left glide_do].
    destruct (glide_step gcall ms b). injection E as <-. reflexivity.
  - destruct (Nat.eqb b0 a); injection E as <-; [|destruct v; reflexivity]. destruct v as [v|m|f]; cbn [set_to set_uint set_box]; [|reflexivity..].
    unfold glide_number. cbn [set_float].
    do 5 (match goal with |- context [string_dec n ?m] =>
      destruct (string_dec n m) as [->|N]; [reflexivity|rewrite (proj2 (String.eqb_neq _ _) N); clear N] end). reflexivity.
  - destruct (Nat.eqb_spec b0 a) as [->|Ne]; cbn [andb]; [|injection E as <-; destruct v; reflexivity].
    destruct K as [K|K]; [congruence|]. unfold object_set in E. cbn [class_of settable] in E.
    destruct v as [v|m|v|v|v|v|v]; cbn [fold_left].
    + unfold accepted, documented, glide_number.
      do 5 (match goal with |- context [string_dec n ?m] =>
        destruct (string_dec n m) as [->|]; [cbn in E; unfold float_ok in E; cbn [orb andb] in E;
           match type of E with context [nleb ?l v && nleb v ?h] => destruct (nleb l v && nleb v h) end; injection E as <-; reflexivity|] end).
      destruct (_ && _) in E; injection E as <-; [|reflexivity]. cbn [set_float].
      repeat (match goal with |- context [String.eqb n ?m] => rewrite (proj2 (String.eqb_neq n m)) by assumption end). reflexivity.
    + destruct (_ && _) in E; injection E as <-; reflexivity.
    + destruct (_ && _) in E; injection E as <-; [destruct v|]; reflexivity.
    + destruct (_ && _) in E; injection E as <-; reflexivity.
    + destruct (_ && _) in E; [|injection E as <-; reflexivity]. cbn [set_property] in E. rewrite (proj2 (String.eqb_neq _ _) K) in E. injection E as <-. reflexivity.
    + destruct (_ && _) in E; injection E as <-; reflexivity.
    + destruct (_ && _) in E; injection E as <-; reflexivity.
Qed.

Lemma zoom_sim w (a : nat) o (b : zoom F D (gstepper F)) x' : keeps_stepper a o -> plain_do w a o (AZoom b) = Ok x' ->
  x' = AZoom (fold_left (zoom_do gcall) (zoom_call a o) b).
Proof.
  intros K E. destruct o as [n|b0|i ms|i|g|b0 ms|b0 i|b0|b0 n v|b0 n v|b0]; cbn [plain_do zoom_call keeps_stepper] in *; try (injection E as <-; reflexivity).
  - destruct (Nat.eqb b0 a); [|injection E as <-; reflexivity]. cbn [anim_step] in E. cbn [fold_left zoom_do].
    destruct (zoom_step gcall ms b). injection E as <-. reflexivity.
  - destruct (Nat.eqb b0 a); injection E as <-; [|destruct v; reflexivity]. destruct v as [v|m|f]; cbn [set_to set_box andb]; [reflexivity..|].
    rewrite eqb_dec. destruct (string_dec n _); reflexivity.
  - destruct (Nat.eqb_spec b0 a) as [->|Ne]; cbn [andb]; [|injection E as <-; destruct v as [| |[|]| | | |]; reflexivity].
    destruct K as [K|K]; [congruence|]. unfold object_set in E. cbn [class_of settable] in E.
    destruct v as [v|m|v|v|v|v|v]; cbn [fold_left].
    + destruct (_ && _) in E; injection E as <-; reflexivity.
    + destruct (_ && _) in E; injection E as <-; reflexivity.
    + destruct v as [f|]; [|destruct (_ && _) in E; injection E as <-; reflexivity].
      destruct (string_dec n "from") as [->|N]; [injection E as <-; reflexivity|].
      destruct (_ && _) in E; injection E as <-; [|reflexivity]. cbn [set_box]. rewrite (proj2 (String.eqb_neq _ _) N). reflexivity.
    + destruct (_ && _) in E; injection E as <-; reflexivity.
    + destruct (_ && _) in E; [|injection E as <-; reflexivity]. cbn [set_property] in E. rewrite (proj2 (String.eqb_neq _ _) K) in E. injection E as <-. reflexivity.
    + destruct (_ && _) in E; injection E as <-; reflexivity.
    + destruct (_ && _) in E; injection E as <-; reflexivity.
Qed.

Lemma lamp_number_eq n v (q : lamp_params F D) : lamp_set q n v = match lamp_number n v q with Some q' => q' | None => q end.
Proof.
  destruct q as [f t b o s d]. unfold lamp_set, lamp_number. rewrite !eqb_dec. cbn [lp_source lp_target lp_bend lp_offset lp_stretch lp_speed].
  destruct (string_dec n "bend-factor"); [reflexivity|]. destruct (string_dec n "offset-factor"); [reflexivity|].
  destruct (string_dec n "stretch-factor"); [reflexivity|]. destruct (string_dec n "deform-speed-factor"); reflexivity.
Qed.
Lemma with_same (l : lamp F D (gstepper F)) : with_params l (ml_params l) = l.
Proof. destruct l; reflexivity. Qed.

Lemma lamp_sim w (a : nat) o (l : lamp F D (gstepper F)) x' : keeps_stepper a o -> plain_do w a o (ALamp l) = Ok x' ->
  match o with
  | AStep b ms => if Nat.eqb b a then exists l', lamp_do gcall l (MlStep ms) = Ok l' /\ x' = ALamp l' else x' = ALamp l
  | _ => x' = ALamp (with_params l (match lamp_assigns a o (ml_params l) with Some q => q | None => ml_params l end))
  end.
Proof.
  intros K E. destruct o as [n|b0|i ms|i|g|b0 ms|b0 i|b0|b0 n v|b0 n v|b0]; cbn [plain_do lamp_assigns keeps_stepper] in *;
    try (injection E as <-; rewrite with_same; reflexivity).
  - destruct (Nat.eqb b0 a); [|injection E as <-; reflexivity]. cbn [anim_step] in E. cbn [lamp_do].
    destruct (lamp_step gcall ms l) as [[l' r]|]; [|discriminate E]. injection E as <-. exists l'. split; reflexivity.
  - destruct (Nat.eqb b0 a); injection E as <-; [|destruct v; cbn [andb]; rewrite with_same; reflexivity]. destruct v as [v|m|f]; cbn [set_to set_float set_uint set_box andb].
    + rewrite lamp_number_eq. reflexivity.
    + rewrite with_same. reflexivity.
    + rewrite eqb_dec. destruct (string_dec n _); [destruct l as [[? ? ? ? ? ?] ? ? ? ?]; reflexivity|rewrite with_same; reflexivity].
  - destruct (Nat.eqb_spec b0 a) as [->|Ne]; cbn [andb];
      [|injection E as <-; destruct v as [| |[|]| | | |]; rewrite with_same; reflexivity].
    destruct K as [K|K]; [congruence|]. unfold object_set in E. cbn [class_of settable] in E.
    destruct v as [v|m|v|v|v|v|v].
    + unfold accepted, documented.
      destruct (string_dec n "stretch-factor") as [->|NS]; [rewrite andb_false_r, with_same; injection E as <-; reflexivity|].
      rewrite andb_true_r.
      destruct (string_dec n "bend-factor") as [->|];
        [cbn in E; unfold float_ok in E; cbn [orb andb] in E; destruct (nleb (nof 1) v && nleb v (nof 20)); injection E as <-;
           [destruct (ml_params l); reflexivity|rewrite with_same; reflexivity]|].
      destruct (string_dec n "offset-factor") as [->|];
        [cbn in E; unfold float_ok in E; cbn [orb andb] in E; destruct (nleb (nlit 1 10) v && nleb v (nof 1)); injection E as <-;
           [destruct (ml_params l); reflexivity|rewrite with_same; reflexivity]|].
      destruct (string_dec n "deform-speed-factor") as [->|];
        [cbn in E; unfold float_ok in E; cbn [orb andb] in E; destruct (nleb (nof 1) v && nleb v (nof 4)); injection E as <-;
           [destruct (ml_params l); reflexivity|rewrite with_same; reflexivity]|].
      rewrite with_same. destruct (_ && _) in E; injection E as <-; [|reflexivity]. cbn [set_float]. unfold lamp_set.
      rewrite !(proj2 (String.eqb_neq n _)) by assumption. rewrite with_same. reflexivity.
    + rewrite with_same. destruct (_ && _) in E; injection E as <-; reflexivity.
    + destruct v as [f|]; [|rewrite with_same; destruct (_ && _) in E; injection E as <-; reflexivity].
      destruct (string_dec n "source") as [->|N].
      { injection E as <-. destruct l as [[? ? ? ? ? ?] ? ? ? ?]. reflexivity. }
      rewrite with_same. destruct (_ && _) in E; injection E as <-; [|reflexivity]. cbn [set_box]. rewrite (proj2 (String.eqb_neq _ _) N). reflexivity.
    + rewrite with_same. destruct (_ && _) in E; injection E as <-; reflexivity.
    + rewrite with_same. destruct (_ && _) in E; [|injection E as <-; reflexivity]. cbn [set_property] in E. rewrite (proj2 (String.eqb_neq _ _) K) in E. injection E as <-. reflexivity.
    + rewrite with_same. destruct (_ && _) in E; injection E as <-; reflexivity.
    + rewrite with_same. destruct (_ && _) in E; injection E as <-; reflexivity.
Qed.

Lemma lamp_run_app ops : forall (l : lamp F D (gstepper F)) o, lamp_run gcall l (ops ++ o) = (l' <- lamp_run gcall l ops ;; lamp_run gcall l' o).
Proof.
  induction ops as [|p t IH]; intros l o; [reflexivity|]. cbn [app lamp_run].
  destruct (lamp_do gcall l p) as [l1|]; [|reflexivity]. cbn [bind]. apply IH.
Qed.

(** The history an object has been through. *)
Lemma object_history before g after w us (a : nat) x :
  ga_run ga_start (before ++ ANew g :: after) = Ok (w, us) -> nth_error us (length before) = Some (RAnim a) ->
  Forall (keeps_stepper a) after -> the_ganim w a = Ok x ->
  exists w0 us0 x0, ga_run ga_start before = Ok (w0, us0) /\ anim_object w0 g = Ok x0 /\
    forall P : list (gaop F D) -> ganim F D -> Prop,
      (forall past w o x x', P past x -> keeps_stepper a o -> plain_do w a o x = Ok x' -> P (past ++ [o]) x') -> P [] x0 -> P after x.
Proof.
  intros E N K X. apply the_ganim_nth in X. apply run_app in E. destruct E as (w0 & us1 & us2 & E1 & E2 & -> & L).
  apply run_cons in E2. destruct E2 as (w1 & u & us3 & E3 & E4 & ->). pose proof (ga_do_cases _ _ _ _ E3) as C. cbn in C.
  destruct C as (x0 & O & -> & ->). rewrite nth_error_app2, L, Nat.sub_diag in N by lia. injection N as <-.
  exists w0, us1, x0. do 2 (split; [assumption|]). intros P Step P0.
  apply (object_ind P (length (ga_anims w0)) Step after [] _ _ _ x0 x E4); auto.
  - intros i M. cbn [ga_steppers] in M. pose proof (wrappers_run _ _ _ _ start_wrappers E1 _ _ M). lia.
  - cbn [ga_anims]. rewrite nth_error_app2, Nat.sub_diag by lia. reflexivity.
Qed.

Lemma stepper_at_of before w0 us0 i s : ga_run ga_start before = Ok (w0, us0) -> stepper_of w0 i = Ok s -> stepper_at (F := F) (D := D) before i s.
Proof. intros E S. exists w0, us0. split; [exact E|]. destruct i; cbn in S; [exact S|]. injection S as <-. reflexivity. Qed.

Lemma bounce_life before i m n t st after w us (a : nat) x :
  ga_run ga_start (before ++ ANew (GBounce i m n t st) :: after) = Ok (w, us) -> nth_error us (length before) = Some (RAnim a) ->
  Forall (keeps_stepper a) after -> the_ganim w a = Ok x -> exists s, stepper_at before st s /\
  x = ABounce (fold_left (bounce_do gcall) (BnSetStepper s :: flat_map (bounce_call a) after)
        (bounce_new gcall (given (nlit 7 10) i) (given (nlit 12 10) m) (given 1%Z n) (box_or_unit t) s)).
Proof.
  intros E N K X. destruct (object_history _ _ _ _ _ _ _ E N K X) as (w0 & us0 & x0 & E0 & O & I).
  rewrite anim_object_eq in O. cbn [args_of stepper_arg bind] in O. destruct (stepper_of w0 st) as [s|] eqn:S; [|discriminate O].
  cbn [bind anim_new] in O. injection O as <-. exists s. split; [eapply stepper_at_of; eauto|].
  refine (I (fun past x => x = ABounce (fold_left (bounce_do gcall) (BnSetStepper s :: flat_map (bounce_call a) past) _)) _ _).
  - intros past w1 o y y' -> K1 P. rewrite flat_map_app. cbn [flat_map]. rewrite app_nil_r, app_comm_cons, fold_left_app. eapply bounce_sim; eauto.
  - reflexivity.
Qed.

Lemma glide_life before d xr yr xa ya wd t st after w us (a : nat) x :
  ga_run ga_start (before ++ ANew (GGlide d xr yr xa ya wd t st) :: after) = Ok (w, us) -> nth_error us (length before) = Some (RAnim a) ->
  Forall (keeps_stepper a) after -> the_ganim w a = Ok x -> exists s, stepper_at before st s /\
  x = AGlide (fold_left (glide_do gcall) (GlSetStepper s :: flat_map (glide_call a) after)
        (glide_new gcall (given (nlit (-3) 10) d) (given (nof 0) xr) (given (nof 0) yr) (given (nlit 2 10) xa) (given (nlit 5 10) ya)
           (given 1%Z wd) (box_or_unit t) s)).
Proof.
  intros E N K X. destruct (object_history _ _ _ _ _ _ _ E N K X) as (w0 & us0 & x0 & E0 & O & I).
  rewrite anim_object_eq in O. cbn [args_of stepper_arg bind] in O. destruct (stepper_of w0 st) as [s|] eqn:S; [|discriminate O].
  cbn [bind anim_new] in O. injection O as <-. exists s. split; [eapply stepper_at_of; eauto|].
  refine (I (fun past x => x = AGlide (fold_left (glide_do gcall) (GlSetStepper s :: flat_map (glide_call a) past) _)) _ _).
  - intros past w1 o y y' -> K1 P. rewrite flat_map_app. cbn [flat_map]. rewrite app_nil_r, app_comm_cons, fold_left_app. eapply glide_sim; eauto.
  - reflexivity.
Qed.

Lemma zoom_life before f t st after w us (a : nat) x :
  ga_run ga_start (before ++ ANew (GZoom f t st) :: after) = Ok (w, us) -> nth_error us (length before) = Some (RAnim a) ->
  Forall (keeps_stepper a) after -> the_ganim w a = Ok x -> exists s, stepper_at before st s /\
  x = AZoom (fold_left (zoom_do gcall)
        ((match f with Some b => [ZmSetFrom b] | None => [] end) ++ ZmSetStepper s :: flat_map (zoom_call a) after)
        (zoom_new gcall (box_or_unit f) (box_or_unit t) s)).
Proof.
  intros E N K X. destruct (object_history _ _ _ _ _ _ _ E N K X) as (w0 & us0 & x0 & E0 & O & I).
  rewrite anim_object_eq in O. cbn [args_of stepper_arg bind] in O. destruct (stepper_of w0 st) as [s|] eqn:S; [|discriminate O].
  cbn [bind anim_new] in O. injection O as <-. exists s. split; [eapply stepper_at_of; eauto|].
  refine (I (fun past x => x = AZoom (fold_left (zoom_do gcall) (_ ++ ZmSetStepper s :: flat_map (zoom_call a) past) _)) _ _).
  - intros past w1 o y y' -> K1 P. rewrite flat_map_app. cbn [flat_map]. rewrite app_nil_r.
    rewrite (app_comm_cons (flat_map (zoom_call a) past) (zoom_call a o)), app_assoc, fold_left_app. eapply zoom_sim; eauto.
  - destruct f; reflexivity.
Qed.

Lemma lamp_calls_app (a : nat) o past : forall q : lamp_params F D, exists q' : lamp_params F D,
  lamp_calls (St := gstepper F) a (past ++ [o]) q = lamp_calls a past q ++ lamp_calls a [o] q' /\
  forall l l', ml_params l = q -> lamp_run gcall l (lamp_calls a past q) = Ok l' -> ml_params l' = q'.
Proof.
  induction past as [|p t IH]; intros q.
  - exists q. split; [reflexivity|]. intros l l' Q E. injection E as <-. exact Q.
  - assert (G : forall (q1 : lamp_params F D) pre, (forall l l', ml_params l = q -> lamp_run gcall l pre = Ok l' -> ml_params l' = q1) ->
        exists q' : lamp_params F D, (pre ++ lamp_calls (St := gstepper F) a (t ++ [o]) q1) = (pre ++ lamp_calls a t q1) ++ lamp_calls a [o] q' /\
          forall l l', ml_params l = q -> lamp_run gcall l (pre ++ lamp_calls a t q1) = Ok l' -> ml_params l' = q').
    { intros q1 pre Hp. destruct (IH q1) as (q' & E1 & E2). exists q'. rewrite E1, app_assoc. split; [reflexivity|].
      intros l l' Q R. rewrite lamp_run_app in R. destruct (lamp_run gcall l pre) as [l1|] eqn:R1; [|discriminate R]. cbn [bind] in R. eauto. }
    assert (Kp : forall l l', ml_params l = q -> lamp_run gcall l [] = Ok l' -> ml_params l' = q).
    { intros l l' Q R. injection R as <-. exact Q. }
    destruct p as [n|b0|i ms|i|g|b0 ms|b0 i|b0|b0 n v|b0 n v|b0]; cbn [lamp_calls app];
      try (destruct (lamp_assigns a _ q) as [q1|]; [apply (G q1 [MlSetParams q1]); intros l l' _ R; injection R as <-; reflexivity|exact (G q [] Kp)]).
    destruct (Nat.eqb b0 a); [|exact (G q [] Kp)]. apply (G q [MlStep ms]). intros l l' Q R. cbn [lamp_run lamp_do] in R.
    unfold lamp_step in R. destruct (gcall (ml_stepper l) ms). destruct (move_grid _ _ _ _); [|discriminate R]. cbn [bind fst] in R. injection R as <-. exact Q.
Qed.

Lemma lamp_life before f t r b o st sp stp after w us (a : nat) x :
  ga_run ga_start (before ++ ANew (GLamp f t r b o st sp stp) :: after) = Ok (w, us) -> nth_error us (length before) = Some (RAnim a) ->
  Forall (keeps_stepper a) after -> the_ganim w a = Ok x -> exists s cols rows l0 l, stepper_at before stp s /\
  to_size (vx (given (mkV (nof 10) (nof 10)) r)) = Ok cols /\ to_size (vy (given (mkV (nof 10) (nof 10)) r)) = Ok rows /\
  let q := mkLamp (box_or_unit f) (box_or_unit t) (given (nof 10) b) (given (nlit 5 10) o) (given (nlit 45 100) st) (given (nlit 23 10) sp) in
  lamp_new gcall q (mkRes cols rows) s = Ok l0 /\ lamp_run gcall l0 (MlSetStepper s :: lamp_calls a after q) = Ok l /\ x = ALamp l.
Proof.
  intros E N K X. destruct (object_history _ _ _ _ _ _ _ E N K X) as (w0 & us0 & x0 & E0 & O & I).
  rewrite anim_object_eq in O. cbn [args_of stepper_arg] in O. cbv zeta in O.
  change (match r with Some p => p | None => mkV (nof 10) (nof 10) end) with (given (mkV (nof 10) (nof 10)) r) in O.
  destruct (to_size (vx _)) as [cols|] eqn:C1; [|discriminate O]. cbn [bind] in O.
  destruct (to_size (vy _)) as [rows|] eqn:C2; [|discriminate O]. cbn [bind] in O.
  destruct (stepper_of w0 stp) as [s|] eqn:S; [|discriminate O]. cbn [bind anim_new] in O.
  match type of O with context [lamp_new gcall ?q ?rr s] => set (q0 := q) in *; destruct (lamp_new gcall q0 rr s) as [l0|] eqn:L0; [|discriminate O] end.
  cbn [bind] in O. injection O as <-. exists s, cols, rows, l0.
  assert (Q0 : ml_params l0 = q0).
  { unfold lamp_new in L0. destruct (gcall s 0). destruct (move_grid _ _ _ _); [|discriminate L0]. cbn [bind] in L0. injection L0 as <-. reflexivity. }
  assert (G : exists l : lamp F D (gstepper F), x = ALamp l /\ lamp_run gcall l0 (MlSetStepper s :: lamp_calls a after q0) = Ok l).
  { refine (I (fun past x => exists l : lamp F D (gstepper F), x = ALamp l /\ lamp_run gcall l0 (MlSetStepper s :: lamp_calls a past q0) = Ok l) _ _).
    - intros past w1 op y y' (l & -> & R) K1 P. destruct (lamp_calls_app a op past q0) as (q1 & E1 & E2).
      rewrite E1. cbn [lamp_run lamp_do bind] in R |- *.
      assert (Q1 : ml_params l = q1) by (eapply E2; [|exact R]; exact Q0).
      rewrite lamp_run_app, R. cbn [bind]. pose proof (lamp_sim _ _ _ _ _ K1 P) as Sm. rewrite Q1 in Sm.
      destruct op as [n|b0|i ms|i|g|b0 ms|b0 i|b0|b0 n v|b0 n v|b0]; cbn [lamp_calls app];
        try (match type of Sm with context [lamp_assigns a ?op q1] => destruct (lamp_assigns a op q1) as [q2|] end;
             [eexists; split; [exact Sm|reflexivity]|cbv iota in Sm; rewrite <- Q1, with_same in Sm; eexists; split; [exact Sm|reflexivity]]).
      destruct (Nat.eqb b0 a).
      + destruct Sm as (l' & D1 & ->). exists l'. split; [reflexivity|]. rewrite app_nil_r. cbn [lamp_run]. rewrite D1. reflexivity.
      + exists l. split; [exact Sm|reflexivity].
    - eexists. split; [|reflexivity]. reflexivity. }
  destruct G as (l & Gx & Gl). exists l. split; [eapply stepper_at_of; eauto|]. split; [reflexivity|]. split; [reflexivity|]. cbv zeta. split; [exact L0|]. auto.
Qed.

(** ** Invariants of objects *)

Definition kept (P : ganim F D -> Prop) : Prop :=
  (forall ms x x' b, P x -> anim_step gcall ms x = Ok (x', b) -> P x') /\
  (forall s x, P x -> P (anim_set_stepper gcall s x)) /\
  (forall n v x, P x -> P (set_float n v x)) /\ (forall n v x, P x -> P (set_uint n v x)) /\ (forall n v x, P x -> P (set_box n v x)).

Lemma kept_set P w n v x x' : kept P -> P x -> object_set w n v x = Ok x' -> P x'.
Proof.
  intros (_ & S & A & B & C) Px E. unfold object_set in E. destruct (_ && _) in E; [|injection E as <-; exact Px].
  destruct v as [v|m|v|v|v|v|v]; cbn [set_property] in E; try (injection E as <-; auto).
  destruct (String.eqb n "stepper"); [|injection E as <-; auto]. unfold set_stepper in E. destruct v as [j|]; [|discriminate E].
  destruct (read_stepper w j); [|discriminate E]. cbn [bind] in E. injection E as <-. auto.
Qed.

Lemma kept_do P w o w' u (a : nat) x y : kept P -> ga_do w o = Ok (w', u) -> nth_error (ga_anims w) a = Some (Some x) -> P x ->
  nth_error (ga_anims w') a = Some (Some y) -> P y.
Proof.
  intros K E N Px M. pose proof K as (K1 & K2 & K3 & K4 & K5). apply ga_do_cases in E.
  assert (L : (a < length (ga_anims w))%nat) by (apply nth_error_Some; congruence).
  assert (S : forall b z z', nth_error (ga_anims w) b = Some (Some z) -> w' = set_ganim w b (Some z') -> (P z -> P z') -> P y).
  { intros b z z' Z -> I. cbn in M. rewrite nth_error_list_set in M. destruct (Nat.eqb_spec b a) as [->|]; cbn [andb] in M; [|congruence].
    apply Nat.ltb_lt in L. rewrite L in M. injection M as <-. apply I. congruence. }
  destruct o as [n|b|i ms|i|g|b ms|b i|b|b n v|b n v|b].
  - destruct E as [-> _]. cbn in M. congruence.
  - destruct E as (_ & s & _ & ->). cbn in M. congruence.
  - destruct E as (s & _ & _ & [[Q ->]|(b & z & Q & Z & _ & Ew)]); [cbn in M; congruence|eauto].
  - destruct E as (s & _ & ->). cbn in M. congruence.
  - destruct E as (z & _ & _ & ->). cbn in M. rewrite nth_error_app1 in M by exact L. congruence.
  - destruct E as (z & z' & r & Z & St & _ & Ew). eauto.
  - destruct E as (z & j & s & Z & _ & _ & Ew). eauto.
  - destruct E as (z & Z & _ & ->). cbn in M. congruence.
  - destruct E as (z & Z & Ew). eapply S; [exact Z|exact Ew|]. destruct v; cbn [set_to]; auto.
  - destruct E as (z & z' & Z & O & Ew). eapply S; [exact Z|exact Ew|]. intros Pz. eapply kept_set; eauto.
  - destruct E as (z & Z & ->). cbn in M. rewrite nth_error_list_set in M. destruct (_ && _) in M; congruence.
Qed.

Lemma absent_do w o w' u (a : nat) y : ga_do w o = Ok (w', u) -> nth_error (ga_anims w) a = None -> nth_error (ga_anims w') a = Some (Some y) ->
  exists g, o = ANew g /\ anim_object w g = Ok y /\ a = length (ga_anims w).
Proof.
  intros E N M. apply ga_do_cases in E.
  assert (S : forall b z, w' = set_ganim w b z -> False).
  { intros b z ->. cbn in M. assert (nth_error (list_set b z (ga_anims w)) a = None); [|congruence].
    apply nth_error_None. rewrite list_set_length. apply nth_error_None. exact N. }
  destruct o as [n|b|i ms|i|g|b ms|b i|b|b n v|b n v|b].
  - destruct E as [-> _]. cbn in M. congruence.
  - destruct E as (_ & s & _ & ->). cbn in M. congruence.
  - destruct E as (s & _ & _ & [[Q ->]|(b & z & Q & Z & _ & Ew)]); [cbn in M; congruence|destruct (S _ _ Ew)].
  - destruct E as (s & _ & ->). cbn in M. congruence.
  - destruct E as (z & Z & _ & ->). cbn in M. exists g. split; [reflexivity|]. apply nth_error_None in N.
    rewrite nth_error_app2 in M by exact N. destruct (a - length (ga_anims w)) as [|[|k]] eqn:K; try discriminate M.
    injection M as <-. split; [exact Z|lia].
  - destruct E as (z & z' & r & Z & St & _ & Ew). destruct (S _ _ Ew).
  - destruct E as (z & j & s & Z & _ & _ & Ew). destruct (S _ _ Ew).
  - destruct E as (z & Z & _ & ->). cbn in M. congruence.
  - destruct E as (z & Z & Ew). destruct (S _ _ Ew).
  - destruct E as (z & z' & Z & O & Ew). destruct (S _ _ Ew).
  - destruct E as (z & Z & Ew). destruct (S _ _ Ew).
Qed.

Lemma gone_do w o w' u (a : nat) : ga_do w o = Ok (w', u) -> nth_error (ga_anims w) a = Some None -> nth_error (ga_anims w') a = Some None.
Proof. intros E N. apply (gone_stays [o] w w' [u] a); [|exact N]. cbn [ga_run]. rewrite E. reflexivity. Qed.

Lemma kept_run P (a : nat) ops : kept P -> forall w w' us x y, ga_run w ops = Ok (w', us) -> nth_error (ga_anims w) a = Some (Some x) -> P x ->
  nth_error (ga_anims w') a = Some (Some y) -> P y.
Proof.
  intros K. induction ops as [|o t IH]; intros w w' us x y E N Px M.
  - injection E as <- <-. congruence.
  - apply run_cons in E. destruct E as (w1 & u & us' & E1 & E2 & ->).
    destruct (nth_error (ga_anims w1) a) as [[z|]|] eqn:Z.
    + eapply IH; [exact E2|exact Z| |exact M]. eapply kept_do; eauto.
    + pose proof (gone_stays _ _ _ _ _ E2 Z). congruence.
    + exfalso. pose proof (anims_grow _ _ _ _ E1). apply nth_error_None in Z.
      assert (a < length (ga_anims w))%nat by (apply nth_error_Some; congruence). lia.
Qed.

Lemma all_run P ops : kept P -> (forall w g x, anim_object w g = Ok x -> P x) -> forall w w' us,
  (forall (a : nat) x, nth_error (ga_anims w) a = Some (Some x) -> P x) -> ga_run w ops = Ok (w', us) ->
  forall (a : nat) x, nth_error (ga_anims w') a = Some (Some x) -> P x.
Proof.
  intros K New. induction ops as [|o t IH]; intros w w' us A E; [injection E as <- <-; exact A|].
  apply run_cons in E. destruct E as (w1 & u & us' & E1 & E2 & ->). refine (IH _ _ _ _ E2).
  intros a x X. destruct (nth_error (ga_anims w) a) as [[z|]|] eqn:Z.
  - eapply kept_do; eauto.
  - pose proof (gone_do _ _ _ _ _ E1 Z). congruence.
  - destruct (absent_do _ _ _ _ _ _ E1 Z X) as (g & _ & O & _). eauto.
Qed.

Lemma kept_class c : kept (fun x => class_of x = c).
Proof.
  repeat split.
  - intros ms x x' b <- E. apply step_reads in E. apply E.
  - intros s x <-. destruct x; reflexivity.
  - intros n v x <-. destruct x; cbn [set_float]; repeat destruct (String.eqb n _); reflexivity.
  - intros n v x <-. destruct x; cbn [set_uint]; try destruct (String.eqb n _); reflexivity.
  - intros n v x <-. destruct x, v; cbn [set_box]; try destruct (String.eqb n _); reflexivity.
Qed.

(** A lamp's vertices and resolution. *)
Definition lamp_shape (r : resolution) (x : ganim F D) : Prop :=
  match x with ALamp l => ml_res l = r | _ => True end.
Lemma kept_shape r : kept (lamp_shape r).
Proof.
  repeat split.
  - intros ms [x|x|x|x] x' b A E; cbn [anim_step] in E; try (match type of E with context [?f gcall ms x] => destruct (f gcall ms x) end; injection E as <- <-; exact I).
    unfold lamp_step in E. destruct (gcall _ ms). destruct (move_grid _ _ _ _); [|discriminate E]. cbn [bind] in E. injection E as <- <-. exact A.
  - intros s x A. destruct x; exact A.
  - intros n v x A. destruct x; cbn [set_float]; repeat destruct (String.eqb n _); exact A.
  - intros n v x A. destruct x; cbn [set_uint]; try destruct (String.eqb n _); exact A.
  - intros n v x A. destruct x, v; cbn [set_box]; try destruct (String.eqb n _); exact A.
Qed.

Definition lamp_full (x : ganim F D) : Prop :=
  match x with ALamp l => fits (ml_res l) -> length (ml_grid l) = vertices (ml_res l) | _ => True end.
Lemma kept_full : kept lamp_full.
Proof.
  repeat split.
  - intros ms [x|x|x|x] x' b A E; cbn [anim_step] in E; try (match type of E with context [?f gcall ms x] => destruct (f gcall ms x) end; injection E as <- <-; exact I).
    cbn [lamp_full] in A. unfold lamp_step in E. destruct (gcall _ ms). destruct (move_grid _ _ _ _) as [gr|] eqn:M; [|discriminate E]. cbn [bind] in E. injection E as <- <-.
    cbn. intros Fi. rewrite move_full in M by auto. injection M as <-. apply full_length.
  - intros s x A. destruct x; exact A.
  - intros n v x A. destruct x; cbn [set_float]; repeat destruct (String.eqb n _); exact A.
  - intros n v x A. destruct x; cbn [set_uint]; try destruct (String.eqb n _); exact A.
  - intros n v x A. destruct x, v; cbn [set_box]; try destruct (String.eqb n _); exact A.
Qed.

Lemma new_full w g x : anim_object w g = Ok x -> lamp_full x.
Proof.
  rewrite anim_object_eq. destruct (args_of g) as [args|]; [|discriminate]. destruct (stepper_of w _) as [s|]; [|discriminate]. cbn [bind].
  destruct (anim_new gcall args s) as [y|] eqn:E; [|discriminate]. intros X. cbn [bind] in X. injection X as <-.
  assert (A : lamp_full y).
  { destruct args; cbn [anim_new] in E; try (injection E as <-; exact I). destruct (lamp_new gcall _ _ s) as [l|] eqn:L; [|discriminate E].
    cbn [bind] in E. injection E as <-. cbn. unfold lamp_new in L. destruct (gcall s 0). destruct (move_grid _ _ _ _) as [gr|] eqn:M; [|discriminate L].
    cbn [bind] in L. injection L as <-. cbn. intros Fi. rewrite move_full in M by (auto; apply init_length; auto). injection M as <-. apply full_length. }
  unfold set_again. apply kept_full. destruct g as [| |[f|]|]; try exact A. apply kept_full. exact A.
Qed.

(** The boxes that are given once. *)
Definition fixed_box (r : option (box D)) (x : ganim F D) : Prop :=
  match x with ABounce b => r = Some (bn_target b) | AGlide b => r = Some (gl_target b) | AZoom z => r = Some (zm_to z) | ALamp l => r = Some (lp_target (ml_params l)) end.

Lemma kept_fixed r : kept (fixed_box r).
Proof.
  repeat split.
  - intros ms [x|x|x|x] x' b A E; cbn [anim_step] in E.
    + unfold bounce_step in E. destruct (gcall _ ms). injection E as <- <-. exact A.
    + unfold glide_step in E. destruct (gcall _ ms). injection E as <- <-. exact A.
    + unfold zoom_step in E. destruct (gcall _ ms). injection E as <- <-. exact A.
    + unfold lamp_step in E. destruct (gcall _ ms). destruct (move_grid _ _ _ _); [|discriminate E]. cbn [bind] in E. injection E as <- <-. exact A.
  - intros s x A. destruct x; exact A.
  - intros n v x A. destruct x; cbn [set_float]; unfold lamp_set; repeat destruct (String.eqb n _); exact A.
  - intros n v x A. destruct x; cbn [set_uint]; try destruct (String.eqb n _); exact A.
  - intros n v x A. destruct x, v; cbn [set_box]; try destruct (String.eqb n _); exact A.
Qed.

(** ** Histories with queries *)

Lemma q_as_calls ops : forall q q' us, q_run q ops = Ok (q', us) -> exists l us', ga_run (qw_objects q) l = Ok (qw_objects q', us') /\
  (forall o, In o l -> (In (QCall o) ops \/ exists a, o = AGetStepper a)).
Proof.
  induction ops as [|o t IH]; intros q q' us E.
  - injection E as <- <-. exists [], []. split; [reflexivity|]. intros o [].
  - apply q_cons in E. destruct E as (q1 & u & us' & E1 & E2 & ->). destruct (IH _ _ _ E2) as (l & us1 & L & I).
    assert (G : qw_objects q1 = qw_objects q -> exists l us', ga_run (qw_objects q) l = Ok (qw_objects q', us') /\
      (forall c, In c l -> (In (QCall c) (o :: t) \/ exists a, c = AGetStepper a))).
    { intros Q. rewrite Q in L. exists l, us1. split; [exact L|]. intros c C. destruct (I c C); [left; right; auto|auto]. }
    destruct o as [c|a n|a|p k|a|a cs out|a uv out|a out].
    + cbn [q_do] in E1. destruct (ga_do (qw_objects q) c) as [[w1 v]|] eqn:X; [|discriminate E1]. cbn [bind fst snd] in E1. injection E1 as <- <-.
      cbn [qw_objects] in L. exists (c :: l), (v :: us1). cbn [ga_run]. rewrite X. cbn [bind fst snd]. rewrite L. split; [reflexivity|].
      intros o [<-|O]; [left; left; reflexivity|]. destruct (I o O); [left; right; auto|auto].
    + destruct (string_dec n "stepper") as [->|Ne].
      * cbn [q_do] in E1. destruct (the_ganim (qw_objects q) a) as [x|] eqn:X; [|discriminate E1]. cbn [bind] in E1. unfold get_property in E1.
        rewrite String.eqb_refl in E1. replace (existsb (String.eqb "stepper") (readable (class_of x))) with true in E1 by (destruct x; reflexivity).
        destruct x as [x|x|x|x]; cbn [class_of fst snd] in E1; [..|injection E1 as <- <-; apply G; reflexivity].
        all: injection E1 as <- <-; cbn [qw_objects] in L; exists (AGetStepper a :: l), (RStepper (length (ga_steppers (qw_objects q))) :: us1); cbn [ga_run ga_do];
          rewrite X; cbn [bind fst snd]; rewrite L; split; [reflexivity|]; intros o [<-|O]; [eauto|]; destruct (I o O); [left; right; auto|auto].
      * apply G. eapply asks_nothing; [exact E1|]. exact Ne.
    + apply G. eapply asks_nothing; [exact E1|exact Logic.I].
    + apply G. eapply asks_nothing; [exact E1|exact Logic.I].
    + apply G. eapply asks_nothing; [exact E1|exact Logic.I].
    + apply G. eapply asks_nothing; [exact E1|exact Logic.I].
    + apply G. eapply asks_nothing; [exact E1|exact Logic.I].
    + apply G. eapply asks_nothing; [exact E1|exact Logic.I].
Qed.

Lemma q_app l1 : forall q l2 q' us, q_run q (l1 ++ l2) = Ok (q', us) ->
  exists q1 us1 us2, q_run q l1 = Ok (q1, us1) /\ q_run q1 l2 = Ok (q', us2) /\ us = us1 ++ us2 /\ length us1 = length l1.
Proof.
  induction l1 as [|o t IH]; intros q l2 q' us E.
  - exists q, [], us. auto.
  - cbn [app] in E. apply q_cons in E. destruct E as (q1 & u & us' & D1 & E & ->).
    destruct (IH _ _ _ _ E) as (q2 & us1 & us2 & E1 & E2 & -> & L).
    exists q2, (u :: us1), us2. cbn [q_run]. rewrite D1. cbn [bind fst snd]. rewrite E1. cbn. rewrite L. auto.
Qed.

Lemma views_do q o q' u : q_do q o = Ok (q', u) -> exists more, qw_views q' = qw_views q ++ more.
Proof.
  assert (Z : exists more : list nat, qw_views q = qw_views q ++ more) by (exists []; rewrite app_nil_r; reflexivity).
  destruct o as [c|a n|a|p k|a|a cs out|a uv out|a out]; cbn [q_do]; intros E.
  - destruct (ga_do _ c); [|discriminate E]. injection E as <- <-. exact Z.
  - destruct (the_ganim _ a); [|discriminate E]. injection E as <- <-. exact Z.
  - destruct (the_ganim _ a); [|discriminate E]. cbn [bind] in E. destruct (anim_matrix _); [|discriminate E]. injection E as <- <-. eexists; reflexivity.
  - inv_ok. exact Z.
  - inv_ok. exact Z.
  - destruct cs; [destruct out|]; inv_ok; exact Z.
  - inv_ok. destruct out; inv_ok; exact Z.
  - inv_ok. destruct out; inv_ok; exact Z.
Qed.
Lemma views_run ops : forall q q' us, q_run q ops = Ok (q', us) -> exists more, qw_views q' = qw_views q ++ more.
Proof.
  induction ops as [|o t IH]; intros q q' us E.
  - injection E as <- <-. exists []. rewrite app_nil_r. reflexivity.
  - apply q_cons in E. destruct E as (q1 & u & us' & E1 & E2 & ->). destruct (views_do _ _ _ _ E1) as (m1 & V1). destruct (IH _ _ _ E2) as (m2 & V2).
    exists (m1 ++ m2). rewrite V2, V1, app_assoc. reflexivity.
Qed.

Lemma pointer_kept before a after q us p : q_run q_start (before ++ QMatrix a :: after) = Ok (q, us) ->
  nth_error us (length before) = Some (QView p) -> nth_error (qw_views q) p = Some a /\
  (forall x, the_ganim (qw_objects q) a = Ok x -> exists m, anim_matrix x = Ok m).
Proof.
  intros E N. apply q_app in E. destruct E as (q0 & us1 & us2 & E1 & E2 & -> & L).
  apply q_cons in E2. destruct E2 as (q1 & u & us3 & E3 & E4 & ->). rewrite nth_error_app2, L, Nat.sub_diag in N by lia. injection N as ->.
  cbn [q_do] in E3. destruct (the_ganim (qw_objects q0) a) as [x0|] eqn:X0; [|discriminate E3]. cbn [bind] in E3.
  destruct (anim_matrix x0) as [m0|] eqn:M0; [|discriminate E3]. cbn [bind] in E3. injection E3 as <- <-.
  destruct (views_run _ _ _ _ E4) as (more & V). cbn [qw_views] in V. split.
  - rewrite V, nth_error_app1, nth_error_app2, Nat.sub_diag by (rewrite ?app_length; cbn; lia). reflexivity.
  - intros x X. apply the_ganim_nth in X, X0. destruct (q_as_calls _ _ _ _ E4) as (l & us' & R & _). cbn [qw_objects] in R.
    assert (C : class_of x = class_of x0) by (eapply (kept_run _ a l (kept_class (class_of x0))); [exact R|exact X0|reflexivity|exact X]).
    destruct x as [x|x|x|x]; cbn [anim_matrix]; eauto. destruct x0; cbn in C; try discriminate C. discriminate M0.
Qed.

Lemma entries_length (m : mat4 F) : length (m_entries m) = 16.
Proof. reflexivity. Qed.

Lemma entry_at (m : mat4 F) col row : (col < 4)%nat -> (row < 4)%nat -> nth_error (m_entries m) (4 * col + row) = Some (in_column_row m col row).
Proof. intros. do 4 (destruct col as [|col]; [do 4 (destruct row as [|row]; [reflexivity|]); lia|]). lia. Qed.

Lemma matrix_shown (x : ganim F D) m : anim_matrix x = Ok m -> matrix_is x m.
Proof. destruct x; cbn [anim_matrix matrix_is]; intros E; try (injection E as <-; reflexivity). discriminate E. Qed.

Lemma declared_listed k name : declared_readable k name -> In name (readable k) /\ name <> "stepper"%string.
Proof. destruct k; cbn [declared_readable readable]; intros X; split; cbn [In]; intuition (subst; try discriminate; auto). Qed.

End Queries.

(** ** Real arithmetic *)

Lemma zoom_extent_kept : kept (F := R) (D := R) (fun x => match x with AZoom z =>
  vx (b_br (zm_to z)) <> vx (b_tl (zm_to z)) /\ vy (b_br (zm_to z)) <> vy (b_tl (zm_to z)) | _ => True end).
Proof.
  repeat match goal with |- kept _ => unfold kept end. do 4 (try split).
  - intros ms [x|x|x|x] x' b A E; cbn [anim_step] in E; try (match type of E with context [?f gcall ms x] => destruct (f gcall ms x) end; injection E as <- <-; exact I).
    + unfold zoom_step in E. destruct (gcall _ ms). injection E as <- <-. exact A.
    + destruct (lamp_step gcall ms x) as [[l r]|]; [|discriminate E]. cbn [bind] in E. injection E as <- <-. exact I.
  - intros s x A. destruct x; exact A.
  - intros n v x A. destruct x; cbn [set_float]; repeat destruct (String.eqb n _); exact A.
  - intros n v x A. destruct x; cbn [set_uint]; try destruct (String.eqb n _); exact A.
  - intros n v x A. destruct x, v; cbn [set_box]; try destruct (String.eqb n _); exact A.
Qed.

Lemma zoom_extent_new (w : gaworld R R) g x : anim_object w g = Ok x -> match x with AZoom z =>
  vx (b_br (zm_to z)) <> vx (b_tl (zm_to z)) /\ vy (b_br (zm_to z)) <> vy (b_tl (zm_to z)) | _ => True end.
Proof.
  rewrite anim_object_eq. destruct (args_of g) as [args|]; [|discriminate]. destruct (stepper_of w _) as [s|]; [|discriminate]. cbn [bind].
  destruct (anim_new gcall args s) as [y|] eqn:E; [|discriminate]. intros X. cbn [bind] in X. injection X as <-.
  unfold set_again. apply zoom_extent_kept.
  assert (A : match y with AZoom z => vx (b_br (zm_to z)) <> vx (b_tl (zm_to z)) /\ vy (b_br (zm_to z)) <> vy (b_tl (zm_to z)) | _ => True end).
  { destruct args; cbn [anim_new] in E; try (injection E as <-; exact I).
    - injection E as <-. unfold zoom_new. destruct (gcall s 0). cbn [zm_to]. apply ensure_extent.
    - destruct (lamp_new gcall _ _ s); [|discriminate E]. injection E as <-. exact I. }
  destruct g as [| |[f|]|]; try exact A. apply zoom_extent_kept. exact A.
Qed.
