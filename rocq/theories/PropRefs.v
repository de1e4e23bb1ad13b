(** * Reference counts: C82, C83, and C59 once more *)

From Coq Require Import ZArith Reals Bool String List Lia.
From Verif Require Import Num Geometry Outcome Steppers Transforms MagicLamp Program GlibParams GlibAnim GlibRefs.
From Verif Require Import SpecGlibAnim SpecRefs LemGlibAnim LemRefs.
Import ListNotations.
Local Open Scope nat_scope.

(** ** C82 Objects live exactly as long as somebody refers to them *)

(** After any careful history, an object the client was ever given exists if and
    only if the client still holds a reference to it or a reverse stepper made
    from it still exists for the same reason. *)
Theorem C82_alive_while_referenced :
  forall (F D : Type) (NF : Num F) (ND : Num D) (C : Conv F D) (LF : Libm F) (LD : Libm D)
         (ops : list (kop F D)) k us x,
    careful_history ops -> k_run k_start ops = Ok (k, us) -> 0 < acquired (combine ops us) x ->
    (exists_now (k_world k) x <-> kept (combine ops us) x).
Proof.
  intros F D NF ND C LF LD ops k us x CH E P. destruct (careful_kinv _ _ _ CH E) as (_ & c & ds & R & V & _).
  rewrite (alive_now _ _ _ R). eapply alive_iff; eauto.
Qed.
Print Assumptions C82_alive_while_referenced.

(** A careful client never touches a finalized object, frees nothing twice and
    dereferences no NULL; its calls succeed if its magic lamps have a countable
    resolution. *)
Theorem C82_careful_clients_are_safe :
  forall (F D : Type) (NF : Num F) (ND : Num D) (C : Conv F D) (LF : Libm F) (LD : Libm D) (ops : list (kop F D)),
    careful_history ops ->
    (forall e, k_run k_start ops = Err e -> e <> UseAfterFree /\ e <> BadFree /\ e <> NullDeref) /\
    (Forall (fun o => match o with KNew g => good_resolution g | _ => True end) ops ->
     exists k us, k_run k_start ops = Ok (k, us)).
Proof.
  intros F D NF ND C LF LD ops CH. destruct (run_kinv ops [] k_start [] eq_refl kinv_start CH) as (_ & A & B). split; [exact A|exact B].
Qed.
Print Assumptions C82_careful_clients_are_safe.

(** The objects behave as in [GlibAnim]: the state is that of a history of calls
    there (so that C59 and C65 to C77 speak about it), and an animation made
    without a stepper is the same as there. *)
Theorem C82_same_objects :
  forall (F D : Type) (NF : Num F) (ND : Num D) (C : Conv F D) (LF : Libm F) (LD : Libm D),
    (forall (ops : list (kop F D)) k us, k_run k_start ops = Ok (k, us) ->
       exists gops vs, ga_run ga_start gops = Ok (k_world k, vs)) /\
    (forall (ops : list (kop F D)) k us (g : gargs F D) k' u, careful_history ops -> k_run k_start ops = Ok (k, us) ->
       k_do k (KNew g) = Ok (k', u) ->
       exists w', ga_do (k_world k) (ANew g) = Ok (w', u) /\ ga_anims w' = ga_anims (k_world k')).
Proof.
  intros F D NF ND C LF LD. split.
  - intros ops k us E. apply (run_calls ops k_start k us [] []); [reflexivity|exact E].
  - intros ops k us g k' u CH R E. eapply new_same; [|exact E]. destruct (careful_kinv _ _ _ CH R) as (_ & c & ds & [R1 _] & V & _).
    destruct (iv_kinds _ _ _ _ V) as [L _]. rewrite R1, map_length in L. congruence.
Qed.
Print Assumptions C82_same_objects.

(** A reverse stepper outlives the client's reference to its base, and keeps it
    alive. *)
Definition chain {F D} : list (kop F D) :=
  [KNewLinear (Some 100%Z); KNewReverse (Some 0); KUnref (OStepper 0); KNewReverse (Some 1); KUnref (OStepper 1);
   KNew (GZoom None None (Some 2)); KStepperStep 2 10%Z; KGetStepper 0; KRef (OStepper 3); KUnref (OStepper 3); KUnref (OStepper 2)].

Definition chain_outs {F} : list (gaout F) :=
  [RStepper 0; RStepper 1; RNone; RStepper 2; RNone; RAnim 0; RNone; RStepper 3; RNone; RNone; RNone].

Example C82_case :
  forall (F D : Type) (NF : Num F) (ND : Num D) (C : Conv F D) (LF : Libm F) (LD : Libm D),
  careful_history (chain (F := F) (D := D)) /\
  Forall (fun o => match o with KNew g => good_resolution g | _ => True end) (chain (F := F) (D := D)) /\
  (exists k us, k_run k_start (firstn 7 (chain (F := F) (D := D))) = Ok (k, us) /\
     exists_now (k_world k) (OStepper 0) /\ exists_now (k_world k) (OStepper 1) /\ ~ holds (combine (firstn 7 (chain (F := F) (D := D))) us) (OStepper 0)) /\
  (exists k us, k_run k_start (chain (F := F) (D := D)) = Ok (k, us) /\
     ~ exists_now (k_world k) (OStepper 0) /\ ~ exists_now (k_world k) (OStepper 2) /\ exists_now (k_world k) (OStepper 3)).
Proof.
  intros F D NF ND C LF LD. split; [careful_tac (chain_outs (F := F))|]. split; [repeat constructor|]. split.
  - destruct (case_run (firstn 7 chain) (firstn 7 chain_outs) [true; true; true]) as (k & us & E & S1 & L); [vm_compute; auto|].
    exists k, us. split; [exact E|]. rewrite !(there_now _ _ _ L), <- holds_shapes, S1. split; [reflexivity|]. split; [reflexivity|]. unfold holds. cbn. lia.
  - destruct (case_run chain chain_outs [false; false; false; true]) as (k & us & E & S1 & L); [vm_compute; auto|].
    exists k, us. split; [exact E|]. rewrite !(there_now _ _ _ L). cbn. repeat split; discriminate.
Qed.

(** ** C83 What is left when the client has dropped everything *)

(** Nothing, except one stepper object for each animation that was made without
    a stepper. *)
Theorem C83_what_is_left :
  forall (F D : Type) (NF : Num F) (ND : Num D) (C : Conv F D) (LF : Libm F) (LD : Libm D)
         (ops : list (kop F D)) k us,
    careful_history ops -> k_run k_start ops = Ok (k, us) -> (forall x, ~ holds (combine ops us) x) ->
    steppers_left (ga_steppers (k_world k)) = length (filter without_stepper ops) /\
    (forall a, ~ exists_now (k_world k) (OAnim a)).
Proof.
  intros F D NF ND C LF LD ops k us CH E N. destruct (what_is_left _ _ (careful_kinv _ _ _ CH E) N) as [A B]. split; [|exact B].
  rewrite A, map_fst_combine by (symmetry; eapply k_run_length; eauto). reflexivity.
Qed.
Print Assumptions C83_what_is_left.

(** These objects cannot be got rid of: they are there after every careful
    history, and the client never gets a reference to one. *)
Theorem C83_default_steppers_stay :
  forall (F D : Type) (NF : Num F) (ND : Num D) (C : Conv F D) (LF : Libm F) (LD : Libm D)
         (ops : list (kop F D)) k us,
    careful_history ops -> k_run k_start ops = Ok (k, us) ->
    exists ds, NoDup ds /\ length ds = length (filter without_stepper ops) /\
      forall i, In i ds -> exists_now (k_world k) (OStepper i) /\ acquired (combine ops us) (OStepper i) = 0.
Proof.
  intros F D NF ND C LF LD ops k us CH E. destruct (careful_kinv _ _ _ CH E) as (_ & c & ds & R & V & L).
  exists ds. split; [apply (iv_nodup _ _ _ _ V)|]. split.
  - rewrite L, map_fst_combine by (symmetry; eapply k_run_length; eauto). reflexivity.
  - intros i I. split; [|apply (iv_ds _ _ _ _ V), I]. apply (alive_now _ _ _ R). eapply default_alive; eauto.
Qed.
Print Assumptions C83_default_steppers_stay.

(** The same for the vector that is the default of a magic lamp's resolution. *)
Theorem C83_default_resolutions_stay :
  forall (F D : Type) (NF : Num F) (ND : Num D) (C : Conv F D) (LF : Libm F) (LD : Libm D)
         (ops : list (kop F D)) k us,
    k_run k_start ops = Ok (k, us) ->
    rf_lost (k_refs k) = length (filter (fun o => match o with KNew (GLamp _ _ None _ _ _ _ _) => true | _ => false end) ops).
Proof. intros F D NF ND C LF LD ops k us E. apply run_lost in E. exact E. Qed.
Print Assumptions C83_default_resolutions_stay.

(** So the expectation that memory is released with the last reference fails for
    the simplest client there is, in every arithmetic. *)
Theorem C83_all_released_refuted :
  forall (F D : Type) (NF : Num F) (ND : Num D) (C : Conv F D) (LF : Libm F) (LD : Libm D),
    let ops := [KNew (GZoom None None None); KUnref (OAnim 0)] : list (kop F D) in
    careful_history ops /\
    exists k us, k_run k_start ops = Ok (k, us) /\ (forall x, ~ holds (combine ops us) x) /\
      steppers_left (ga_steppers (k_world k)) = 1.
Proof.
  intros F D NF ND C LF LD ops. split; [unfold ops; careful_tac ([RAnim 0; RNone] : list (gaout F))|].
  destruct (case_run ops [RAnim 0; RNone] [true]) as (k & us & E & S1 & L); [vm_compute; auto|].
  exists k, us. split; [exact E|]. split; [|rewrite left_there, L; reflexivity].
  intros x. rewrite <- holds_shapes, S1. destruct x as [[|i]|[|a]]; unfold holds; cbn; lia.
Qed.
Print Assumptions C83_all_released_refuted.

Definition tidy {F D} : list (kop F D) :=
  [KNewLinear (Some 100%Z); KNewReverse (Some 0); KNew (GZoom None None (Some 1)); KUnref (OStepper 0); KUnref (OStepper 1); KStep 0 16%Z; KUnref (OAnim 0)].
Example C83_case :
  forall (F D : Type) (NF : Num F) (ND : Num D) (C : Conv F D) (LF : Libm F) (LD : Libm D),
  careful_history (tidy (F := F) (D := D)) /\
  exists k us, k_run k_start (tidy (F := F) (D := D)) = Ok (k, us) /\ (forall x, ~ holds (combine (tidy (F := F) (D := D)) us) x) /\
    length (ga_steppers (k_world k)) = 2 /\ steppers_left (ga_steppers (k_world k)) = 0.
Proof.
  intros F D NF ND C LF LD.
  pose (outs := [RStepper 0; RStepper 1; RAnim 0; RNone; RNone; RNone; RNone] : list (gaout F)).
  split; [careful_tac outs|].
  destruct (case_run tidy outs [false; false]) as (k & us & E & S1 & L); [vm_compute; auto|].
  exists k, us. split; [exact E|]. split; [|split; [rewrite <- (map_length stepper_there), L; reflexivity|rewrite left_there, L; reflexivity]].
  intros x. rewrite <- holds_shapes, S1. destruct x as [[|[|i]]|[|a]]; unfold holds; cbn; lia.
Qed.

(** ** C59 The stepper object got from an animation *)

(** Dropping the last reference to it is an invalid free, or an access to freed
    memory if the animation is gone. *)
Theorem C59_last_reference_refuted :
  forall (F D : Type) (NF : Num F) (ND : Num D) (C : Conv F D) (LF : Libm F) (LD : Libm D)
         (ops : list (kop F D)) k us i a,
    careful_history ops -> k_run k_start ops = Ok (k, us) ->
    let h := combine ops us in
    observes h i a -> holds h (OStepper i) -> ~ holds_two h (OStepper i) ->
    (forall j, reverses h j i -> ~ kept h (OStepper j)) ->
    (holds h (OAnim a) -> k_do k (KUnref (OStepper i)) = Err BadFree) /\
    (~ holds h (OAnim a) -> k_do k (KUnref (OStepper i)) = Err UseAfterFree).
Proof. intros F D NF ND C LF LD ops k us i a CH E h. apply last_wrapper. eapply careful_kinv; eauto. Qed.
Print Assumptions C59_last_reference_refuted.

Example C59_reference_case :
  forall (F D : Type) (NF : Num F) (ND : Num D) (C : Conv F D) (LF : Libm F) (LD : Libm D),
  exists k us, k_run k_start (chain (F := F) (D := D)) = Ok (k, us) /\
    let h := combine (chain (F := F) (D := D)) us in
    observes h 3 0 /\ holds h (OStepper 3) /\ ~ holds_two h (OStepper 3) /\ (forall j, reverses h j 3 -> ~ kept h (OStepper j)) /\ holds h (OAnim 0).
Proof.
  intros F D NF ND C LF LD.
  destruct (case_run chain chain_outs [false; false; false; true]) as (k & us & E & S1 & _); [vm_compute; auto|].
  exists k, us. split; [exact E|]. cbn zeta.
  split; [|split; [|split; [|split]]].
  - apply observes_shapes. rewrite S1. unfold observes. cbn. tauto.
  - apply holds_shapes. rewrite S1. unfold holds. cbn. lia.
  - rewrite <- holds_two_shapes, S1. unfold holds_two. cbn. lia.
  - intros j R. exfalso. apply reverses_shapes in R. rewrite S1 in R. unfold reverses in R. cbn in R. intuition discriminate.
  - apply holds_shapes. rewrite S1. unfold holds. cbn. lia.
Qed.
