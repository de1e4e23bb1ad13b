(** * Properties C78-C80: programs with anchor variables *)

From Coq Require Import ZArith Bool List Lia.
From Flocq Require Import IEEE754.BinarySingleNaN.
From Verif Require Import Num Geometry Outcome Wobbly Spec Cases LemBasic AnchorVars SpecVars LemVars.
Import ListNotations.

(** ** C78: variables own their anchors *)

(** In every arithmetic: a program of declarations, assignments, moves and scope
    ends makes exactly the native calls its text stands for. *)
Theorem C78_program_is_its_calls :
  forall (T : Type) (N : Num T) (p : vec T) (a b : T) (st : settings T) (next : Z) (fuel : nat)
         (program : list (vop T)) (w : vworld T) (us : list out),
    compiles program -> vw_run fuel (vw_start p a b st next) program = Ok (w, us) ->
    run fuel (model_init p a b st next) (calls_of reader_start program) = Ok (vw_model w, us) /\
    vw_vars w = r_vars (read_all program).
Proof.
  intros T N p a b st next fuel program w us S E.
  destruct (follows_run _ _ _ _ _ _ _ S (follows_start p a b st next) E) as (A & [B _ _]). auto.
Qed.
Print Assumptions C78_program_is_its_calls.

(** Every anchor acquired is either held by one variable and was not released,
    or held by none and was released once. *)
Theorem C78_one_owner_one_release :
  forall (T : Type) (program : list (vop T)) (n : nat),
    compiles program -> n < r_acquired (read_all program) ->
    (exists! v, var (read_all program) v = Some n) /\ times_released n (calls_of reader_start program) = 0 \/
    (forall v, var (read_all program) v <> Some n) /\ times_released n (calls_of reader_start program) = 1.
Proof.
  intros T program n S L. destruct (released_once program n S L) as [(v & V & E)|R]; [left|right; exact R].
  split; [|exact E]. exists v. split; [exact V|]. intros v' V'.
  exact (kn_once _ _ (knows_all program _ _ S knows_start) _ _ _ V V').
Qed.
Print Assumptions C78_one_owner_one_release.

(** Two variables; the second takes over the anchor of the first, which is then
    given a new one; both leave their scopes. *)
Definition handing_over : list (vop f64) :=
  [VInitGrab (pt 0 0); VDeclare; VMove 1 0; VMoveBy 1 (pt 3 4); VGrab 0 (pt 90 90); VStep 16; VInitMove 0; VClear 1; VStep 16; VLeave; VLeave; VLeave].

Example C78_case :
  compiles handing_over /\ r_acquired (read_all handing_over) = 2 /\
  calls_of reader_start handing_over = [OpGrab (pt 0 0); OpMoveAnchor 0 (pt 3 4); OpGrab (pt 90 90); OpStep 16; OpRelease 0; OpStep 16; OpRelease 1] /\
  exists w us, vw_run 60 (vw_start (pt 0 0) (nof 90) (nof 90) usual 0) handing_over = Ok (w, us).
Proof.
  split; [|split; [|split]].
  - unfold compiles, handing_over. cbn -[pt]. repeat split; try lia; discriminate.
  - reflexivity.
  - reflexivity.
  - assert (X : match vw_run 60 (vw_start (pt 0 0) (nof 90) (nof 90) usual 0) handing_over with Ok _ => true | Err _ => false end = true) by (vm_compute; reflexivity).
    destruct (vw_run _ _ handing_over) as [[w us]|]; [eauto|discriminate X].
Qed.

(** ** C79: which programs are safe *)

(** A program whose variables get their anchors where they are declared: the
    scope rules of C++ alone keep it away from freed storage. *)
Theorem C79_scoped_anchors_are_safe :
  forall (T : Type) (N : Num T) (p : vec T) (a b : T) (st : settings T) (next : Z) (fuel : nat) (program : list (vop T)) (e : err),
    compiles program -> sane_program program -> Forall initialised_only program ->
    vw_run fuel (vw_start p a b st next) program = Err e ->
    e <> UseAfterFree /\ e <> OutOfBounds /\ e <> NullDeref /\ e <> MovedFrom.
Proof.
  intros T N p a b st next fuel program e S Sn I E. eapply program_safe; eauto.
  apply initialised_lifo; auto using knows_start. intros [|v] v' n n' _ X; discriminate X.
Qed.
Print Assumptions C79_scoped_anchors_are_safe.

(** A program that only grabs, with any assignments and moves. *)
Theorem C79_grabs_are_safe :
  forall (T : Type) (N : Num T) (p : vec T) (a b : T) (st : settings T) (next : Z) (fuel : nat) (program : list (vop T)) (e : err),
    compiles program -> sane_program program -> Forall grabs_only program ->
    vw_run fuel (vw_start p a b st next) program = Err e ->
    e <> UseAfterFree /\ e <> OutOfBounds /\ e <> NullDeref /\ e <> MovedFrom.
Proof.
  intros T N p a b st next fuel program e S Sn I E. eapply program_safe; eauto.
  apply no_insert_lifo; [apply grabs_no_insert; auto|]. intros n [].
Qed.
Print Assumptions C79_grabs_are_safe.

(** A program that inserts an anchor only while no variable holds one. *)
Theorem C79_one_at_a_time_is_safe :
  forall (T : Type) (N : Num T) (p : vec T) (a b : T) (st : settings T) (next : Z) (fuel : nat) (program : list (vop T)) (e : err),
    compiles program -> sane_program program -> each_statement one_at_a_time reader_start program ->
    vw_run fuel (vw_start p a b st next) program = Err e ->
    e <> UseAfterFree /\ e <> OutOfBounds /\ e <> NullDeref /\ e <> MovedFrom.
Proof.
  intros T N p a b st next fuel program e S Sn I E. eapply program_safe; eauto.
  apply single_lifo; auto using knows_start. intros x y [].
Qed.
Print Assumptions C79_one_at_a_time_is_safe.

(** The expectation that an inserted anchor may be replaced by assigning another
    one is false: [a = model.InsertAnchor (q)] inserts before it releases, the
    new anchor splits a spring of the old one, and the next [Step] reads freed
    storage. *)
Definition replacing : list (vop f64) := [VInitInsert (pt 10 0); VInsert 0 (pt 12 0); VStep 16].

Theorem C79_replacing_an_anchor_refuted :
  compiles replacing /\ sane_program replacing /\
  vw_run 60 (vw_start (pt 0 0) (nof 90) (nof 90) usual 0) replacing = Err UseAfterFree.
Proof.
  split; [|split].
  - unfold compiles, replacing. cbn -[pt]. repeat split; lia.
  - unfold sane_program, replacing. cbn -[pt]. repeat split.
  - assert (X : match vw_run 60 (vw_start (pt 0 0) (nof 90) (nof 90) usual 0) replacing with Ok _ => None | Err e => Some e end = Some UseAfterFree) by (vm_compute; reflexivity).
    destruct (vw_run _ _ replacing); congruence.
Qed.
Print Assumptions C79_replacing_an_anchor_refuted.

(** The same with the old anchor released first, and nested scopes. *)
Example C79_case :
  let emptied := [VInitInsert (pt 10 0); VClear 0; VInsert 0 (pt 12 0); VStep 16; VLeave] in
  let nested := [VInitInsert (pt 10 0); VStep 16; VInitInsert (pt 12 0); VInitGrab (pt 0 0); VMoveBy 1 (pt 5 5); VStep 16; VLeave; VLeave; VStep 16; VLeave] in
  (compiles emptied /\ sane_program emptied /\ each_statement one_at_a_time reader_start emptied /\
   exists w us, vw_run 60 (vw_start (pt 0 0) (nof 90) (nof 90) usual 0) emptied = Ok (w, us)) /\
  (compiles nested /\ sane_program nested /\ Forall initialised_only nested /\
   exists w us, vw_run 60 (vw_start (pt 0 0) (nof 90) (nof 90) usual 0) nested = Ok (w, us)) /\
  (sane_program handing_over /\ Forall grabs_only handing_over).
Proof.
  intros emptied nested. split; [|split].
  - split; [|split; [|split]].
    + unfold compiles, emptied. cbn -[pt]. repeat split; try lia. discriminate.
    + unfold sane_program, emptied. cbn -[pt]. repeat split.
    + unfold emptied. cbn -[pt]. repeat split; intros [|[|v]]; reflexivity.
    + assert (X : match vw_run 60 (vw_start (pt 0 0) (nof 90) (nof 90) usual 0) emptied with Ok _ => true | Err _ => false end = true) by (vm_compute; reflexivity).
      destruct (vw_run _ _ emptied) as [[w us]|]; [eauto|discriminate X].
  - split; [|split; [|split]].
    + unfold compiles, nested. cbn -[pt]. repeat split; try lia; discriminate.
    + unfold sane_program, nested. cbn -[pt]. repeat split. discriminate.
    + unfold nested. repeat constructor.
    + assert (X : match vw_run 60 (vw_start (pt 0 0) (nof 90) (nof 90) usual 0) nested with Ok _ => true | Err _ => false end = true) by (vm_compute; reflexivity).
      destruct (vw_run _ _ nested) as [[w us]|]; [eauto|discriminate X].
  - split; [|unfold handing_over; repeat constructor]. unfold sane_program, handing_over. cbn -[pt]. repeat split. discriminate.
Qed.

(** ** C80: empty anchors *)

(** [MoveBy] on a default-constructed, moved-from or emptied variable does not
    return, in every arithmetic.  (The GObject wrapper ignores it, C58.) *)
Theorem C80_move_by_empty_refuted :
  forall (T : Type) (N : Num T) (p : vec T) (a b : T) (st : settings T) (next : Z) (fuel : nat)
         (program : list (vop T)) (w : vworld T) (us : list out) (v : nat) (d : vec T),
    compiles program -> vw_run fuel (vw_start p a b st next) program = Ok (w, us) ->
    var (read_all program) v = None -> vw_do fuel w (VMoveBy v d) = Err NullDeref.
Proof.
  intros T N p a b st next fuel program w us v d S E X.
  destruct (C78_program_is_its_calls _ _ _ _ _ _ _ _ _ _ _ S E) as (R & V).
  unfold vw_do, vw_calls, holds. rewrite V. fold (var (read_all program) v). rewrite X. reflexivity.
Qed.
Print Assumptions C80_move_by_empty_refuted.

(** On every other variable it returns, as long as the model exists, and does
    what the native call does. *)
Theorem C80_move_by_returns :
  forall (T : Type) (N : Num T) (p : vec T) (a b : T) (st : settings T) (next : Z) (fuel : nat)
         (program : list (vop T)) (w : vworld T) (us : list out) (v n : nat) (d : vec T),
    compiles program -> sane_program program -> vw_run fuel (vw_start p a b st next) program = Ok (w, us) ->
    var (read_all program) v = Some n ->
    exists m, step_op fuel (vw_model w) (OpMoveAnchor n d) = Ok (m, ONone) /\ vw_do fuel w (VMoveBy v d) = Ok (mkVW m (vw_vars w), [ONone]).
Proof.
  intros T N p a b st next fuel program w us v n d S Sn E X.
  destruct (C78_program_is_its_calls _ _ _ _ _ _ _ _ _ _ _ S E) as (R & V).
  destruct (held_moves _ _ _ _ _ _ _ _ _ d _ _ S Sn R X) as (m & M). exists m. split; [exact M|].
  unfold vw_do, vw_calls, holds. rewrite V. fold (var (read_all program) v). rewrite X. cbn [bind run]. rewrite M. reflexivity.
Qed.
Print Assumptions C80_move_by_returns.

(** A moved-from variable. *)
Example C80_case :
  let program := [VInitGrab (pt 0 0); VInitMove 0] : list (vop f64) in
  compiles program /\ sane_program program /\ var (read_all program) 0 = None /\ var (read_all program) 1 = Some 0 /\
  exists w us, vw_run 60 (vw_start (pt 0 0) (nof 90) (nof 90) usual 0) program = Ok (w, us).
Proof.
  intros program. split; [|split; [|split; [|split]]]; try reflexivity.
  - unfold compiles, program. cbn -[pt]. repeat split; lia.
  - unfold sane_program, program. cbn -[pt]. repeat split.
  - assert (X : match vw_run 60 (vw_start (pt 0 0) (nof 90) (nof 90) usual 0) program with Ok _ => true | Err _ => false end = true) by (vm_compute; reflexivity).
    destruct (vw_run _ _ program) as [[w us]|]; [eauto|discriminate X].
Qed.
