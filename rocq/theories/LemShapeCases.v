(** Concrete runs for the properties on resizing and batches. *)

From Coq Require Import ZArith Bool List.
From Flocq Require Import Core IEEE754.BinarySingleNaN.
From Verif Require Import Num Geometry Outcome Wobbly Spec Cases LemBasic.
Import ListNotations.
Local Open Scope Z_scope.

Lemma resize_held_case :
  exists m m' : model f64,
    reached (pt 0 0) (nof 90) (nof 90) usual [OpInsert (pt 15 1)] m /\ length (held_springs m) = 1%nat /\
    step_op 60 m (OpResize (nof 180) (nof 180)) = Ok (m', ONone) /\ m' <> m.
Proof.
  destruct (verdict_run usual [OpInsert (pt 15 1)]
    (fun m _ => (Nat.eqb (length (held_springs m)) 1 &&
      match step_op 60 m (OpResize (nof 180) (nof 180)) with Ok (m', ONone) => negb (neqb (mw m') (mw m)) && neqb (mw m) (mw m) | _ => false end)%bool))
    as (m & us & E & C); [vm_compute; reflexivity|].
  apply andb_prop in C. destruct C as (C1 & C2). apply Nat.eqb_eq in C1.
  destruct (step_op 60 m (OpResize (nof 180) (nof 180))) as [[m' []]|] eqn:Es; try discriminate C2.
  exists m, m'. split; [exists 60%nat, 0, us; exact E|]. split; [exact C1|]. split; [exact Es|].
  intros ->. apply andb_prop in C2. destruct C2 as (C2 & C3). rewrite C3 in C2. discriminate C2.
Qed.

Lemma batch_case :
  exists m m1 m2 : model f64,
    reached (pt 0 0) (nof 90) (nof 90) usual [OpGrab (pt 0 0); OpGrab (pt 0 0); OpMoveAnchor 0 (pt 10 0)] m /\
    model_step (16 * 1) m = Ok (m1, true) /\ model_step (16 * 2) m1 = Ok (m2, true).
Proof.
  destruct (verdict_run usual [OpGrab (pt 0 0); OpGrab (pt 0 0); OpMoveAnchor 0 (pt 10 0)]
    (fun m _ => match model_step (16 * 1) m with Ok (m1, true) =>
       match model_step (16 * 2) m1 with Ok (_, true) => true | _ => false end | _ => false end)) as (m & us & E & C); [vm_compute; reflexivity|].
  destruct (model_step (16 * 1) m) as [[m1 []]|] eqn:E1; try discriminate C.
  destruct (model_step (16 * 2) m1) as [[m2 []]|] eqn:E2; try discriminate C.
  exists m, m1, m2. split; [exists 60%nat, 0, us; exact E|]. auto.
Qed.
