(** Concrete runs in [double] arithmetic, used to show that the hypotheses of
    the theorems are met and as witnesses of refutations: a model of size 90 x 90
    at the origin (grid spacing 30). *)

From Coq Require Import ZArith Bool List.
From Flocq Require Import Core IEEE754.BinarySingleNaN.
From Verif Require Import Num Geometry Outcome Wobbly Spec.
Import ListNotations.
Local Open Scope Z_scope.

Definition pt (x y : Z) : vec f64 := mkV (nof x) (nof y).
(** The defaults of the library (wobbly.h:176-179). *)
Definition usual : settings f64 := mkSettings (nof 8) (nof 3) (nof 500).
Definition stiff : settings f64 := mkSettings (nof 15) (nof 15) (nof 500).
Definition start (st : settings f64) : model f64 := model_init (pt 0 0) (nof 90) (nof 90) st 0.

Definition verdict (st : settings f64) (ops : list (op f64)) (check : model f64 -> list out -> bool) : bool :=
  match run 60 (start st) ops with Ok (m, us) => check m us | Err _ => false end.
Definition failure (st : settings f64) (ops : list (op f64)) : option err :=
  match run 60 (start st) ops with Ok _ => None | Err e => Some e end.

Lemma verdict_run st ops check :
  verdict st ops check = true -> exists m us, run 60 (start st) ops = Ok (m, us) /\ check m us = true.
Proof. unfold verdict. destruct (run 60 (start st) ops) as [[m us]|e]; [eauto|discriminate]. Qed.

Lemma verdict_reached st ops check :
  verdict st ops check = true ->
  exists m, reached (pt 0 0) (nof 90) (nof 90) st ops m /\ exists us, check m us = true.
Proof.
  intros V. apply verdict_run in V. destruct V as (m & us & E & C).
  exists m. split; [exists 60%nat, 0, us; exact E|eauto].
Qed.

Lemma failure_run st ops e : failure st ops = Some e -> run 60 (start st) ops = Err e.
Proof. unfold failure. destruct (run 60 (start st) ops); congruence. Qed.

Definition same_pt (a b : vec f64) : bool := vequals a b.
Definition mesh_at (m : model f64) (i : nat) (q : vec f64) : bool :=
  match nth_error (mpos m) i with Some p => same_pt p q | None => false end.
Definition anchor_at (m : model f64) (n : nat) (q : vec f64) : bool :=
  match anchor_point m n with Some p => same_pt p q | None => false end.
