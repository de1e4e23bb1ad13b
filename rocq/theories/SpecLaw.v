(** * The law of motion that [Step] obeys *)

From Coq Require Import ZArith Reals Bool List.
From Verif Require Import Num Geometry Outcome Wobbly Spec SpecMotion.
Import ListNotations.
Local Open Scope R_scope.

(** One round.  [m] supplies what a [Step] never changes: rest positions,
    springs, settings, and which points are held.  [alone] says that exactly one
    anchor is live.  [P], [V] are positions and velocities before, [P'], [V']
    after; [b] tells whether the round found anything to do.

    First, if [alone], every point is confined to the range around its rest
    position.  Then every held point stays and loses its velocity, and every
    other point moves under the springs acting on it. *)
Definition one_round (m : model R) (alone : Prop) (P V P' V' : list (vec R)) (b : bool) : Prop :=
  length P' = 16%nat /\ length V' = 16%nat /\
  exists Q, length Q = 16%nat /\
    (forall i t p q, nth_error (mtargets m) i = Some t -> nth_error P i = Some p -> nth_error Q i = Some q ->
       (alone -> confined (st_range (mset m)) t p q) /\ (~ alone -> q = p)) /\
    (forall i q v q' v', nth_error Q i = Some q -> nth_error V i = Some v ->
       nth_error P' i = Some q' -> nth_error V' i = Some v' ->
       (grabbed m i -> q' = q /\ v' = mkV 0 0) /\
       (~ grabbed m i ->
          moves (st_friction (mset m)) q v
                (net_force (st_k (mset m)) (place_of Q (mheap m)) (LMesh i) (msprings m)) q' v')) /\
    (b = true <->
       (alone /\ exists i t p, nth_error (mtargets m) i = Some t /\ nth_error P i = Some p /\
                   st_range (mset m) <= euclid t p) \/
       (exists s, In s (msprings m) /\
          ~ slack (place_of Q (mheap m) (s_pa s)) (place_of Q (mheap m) (s_pb s)) (s_len s)) \/
       (exists v', In v' V' /\ v' <> mkV 0 0)).

(** [n] rounds in a row; [b] tells whether any of them found anything to do. *)
Inductive rounds (m : model R) (alone : Prop) :
  nat -> list (vec R) -> list (vec R) -> list (vec R) -> list (vec R) -> bool -> Prop :=
| rounds_none P V : rounds m alone 0 P V P V false
| rounds_more n P V P1 V1 P2 V2 b1 b2 :
    one_round m alone P V P1 V1 b1 -> rounds m alone n P1 V1 P2 V2 b2 ->
    rounds m alone (S n) P V P2 V2 (b1 || b2).
