(** * C88: [Step] is a fixed law of motion *)

From Coq Require Import ZArith Reals Bool List Lia Lra.
From Verif Require Import Num Geometry Outcome Wobbly Spec SpecMotion SpecLaw LemInv LemHistory LemPin LemLaw.
Import ListNotations.
Local Open Scope R_scope.

(** [Step (t)] performs the rounds of [SpecLaw.one_round] that 16 ms each take
    to cover [t], and nothing else; when they find nothing to do and one anchor
    is live, the points are left at their rest positions. *)
Theorem C88_step_obeys_the_law :
  forall (p : vec R) (w h : R) (st : settings R) (ops : list (op R)) (m m' : model R) (b : bool) (t : Z) (fuel : nat),
    reached p w h st ops m -> (Z.of_nat (length ops) < two32)%Z ->
    (length (live_anchors ops) = 1%nat -> 0 < st_range (mset m)) -> (0 <= t)%Z ->
    step_op fuel m (OpStep t) = Ok (m', OMore b) ->
    exists n P V b0,
      (16 * (Z.of_nat n - 1) < t <= 16 * Z.of_nat n)%Z /\
      rounds m (length (live_anchors ops) = 1%nat) n (mpos m) (mvel m) P V b0 /\
      ((0 < t)%Z -> b = b0) /\
      mvel m' = V /\
      mpos m' = (if (negb b && Nat.eqb (length (live_anchors ops)) 1)%bool then mtargets m else P) /\
      mtargets m' = mtargets m /\ msprings m' = msprings m /\ mset m' = mset m /\ mhandles m' = mhandles m /\
      mw m' = mw m /\ mh m' = mh m /\
      (forall n, anchor_point m' n = match lookup_handle (mhandles m) n with
                                     | Some (HGrab i) => nth_error (mpos m') i
                                     | _ => anchor_point m n
                                     end).
Proof. exact law_step. Qed.
Print Assumptions C88_step_obeys_the_law.

(** The law leaves no freedom: positions, velocities and the answer are
    functions of the state before. *)
Theorem C88_law_determines_the_outcome :
  forall (p : vec R) (w h : R) (st : settings R) (ops : list (op R)) (m : model R) (n : nat)
         (P1 V1 P2 V2 : list (vec R)) (b1 b2 : bool),
    reached p w h st ops m ->
    (length (live_anchors ops) = 1%nat -> 0 < st_range (mset m)) ->
    rounds m (length (live_anchors ops) = 1%nat) n (mpos m) (mvel m) P1 V1 b1 ->
    rounds m (length (live_anchors ops) = 1%nat) n (mpos m) (mvel m) P2 V2 b2 ->
    P1 = P2 /\ V1 = V2 /\ b1 = b2.
Proof.
  intros p w h st ops m n P1 V1 P2 V2 b1 b2 Hr Rr H1 H2. pose proof (inv_reached _ _ _ _ _ _ Hr) as I.
  refine (rounds_unique m _ n _ _ _ _ _ _ (fun i => grabbed_dec m i I) Rr _ _ _ H1 _ _ _ H2); [lia|apply I|apply I|apply I].
Qed.
Print Assumptions C88_law_determines_the_outcome.

(** A model held by one corner, which has been pulled farther than the range:
    a round confines the other points, and reports that it did. *)
Example C88_case :
  exists (m m' : model R) (b : bool),
    reached (mkV 0 0) 90 60 (mkSettings 8 3 500) far_pull m /\
    (Z.of_nat (length far_pull) < two32)%Z /\ length (live_anchors far_pull) = 1%nat /\ 0 < st_range (mset m) /\
    step_op 0 m (OpStep 16) = Ok (m', OMore b) /\ b = true.
Proof.
  destruct far_pull_reached as (m & m' & b & Hr & Hl & Hs & P0 & T0 & P1 & T1 & E). exists m, m', b.
  assert (L : length (live_anchors far_pull) = 1%nat) by reflexivity.
  split; [exact Hr|]. split; [reflexivity|]. split; [exact L|]. split; [lra|]. split; [exact E|].
  destruct (C88_step_obeys_the_law _ _ _ _ _ _ _ _ 16 _ Hr eq_refl ltac:(intros _; lra) ltac:(lia) E)
    as (n & P & V & b0 & Hn & HR & Hb & _). rewrite Hb by lia. assert (n = 1%nat) as -> by lia.
  inversion HR as [|? ? ? Q1 W1 ? ? b1 b2 O HR2]; subst. destruct O as (_ & _ & Q & _ & _ & _ & C).
  replace b1 with true; [reflexivity|]. symmetry. apply C. left. split; [exact L|].
  exists 1%nat, (mkV 630 0), (mkV 30 0). split; [exact T1|]. split; [exact P1|]. rewrite Hs.
  unfold euclid. cbn [vx vy]. replace ((30 - 630) ^ 2 + (0 - 0) ^ 2) with (600 * 600) by ring. rewrite ?sqrt_square by lra.
  try lra. match goal with |- _ <= sqrt ?x => replace x with (600 * 600) by ring end. rewrite sqrt_square by lra. lra.
Qed.
