(** Which reads of the magic lamp grid exist. *)

From Coq Require Import ZArith Reals Bool List Lia Lra.
From Flocq Require Import Core IEEE754.BinarySingleNaN.
From Verif Require Import Num Geometry Outcome Steppers Transforms MagicLamp LemReal LemBasic LemSteppers LemTransforms LemLamp.
Import ListNotations.
Local Open Scope Z_scope.

Section Edge.
Context {F D : Type} `{Num F} `{Num D} `{Conv F D} `{Libm D}.

Lemma grid_at_in (g : list (vec D)) k : 0 <= k < Z.of_nat (length g) -> exists p, grid_at g k = Ok p.
Proof.
  intros K. unfold grid_at. rewrite (proj2 (Z.leb_le 0 k)) by lia. rewrite (proj2 (Z.ltb_lt k _)) by lia. cbn [andb].
  destruct (nth_error g (Z.to_nat k)) as [p|] eqn:E; [exists p; reflexivity|]. apply nth_error_None in E. lia.
Qed.
Lemma grid_at_out (g : list (vec D)) k : Z.of_nat (length g) <= k -> grid_at g k = Err OutOfBounds.
Proof. intros K. unfold grid_at. rewrite (proj2 (Z.ltb_ge k _)) by lia. rewrite andb_false_r. reflexivity. Qed.
Lemma grid_at_err (g : list (vec D)) k e : grid_at g k = Err e -> e = OutOfBounds.
Proof.
  unfold grid_at. destruct (_ && _); [|congruence]. destruct (nth_error g (Z.to_nat k)); cbn; congruence.
Qed.

Lemma to_size_some (x : D) l : ntrunc x = Some l -> 0 <= l < 2 ^ 64 -> to_size x = Ok l.
Proof. intros E B. unfold to_size. rewrite E, (proj2 (Z.leb_le _ _)), (proj2 (Z.ltb_lt _ _)) by lia. reflexivity. Qed.
Lemma to_size_bad (x : D) l : ntrunc x = Some l -> l < 0 -> to_size x = Err BadCast.
Proof. intros E B. unfold to_size. rewrite E, (proj2 (Z.leb_gt _ _)) by lia. reflexivity. Qed.
Lemma to_size_err (x : D) e : to_size x = Err e -> e = BadCast.
Proof. unfold to_size. destruct (ntrunc x) as [z|]; [|congruence]. destruct (_ && _); congruence. Qed.

Lemma small64 z : 0 <= z < 2 ^ 64 -> u64 z = z.
Proof. intros B. apply Z.mod_small. exact B. Qed.

Lemma interpolate_exactly (uv : vec D) r (g : list (vec D)) l t :
  1 <= rw r < 2 ^ 31 -> 1 <= rh r < 2 ^ 31 -> length g = Z.to_nat (rw r * rh r) ->
  ntrunc (nmul (vx uv) (nof (rw r - 1))) = Some l -> ntrunc (nmul (vy uv) (nof (rh r - 1))) = Some t -> l < 2 ^ 31 -> t < 2 ^ 31 ->
  (l < 0 \/ t < 0 -> interpolate (F := F) uv r g = Err BadCast) /\
  (0 <= l -> 0 <= t -> t < rh r /\ l < rw r * (rh r - Z.min (rh r - 1) (t + 1)) -> exists p, interpolate (F := F) uv r g = Ok p) /\
  (0 <= l -> 0 <= t -> ~ (t < rh r /\ l < rw r * (rh r - Z.min (rh r - 1) (t + 1))) -> interpolate (F := F) uv r g = Err OutOfBounds).
Proof.
  intros W Hh L El Et Bl Bt. unfold interpolate. cbv zeta. rewrite !(small64 (_ - 1)) by lia.
  split; [|split].
  - intros [N|N].
    + rewrite (to_size_bad _ _ El N). reflexivity.
    + destruct (to_size (nmul (vx uv) _)) as [x|e] eqn:X; cbn [bind].
      * rewrite (to_size_bad _ _ Et N). reflexivity.
      * f_equal. eapply to_size_err; eauto.
  - intros Pl Pt (T & X). rewrite (to_size_some _ _ El), (to_size_some _ _ Et) by lia. cbn [bind].
    rewrite !(small64 (_ + 1)) by lia. set (b := Z.min (rh r - 1) (t + 1)) in *. set (c := Z.min (rw r - 1) (l + 1)).
    assert (Bb : t <= b <= rh r - 1) by (unfold b; lia). assert (Bc : 0 <= c <= rw r - 1) by (unfold c; lia).
    assert (M : forall j, 0 <= j <= rh r - 1 -> 0 <= j * rw r <= rw r * rh r - rw r) by (intros; nia).
    pose proof (M t ltac:(lia)) as Mt. pose proof (M b ltac:(lia)) as Mb.
    assert (Mx : b * rw r <= rw r * rh r - l - 1) by nia. assert (My : t * rw r <= b * rw r) by nia. assert (P : rw r * rh r < 2 ^ 62) by nia.
    rewrite !(small64 (_ * _)) by lia. rewrite !(small64 (_ + _)) by lia.
    destruct (grid_at_in g (l + t * rw r)) as [p1 E1]; [lia|]. rewrite E1. cbn [bind].
    destruct (grid_at_in g (l + b * rw r)) as [p2 E2]; [lia|]. rewrite E2. cbn [bind].
    destruct (grid_at_in g (c + t * rw r)) as [p3 E3]; [lia|]. rewrite E3. cbn [bind].
    destruct (grid_at_in g (c + b * rw r)) as [p4 E4]; [lia|]. rewrite E4. cbn [bind]. eexists. reflexivity.
  - intros Pl Pt X. rewrite (to_size_some _ _ El), (to_size_some _ _ Et) by lia. cbn [bind].
    rewrite !(small64 (_ + 1)) by lia. set (b := Z.min (rh r - 1) (t + 1)) in *.
    assert (Bb : 0 <= b <= rh r - 1) by (unfold b; lia).
    assert (P : 0 <= rw r * rh r < 2 ^ 62) by nia. assert (Q : 0 <= t * rw r <= (2 ^ 31 - 1) * (2 ^ 31 - 1)) by nia.
    assert (Q' : 0 <= b * rw r <= (2 ^ 31 - 1) * (2 ^ 31 - 1)) by nia.
    rewrite (small64 (t * _)), (small64 (l + t * _)) by lia.
    destruct (grid_at g (l + t * rw r)) as [p1|e] eqn:E1; cbn [bind]; [|f_equal; eapply grid_at_err; eauto].
    assert (T : t < rh r).
    { destruct (Z.lt_ge_cases t (rh r)) as [|G]; auto. exfalso. rewrite grid_at_out in E1 by nia. discriminate E1. }
    rewrite (small64 (b * _)), (small64 (l + b * _)) by lia. rewrite grid_at_out; [reflexivity|]. 
    assert (rw r * (rh r - b) <= l) by lia. nia.
Qed.
End Edge.

Lemma trunc_lt (x : R) n : (0 < n) -> Ztrunc x < n <-> (x < IZR n)%R.
Proof.
  intros Hn. destruct (Rle_or_lt 0 x) as [P|N].
  - rewrite Ztrunc_floor by lra. split; intros B.
    + apply Rlt_le_trans with (IZR (Zfloor x) + 1)%R; [apply Zfloor_ub|]. rewrite <- plus_IZR. apply IZR_le. lia.
    + apply lt_IZR. apply Rle_lt_trans with (2 := B). apply Zfloor_lb.
  - split; intros _; [apply Rlt_trans with 0%R; [exact N|apply IZR_lt; exact Hn]|].
    apply Z.le_lt_trans with 0; [|exact Hn]. apply Z.le_trans with (Ztrunc 0); [apply Ztrunc_le; lra|]. rewrite Ztrunc_IZR. lia.
Qed.
Lemma trunc_neg (x : R) : Ztrunc x < 0 <-> (x <= -1)%R.
Proof.
  destruct (Rle_or_lt 0 x) as [P|N].
  - rewrite Ztrunc_floor by lra. split; intros B; [|lra]. assert (0 <= Zfloor x) by (apply Zfloor_lub; lra). lia.
  - rewrite Ztrunc_ceil by lra. split; intros B.
    + apply Rle_trans with (IZR (Zceil x)); [apply Zceil_ub|]. apply IZR_le. lia.
    + assert (Zceil x <= -1) by (apply Zceil_glb; exact B). lia.
Qed.
