(** The graph of the 4 by 4 mesh: how stiff and how well connected it is. *)

From Coq Require Import Reals List Lia Lra Psatz.
From Verif Require Import LemLyap.
Import ListNotations.
Local Open Scope R_scope.

Definition edges : list (nat * nat) :=
  [(0,4);(0,1);(1,5);(1,2);(2,6);(2,3);(3,7);(4,8);(4,5);(5,9);(5,6);(6,10);(6,7);(7,11);
   (8,12);(8,9);(9,13);(9,10);(10,14);(10,11);(11,15);(12,13);(13,14);(14,15)]%nat.

Lemma edges_ok : Forall (fun e => (fst e < 16)%nat /\ (snd e < 16)%nat) edges.
Proof. unfold edges. repeat (constructor; [cbn [fst snd]; lia|]). constructor. Qed.

Definition lam : R := 4 + 2 * sqrt 2.

Lemma sqrt2 : sqrt 2 * sqrt 2 = 2 /\ 1 < sqrt 2 < 3 / 2.
Proof.
  assert (E : sqrt 2 * sqrt 2 = 2) by (apply sqrt_sqrt; lra). assert (P : 0 <= sqrt 2) by apply sqrt_pos. split; [auto|]. split; nra.
Qed.

Lemma path x0 x1 x2 x3 :
  (x0 - x1) * (x0 - x1) + (x1 - x2) * (x1 - x2) + (x2 - x3) * (x2 - x3) <= (2 + sqrt 2) * (x0 * x0 + x1 * x1 + x2 * x2 + x3 * x3).
Proof.
  destruct sqrt2 as (E & P & _). set (r := sqrt 2) in *.
  assert (I : (2 + r) * (x0 * x0 + x1 * x1 + x2 * x2 + x3 * x3) - ((x0 - x1) * (x0 - x1) + (x1 - x2) * (x1 - x2) + (x2 - x3) * (x2 - x3)) =
              (1 + r) * ((x0 + (r - 1) * x1) * (x0 + (r - 1) * x1)) + (1 + r) * ((x3 + (r - 1) * x2) * (x3 + (r - 1) * x2)) + (x1 + x2) * (x1 + x2)
              + (2 - r * r) * (2 * x0 * x1 + 2 * x3 * x2 + (r - 1) * (x1 * x1 + x2 * x2))) by ring.
  rewrite E in I. assert (S : forall y, 0 <= y * y) by (intros; apply Rle_0_sqr).
  assert (0 <= (1 + r) * ((x0 + (r - 1) * x1) * (x0 + (r - 1) * x1))) by (apply Rmult_le_pos; [lra|apply S]).
  assert (0 <= (1 + r) * ((x3 + (r - 1) * x2) * (x3 + (r - 1) * x2))) by (apply Rmult_le_pos; [lra|apply S]).
  pose proof (S (x1 + x2)). lra.
Qed.

Lemma lam_pos : 0 < lam.
Proof. unfold lam. destruct sqrt2. lra. Qed.

Lemma edges_stiff x : bil edges x x <= lam * dot x x.
Proof.
  unfold bil, edges, dot, lam. cbn [bilE fst snd sumn].
  pose proof (path (x 0%nat) (x 1%nat) (x 2%nat) (x 3%nat)). pose proof (path (x 4%nat) (x 5%nat) (x 6%nat) (x 7%nat)).
  pose proof (path (x 8%nat) (x 9%nat) (x 10%nat) (x 11%nat)). pose proof (path (x 12%nat) (x 13%nat) (x 14%nat) (x 15%nat)).
  pose proof (path (x 0%nat) (x 4%nat) (x 8%nat) (x 12%nat)). pose proof (path (x 1%nat) (x 5%nat) (x 9%nat) (x 13%nat)).
  pose proof (path (x 2%nat) (x 6%nat) (x 10%nat) (x 14%nat)). pose proof (path (x 3%nat) (x 7%nat) (x 11%nat) (x 15%nat)). lra.
Qed.

Lemma edge_bound x r e : bil edges x x <= r * r -> 0 <= r -> In e edges -> - r <= x (fst e) - x (snd e) <= r.
Proof.
  intros Q P I. pose proof (bil_edge edges x e I) as B. assert (A : Rabs (x (fst e) - x (snd e)) <= r) by (apply sq_le_abs; [lra|auto]).
  pose proof (Rle_abs (x (fst e) - x (snd e))). pose proof (Rle_abs (- (x (fst e) - x (snd e)))). rewrite Rabs_Ropp in *. lra.
Qed.

(** Six edges lead from the first point to any other. *)
Lemma spread x r : (forall e, In e edges -> - r <= x (fst e) - x (snd e) <= r) -> forall i, (i < 16)%nat -> Rabs (x i - x 0%nat) <= 6 * r.
Proof.
  intros Q i Hi. unfold edges in Q. cbn [In] in Q.
  assert (E1 := Q (0,1)%nat ltac:(tauto)). assert (E2 := Q (1,2)%nat ltac:(tauto)). assert (E3 := Q (2,3)%nat ltac:(tauto)).
  assert (F0 := Q (0,4)%nat ltac:(tauto)). assert (F1 := Q (1,5)%nat ltac:(tauto)). assert (F2 := Q (2,6)%nat ltac:(tauto)). assert (F3 := Q (3,7)%nat ltac:(tauto)).
  assert (G0 := Q (4,8)%nat ltac:(tauto)). assert (G1 := Q (5,9)%nat ltac:(tauto)). assert (G2 := Q (6,10)%nat ltac:(tauto)). assert (G3 := Q (7,11)%nat ltac:(tauto)).
  assert (H0 := Q (8,12)%nat ltac:(tauto)). assert (H1 := Q (9,13)%nat ltac:(tauto)). assert (H2 := Q (10,14)%nat ltac:(tauto)). assert (H3 := Q (11,15)%nat ltac:(tauto)).
  cbn [fst snd] in *. apply Rabs_le. clear Q.
  do 16 (destruct i as [|i]; [lra|]). lia.
Qed.

Lemma lap_sum x : dot (fun _ => 1) (lap edges x) = 0.
Proof.
  rewrite (dot_lap edges edges_ok). unfold bil. induction edges as [|e t IH]; cbn [bilE]; [auto|]. rewrite IH. ring.
Qed.

Lemma edges_tight x : bil edges x x <= 576 * dot (lap edges x) (lap edges x).
Proof.
  set (q := bil edges x x). set (B := dot (lap edges x) (lap edges x)).
  assert (Hq : 0 <= q) by apply bil_pos. assert (HB : 0 <= B) by apply dot_pos.
  set (r := sqrt q). assert (Er : r * r = q) by (apply sqrt_sqrt; auto). assert (Hr : 0 <= r) by apply sqrt_pos.
  set (y := fun i => 1 * x i + - x 0%nat * 1).
  assert (Eq : dot y (lap edges x) = q).
  { unfold y. rewrite (dot_lin 1 (- x 0%nat) x (fun _ => 1)), lap_sum, (dot_lap edges edges_ok). fold q. ring. }
  assert (Hy : dot y y <= 16 * (6 * r * (6 * r))).
  { apply dot_bound; [lra|]. intros i Hi. unfold y. replace (1 * x i + - x 0%nat * 1) with (x i - x 0%nat) by ring.
    apply spread; auto. intros e He. apply edge_bound; auto. fold q. lra. }
  pose proof (dot_cs y (lap edges x)) as CS. rewrite Eq in CS. fold B in CS.
  assert (Hy2 : dot y y * B <= 576 * q * B) by (apply Rmult_le_compat_r; [auto|]; rewrite <- Er; lra).
  destruct (Req_dec q 0) as [-> | N]; [lra|]. apply Rmult_le_reg_l with q; lra.
Qed.

(** ** The mode of highest frequency *)

Definition mode1 (i : nat) : R := match i with 0%nat => 1 | 1%nat => - (1 + sqrt 2) | 2%nat => 1 + sqrt 2 | _ => -1 end.
Definition mode (i : nat) : R := mode1 (i / 4) * mode1 (i mod 4).

Lemma mode_lap : forall i, (i < 16)%nat -> lap edges mode i = lam * mode i.
Proof.
  destruct sqrt2 as (E & _). intros i Hi. unfold lam, lap.
  do 16 (destruct i as [|i];
    [ unfold edges, mode; cbn [lapE fst snd Nat.eqb Nat.div Nat.modulo Nat.divmod Nat.sub mode1]; set (r := sqrt 2) in *; ring [E] |]).
  lia.
Qed.

Lemma mode_sum : dot mode (fun _ => 1) = 0.
Proof. unfold dot, mode. cbn [sumn Nat.div Nat.modulo Nat.divmod Nat.sub mode1 fst snd]. ring. Qed.

Lemma mode_dot_lap x : dot mode (lap edges x) = lam * dot mode x.
Proof.
  rewrite (dot_lap edges edges_ok), bil_sym, <- (dot_lap edges edges_ok), dot_sym.
  rewrite (dot_ext (lap edges mode) (fun i => lam * mode i + 0 * mode i) x x) by (intros; rewrite ?mode_lap by auto; ring). rewrite dot_lin. ring.
Qed.

Lemma mode_bound i : (i < 16)%nat -> Rabs (mode i) <= 7.
Proof.
  destruct sqrt2 as (E & P). intros Hi. apply Rabs_le. set (r := sqrt 2) in *.
  do 16 (destruct i as [|i]; [unfold mode; cbn [Nat.div Nat.modulo Nat.divmod Nat.sub mode1 fst snd]; fold r; split; nra|]). lia.
Qed.
