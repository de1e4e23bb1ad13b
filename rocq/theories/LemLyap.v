(** Stability of damped oscillations on a graph: an energy that shrinks. *)

From Coq Require Import Reals List Lia Lra Psatz.
Import ListNotations.
Local Open Scope R_scope.

(** ** Numbers *)

Lemma sq_le_abs x y : x * x <= y * y -> 0 <= y -> Rabs x <= y.
Proof. intros L Y. apply Rabs_le. split; nra. Qed.

Lemma disc A B C : (forall t, 0 <= A + 2 * t * C + t * t * B) -> 0 <= B -> C * C <= A * B.
Proof.
  intros Q HB. destruct (Req_dec B 0) as [-> | NB].
  - destruct (Req_dec C 0) as [-> | NC]; [lra|]. specialize (Q (- (A + 1) / (2 * C))).
    replace (A + 2 * (- (A + 1) / (2 * C)) * C + - (A + 1) / (2 * C) * (- (A + 1) / (2 * C)) * 0) with (-1) in Q by (field; auto). lra.
  - specialize (Q (- C / B)). replace (A + 2 * (- C / B) * C + - C / B * (- C / B) * B) with (A - C * C / B) in Q by (field; auto).
    apply Rmult_le_reg_r with (/ B); [apply Rinv_0_lt_compat; lra|]. replace (A * B * / B) with A by (field; auto). unfold Rdiv in Q. lra.
Qed.

(** The form that one undisturbed round takes away. *)
Lemma energy_scalars a b lam C : -1 < a < 1 -> 0 < b -> 0 < lam -> b * lam < 4 * (1 + a) -> 0 < C ->
  let m := 2 * b / (1 + a) in
  exists s al ka, 0 < s <= m /\ 0 < al < 1 /\ 0 < ka /\
    forall A B c q, 0 <= A -> 0 <= B -> c * c <= A * B -> B <= lam * q -> q <= C * B ->
      (a * a * A - 2 * a * b * c + b * b * B) * (1 + s * lam / 2) + 2 * m * q + (m + s) * (a * c - b * B)
        <= (1 - al) * (A + 2 * m * q - (m - s) * c) /\
      ka * (A + q) <= A + 2 * m * q - (m - s) * c.
Proof.
  intros Ha Hb Hl Hbl HC m.
  assert (Hm : 0 < m) by (unfold m; apply Rdiv_lt_0_compat; lra).
  assert (Em : m * (1 + a) = 2 * b) by (unfold m; field; lra).
  assert (Ib : 0 < / b) by (apply Rinv_0_lt_compat; lra). assert (Eb : b * / b = 1) by (apply Rinv_r; lra).
  set (th := 2 * (1 + a) * / b - lam / 2).
  assert (Hth : 0 < th).
  { unfold th. assert (lam < 4 * (1 + a) * / b); [|lra]. apply Rmult_lt_reg_l with b; auto. replace (b * (4 * (1 + a) * / b)) with (4 * (1 + a) * (b * / b)) by ring. rewrite Eb. lra. }
  set (g1 := (3 + a) * / b - lam). set (g2 := lam / 2 - / b).
  set (e := (1 - a) / (1 + a)). assert (He : 0 < e) by (unfold e; apply Rdiv_lt_0_compat; lra).
  set (K3 := g1 * g1 / (2 * th) + Rabs g2 + 1).
  assert (HK : 0 < K3). { unfold K3. assert (0 <= g1 * g1 / (2 * th)) by (apply Rmult_le_pos; [nra|left; apply Rinv_0_lt_compat; lra]). pose proof (Rabs_pos g2). lra. }
  set (s := Rmin m (e / (2 * K3))).
  assert (Hs : 0 < s) by (unfold s; apply Rmin_glb_lt; [auto|apply Rdiv_lt_0_compat; lra]).
  assert (Hsm : s <= m) by apply Rmin_l.
  assert (HsK : s * K3 <= e / 2).
  { apply Rle_trans with (e / (2 * K3) * K3); [apply Rmult_le_compat_r; [lra|apply Rmin_r]|]. right. field. lra. }
  set (a0 := Rmin (s * th / 2) (e / 2)).
  assert (Ha0 : 0 < a0) by (unfold a0; apply Rmin_glb_lt; [apply Rdiv_lt_0_compat; nra|lra]).
  set (C1 := 1 + m / 2 + (2 * m * C + m / 2) * (2 * ((1 + a) * (1 + a) + 1) / (b * b))).
  assert (Hbb : 0 < / (b * b)) by (apply Rinv_0_lt_compat; nra).
  assert (HC1 : 1 <= C1).
  { unfold C1, Rdiv. assert (0 <= (2 * m * C + m * / 2) * (2 * ((1 + a) * (1 + a) + 1) * / (b * b))); [|lra].
    assert (0 < m * C) by (apply Rmult_lt_0_compat; auto). apply Rmult_le_pos; [lra|]. apply Rmult_le_pos; [|lra]. pose proof (Rle_0_sqr (1 + a)). unfold Rsqr in *. lra. }
  set (al := Rmin (1 / 2) (a0 / C1)).
  assert (Hal : 0 < al) by (unfold al; apply Rmin_glb_lt; [lra|apply Rdiv_lt_0_compat; lra]).
  assert (Hal2 : al <= 1 / 2) by apply Rmin_l.
  assert (HalC : al * C1 <= a0). { apply Rle_trans with (a0 / C1 * C1); [apply Rmult_le_compat_r; [lra|apply Rmin_r]|]. right. field. lra. }
  assert (Hml : m * lam < 8). { unfold m. apply Rmult_lt_reg_r with (1 + a); [lra|]. replace (2 * b / (1 + a) * lam * (1 + a)) with (2 * (b * lam)) by (field; lra). lra. }
  assert (Hmml : 0 < m * m * lam) by (apply Rmult_lt_0_compat; [apply Rmult_lt_0_compat|]; auto).
  set (de := 2 * m - m * m * lam / 4). assert (Hde : 0 < de) by (unfold de; assert (m * (m * lam) < m * 8) by (apply Rmult_lt_compat_l; auto); lra).
  set (ka := de / (1 + 2 * m)).
  assert (Hka : 0 < ka) by (unfold ka; apply Rdiv_lt_0_compat; lra).
  assert (Eka : ka * (1 + 2 * m) = de) by (unfold ka; field; lra).
  assert (Hka1 : ka < 1). { assert (de < 1 + 2 * m) by (unfold de; lra). nra. }
  assert (Hka2 : ka <= 2 * m). { assert (de <= 2 * m) by (unfold de; lra). nra. }
  exists s, al, ka. split; [lra|]. split; [lra|]. split; [auto|].
  intros A B c q HA HB Hc Hq1 Hq2.
  assert (Hq : 0 <= q) by nra.
  set (N := A + 2 * m * q - (m - s) * c).
  split.
  - set (P := (1 + a) * (1 + a) * A - 2 * (1 + a) * b * c + b * b * B).
    set (pv := (1 + a) * A - b * c).
    assert (Hpv : pv * pv <= A * P).
    { unfold pv, P. assert (b * b * (c * c) <= b * b * (A * B)) by (apply Rmult_le_compat_l; nra). nra. }
    assert (HP : 0 <= P).
    { unfold P. destruct (Req_dec A 0) as [-> | NA].
      - assert (c = 0) by nra. subst c. nra.
      - assert (0 < A) by lra. assert (0 <= A * P) by (pose proof (Rle_0_sqr pv); unfold Rsqr in *; lra). fold P. nra. }
    assert (Id : (a * a * A - 2 * a * b * c + b * b * B) * (1 + s * lam / 2) + 2 * m * q + (m + s) * (a * c - b * B) - N =
                 - e * P + s * (- th * A + g1 * pv + g2 * P)).
    { unfold N, P, pv, e, th, g1, g2, m. field. lra. }
    assert (Hg : g1 * pv <= th / 2 * A + g1 * g1 / (2 * th) * P).
    { set (X := th / 2 * A). set (Y := g1 * g1 / (2 * th) * P).
      assert (HX : 0 <= X) by (unfold X; nra).
      assert (HY : 0 <= Y). { unfold Y. apply Rmult_le_pos; auto. apply Rmult_le_pos; [nra|left; apply Rinv_0_lt_compat; lra]. }
      assert (E4 : 4 * (X * Y) = g1 * g1 * (A * P)) by (unfold X, Y; field; lra).
      apply Rle_trans with (Rabs (g1 * pv)); [apply Rle_abs|]. apply sq_le_abs; [|lra].
      assert (g1 * g1 * (pv * pv) <= g1 * g1 * (A * P)) by (apply Rmult_le_compat_l; nra).
      pose proof (Rle_0_sqr (X - Y)). unfold Rsqr in *. nra. }
    assert (Hg2 : g2 * P <= Rabs g2 * P) by (apply Rmult_le_compat_r; [auto|apply Rle_abs]).
    assert (D : - e * P + s * (- th * A + g1 * pv + g2 * P) <= - a0 * (A + P)).
    { assert (s * (- th * A + g1 * pv + g2 * P) <= s * (- (th / 2) * A + (K3 - 1) * P)).
      { apply Rmult_le_compat_l; [lra|]. unfold K3. nra. }
      assert (s * (K3 - 1) * P <= e / 2 * P) by (apply Rmult_le_compat_r; [auto|nra]).
      assert (a0 * A <= s * th / 2 * A) by (apply Rmult_le_compat_r; [auto|apply Rmin_l]).
      assert (a0 * P <= e / 2 * P) by (apply Rmult_le_compat_r; [auto|apply Rmin_r]). nra. }
    assert (Hc2 : Rabs c <= (A + B) / 2).
    { apply sq_le_abs; [|lra]. pose proof (Rle_0_sqr (A - B)). unfold Rsqr in *. nra. }
    assert (Haa : 0 <= (1 + a) * (1 + a)) by apply Rle_0_sqr.
    assert (HaA : 0 <= (1 + a) * (1 + a) * A) by (apply Rmult_le_pos; auto).
    assert (HB2 : B <= 2 * ((1 + a) * (1 + a) + 1) / (b * b) * (A + P)).
    { assert (b * b * B <= 2 * ((1 + a) * (1 + a) * A + P)).
      { assert (E : b * b * B = P + 2 * (1 + a) * b * c - (1 + a) * (1 + a) * A) by (unfold P; ring).
        (* b w = (1 + a) v - p *)
        assert (E2 : 2 * (1 + a) * b * c = 2 * (1 + a) * (1 + a) * A - 2 * (1 + a) * pv) by (unfold pv; ring).
        assert (H : - 2 * (1 + a) * pv <= (1 + a) * (1 + a) * A + P).
        { apply Rle_trans with (Rabs (- 2 * (1 + a) * pv)); [apply Rle_abs|]. apply sq_le_abs; [|lra].
          set (X := (1 + a) * (1 + a) * A). assert (EX : 4 * (X * P) = 4 * ((1 + a) * (1 + a)) * (A * P)) by (unfold X; ring).
          assert (4 * ((1 + a) * (1 + a)) * (pv * pv) <= 4 * ((1 + a) * (1 + a)) * (A * P)) by (apply Rmult_le_compat_l; lra).
          pose proof (Rle_0_sqr (X - P)). unfold Rsqr in *. lra. }
        lra. }
      apply Rmult_le_reg_l with (b * b); [apply Rmult_lt_0_compat; auto|]. replace (b * b * (2 * ((1 + a) * (1 + a) + 1) / (b * b) * (A + P))) with (2 * ((1 + a) * (1 + a) + 1) * (A + P)) by (field; lra).
      assert (0 <= (1 + a) * (1 + a) * P) by (apply Rmult_le_pos; auto). lra. }
    assert (HN : N <= C1 * (A + P)).
    { assert (- (m - s) * c <= m * ((A + B) / 2)).
      { apply Rle_trans with ((m - s) * Rabs c); [|apply Rmult_le_compat; try lra; apply Rabs_pos].
        replace (- (m - s) * c) with ((m - s) * - c) by ring. apply Rmult_le_compat_l; [lra|]. rewrite <- Rabs_Ropp. apply Rle_abs. }
      assert (2 * m * q <= 2 * m * (C * B)) by (apply Rmult_le_compat_l; lra).
      unfold N, C1. set (Z := 2 * ((1 + a) * (1 + a) + 1) / (b * b)) in *.
      assert (0 < m * C) by (apply Rmult_lt_0_compat; auto).
      assert ((2 * m * C + m / 2) * B <= (2 * m * C + m / 2) * (Z * (A + P))) by (apply Rmult_le_compat_l; [lra|auto]).
      assert (0 <= m * P) by (apply Rmult_le_pos; lra). lra. }
    assert (al * N <= al * (C1 * (A + P))) by (apply Rmult_le_compat_l; lra).
    assert (al * C1 * (A + P) <= a0 * (A + P)) by (apply Rmult_le_compat_r; lra). fold N. lra.
  - assert (X : Rabs ((m - s) * c) <= (1 - ka) * A + (2 * m - ka) * q).
    { apply sq_le_abs.
      - assert (c * c <= A * (lam * q)) by (apply Rle_trans with (A * B); [auto|apply Rmult_le_compat_l; auto]).
        assert ((m - s) * (m - s) * (c * c) <= m * m * (A * (lam * q))) by (apply Rmult_le_compat; nra).
        assert (G : m * m * lam / 4 <= (1 - ka) * (2 * m - ka)) by (unfold de in Eka; nra).
        assert (m * m * lam / 4 * (A * q) <= (1 - ka) * (2 * m - ka) * (A * q)) by (apply Rmult_le_compat_r; [nra|auto]).
        set (X := (1 - ka) * A). set (Y := (2 * m - ka) * q).
        assert (EX : X * Y = (1 - ka) * (2 * m - ka) * (A * q)) by (unfold X, Y; ring).
        pose proof (Rle_0_sqr (X - Y)). unfold Rsqr in *. nra.
      - nra. }
    pose proof (Rle_abs ((m - s) * c)). unfold N. lra.
Qed.

(** ** Vectors with 16 entries *)

Fixpoint sumn (f : nat -> R) (n : nat) : R := match n with O => 0 | S n => sumn f n + f n end.
Definition dot (x y : nat -> R) : R := sumn (fun i => x i * y i) 16.

Lemma sumn_ext f g n : (forall i, (i < n)%nat -> f i = g i) -> sumn f n = sumn g n.
Proof. induction n as [|n IH]; intros E; cbn [sumn]; [auto|]. rewrite IH, E by (intros; auto with arith). reflexivity. Qed.
Lemma sumn_lin r s f g n : sumn (fun i => r * f i + s * g i) n = r * sumn f n + s * sumn g n.
Proof. induction n as [|n IH]; cbn [sumn]; [lra|]. rewrite IH. ring. Qed.
Lemma sumn_le f g n : (forall i, (i < n)%nat -> f i <= g i) -> sumn f n <= sumn g n.
Proof. induction n as [|n IH]; intros E; cbn [sumn]; [lra|]. specialize (IH (fun i Hi => E i (Nat.lt_lt_succ_r _ _ Hi))). pose proof (E n (Nat.lt_succ_diag_r n)). lra. Qed.
Lemma sumn_const c n : sumn (fun _ => c) n = INR n * c.
Proof. induction n as [|n IH]; [cbn; lra|]. cbn [sumn]. rewrite IH, S_INR. ring. Qed.
Lemma sumn_ge0 f n : (forall i, (i < n)%nat -> 0 <= f i) -> 0 <= sumn f n.
Proof. induction n as [|n IH]; intros E; cbn [sumn]; [lra|]. specialize (IH (fun i Hi => E i (Nat.lt_lt_succ_r _ _ Hi))). pose proof (E n (Nat.lt_succ_diag_r n)). lra. Qed.
Lemma sumn_term f n i : (forall j, (j < n)%nat -> 0 <= f j) -> (i < n)%nat -> f i <= sumn f n.
Proof.
  induction n as [|n IH]; intros P Hi; [lia|]. cbn [sumn]. destruct (Nat.eq_dec i n) as [-> | N].
  - pose proof (sumn_ge0 f n (fun j Hj => P j (Nat.lt_lt_succ_r _ _ Hj))). lra.
  - assert (f i <= sumn f n) by (apply IH; [intros; apply P; lia|lia]). pose proof (P n (Nat.lt_succ_diag_r n)). lra.
Qed.
Lemma sumn_pick f n i : (i < n)%nat -> sumn (fun j => f j * (if Nat.eqb j i then 1 else 0)) n = f i.
Proof.
  induction n as [|n IH]; intros Hi; [lia|]. cbn [sumn]. destruct (Nat.eqb n i) eqn:E.
  - apply Nat.eqb_eq in E. subst n. rewrite (sumn_ext _ (fun _ => 0)); [rewrite sumn_const; ring|]. intros j Hj. replace (Nat.eqb j i) with false by (symmetry; apply Nat.eqb_neq; lia). ring.
  - apply Nat.eqb_neq in E. rewrite IH by lia. ring.
Qed.

Lemma dot_ext x x' y y' : (forall i, (i < 16)%nat -> x i = x' i) -> (forall i, (i < 16)%nat -> y i = y' i) -> dot x y = dot x' y'.
Proof. intros E1 E2. apply sumn_ext. intros i Hi. rewrite E1, E2 by auto. reflexivity. Qed.
Lemma dot_sym x y : dot x y = dot y x.
Proof. apply sumn_ext. intros. ring. Qed.
Lemma dot_lin r s x y z : dot (fun i => r * x i + s * y i) z = r * dot x z + s * dot y z.
Proof. unfold dot. rewrite <- sumn_lin. apply sumn_ext. intros. ring. Qed.
Lemma dot_pos x : 0 <= dot x x.
Proof. apply sumn_ge0. intros. nra. Qed.
Lemma dot_cs x y : dot x y * dot x y <= dot x x * dot y y.
Proof.
  apply disc; [|apply dot_pos]. intros t. pose proof (dot_pos (fun i => 1 * x i + t * y i)) as P.
  rewrite dot_lin, (dot_sym x), (dot_sym y), !dot_lin, (dot_sym y x) in P. lra.
Qed.
Lemma dot_bound x D : 0 <= D -> (forall i, (i < 16)%nat -> Rabs (x i) <= D) -> dot x x <= 16 * (D * D).
Proof.
  intros HD Hx. replace (16 * (D * D)) with (sumn (fun _ => D * D) 16) by (rewrite sumn_const; cbn; ring).
  apply sumn_le. intros i Hi. specialize (Hx i Hi). pose proof (Rabs_pos (x i)). rewrite <- (Rabs_pos_eq (x i * x i)) by nra. rewrite Rabs_mult. nra.
Qed.

(** ** Graphs on them *)

Section Graph.
Context (E : list (nat * nat)).
Context (E_ok : Forall (fun e => (fst e < 16)%nat /\ (snd e < 16)%nat) E).

Fixpoint bilE (E : list (nat * nat)) (x y : nat -> R) : R :=
  match E with [] => 0 | e :: t => (x (fst e) - x (snd e)) * (y (fst e) - y (snd e)) + bilE t x y end.
Fixpoint lapE (E : list (nat * nat)) (x : nat -> R) (i : nat) : R :=
  match E with
  | [] => 0
  | e :: t => (x (fst e) - x (snd e)) * ((if Nat.eqb i (fst e) then 1 else 0) - (if Nat.eqb i (snd e) then 1 else 0)) + lapE t x i
  end.
Definition bil := bilE E.
Definition lap := lapE E.

Lemma bil_sym x y : bil x y = bil y x.
Proof. unfold bil. clear E_ok. induction E as [|e t IH]; cbn [bilE]; [auto|]. rewrite IH. ring. Qed.
Lemma bil_lin r s x y z : bil (fun i => r * x i + s * y i) z = r * bil x z + s * bil y z.
Proof. unfold bil. clear E_ok. induction E as [|e t IH]; cbn [bilE]; [ring|]. rewrite IH. ring. Qed.
Lemma bil_pos x : 0 <= bil x x.
Proof. unfold bil. clear E_ok. induction E as [|e t IH]; cbn [bilE]; [lra|]. pose proof (Rle_0_sqr (x (fst e) - x (snd e))). unfold Rsqr in *. lra. Qed.
Lemma bil_ext x x' y y' : (forall i, (i < 16)%nat -> x i = x' i) -> (forall i, (i < 16)%nat -> y i = y' i) -> bil x y = bil x' y'.
Proof. intros E1 E2. unfold bil. pose proof E_ok as F0. clear E_ok. revert F0. induction E as [|e t IH]; intros F0; cbn [bilE]; [auto|]. inversion F0 as [|? ? [O1 O2] F]; subst. rewrite IH, !E1, !E2 by auto. reflexivity. Qed.
Lemma bil_cs x y : bil x y * bil x y <= bil x x * bil y y.
Proof.
  apply disc; [|apply bil_pos]. intros t. pose proof (bil_pos (fun i => 1 * x i + t * y i)) as P.
  rewrite bil_lin, (bil_sym x), (bil_sym y), !bil_lin, (bil_sym y x) in P. lra.
Qed.
Lemma bil_edge x e : In e E -> (x (fst e) - x (snd e)) * (x (fst e) - x (snd e)) <= bil x x.
Proof.
  unfold bil. clear E_ok. assert (P : forall t, 0 <= bilE t x x) by (clear; intros t; induction t as [|e' t IH]; cbn [bilE]; [lra|pose proof (Rle_0_sqr (x (fst e') - x (snd e'))); unfold Rsqr in *; lra]).
  induction E as [|e' t IH]; cbn [In bilE]; [tauto|]. specialize (P t). pose proof (Rle_0_sqr (x (fst e') - x (snd e'))). unfold Rsqr in *.
  intros [-> | H0]; [lra|]. specialize (IH H0). lra.
Qed.

Lemma dot_lap x y : dot y (lap x) = bil x y.
Proof.
  unfold bil, lap, dot. pose proof E_ok as F0. clear E_ok. revert F0. induction E as [|e t IH]; intros F0.
  - etransitivity; [apply (sumn_ext _ (fun _ => 0)); intros; cbn [lapE]; ring|]. rewrite sumn_const. cbn [bilE]. ring.
  - inversion F0 as [|? ? [O1 O2] F]; subst. cbn [bilE]. rewrite <- IH by auto. set (r := x (fst e) - x (snd e)).
    etransitivity; [apply (sumn_ext _ (fun i => 1 * (r * (y i * (if Nat.eqb i (fst e) then 1 else 0)) + - r * (y i * (if Nat.eqb i (snd e) then 1 else 0))) + 1 * (y i * lapE t x i))); intros; cbn [lapE]; unfold r; ring|].
    rewrite sumn_lin, sumn_lin, !sumn_pick by auto. ring.
Qed.

Context (lam C : R) (lam_pos : 0 < lam) (C_pos : 0 < C).
Context (L1 : forall x, bil x x <= lam * dot x x) (L2 : forall x, bil x x <= C * dot (lap x) (lap x)).

Lemma lap_le x : dot (lap x) (lap x) <= lam * bil x x.
Proof.
  set (B := dot (lap x) (lap x)). assert (HB : 0 <= B) by apply dot_pos.
  assert (EB : B = bil x (lap x)) by (unfold B; apply dot_lap).
  pose proof (bil_cs x (lap x)) as CS. rewrite <- EB in CS. pose proof (L1 (lap x)) as L. fold B in L. pose proof (bil_pos x).
  destruct (Req_dec B 0) as [-> | NB]; [nra|].
  apply Rmult_le_reg_r with B; [lra|]. apply Rle_trans with (bil x x * bil (lap x) (lap x)); [auto|].
  replace (lam * bil x x * B) with (bil x x * (lam * B)) by ring. apply Rmult_le_compat_l; auto.
Qed.

Lemma dot_two r x y z w : dot (fun i => r * x i + y i) (fun i => r * z i + w i) = r * r * dot x z + r * (dot x w + dot y z) + dot y w.
Proof.
  rewrite (dot_ext _ (fun i => r * x i + 1 * y i) _ (fun i => r * z i + 1 * w i)) by (intros; ring).
  rewrite dot_lin, !(dot_sym _ (fun i => r * z i + 1 * w i)), !dot_lin, !(dot_sym z), !(dot_sym w). ring.
Qed.
Lemma bil_two r x y z w : bil (fun i => r * x i + y i) (fun i => r * z i + w i) = r * r * bil x z + r * (bil x w + bil y z) + bil y w.
Proof.
  rewrite (bil_ext _ (fun i => r * x i + 1 * y i) _ (fun i => r * z i + 1 * w i)) by (intros; ring).
  rewrite bil_lin, !(bil_sym _ (fun i => r * z i + 1 * w i)), !bil_lin, !(bil_sym z), !(bil_sym w). ring.
Qed.

Definition energy (m s : R) (x v : nat -> R) : R := dot v v + 2 * m * bil x x - (m - s) * bil x v.

Lemma energy_split m s x v y z r : energy m s (fun i => r * x i + y i) (fun i => r * v i + z i) =
  r * r * energy m s x v + r * (2 * dot v z + 4 * m * bil x y - (m - s) * (bil x z + bil y v)) + energy m s y z.
Proof.
  unfold energy. rewrite dot_two, !bil_two, (dot_sym z v), (bil_sym y x). ring.
Qed.

(** An energy that bounds speed and stretch, and that each round shrinks by a
    fixed factor, up to what a bounded disturbance adds. *)
Lemma energy_shrinks a b D : -1 < a < 1 -> 0 < b -> b * lam < 4 * (1 + a) -> 0 <= D ->
  exists (en : (nat -> R) -> (nat -> R) -> R) (rho K ka : R), 0 <= rho < 1 /\ 0 <= K /\ 0 < ka /\
    (forall x v, ka * (dot v v + bil x x) <= en x v) /\
    (forall x v x' v', (forall i, (i < 16)%nat -> Rabs (v' i - (a * v i - b * lap x i)) <= D) ->
       (forall i, (i < 16)%nat -> x' i = x i + v' i / 2) -> en x' v' <= rho * en x v + K).
Proof.
  intros Ha Hb Hbl HD. destruct (energy_scalars a b lam C Ha Hb lam_pos Hbl C_pos) as (s & al & ka & Hs & Hal & Hka & Sc).
  set (m := 2 * b / (1 + a)) in *.
  assert (Low : forall x v, ka * (dot v v + bil x x) <= energy m s x v).
  { intros x v. apply (Sc (dot v v) (dot (lap x) (lap x)) (bil x v) (bil x x)); try apply dot_pos; [|apply lap_le|apply L2].
    rewrite <- dot_lap. apply dot_cs. }
  assert (Pos : forall x v, 0 <= energy m s x v).
  { intros x v. apply Rle_trans with (ka * (dot v v + bil x x)); [|apply Low]. pose proof (dot_pos v). pose proof (bil_pos x). apply Rmult_le_pos; lra. }
  set (N0 := (1 + s * lam / 2) * (16 * (D * D))).
  assert (HN0 : 0 <= N0) by (unfold N0; apply Rmult_le_pos; nra).
  assert (Hi : 0 < / al) by (apply Rinv_0_lt_compat; lra).
  exists (energy m s), ((1 + al) * (1 - al)), ((1 + / al) * N0), ka. split; [nra|]. split; [nra|]. split; [auto|]. split; [exact Low|].
  intros x v x' v' Hv Hx.
  set (u := fun i => a * v i + - b * lap x i). set (y := fun i => 1 * x i + 1 / 2 * u i).
  set (d := fun i => v' i - u i). set (e := fun i => 1 / 2 * d i).
  assert (En : energy m s x' v' = energy m s (fun i => 1 * y i + e i) (fun i => 1 * u i + d i)).
  { unfold energy.
    assert (A1 : forall i, (i < 16)%nat -> v' i = 1 * u i + d i) by (intros; unfold d; ring).
    assert (A2 : forall i, (i < 16)%nat -> x' i = 1 * y i + e i) by (intros i H; rewrite Hx by auto; unfold y, e, d; field).
    rewrite (dot_ext v' (fun i => 1 * u i + d i) v' (fun i => 1 * u i + d i)) by auto.
    rewrite (bil_ext x' (fun i => 1 * y i + e i) x' (fun i => 1 * y i + e i)) by auto.
    rewrite (bil_ext x' (fun i => 1 * y i + e i) v' (fun i => 1 * u i + d i)) by auto. reflexivity. }
  assert (Und : energy m s y u <= (1 - al) * energy m s x v).
  { set (A := dot v v). set (B := dot (lap x) (lap x)). set (c := bil x v). set (q := bil x x).
    assert (Ec : dot v (lap x) = c) by apply dot_lap.
    assert (EB : bil x (lap x) = B) by (unfold B; symmetry; apply dot_lap).
    assert (Eu : dot u u = a * a * A - 2 * a * b * c + b * b * B).
    { unfold u. rewrite dot_lin, (dot_sym v), (dot_sym (lap x)), !dot_lin, (dot_sym (lap x) v), Ec. fold A B. ring. }
    assert (Exu : bil x u = a * c - b * B). { unfold u. rewrite bil_sym, bil_lin, (bil_sym v), (bil_sym (lap x)), EB. fold c. ring. }
    assert (Eyu : bil y u = bil x u + bil u u / 2) by (unfold y; rewrite bil_lin; field).
    assert (Eyy : bil y y = q + bil x u + bil u u / 4).
    { unfold y. rewrite bil_lin, (bil_sym x), (bil_sym u), !bil_lin, (bil_sym u x). fold q. field. }
    unfold energy at 1. rewrite Eyu, Eyy, Exu, Eu.
    pose proof (L1 u) as Lu. rewrite Eu in Lu.
    destruct (Sc A B c q) as (S1 & _).
    { apply dot_pos. } { apply dot_pos. } { rewrite <- Ec. apply dot_cs. } { apply lap_le. } { apply L2. }
    change (energy m s x v) with (A + 2 * m * q - (m - s) * c). nra. }
  assert (Ned : energy m s e d <= N0).
  { assert (Edd : bil e d = bil d d / 2).
    { rewrite (bil_ext e (fun i => 1 / 2 * d i + 0 * d i) d d) by (intros; unfold e; ring). rewrite bil_lin. field. }
    assert (Eee : bil e e = bil d d / 4).
    { rewrite (bil_ext e (fun i => 1 / 2 * d i + 0 * d i) e e) by (intros; unfold e; ring). rewrite bil_lin, (bil_sym d), Edd. field. }
    unfold energy. rewrite Edd, Eee. pose proof (L1 d) as Ld.
    assert (Hd : dot d d <= 16 * (D * D)). { apply dot_bound; auto. intros i Hi'. unfold d, u. replace (v' i - (a * v i + - b * lap x i)) with (v' i - (a * v i - b * lap x i)) by ring. auto. }
    assert (s * bil d d <= s * (lam * dot d d)) by (apply Rmult_le_compat_l; lra).
    assert (0 <= s * lam) by (apply Rmult_le_pos; lra).
    assert ((1 + s * lam / 2) * dot d d <= N0) by (unfold N0; apply Rmult_le_compat_l; lra). lra. }
  rewrite En, energy_split. set (X := 2 * dot u d + 4 * m * bil y e - (m - s) * (bil y d + bil e u)).
  assert (Cr : X <= al * energy m s y u + / al * energy m s e d).
  { pose proof (Pos (fun i => - al * y i + e i) (fun i => - al * u i + d i)) as P. rewrite energy_split in P. fold X in P.
    apply Rmult_le_reg_l with al; [lra|]. rewrite Rmult_plus_distr_l. replace (al * (/ al * energy m s e d)) with (energy m s e d) by (field; lra). lra. }
  assert (/ al * energy m s e d <= / al * N0) by (apply Rmult_le_compat_l; lra).
  assert ((1 + al) * energy m s y u <= (1 + al) * ((1 - al) * energy m s x v)) by (apply Rmult_le_compat_l; lra). lra.
Qed.
End Graph.
