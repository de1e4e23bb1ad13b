(** The GObject wrappers of the wobbly model make exactly the native calls their
    client can work out from its own history. *)

From Coq Require Import ZArith Bool List Lia.
From Verif Require Import Num Geometry Outcome Wobbly Spec LemBasic LemInv LemHistory LemMoves LemSafe
  LemNetworkFacts GlibWobbly SpecGlib.
Import ListNotations.

(** ** Anchor objects still held *)

Fixpoint held_from (i : nat) (l : list (kind * status)) : list (nat * kind) :=
  match l with
  | [] => []
  | (k, Held) :: t => (i, k) :: held_from (S i) t
  | _ :: t => held_from (S i) t
  end.

Lemma held_from_app l1 : forall i l2,
  held_from i (l1 ++ l2) = held_from i l1 ++ held_from (i + length l1) l2.
Proof.
  induction l1 as [|[k s] t IH]; intros i l2; simpl; [rewrite Nat.add_0_r; auto|].
  rewrite <- Nat.add_succ_comm. destruct s; simpl; rewrite IH; auto.
Qed.

Lemma held_from_ge l : forall i a k, In (a, k) (held_from i l) -> i <= a.
Proof.
  induction l as [|[k s] t IH]; intros i a k' E; simpl in E; [tauto|].
  destruct s; simpl in E; try (destruct E as [E|E]; [inversion E; lia|]); apply IH in E; lia.
Qed.

Lemma held_from_in l : forall i a k, In (i + a, k) (held_from i l) <-> nth_error l a = Some (k, Held).
Proof.
  induction l as [|[k s] t IH]; intros i a k'; simpl; [destruct a; simpl; split; (tauto || discriminate)|].
  destruct a; simpl.
  - rewrite Nat.add_0_r. destruct s; simpl.
    + split; [intros [E|E]; [congruence|apply held_from_ge in E; lia]|intros E; inversion E; auto].
    + split; [intros E; apply held_from_ge in E; lia|discriminate].
    + split; [intros E; apply held_from_ge in E; lia|discriminate].
  - replace (i + S a) with (S i + a) by lia. rewrite <- (IH (S i)). destruct s; try tauto.
    split; [intros [E|E]; [inversion E; lia|exact E]|intros E; right; exact E].
Qed.

Lemma held_from_set s l : s <> Held -> forall i a k,
  nth_error l a = Some k ->
  held_from i (list_set a (fst k, s) l) = filter (fun e => negb (Nat.eqb (fst e) (i + a))) (held_from i l).
Proof.
  intros Hs. induction l as [|[k' s'] t IH]; intros i a k E; [destruct a; discriminate|].
  assert (X : forall j, i < j -> filter (fun e : nat * kind => negb (fst e =? i)) (held_from j t) = held_from j t).
  { intros j Hj. apply filter_all. intros [b kb] Hb. apply held_from_ge in Hb. simpl.
    destruct (Nat.eqb_spec b i); auto. lia. }
  destruct a; simpl in *.
  - rewrite Nat.add_0_r. destruct s; [congruence|..]; destruct s'; simpl; rewrite ?Nat.eqb_refl; simpl;
      rewrite X; auto.
  - rewrite Nat.add_succ_r, <- Nat.add_succ_l. destruct s'; simpl; rewrite (IH _ _ _ E); auto.
    destruct (Nat.eqb_spec i (S (i + a))); [lia|]. auto.
Qed.

Lemma nth_list_set {A} (l : list A) : forall a b x,
  nth_error (list_set a x l) b = if Nat.eqb a b then option_map (fun _ => x) (nth_error l a) else nth_error l b.
Proof.
  induction l; intros [|a0] [|b] x; simpl; auto;
    destruct (Nat.eqb a0 b); auto.
Qed.

Lemma length_list_set {A} (l : list A) : forall a x, length (list_set a x l) = length l.
Proof. induction l; intros [|a0] x; simpl; auto. Qed.

Lemma length_become s a l : length (become s a l) = length l.
Proof. unfold become. destruct (nth_error l a) as [[k s']|]; auto. apply length_list_set. Qed.

Lemma held_become s a l : s <> Held ->
  held_from 0 (become s a l) = filter (fun e => negb (Nat.eqb (fst e) a)) (held_from 0 l).
Proof.
  intros Hs. unfold become. destruct (nth_error l a) as [[k s']|] eqn:E.
  - apply (held_from_set s l Hs 0 a (k, s')); auto.
  - symmetry. apply filter_all. intros [b kb] Hb. simpl. destruct (Nat.eqb_spec b a); auto. subst.
    apply (held_from_in l 0 a) in Hb. congruence.
Qed.

Lemma held_become_not s a l : nth_error l a <> None -> (forall k, nth_error l a <> Some (k, Held)) -> s <> Held ->
  held_from 0 (become s a l) = held_from 0 l.
Proof.
  intros N X Hs. rewrite held_become; auto. apply filter_all. intros [b kb] Hb. simpl.
  destruct (Nat.eqb_spec b a); auto. subst. apply (held_from_in l 0 a) in Hb. exfalso. eapply X; eauto.
Qed.

Lemma gone_stays {T} (ops : list (gop T)) : forall c, gc_gone c = true -> gc_gone (fold_left gclient_step ops c) = true.
Proof. induction ops as [|o t IH]; intros c G; simpl; auto. apply IH. destruct o; auto. Qed.

Lemma gone_in {T} (ops : list (gop T)) : forall c, In GModelFinalize ops -> gc_gone (fold_left gclient_step ops c) = true.
Proof.
  induction ops as [|o t IH]; intros c I; [destruct I|]. simpl. destruct I as [-> |I]; auto.
  apply gone_stays. auto.
Qed.

(** ** Simulation *)

Section Simulation.
Context {T : Type} `{Num T}.
Implicit Types (g : gworld T) (o : gop T) (m : model T).

Definition gref_of (a : nat) (ks : kind * status) : gref :=
  match snd ks with Held => RHeld a | Released => REmpty | Finalized => RGone end.

Record rel (c : gclient) (g : gworld T) (nc : client) : Prop := {
  rel_refs : forall a, nth_error (gw_anchors g) a = option_map (gref_of a) (nth_error (gc_anchors c) a);
  rel_agrees : agrees nc (gw_model g);
  rel_count : c_acquired nc = length (gc_anchors c);
  rel_live : c_live nc = held_from 0 (gc_anchors c);
  rel_gone : c_destroyed nc = gc_gone c }.

Lemma rel_length c g nc : rel c g nc -> length (gw_anchors g) = length (gc_anchors c).
Proof.
  intros R. pose proof (rel_refs _ _ _ R) as X.
  destruct (Nat.lt_trichotomy (length (gw_anchors g)) (length (gc_anchors c))) as [L|[L|L]]; auto; exfalso.
  - specialize (X (length (gw_anchors g))).
    destruct (nth_error (gw_anchors g) (length (gw_anchors g))) eqn:E1.
    + assert (nth_error (gw_anchors g) (length (gw_anchors g)) <> None) by congruence. apply nth_error_Some in H0. lia.
    + destruct (nth_error (gc_anchors c) (length (gw_anchors g))) eqn:E2; [discriminate|].
      apply nth_error_None in E2. lia.
  - specialize (X (length (gc_anchors c))).
    assert (E : nth_error (gc_anchors c) (length (gc_anchors c)) = None) by (apply nth_error_None; lia).
    rewrite E in X. simpl in X. apply nth_error_None in X. lia.
Qed.

Lemma rel_alive c g nc : rel c g nc -> gc_gone c = negb (malive (gw_model g)).
Proof. intros R. rewrite <- (rel_gone _ _ _ R). apply (rel_agrees _ _ _ R). Qed.

(** The calls a wrapper function makes are the ones it stands for. *)
Lemma calls_meaning c g nc o calls :
  rel c g nc -> gw_calls g o = Ok calls -> calls = meaning c (mset (gw_model g)) o.
Proof.
  intros R E. pose proof (rel_refs _ _ _ R) as X.
  destruct o; cbn [gw_calls meaning release_calls] in E |- *;
    try (destruct (malive (gw_model g)); [|discriminate E]; injection E as <-;
         try change (spring_k_ok v) with (inside (nlit 1 10) v (nof 10));
         try change (friction_ok v) with (inside (nlit 1 10) v (nof 10));
         try change (range_ok v) with (inside (nof 10) v (nof 1000));
         cbn [settings_do]; try destruct (inside _ v _); reflexivity).
  - destruct p as [p|]; [|discriminate E]. simpl in E. destruct (malive (gw_model g)); [|discriminate E]. injection E as <-. auto.
  - destruct s as [p|]; [|discriminate E]. simpl in E. destruct (malive (gw_model g)); [|discriminate E]. injection E as <-. auto.
  - rewrite X in E. unfold holdsb. destruct (nth_error (gc_anchors c) a) as [[k s]|]; [|discriminate E].
    destruct s; simpl in E; try discriminate E; injection E as <-; auto.
  - rewrite X in E. unfold holdsb. destruct (nth_error (gc_anchors c) a) as [[k s]|]; [|discriminate E].
    destruct s; simpl in E; try discriminate E; injection E as <-; auto.
  - rewrite X in E. unfold holdsb. destruct (nth_error (gc_anchors c) a) as [[k s]|]; [|discriminate E].
    destruct s; simpl in E; try discriminate E; injection E as <-; auto.
Qed.

Lemma run_mset fuel ops : forall m m' us,
  run fuel m ops = Ok (m', us) ->
  mset m' = fold_left (fun s x => match x with OpSettings st => st | _ => s end) ops (mset m).
Proof.
  induction ops as [|o t IH]; intros m m' us E; simpl in E; inv_ok; auto.
  destruct a as [m1 u1], a0 as [m2 us2]. simpl in *. rewrite (IH _ _ _ Ha0).
  rewrite (settings_step _ _ _ _ _ Ha). auto.
Qed.

Lemma meaning_settings c o st :
  fold_left (fun s x => match x with OpSettings st => st | _ => s end) (meaning c st o) st = settings_do st o.
Proof.
  destruct o; simpl; auto; try (destruct (inside _ v _); reflexivity).
  - destruct p; auto.
  - destruct s; auto.
  - destruct (holdsb c a); auto.
  - destruct (holdsb c a); auto.
  - destruct (holdsb c a); auto.
Qed.

Lemma run_one fuel m (o : op T) m' us :
  run fuel m [o] = Ok (m', us) -> exists u, us = [u] /\ step_op fuel m o = Ok (m', u).
Proof.
  simpl. intros E. inv_ok. destruct a as [m1 u1]. simpl in *. eauto.
Qed.

Lemma rel_same c g nc g' :
  rel c g nc -> gw_anchors g' = gw_anchors g -> agrees nc (gw_model g') -> rel c g' nc.
Proof. intros R A B. destruct R. constructor; auto. rewrite A. auto. Qed.

Lemma refs_app l rs k n :
  (forall a, nth_error rs a = option_map (gref_of a) (nth_error l a)) -> length rs = length l -> n = length l ->
  forall a, nth_error (rs ++ [RHeld n]) a = option_map (gref_of a) (nth_error (l ++ [(k, Held)]) a).
Proof.
  intros X L -> a. destruct (Nat.lt_ge_cases a (length l)).
  - rewrite !nth_error_app1 by lia. auto.
  - rewrite !nth_error_app2 by lia. rewrite L. destruct (a - length l) as [|d] eqn:D; simpl.
    + unfold gref_of. simpl. f_equal. f_equal. lia.
    + destruct d; auto.
Qed.

Lemma refs_become s l rs a :
  (forall b, nth_error rs b = option_map (gref_of b) (nth_error l b)) -> s <> Held ->
  forall b, nth_error (list_set a (gref_of a (KGrab, s)) rs) b = option_map (gref_of b) (nth_error (become s a l) b).
Proof.
  intros X Hs b. rewrite nth_list_set. unfold become. destruct (nth_error l a) as [[k s']|] eqn:E.
  - rewrite nth_list_set. destruct (Nat.eqb_spec a b); [subst|apply X].
    rewrite X, E. destruct s; simpl; auto.
  - destruct (Nat.eqb_spec a b); [subst|apply X]. rewrite X, E. auto.
Qed.

Lemma rel_let_go s c g nc a calls m us :
  rel c g nc -> s <> Held ->
  release_calls (nth_error (gw_anchors g) a) = Ok calls ->
  agrees (fold_left client_step calls nc) m ->
  run us (gw_model g) calls = Ok (m, []) \/ True ->
  rel (mkGC (become s a (gc_anchors c)) (gc_gone c))
      (mkGW m (gw_position g) (gw_size g) (list_set a (gref_of a (KGrab, s)) (gw_anchors g)))
      (fold_left client_step calls nc).
Proof.
  intros R Hs EC A _. pose proof (rel_refs _ _ _ R) as X. rewrite X in EC.
  destruct (nth_error (gc_anchors c) a) as [[k s']|] eqn:E; [|discriminate EC].
  constructor; simpl; auto.
  - apply refs_become; auto.
  - rewrite length_become. rewrite <- (rel_count _ _ _ R). destruct s'; simpl in EC; try discriminate EC; injection EC as <-; auto.
  - rewrite held_become by auto. rewrite <- (rel_live _ _ _ R). destruct s'; simpl in EC; try discriminate EC; injection EC as <-; auto.
    simpl. rewrite (rel_live _ _ _ R). symmetry. apply filter_all. intros [b kb] Hb. simpl.
    destruct (Nat.eqb_spec b a); auto. subst. apply (held_from_in _ 0 a) in Hb. congruence.
  - rewrite <- (rel_gone _ _ _ R). destruct s'; simpl in EC; try discriminate EC; injection EC as <-; auto.
Qed.

Lemma rel_step fuel c g nc o g' calls us :
  rel c g nc -> gw_do fuel g o = Ok (g', (calls, us)) ->
  run fuel (gw_model g) calls = Ok (gw_model g', us) /\
  calls = meaning c (mset (gw_model g)) o /\
  mset (gw_model g') = settings_do (mset (gw_model g)) o /\
  rel (gclient_step c o) g' (fold_left client_step calls nc).
Proof.
  intros R E. unfold gw_do in E. inv_ok. destruct a0 as [m1 us1]. cbn [fst snd] in *.
  assert (M : gw_model (gw_update g o m1 us1) = m1).
  { destruct o; simpl; auto; [..|destruct p; auto|destruct s; auto];
      destruct us1 as [|u [|u2 l]]; auto; destruct u; auto. }
  rewrite M. split; [auto|]. pose proof (calls_meaning _ _ _ _ _ R Ha) as EC.
  split; [auto|]. split; [rewrite (run_mset _ _ _ _ _ Ha0), EC; apply meaning_settings|].
  pose proof (agrees_run _ _ _ _ _ _ Ha0 (rel_agrees _ _ _ R)) as A.
  assert (P : forall g2, gw_model g2 = m1 -> gw_anchors g2 = gw_anchors g ->
     c_live (fold_left client_step calls nc) = c_live nc ->
     c_acquired (fold_left client_step calls nc) = c_acquired nc ->
     c_destroyed (fold_left client_step calls nc) = c_destroyed nc ->
     rel c g2 (fold_left client_step calls nc)).
  { intros g2 E1 E2 L1 L2 L3. pose proof R as R0. destruct R0. constructor; rewrite ?E1, ?E2, ?L1, ?L2, ?L3; auto. }
  destruct o; cbn [gclient_step gw_update]; cbn [meaning] in EC;
    try (apply P; auto; rewrite EC; try destruct (inside _ v _); reflexivity).
  - (* grab *)
    rewrite EC in Ha0. apply run_one in Ha0. destruct Ha0 as (u & -> & E).
    unfold step_op in E. destruct (needs_model (OpGrab p) && negb (malive (gw_model g)))%bool; [discriminate|].
    inv_ok. destruct a as [m2 n]. cbn [fst snd] in *. destruct (agrees_grab _ _ _ _ _ _ Ha0 (rel_agrees _ _ _ R)) as [En _].
    assert (n = length (gc_anchors c)). { rewrite <- (rel_count _ _ _ R), En. symmetry. apply (rel_agrees _ _ _ R). }
    pose proof (rel_length _ _ _ R) as L. simpl in A |- *. constructor; simpl; auto.
    + apply refs_app; auto. apply (rel_refs _ _ _ R).
    + rewrite app_length, (rel_count _ _ _ R). simpl. lia.
    + rewrite held_from_app, (rel_live _ _ _ R), (rel_count _ _ _ R). auto.
    + apply (rel_gone _ _ _ R).
  - (* insert *)
    rewrite EC in Ha0. apply run_one in Ha0. destruct Ha0 as (u & -> & E).
    unfold step_op in E. destruct (needs_model (OpInsert p) && negb (malive (gw_model g)))%bool; [discriminate|].
    inv_ok. destruct a as [m2 n]. cbn [fst snd] in *. destruct (agrees_insert _ _ _ _ _ _ Ha0 (rel_agrees _ _ _ R)) as [En _].
    assert (n = length (gc_anchors c)). { rewrite <- (rel_count _ _ _ R), En. symmetry. apply (rel_agrees _ _ _ R). }
    pose proof (rel_length _ _ _ R) as L. simpl in A |- *. constructor; simpl; auto.
    + apply refs_app; auto. apply (rel_refs _ _ _ R).
    + rewrite app_length, (rel_count _ _ _ R). simpl. lia.
    + rewrite held_from_app, (rel_live _ _ _ R), (rel_count _ _ _ R). auto.
    + apply (rel_gone _ _ _ R).
  - destruct p; apply P; auto; rewrite EC; reflexivity.
  - destruct s; apply P; auto; rewrite EC; reflexivity.
  - rewrite EC in *. simpl in A |- *. destruct R. constructor; simpl; auto.
  - apply P; auto; rewrite EC; destruct (holdsb c a); reflexivity.
  - cbn [gw_calls] in Ha. eapply (rel_let_go Released); eauto. discriminate.
  - cbn [gw_calls] in Ha. eapply (rel_let_go Finalized); eauto. discriminate.
Unshelve. all: exact fuel.
Qed.

Lemma rel_run fuel ops : forall c g nc g' calls us,
  rel c g nc -> gw_run fuel g ops = Ok (g', (calls, us)) ->
  run fuel (gw_model g) calls = Ok (gw_model g', us) /\
  calls = meanings c (mset (gw_model g)) ops /\
  mset (gw_model g') = settings_after (mset (gw_model g)) ops /\
  rel (fold_left gclient_step ops c) g' (fold_left client_step calls nc).
Proof.
  induction ops as [|o t IH]; intros c g nc g' calls us R E; simpl in E.
  - inv_ok. simpl. auto.
  - inv_ok. destruct a as [g1 [c1 u1]], a0 as [g2 [c2 u2]]. cbn [fst snd] in *.
    destruct (rel_step _ _ _ _ _ _ _ _ R Ha) as (R1 & R2 & R3 & R4).
    destruct (IH _ _ _ _ _ _ R4 Ha0) as (S1 & S2 & S3 & S4).
    split; [|split; [|split]].
    + rewrite (run_app _ _ _ _ _ _ R1), S1. auto.
    + simpl. rewrite S2, R3, R2. auto.
    + unfold settings_after. simpl. rewrite <- R3. exact S3.
    + rewrite fold_left_app. exact S4.
Qed.

Lemma rel_new p s k f r next g :
  gw_new p s k f r next = Ok g -> rel gclient_start g client_start.
Proof.
  unfold gw_new. intros E. inv_ok. constructor; simpl; auto.
  - intros [|i]; auto.
  - apply agrees_init.
Qed.

(** ** Life of one anchor object *)

Lemma list_set_same {A} (l : list A) : forall a x, nth_error l a = Some x -> list_set a x l = l.
Proof.
  induction l as [|y t IH]; intros [|i] x E; simpl in *; try discriminate; [congruence|]. f_equal. auto.
Qed.

Lemma nth_become s a l b :
  nth_error (become s a l) b =
  if Nat.eqb a b then option_map (fun ks => (fst ks, s)) (nth_error l b) else nth_error l b.
Proof.
  unfold become. destruct (nth_error l a) as [[k s']|] eqn:E.
  - rewrite nth_list_set. destruct (Nat.eqb_spec a b); auto. subst. rewrite E. auto.
  - destruct (Nat.eqb_spec a b); auto. subst. rewrite E. auto.
Qed.

(** What a call does to anchor object [a]. *)
Definition status_do (s : status) (a : nat) o : status :=
  match o with
  | GAnchorRelease b => if Nat.eqb b a then Released else s
  | GAnchorFinalize b => if Nat.eqb b a then Finalized else s
  | _ => s
  end.

Lemma status_step c o a k s :
  nth_error (gc_anchors c) a = Some (k, s) ->
  nth_error (gc_anchors (gclient_step c o)) a = Some (k, status_do s a o).
Proof.
  intros E. assert (X : a < length (gc_anchors c)) by (apply nth_error_Some; congruence).
  destruct o; cbn [gclient_step gc_anchors status_do]; auto.
  - rewrite nth_error_app1 by auto. auto.
  - rewrite nth_error_app1 by auto. auto.
  - rewrite nth_become, E. destruct (Nat.eqb a0 a); auto.
  - rewrite nth_become, E. destruct (Nat.eqb a0 a); auto.
Qed.

Lemma status_run ops : forall c a k s,
  nth_error (gc_anchors c) a = Some (k, s) ->
  nth_error (gc_anchors (fold_left gclient_step ops c)) a = Some (k, fold_left (fun s x => status_do s a x) ops s).
Proof.
  induction ops as [|o t IH]; intros c a k s E; simpl; auto. apply IH. apply status_step. auto.
Qed.

(** Using an anchor object that was never obtained fails. *)
Lemma use_exists fuel c g nc o g' r a :
  rel c g nc -> gw_do fuel g o = Ok (g', r) -> o = GAnchorRelease a \/ o = GAnchorFinalize a ->
  exists k s, nth_error (gc_anchors c) a = Some (k, s) /\ s <> Finalized.
Proof.
  intros R E D. unfold gw_do in E. inv_ok. assert (X : exists l, release_calls (T := T) (nth_error (gw_anchors g) a) = Ok l).
  { destruct D as [-> | ->]; eauto. }
  destruct X as (l & X). rewrite (rel_refs _ _ _ R) in X.
  destruct (nth_error (gc_anchors c) a) as [[k s]|]; [|discriminate X]. exists k, s. split; auto.
  intros ->. discriminate X.
Qed.

Lemma gw_run_cat fuel ops1 : forall g ops2,
  gw_run fuel g (ops1 ++ ops2) =
  bind (gw_run fuel g ops1) (fun r => bind (gw_run fuel (fst r) ops2) (fun r' =>
    Ok (fst r', (fst (snd r) ++ fst (snd r'), snd (snd r) ++ snd (snd r'))))).
Proof.
  induction ops1 as [|o t IH]; intros g ops2; simpl.
  - destruct (gw_run fuel g ops2) as [[g2 [c u]]|]; auto.
  - destruct (gw_do fuel g o) as [[g1 [c1 u1]]|]; simpl; auto. rewrite IH.
    destruct (gw_run fuel g1 t) as [[g2 [c2 u2]]|]; simpl; auto.
    destruct (gw_run fuel g2 ops2) as [[g3 [c3 u3]]|]; simpl; auto. rewrite !app_assoc. auto.
Qed.

Lemma gw_run_app fuel ops1 g g1 r1 ops2 g2 r :
  gw_run fuel g (ops1 ++ ops2) = Ok (g2, r) ->
  gw_run fuel g ops1 = Ok (g1, r1) -> exists r2, gw_run fuel g1 ops2 = Ok (g2, r2).
Proof.
  intros E1 E2. rewrite gw_run_cat, E2 in E1. simpl in E1. inv_ok. destruct a as [g3 r3]. eauto.
Qed.

Lemma gw_run_prefix fuel ops1 g ops2 r :
  gw_run fuel g (ops1 ++ ops2) = Ok r -> exists g1 r1, gw_run fuel g ops1 = Ok (g1, r1).
Proof.
  rewrite gw_run_cat. destruct (gw_run fuel g ops1) as [[g1 r1]|]; [eauto|discriminate].
Qed.

Lemma let_go_exists fuel ops : forall c g nc r a,
  rel c g nc -> gw_run fuel g ops = Ok r -> let_go a ops ->
  exists k s, nth_error (gc_anchors (fold_left gclient_step ops c)) a = Some (k, s).
Proof.
  induction ops as [|o t IH]; intros c g nc r a R E L; [destruct L as [[]|[]]|].
  simpl in E. inv_ok. destruct a0 as [g1 [c1 u1]], a1 as [g2 [c2 u2]]. cbn [fst snd] in *.
  destruct (rel_step _ _ _ _ _ _ _ _ R Ha) as (_ & _ & _ & R4).
  assert (D : (o = GAnchorRelease a \/ o = GAnchorFinalize a) \/ let_go a t).
  { destruct L as [[L|L]|[L|L]]; unfold let_go; auto. }
  destruct D as [D|D]; [|simpl; eauto].
  destruct (use_exists _ _ _ _ _ _ _ _ R Ha D) as (k & s & X & _). simpl.
  eexists _, _. apply status_run. apply status_step. exact X.
Qed.

Lemma status_held_in ops a : forall s,
  fold_left (fun s x => status_do s a x) ops s <> s -> let_go a ops.
Proof.
  induction ops as [|o t IH]; intros s X; simpl in X; [congruence|].
  assert (D : status_do s a o = s \/ o = GAnchorRelease a \/ o = GAnchorFinalize a).
  { destruct o; simpl; auto; destruct (Nat.eqb_spec a0 a); subst; auto. }
  unfold let_go. destruct D as [D|[->| ->]]; simpl; auto. rewrite D in X. apply IH in X. destruct X; auto.
Qed.

Lemma status_not_held ops a : forall s, s <> Held ->
  fold_left (fun s x => status_do s a x) ops s <> Held.
Proof.
  induction ops as [|o t IH]; intros s X; simpl; auto. apply IH.
  destruct o; simpl; auto; destruct (Nat.eqb a0 a); auto; discriminate.
Qed.

Lemma status_released ops a : forall s, s <> Held ->
  ~ In (GAnchorFinalize a) ops -> s = Released -> fold_left (fun s x => status_do s a x) ops s = Released.
Proof.
  induction ops as [|o t IH]; intros s X N E; simpl in *; auto.
  assert (status_do s a o = Released).
  { destruct o; simpl; auto; destruct (Nat.eqb_spec a0 a); subst; auto. exfalso. apply N. auto. }
  apply IH; auto. congruence.
Qed.

(** Released, and not finalized, at the end of the history. *)
Lemma released_after fuel c g nc ops r a :
  rel c g nc -> gw_run fuel g ops = Ok r -> In (GAnchorRelease a) ops -> ~ In (GAnchorFinalize a) ops ->
  exists k, nth_error (gc_anchors (fold_left gclient_step ops c)) a = Some (k, Released).
Proof.
  intros R E I N. apply in_split in I. destruct I as (l1 & l2 & ->).
  change (l1 ++ GAnchorRelease a :: l2) with (l1 ++ [GAnchorRelease a] ++ l2) in *.
  destruct (gw_run_prefix _ _ _ _ _ E) as (g1 & [c1 u1] & E1). destruct r as [g3 r3].
  destruct (gw_run_app _ _ _ _ _ _ _ _ E E1) as (r4 & E2).
  destruct (rel_run _ _ _ _ _ _ _ _ R E1) as (_ & _ & _ & R1).
  simpl in E2. inv_ok. destruct a0 as [g2 r2].
  destruct (use_exists _ _ _ _ _ _ _ a R1 Ha (or_introl eq_refl)) as (k & s & X & _).
  exists k. rewrite !fold_left_app. cbn [fold_left].
  erewrite status_run; [|apply status_step; exact X]. f_equal. f_equal. simpl. rewrite Nat.eqb_refl.
  apply status_released; auto; [discriminate|]. intros Y. apply N. rewrite in_app_iff. right. right. exact Y.
Qed.

Lemma gw_eta g : mkGW (gw_model g) (gw_position g) (gw_size g) (gw_anchors g) = g.
Proof. destruct g. auto. Qed.

Lemma inert fuel c g nc a k :
  rel c g nc -> nth_error (gc_anchors c) a = Some (k, Released) ->
  (forall d, gw_do fuel g (GAnchorMove a d) = Ok (g, ([], []))) /\
  gw_do fuel g (GAnchorRelease a) = Ok (g, ([], [])) /\
  exists g', gw_do fuel g (GAnchorFinalize a) = Ok (g', ([], [])) /\ gw_model g' = gw_model g.
Proof.
  intros R X. pose proof (rel_refs _ _ _ R a) as Y. rewrite X in Y. cbn in Y.
  unfold gw_do. cbn [gw_calls]. rewrite Y. cbn [release_calls bind run fst snd gw_update].
  rewrite (list_set_same _ _ _ Y), gw_eta. repeat split. eexists. split; reflexivity.
Qed.

(** ** Native releases *)

Lemma releases_app n (l1 l2 : list (op T)) : releases n (l1 ++ l2) = releases n l1 + releases n l2.
Proof. unfold releases. rewrite filter_app, app_length. auto. Qed.

Lemma releases_meaning c st o a :
  releases a (meaning c st o) =
  match o with
  | GAnchorRelease b | GAnchorFinalize b => if Nat.eqb b a then if holdsb c a then 1 else 0 else 0
  | _ => 0
  end.
Proof.
  unfold releases. destruct o; simpl; auto; try (destruct (inside _ v _); reflexivity).
  - destruct p; auto.
  - destruct s; auto.
  - destruct (holdsb c a0); auto.
  - destruct (Nat.eqb_spec a0 a); [subst; destruct (holdsb c a); simpl; rewrite ?Nat.eqb_refl; auto|].
    destruct (holdsb c a0); simpl; auto. destruct (Nat.eqb_spec a0 a); auto; lia.
  - destruct (Nat.eqb_spec a0 a); [subst; destruct (holdsb c a); simpl; rewrite ?Nat.eqb_refl; auto|].
    destruct (holdsb c a0); simpl; auto. destruct (Nat.eqb_spec a0 a); auto; lia.
Qed.

(** Outstanding native anchors: one per held object. *)
Definition due (c : gclient) (a : nat) : nat := if holdsb c a then 1 else 0.

Lemma due_step fuel c g nc o g' r a :
  rel c g nc -> gw_do fuel g o = Ok (g', r) -> nth_error (gc_anchors c) a <> None ->
  releases a (meaning c (mset (gw_model g)) o) + due (gclient_step c o) a = due c a.
Proof.
  intros R E N. destruct (nth_error (gc_anchors c) a) as [[k s]|] eqn:X; [|congruence].
  rewrite releases_meaning. unfold due, holdsb. rewrite (status_step c o a k s X), X.
  destruct o; simpl; try lia; destruct (Nat.eqb a0 a); destruct s; auto.
Qed.

Lemma due_run fuel ops : forall c g nc g' calls us a,
  rel c g nc -> gw_run fuel g ops = Ok (g', (calls, us)) -> nth_error (gc_anchors c) a <> None ->
  releases a calls + due (fold_left gclient_step ops c) a = due c a.
Proof.
  induction ops as [|o t IH]; intros c g nc g' calls us a R E N; simpl in E; inv_ok; [reflexivity|].
  destruct a0 as [g1 [c1 u1]], a1 as [g2 [c2 u2]]. cbn [fst snd] in *.
  destruct (rel_step _ _ _ _ _ _ _ _ R Ha) as (_ & R2 & _ & R4).
  assert (N' : nth_error (gc_anchors (gclient_step c o)) a <> None).
  { destruct (nth_error (gc_anchors c) a) as [[k s]|] eqn:X; [|congruence]. rewrite (status_step _ _ _ _ _ X). discriminate. }
  rewrite releases_app. simpl. pose proof (IH _ _ _ _ _ _ a R4 Ha0 N').
  pose proof (due_step _ _ _ _ _ _ _ a R Ha N). subst c1. lia.
Qed.

(** Before the object exists nothing is released under its number. *)
Lemma releases_new c st o a : nth_error (gc_anchors c) a = None -> releases a (meaning c st o) = 0.
Proof.
  intros X. rewrite releases_meaning. unfold holdsb. rewrite X. destruct o; auto; destruct (Nat.eqb a0 a); auto.
Qed.

Lemma new_held c o a : nth_error (gc_anchors c) a = None ->
  nth_error (gc_anchors (gclient_step c o)) a = None \/
  exists k, nth_error (gc_anchors (gclient_step c o)) a = Some (k, Held).
Proof.
  intros X. assert (forall k, nth_error (gc_anchors c ++ [(k, Held)]) a = None \/
    exists k', nth_error (gc_anchors c ++ [(k, Held)]) a = Some (k', Held)).
  { intros k. pose proof X as Y. apply nth_error_None in Y. rewrite nth_error_app2 by auto.
    destruct (a - length (gc_anchors c)) as [|[|j]]; simpl; eauto. }
  destruct o; simpl; auto; rewrite nth_become, X; destruct (Nat.eqb a0 a); auto.
Qed.

Lemma releases_total fuel ops : forall c g nc g' calls us a,
  rel c g nc -> gw_run fuel g ops = Ok (g', (calls, us)) -> nth_error (gc_anchors c) a = None ->
  (nth_error (gc_anchors (fold_left gclient_step ops c)) a = None /\ releases a calls = 0) \/
  (exists k s, nth_error (gc_anchors (fold_left gclient_step ops c)) a = Some (k, s) /\
     releases a calls = match s with Held => 0 | _ => 1 end).
Proof.
  induction ops as [|o t IH]; intros c g nc g' calls us a R E N; simpl in E; inv_ok; [auto|].
  destruct a0 as [g1 [c1 u1]], a1 as [g2 [c2 u2]]. cbn [fst snd] in *.
  destruct (rel_step _ _ _ _ _ _ _ _ R Ha) as (_ & R2 & _ & R4). subst c1.
  rewrite releases_app, (releases_new _ _ _ _ N). simpl.
  destruct (new_held c o a N) as [X|(k & X)]; [eauto|]. right.
  pose proof (due_run _ _ _ _ _ _ _ _ a R4 Ha0) as D. unfold due, holdsb in D. rewrite X in D.
  rewrite (status_run t _ _ _ _ X) in D |- *. eexists _, _. split; [reflexivity|].
  destruct (fold_left _ t Held); specialize (D ltac:(discriminate)); lia.
Qed.

Lemma status_let_go ops a : let_go a ops -> forall s, fold_left (fun s x => status_do s a x) ops s <> Held.
Proof.
  induction ops as [|o t IH]; intros L s; [destruct L as [[]|[]]|]. simpl.
  assert (D : (o = GAnchorRelease a \/ o = GAnchorFinalize a) \/ let_go a t).
  { destruct L as [[L|L]|[L|L]]; unfold let_go; auto. }
  destruct D as [[-> | ->]|D]; simpl; rewrite ?Nat.eqb_refl; [apply status_not_held; discriminate..|apply IH; auto].
Qed.

Lemma let_go_step a o t : let_go a (o :: t) -> (o = GAnchorRelease a \/ o = GAnchorFinalize a) \/ let_go a t.
Proof. intros [[L|L]|[L|L]]; unfold let_go; auto. Qed.

Lemma held_let_go fuel ops : forall c g nc r a k,
  rel c g nc -> gw_run fuel g ops = Ok r -> nth_error (gc_anchors c) a = None -> let_go a ops ->
  nth_error (gc_anchors (fold_left gclient_step ops c)) a <> Some (k, Held).
Proof.
  induction ops as [|o t IH]; intros c g nc r a k R E N L; [destruct L as [[]|[]]|].
  simpl in E. inv_ok. destruct a0 as [g1 [c1 u1]], a1 as [g2 [c2 u2]]. cbn [fst snd] in *.
  destruct (rel_step _ _ _ _ _ _ _ _ R Ha) as (_ & _ & _ & R4).
  apply let_go_step in L. destruct L as [L|L].
  { destruct (use_exists _ _ _ _ _ _ _ _ R Ha L) as (k' & s & X & _). congruence. }
  simpl. destruct (new_held c o a N) as [X|(k' & X)]; [eauto|].
  rewrite (status_run t _ _ _ _ X). intros Y. injection Y as _ Y. eapply status_let_go; eauto.
Qed.

Lemma not_let_go (ops : list (gop T)) : forall c a k s, nth_error (gc_anchors c) a = None -> ~ let_go a ops ->
  nth_error (gc_anchors (fold_left gclient_step ops c)) a = Some (k, s) -> s = Held.
Proof.
  induction ops as [|o t IH]; intros c a k s N L E; simpl in E; [congruence|].
  assert (Lt : ~ let_go a t). { intros [X|X]; apply L; [left|right]; right; auto. }
  destruct (new_held c o a N) as [X|(k' & X)]; [eauto|].
  rewrite (status_run t _ _ _ _ X) in E. injection E as _ <-.
  destruct (fold_left (fun s x => status_do s a x) t Held) eqn:F; auto;
    exfalso; apply Lt, (status_held_in t a Held); rewrite F; discriminate.
Qed.

Lemma released_once fuel ops c g nc g' calls us a :
  rel c g nc -> gc_anchors c = [] -> gw_run fuel g ops = Ok (g', (calls, us)) ->
  (let_go a ops -> releases a calls = 1) /\ (~ let_go a ops -> releases a calls = 0).
Proof.
  intros R Z E. assert (N : nth_error (gc_anchors c) a = None) by (rewrite Z; destruct a; auto).
  pose proof (releases_total _ _ _ _ _ _ _ _ a R E N) as D. split; intros L.
  - destruct (let_go_exists _ _ _ _ _ _ _ R E L) as (k & s & X).
    destruct D as [[D _]|(k' & s' & D & D2)]; [congruence|].
    destruct s'; auto. exfalso. eapply held_let_go; eauto.
  - destruct D as [[_ D]|(k & s & D & D2)]; auto.
    rewrite (not_let_go _ _ _ _ _ N L D) in D2. auto.
Qed.

(** No native move after the native release. *)
Lemma moves_meaning c st o a d : In (OpMoveAnchor a d) (meaning c st o) -> holdsb c a = true.
Proof.
  destruct o; simpl; intros I; try (destruct (inside _ v _); simpl in I); try tauto;
    try (destruct I as [I|[]]; discriminate).
  - destruct p; simpl in I; try tauto. destruct I as [I|[]]; discriminate.
  - destruct s; simpl in I; try tauto. destruct I as [I|[]]; discriminate.
  - destruct (holdsb c a0) eqn:X; simpl in I; [|tauto]. destruct I as [I|[]]. injection I as -> ->. auto.
  - destruct (holdsb c a0) eqn:X; simpl in I; [|tauto]. destruct I as [I|[]]. discriminate.
  - destruct (holdsb c a0) eqn:X; simpl in I; [|tauto]. destruct I as [I|[]]. discriminate.
Qed.

Lemma meaning_release c st o a : In (OpRelease a) (meaning c st o) ->
  meaning c st o = [OpRelease a] /\ (o = GAnchorRelease a \/ o = GAnchorFinalize a) /\ holdsb c a = true.
Proof.
  destruct o; simpl; intros I; try (destruct (inside _ v _); simpl in I); try tauto;
    try (destruct I as [I|[]]; discriminate).
  - destruct p; simpl in I; try tauto. destruct I as [I|[]]; discriminate.
  - destruct s; simpl in I; try tauto. destruct I as [I|[]]; discriminate.
  - destruct (holdsb c a0) eqn:X; simpl in I; [|tauto]. destruct I as [I|[]]. discriminate.
  - destruct (holdsb c a0) eqn:X; simpl in I; [|tauto]. destruct I as [I|[]]. injection I as ->. auto.
  - destruct (holdsb c a0) eqn:X; simpl in I; [|tauto]. destruct I as [I|[]]. injection I as ->. auto.
Qed.

Lemma no_moves (ops : list (gop T)) : forall c st a d k s, nth_error (gc_anchors c) a = Some (k, s) -> s <> Held ->
  ~ In (OpMoveAnchor a d) (meanings c st ops).
Proof.
  induction ops as [|o t IH]; intros c st a d k s X N I; simpl in I; auto.
  apply in_app_iff in I. destruct I as [I|I].
  - apply moves_meaning in I. unfold holdsb in I. rewrite X in I. destruct s; congruence.
  - eapply IH; [apply status_step; exact X| |exact I]. destruct o; simpl; auto; destruct (Nat.eqb a0 a); auto; discriminate.
Qed.

Lemma no_moves_after (ops : list (gop T)) : forall c st a d l1 l2,
  meanings c st ops = l1 ++ OpRelease a :: l2 -> ~ In (OpMoveAnchor a d) l2.
Proof.
  induction ops as [|o t IH]; intros c st a d l1 l2 E; simpl in E; [destruct l1; discriminate|].
  assert (D : (exists l3, meanings (gclient_step c o) (settings_do st o) t = l3 ++ OpRelease a :: l2)
    \/ In (OpRelease a) (meaning c st o)).
  { revert l1 E. generalize (meaning c st o) as mm. induction mm as [|x mm IM]; intros l1 E; simpl in *; [eauto|].
    destruct l1 as [|y l1]; simpl in E; injection E as Ex E; [auto|].
    destruct (IM l1 E) as [F|F]; auto. }
  destruct D as [(l3 & F)|D]; [eapply IH; eauto|].
  destruct (meaning_release _ _ _ _ D) as (F & Ho & Hh). rewrite F in E.
  destruct l1 as [|y l1]; simpl in E; [injection E as E|injection E as Ex E; eapply IH; exact E].
  unfold holdsb in Hh. destruct (nth_error (gc_anchors c) a) as [[k s]|] eqn:X; [|discriminate].
  rewrite <- E. eapply no_moves; [apply status_step; exact X|].
  destruct Ho as [-> | ->]; simpl; rewrite Nat.eqb_refl; discriminate.
Qed.

(** ** Careful clients *)

Lemma calls_ok c g nc o : rel c g nc -> gcareful c o -> exists calls, gw_calls g o = Ok calls.
Proof.
  intros R C. pose proof (rel_alive _ _ _ R) as A.
  assert (L : gc_gone c = false -> malive (gw_model g) = true).
  { rewrite A. destruct (malive (gw_model g)); auto. }
  destruct o; cbn [gcareful gw_calls] in C |- *; try (rewrite L by tauto; eauto; fail).
  - destruct p; [|exfalso; tauto]. simpl. rewrite L by tauto. eauto.
  - destruct s; [|exfalso; tauto]. simpl. rewrite L by tauto. eauto.
  - destruct C as (k & s & X & N). rewrite (rel_refs _ _ _ R), X. destruct s; simpl; eauto. congruence.
  - destruct C as (k & s & X & N). rewrite (rel_refs _ _ _ R), X. destruct s; simpl; eauto. congruence.
  - destruct C as (k & s & X & N). rewrite (rel_refs _ _ _ R), X. destruct s; simpl; eauto. congruence.
Qed.

Lemma holdsb_live c g nc a : rel c g nc -> holdsb c a = true -> In a (map fst (c_live nc)).
Proof.
  intros R X. unfold holdsb in X. destruct (nth_error (gc_anchors c) a) as [[k []]|] eqn:E; try discriminate.
  rewrite (rel_live _ _ _ R). apply in_map_iff. exists (a, k). split; auto. apply (held_from_in _ 0 a). auto.
Qed.

Lemma careful_meaning c g nc st o : rel c g nc -> gcareful c o -> each_call careful nc (meaning c st o).
Proof.
  intros R C. pose proof (rel_gone _ _ _ R) as G.
  destruct o; cbn [gcareful meaning] in C |- *; try (simpl; rewrite ?G; tauto);
    try (destruct (inside _ v _); simpl; tauto).
  - destruct p; simpl; [rewrite G; tauto|tauto].
  - destruct s; simpl; [rewrite G; tauto|tauto].
  - simpl. rewrite G. repeat split; try tauto. destruct C as [_ C].
    rewrite (rel_live _ _ _ R). destruct (held_from 0 (gc_anchors c)) as [|[a k] l] eqn:E; auto.
    exfalso. apply (C a). exists k. apply (held_from_in _ 0 a). rewrite E. left. auto.
  - destruct (holdsb c a) eqn:X; simpl; auto. split; auto. eapply holdsb_live; eauto.
  - destruct (holdsb c a) eqn:X; simpl; auto.
  - destruct (holdsb c a) eqn:X; simpl; auto.
Qed.

Lemma newest_meaning c g nc st o : rel c g nc -> gnewest_first c o -> each_call newest_first nc (meaning c st o).
Proof.
  intros R C.
  assert (X : forall a k, In (a, k) (c_live nc) <-> nth_error (gc_anchors c) a = Some (k, Held)).
  { intros a k. rewrite (rel_live _ _ _ R). apply (held_from_in _ 0 a). }
  assert (Y : forall a, (nth_error (gc_anchors c) a = Some (KInsert, Held) ->
      forall b, nth_error (gc_anchors c) b = Some (KInsert, Held) -> b <= a) ->
      each_call newest_first nc (if holdsb c a then [OpRelease a : op T] else [])).
  { intros a Q. destruct (holdsb c a); simpl; auto. split; auto. intros I k Ik. apply Q; apply X; auto. }
  destruct o; cbn [gnewest_first meaning] in C |- *; try (simpl; tauto);
    try (destruct (inside _ v _); simpl; tauto); auto.
  - destruct p; simpl; tauto.
  - destruct s; simpl; tauto.
  - destruct (holdsb c a); simpl; tauto.
Qed.

Lemma gsafe fuel p w h st next ops : forall pre us c g e,
  rel c g (client_after pre) -> run fuel (model_init p w h st next) pre = Ok (gw_model g, us) ->
  careful_history pre -> lifo_history pre ->
  geach gcareful c ops -> geach gnewest_first c ops ->
  gw_run fuel g ops = Err e ->
  exists pre', careful_history pre' /\ lifo_history pre' /\ run fuel (model_init p w h st next) pre' = Err e.
Proof.
  induction ops as [|o t IH]; intros pre us c g e R E Cp Lp C L X; [discriminate|].
  simpl in X, C, L. destruct C as [C Ct], L as [L Lt].
  destruct (calls_ok _ _ _ _ R C) as (calls & EC). pose proof (calls_meaning _ _ _ _ _ R EC) as EM.
  assert (Cn : careful_history (pre ++ calls)).
  { unfold careful_history. rewrite each_call_app. split; auto. subst calls. eapply careful_meaning; eauto. }
  assert (Ln : lifo_history (pre ++ calls)).
  { unfold lifo_history. rewrite each_call_app. split; auto. subst calls. eapply newest_meaning; eauto. }
  assert (D : gw_do fuel g o = bind (run fuel (gw_model g) calls) (fun r => Ok (gw_update g o (fst r) (snd r), (calls, snd r)))).
  { unfold gw_do. rewrite EC. auto. }
  destruct (run fuel (gw_model g) calls) as [[m1 us1]|e1] eqn:E1.
  - simpl in D. rewrite D in X. cbn [bind fst snd] in X.
    destruct (rel_step _ _ _ _ _ _ _ _ R D) as (S1 & _ & _ & S4).
    assert (run fuel (model_init p w h st next) (pre ++ calls) = Ok (gw_model (gw_update g o m1 us1), us ++ us1)).
    { rewrite (run_app _ _ _ _ _ _ E), S1. auto. }
    destruct (gw_run fuel (gw_update g o m1 us1) t) as [r|e2] eqn:E2; [discriminate|]. simpl in X. injection X as ->.
    eapply (IH (pre ++ calls)); eauto. unfold client_after. rewrite fold_left_app. exact S4.
  - simpl in D. rewrite D in X. injection X as ->. exists (pre ++ calls). split; auto. split; auto.
    rewrite (run_app _ _ _ _ _ _ E), E1. auto.
Qed.

(** A careful client gets from the objects what the native calls give. *)
Lemma run_cat fuel ops1 : forall m ops2 r, run fuel m (ops1 ++ ops2) = Ok r ->
  exists m1 us1 us2, run fuel m ops1 = Ok (m1, us1) /\ run fuel m1 ops2 = Ok (fst r, us2) /\ snd r = us1 ++ us2.
Proof.
  induction ops1 as [|o t IH]; intros m ops2 [m' us] E; simpl in E.
  - exists m, [], us. auto.
  - inv_ok. destruct a as [m1 u1], a0 as [m2 u2]. simpl in *.
    destruct (IH _ _ _ Ha0) as (m3 & us3 & us4 & E1 & E2 & E3). simpl in *.
    exists m3. eexists _, us4. rewrite Ha. simpl. rewrite E1. simpl. split; [reflexivity|]. split; [auto|]. rewrite E3. auto.
Qed.

Lemma gw_complete fuel ops : forall c g nc m' us,
  rel c g nc -> geach gcareful c ops ->
  run fuel (gw_model g) (meanings c (mset (gw_model g)) ops) = Ok (m', us) ->
  exists g', gw_run fuel g ops = Ok (g', (meanings c (mset (gw_model g)) ops, us)) /\ gw_model g' = m'.
Proof.
  induction ops as [|o t IH]; intros c g nc m' us R C E; simpl in E, C |- *.
  - inversion E; subst. eauto.
  - destruct C as [C Ct]. destruct (calls_ok _ _ _ _ R C) as (calls & EC).
    pose proof (calls_meaning _ _ _ _ _ R EC) as EM.
    destruct (run_cat _ _ _ _ _ E) as (m1 & us1 & us2 & E1 & E2 & E3). simpl in E2, E3.
    assert (D : gw_do fuel g o = Ok (gw_update g o m1 us1, (meaning c (mset (gw_model g)) o, us1))).
    { unfold gw_do. rewrite EC. simpl. rewrite EM, E1. auto. }
    destruct (rel_step _ _ _ _ _ _ _ _ R D) as (S1 & _ & S3 & S4).
    assert (M : gw_model (gw_update g o m1 us1) = m1) by congruence.
    rewrite <- S3 in E2. remember (gw_update g o m1 us1) as g1 eqn:Eg. clear Eg. subst m1. destruct (IH _ _ _ _ _ S4 Ct E2) as (g' & G1 & G2).
    exists g'. rewrite D. simpl. rewrite G1. simpl. rewrite S3, E3. auto.
Qed.

(** Anchor objects that outlive the model object. *)
Lemma holds_handle c g nc a : rel c g nc -> holds c a -> exists hd, lookup_handle (mhandles (gw_model g)) a = Some hd.
Proof.
  intros R (k & X). apply (held_from_in _ 0 a) in X. rewrite <- (rel_live _ _ _ R) in X.
  destruct (rel_agrees _ _ _ R) as (A & _). rewrite A in X. apply in_map_iff in X.
  destruct X as ([n hd] & V & I). unfold view in V. simpl in V. injection V as <- _.
  clear A. induction (mhandles (gw_model g)) as [|[b hb] t IH]; [destruct I|]. simpl.
  destruct (Nat.eqb_spec b n); eauto. destruct I as [I|I]; [congruence|auto].
Qed.

Lemma outlived fuel c g nc a o : rel c g nc -> gc_gone c = true -> holds c a ->
  (exists d, o = GAnchorMove a d) \/ o = GAnchorRelease a \/ o = GAnchorFinalize a ->
  gw_do fuel g o = Err UseAfterFree.
Proof.
  intros R G A O. pose proof (rel_alive _ _ _ R) as L. rewrite G in L.
  destruct (malive (gw_model g)) eqn:Em; [discriminate|].
  destruct (holds_handle _ _ _ _ R A) as (hd & Eh). destruct A as (k & A).
  pose proof (rel_refs _ _ _ R a) as Y. rewrite A in Y. simpl in Y. unfold gref_of in Y. simpl in Y.
  unfold gw_do. destruct O as [(d & ->)|[-> | ->]]; cbn [gw_calls]; rewrite Y; cbn [release_calls bind run step_op];
    unfold step_op; cbn [needs_model andb]; unfold move_anchor, release_anchor; rewrite Eh, Em; reflexivity.
Qed.

Lemma gone_use fuel c g nc o : rel c g nc -> gc_gone c = true ->
  (match o with GAnchorMove _ _ | GAnchorRelease _ | GAnchorFinalize _ => False
   | GPropPosition q | GPropSize q => q <> None | _ => True end) ->
  gw_do fuel g o = Err UseAfterFree.
Proof.
  intros R G O. pose proof (rel_alive _ _ _ R) as L. rewrite G in L.
  destruct (malive (gw_model g)) eqn:Em; [discriminate|].
  unfold gw_do. destruct o; cbn [gw_calls]; try contradiction; rewrite ?Em; auto.
  - destruct p; [auto|congruence].
  - destruct s; [auto|congruence].
Qed.

Lemma set_ok fuel g v o : malive (gw_model g) = true -> o = GSetK v \/ o = GSetFriction v \/ o = GSetRange v ->
  exists g' r, gw_do fuel g o = Ok (g', r) /\ malive (gw_model g') = true.
Proof.
  intros A O. unfold gw_do. destruct O as [-> |[-> | ->]]; cbn [gw_calls]; rewrite A; cbn [bind run]; unfold step_op;
    cbn [needs_model andb bind run fst snd gw_update]; (eexists _, _; split; [reflexivity|exact A]).
Qed.
End Simulation.
