(** * The searches for a nearest point and a nearest spring, in any ordered
      arithmetic *)

From Coq Require Import ZArith Reals Bool List Lia Lra.
From Flocq Require Import Core.
From Verif Require Import Num Geometry Outcome Wobbly Spec LemBasic LemReal LemInv LemSprings LemHistory LemNetwork LemLifo LemAnchors LemMoves LemForce LemRest LemSettle LemSafe LemStill LemAnchorFacts.
Import ListNotations.
Local Open Scope R_scope.
Local Arguments vdist : simpl never.

Section Search.
Context {T : Type} `{Num T}.

(** [val] is the number an element of [T] stands for, [fin] says which elements
    are numbers. *)
Context (val : T -> R) (fin : T -> Prop)
  (Hlt : forall x y, fin x -> fin y -> nltb x y = Rlt_bool (val x) (val y))
  (Heq : forall x y, fin x -> fin y -> neqb x y = Req_bool (val x) (val y))
  (Hmax : fin nmax).

Lemma closest_from_any pts p : (forall r, In r pts -> fin (vdist p r)) -> forall i best d j,
  fin d -> closest_from pts p i best d = Some j ->
  (best = Some j /\ forall k r, nth_error pts k = Some r -> val d <= val (vdist p r)) \/
  ((i <= j)%nat /\ exists q, nth_error pts (j - i) = Some q /\ val (vdist p q) < val d /\
     forall k r, nth_error pts k = Some r ->
       val (vdist p q) < val (vdist p r) \/ (val (vdist p q) = val (vdist p r) /\ (j <= i + k)%nat)).
Proof using Hlt.
  induction pts as [|a pts IH]; intros Hf i best d j Fd E; simpl in E.
  - left. split; auto. intros [|k] r; discriminate.
  - assert (Fa : fin (vdist p a)) by (apply Hf; left; auto).
    assert (IH' := IH (fun r X => Hf r (or_intror X))). clear IH.
    rewrite Hlt in E by auto. destruct (Rlt_bool_spec (val (vdist p a)) (val d)) as [L|L].
    + apply IH' in E; auto. right. destruct E as [[E1 E2]|(E1 & q & E2 & E3 & E4)].
      * inversion E1; subst. split; auto. exists a. rewrite Nat.sub_diag. split; auto. split; auto.
        intros [|k] r X; simpl in X.
        -- inversion X; subst. right. split; auto. lia.
        -- apply E2 in X. destruct (Rle_lt_or_eq_dec _ _ X); [left; auto|right; split; auto; lia].
      * split; [lia|]. exists q. replace (j - i)%nat with (S (j - S i)) by lia. split; auto.
        split; [lra|]. intros [|k] r X; simpl in X.
        -- inversion X; subst. left; lra.
        -- destruct (E4 _ _ X) as [?|[? ?]]; [left; auto|right; split; auto; lia].
    + apply IH' in E; auto. destruct E as [[E1 E2]|(E1 & q & E2 & E3 & E4)].
      * left. split; auto. intros [|k] r X; simpl in X; [inversion X; subst; auto|eauto].
      * right. split; [lia|]. exists q. replace (j - i)%nat with (S (j - S i)) by lia. split; auto.
        split; auto. intros [|k] r X; simpl in X.
        -- inversion X; subst. left; lra.
        -- destruct (E4 _ _ X) as [?|[? ?]]; [left; auto|right; split; auto; lia].
Qed.

Lemma closest_from_none_any pts p : (forall r, In r pts -> fin (vdist p r)) -> forall i d,
  fin d -> closest_from pts p i None d = None -> forall k r, nth_error pts k = Some r -> val d <= val (vdist p r).
Proof using Hlt.
  assert (S : forall pts i d j, closest_from (T:=T) pts p i (Some j) d <> None).
  { induction pts0; intros; simpl; [discriminate|].
    match goal with |- context [if ?b then _ else _] => destruct b end; auto. }
  induction pts as [|a pts IH]; intros Hf i d Fd E [|k] r X; simpl in *; try discriminate.
  - inversion X; subst. rewrite Hlt in E by auto. destruct (Rlt_bool_spec (val (vdist p r)) (val d)); [exfalso; eapply S; eauto|lra].
  - rewrite Hlt in E by auto. destruct (Rlt_bool_spec (val (vdist p a)) (val d)); [exfalso; eapply S; eauto|].
    eapply IH; eauto.
Qed.

Definition spring_key_any (mm : mem T) (p : vec T) (s : spring T) (k : T * T) : Prop :=
  exists pa pb, rd_pos mm (s_pa s) = Ok pa /\ rd_pos mm (s_pb s) = Ok pb /\ k = (vdist pa p, vdist pb p).

Definition vals (k : T * T) : R * R := (val (fst k), val (snd k)).
Definition good (k : T * T) : Prop := fin (fst k) /\ fin (snd k) /\ val (fst k) < val nmax /\ val (snd k) < val nmax.

Definition scan_any (mm : mem T) (p : vec T) (ss : list (spring T)) (acc : option nat * T * T) : Prop :=
  let '(found, prim, sec) := acc in
  fin prim /\ fin sec /\
  match found with
  | None => prim = nmax /\ ss = []
  | Some i => exists s, nth_error ss i = Some s /\ (exists k, spring_key_any mm p s k /\ vals k = (val prim, val sec)) /\
        forall j r k, nth_error ss j = Some r -> spring_key_any mm p r k ->
          key_less (val prim, val sec) (vals k) \/ ((val prim, val sec) = vals k /\ (i <= j)%nat)
  end.

Lemma find_one_any mm p ss s acc acc' k :
  spring_key_any mm p s k -> good k ->
  scan_any mm p ss acc -> find_one mm p (length ss) s acc = Ok acc' -> scan_any mm p (ss ++ [s]) acc'.
Proof using Hlt Heq Hmax.
  intros (pa & pb & Ea & Eb & ->) (Fa & Fb & Ka & Kb) S E. destruct acc as [[found prim] sec]. cbn [fst snd] in *.
  assert (KS : spring_key_any mm p s (vdist pa p, vdist pb p)) by (exists pa, pb; auto).
  assert (KU : forall k, spring_key_any mm p s k -> k = (vdist pa p, vdist pb p)).
  { intros k (qa & qb & X & Y & ->). congruence. }
  assert (NS : nth_error (ss ++ [s]) (length ss) = Some s) by (rewrite nth_error_app2, Nat.sub_diag; auto).
  assert (NL : forall i r, nth_error ss i = Some r -> (i < length ss)%nat).
  { intros i r X. apply nth_error_Some. congruence. }
  destruct S as (Fp & Fs & S).
  unfold find_one in E. rewrite Ea in E. cbn [bind] in E. rewrite Hlt in E by auto.
  destruct (Rlt_bool_spec (val (vdist pa p)) (val prim)) as [L|L].
  - rewrite Heq, Req_bool_true in E by auto.
    rewrite Eb in E. cbn [bind] in E. rewrite Hlt in E by auto.
    destruct (Rlt_bool_spec (val (vdist pb p)) (val nmax)) as [L2|L2]; [|lra]. inv_ok.
    split; [auto|]. split; [auto|]. exists s. split; auto. split; [eexists; split; [exact KS|reflexivity]|]. intros j r k Hj Hk. apply nth_error_snoc in Hj.
    destruct Hj as [Hj|[-> ->]].
    + left. left. cbn [fst vals]. destruct found as [i|].
      * destruct S as (s0 & S1 & S2 & S3). specialize (S3 _ _ _ Hj Hk).
        destruct S3 as [[X|[X _]]|[X _]]; cbn [fst snd vals] in *; [lra|lra|]. injection X as X1 X2. lra.
      * destruct S as [_ ->]. destruct j; discriminate.
    + right. rewrite (KU _ Hk). auto.
  - destruct found as [i|].
    2:{ destruct S as [-> ->]. exfalso. lra. }
    destruct S as (s0 & S1 & S2 & S3). pose proof (NL _ _ S1) as Hi.
    rewrite Heq in E by auto. destruct (Req_bool_spec (val (vdist pa p)) (val prim)) as [Q|Q].
    + rewrite Eb in E. cbn [bind] in E. rewrite Hlt in E by auto. destruct (Rlt_bool_spec (val (vdist pb p)) (val sec)) as [L2|L2]; inv_ok.
      * split; [auto|]. split; [auto|]. exists s. split; auto. split; [eexists; split; [exact KS|unfold vals; cbn [fst snd]; congruence]|]. intros j r k Hj Hk. apply nth_error_snoc in Hj.
        destruct Hj as [Hj|[-> ->]].
        -- left. specialize (S3 _ _ _ Hj Hk). destruct S3 as [[X|[X Y]]|[X _]].
           ++ left; auto.
           ++ right. cbn [fst snd] in *. split; auto; lra.
           ++ injection X as X1 X2. right. unfold vals. cbn [fst snd]. split; lra.
        -- right. rewrite (KU _ Hk). unfold vals. cbn [fst snd]. split; auto. congruence.
      * split; [auto|]. split; [auto|]. exists s0. split; [rewrite nth_error_app1; auto|]. split; auto.
        intros j r k Hj Hk. apply nth_error_snoc in Hj. destruct Hj as [Hj|[-> ->]]; eauto.
        rewrite (KU _ Hk). unfold vals. cbn [fst snd]. destruct (Rle_lt_or_eq_dec (val sec) (val (vdist pb p))); [lra| |].
        -- left. right. cbn [fst snd]. auto.
        -- right. split; [congruence|lia].
    + inv_ok. split; [auto|]. split; [auto|]. exists s0. split; [rewrite nth_error_app1; auto|]. split; auto.
      intros j r k Hj Hk. apply nth_error_snoc in Hj. destruct Hj as [Hj|[-> ->]]; eauto.
      rewrite (KU _ Hk). left. left. unfold vals. cbn [fst snd]. lra.
Qed.

Lemma find_from_any mm p : forall ss pre acc acc',
  (forall s, In s ss -> exists k, spring_key_any mm p s k /\ good k) ->
  scan_any mm p pre acc -> find_from mm p (length pre) ss acc = Ok acc' -> scan_any mm p (pre ++ ss) acc'.
Proof using Hlt Heq Hmax.
  induction ss as [|s ss IH]; intros pre acc acc' K S E; simpl in E; inv_ok.
  - rewrite app_nil_r. auto.
  - destruct (K s (or_introl eq_refl)) as (k & K1 & K2).
    pose proof (find_one_any _ _ _ _ _ _ _ K1 K2 S Ha) as S'.
    replace (pre ++ s :: ss) with ((pre ++ [s]) ++ ss) by (rewrite <- app_assoc; auto).
    eapply IH; eauto.
    + intros s' Hs'. apply K. right; auto.
    + rewrite app_length. simpl. replace (length pre + 1)%nat with (Datatypes.S (length pre)) by lia. auto.
Qed.

Lemma find_spring_any mm p ss i :
  (forall s, In s ss -> exists k, spring_key_any mm p s k /\ good k) ->
  find_spring mm p ss = Ok i ->
  exists s k, nth_error ss i = Some s /\ spring_key_any mm p s k /\
    forall j r k', nth_error ss j = Some r -> spring_key_any mm p r k' ->
      key_less (vals k) (vals k') \/ (vals k = vals k' /\ (i <= j)%nat).
Proof using Hlt Heq Hmax.
  intros K E. unfold find_spring in E. inv_ok. destruct a as [[found prim] sec]. simpl in E. subst.
  eapply (find_from_any mm p ss []) in Ha; auto.
  - destruct Ha as (_ & _ & s & S1 & (k & S2 & S2') & S3). exists s, k. rewrite S2'. auto.
  - split; auto.
Qed.
End Search.

(** What insertion does, apart from which spring it takes. *)
Section Shape.
Context {T : Type} `{Num T}.

Lemma index_of_position_any (pts : list (vec T)) p : forall i j,
  index_of_position pts p i = Some j -> exists k r, j = (i + k)%nat /\ nth_error pts k = Some r /\ vequals p r = true.
Proof.
  induction pts as [|a pts IH]; intros i j E; cbn [index_of_position] in E; [discriminate|].
  destruct (vequals p a) eqn:Q.
  - injection E as <-. exists 0%nat, a. split; auto.
  - apply IH in E. destruct E as (k & r & -> & Hk). exists (S k), r. split; auto. lia.
Qed.

Lemma activate_place_any fuel (m m1 : model T) :
  activate fuel (set_unequal m true) = Ok m1 ->
  mpos m1 = mpos m /\ mheap m1 = mheap m /\ msprings m1 = msprings m /\ mnext_handle m1 = mnext_handle m /\
  mhandles m1 = mhandles m /\ mcount m1 = (mcount m + 1)%Z.
Proof. intros E. apply activate_shape in E. destruct E as (tg & id & -> & _). repeat split. Qed.

Lemma place_snoc_any (m : model T) x l q : place m l = Some q -> place (set_heap m (mheap m ++ [x])) l = Some q.
Proof.
  destruct l as [i|b]; simpl; auto. intros E.
  assert (L : (b < length (mheap m))%nat).
  { apply nth_error_Some. destruct (nth_error (mheap m) b); congruence. }
  rewrite nth_error_app1; auto.
Qed.

Lemma place_rd_any (m : model T) l p : rd_pos (mem_of m) l = Ok p <-> place m l = Some p.
Proof.
  destruct l as [i|b]; simpl.
  - apply of_option_ok.
  - unfold rd_blk. unfold block in *. destruct (@nth_error (option (vec T * vec T)) (mheap m) b) as [[[q f]|]|]; simpl;
      split; intros E; inversion E; auto.
Qed.

Lemma place_valid_any p w h st ops (m : model T) :
  reached p w h st ops m -> lifo_history ops ->
  forall r, In r (msprings m) -> (exists qa, place m (s_pa r) = Some qa) /\ (exists qb, place m (s_pb r) = Some qb).
Proof.
  intros Hr Lf r Hin. pose proof (inv_reached _ _ _ _ _ _ Hr) as I. destruct (net_reached _ _ _ _ _ _ Hr) as (next & N).
  pose proof (rinv_reached _ _ _ _ _ _ Hr Lf) as RI.
  pose proof (rinv_valid m (net_h _ _ N) RI) as V.
  pose proof (proj1 (Forall_forall _ _) V r Hin) as (_ & _ & Va & Vb).
  assert (P : forall l, loc_valid (mheap m) l -> exists q, place m l = Some q).
  { intros [i|b] X; simpl in *.
    - destruct (nth_error (mpos m) i) eqn:E; [eauto|]. apply nth_error_None in E. rewrite (inv_pos _ I) in E. lia.
    - unfold heap_live in X. rewrite nth_error_map in X. unfold block in *.
      destruct (@nth_error (option (vec T * vec T)) (mheap m) b) as [[[q f]|]|]; simpl in X; try discriminate; eauto. }
  split; apply P; auto.
Qed.

Lemma insert_shape p w h st ops (m m' : model T) q fuel n :
  reached p w h st ops m -> lifo_history ops ->
  step_op fuel m (OpInsert q) = Ok (m', OHandle n) ->
  exists idx s pa pb s1 s2 blk,
    find_spring (mem_of m) q (msprings m) = Ok idx /\
    nth_error (msprings m) idx = Some s /\ place m (s_pa s) = Some pa /\ place m (s_pb s) = Some pb /\
    msprings m' = list_del idx (msprings m) ++ [s1; s2] /\
    s_pa s1 = LBlk blk /\ s_pb s1 = s_pa s /\ s_fa s1 = LBlk blk /\ s_fb s1 = s_fa s /\
    s_pa s2 = LBlk blk /\ s_pb s2 = s_pb s /\ s_fa s2 = LBlk blk /\ s_fb s2 = s_fb s /\
    place m (LBlk blk) = None /\ place m' (LBlk blk) = Some q /\ anchor_point m' n = Some q /\
    mpos m' = mpos m /\ mvel m' = mvel m /\
    (live_anchors ops <> [] -> s_len s1 = vsub pa q /\ s_len s2 = vsub pb q) /\
    (live_anchors ops = [] -> exists i j ra rb ta tb,
       nth_error (mpos m) i = Some ra /\ vequals pa ra = true /\ nth_error (mtargets m') i = Some ta /\ s_len s1 = vsub ta q /\
       nth_error (mpos m) j = Some rb /\ vequals pb rb = true /\ nth_error (mtargets m') j = Some tb /\ s_len s2 = vsub tb q).
Proof.
  intros Hr Lf E.
  pose proof (inv_reached _ _ _ _ _ _ Hr) as I.
  pose proof (place_valid_any _ _ _ _ _ _ Hr Lf) as V.
  pose proof (reached_live _ _ _ _ _ _ Hr) as HL.
  pose proof (inv_count _ I) as HC.
  unfold step_op in E. destruct (needs_model (OpInsert q) && negb (malive m))%bool; [discriminate|].
  inv_ok. destruct a as [m2 n2]. unfold insert_anchor in *. inv_ok.
  match goal with X : install_anchor _ _ = Ok ?r |- _ => destruct r as [m3 hd]; apply install_anchor_shape in X;
    destruct X as (idx & s & da & db & Hf & Hs & -> & (pa & Ha & Hda) & (pb & Hb & Hdb) & ->) end.
  match goal with X : activate _ _ = Ok ?x |- _ => rename x into m1; pose proof (activate_place_any _ _ _ X) as (E1 & E2 & E3 & E4 & E5 & E6);
    apply activate_shape in X; destruct X as (tg & id & EX & HT) end.
  cbn [fst snd] in *.
  assert (PL : forall l, place m1 l = place m l).
  { intros l. unfold place. rewrite E1, E2. auto. }
  assert (Hsm : nth_error (msprings m) idx = Some s) by congruence.
  destruct (V s (nth_error_In _ _ Hsm)) as ((qa & Vpa) & (qb & Vpb)).
  assert (A1 : place m (s_pa s) = Some pa).
  { apply place_rd_any in Ha. erewrite place_snoc_any in Ha; [|rewrite PL; exact Vpa]. congruence. }
  assert (B1 : place m (s_pb s) = Some pb).
  { apply place_rd_any in Hb. erewrite place_snoc_any in Hb; [|rewrite PL; exact Vpb]. congruence. }
  assert (HN : length (mheap m1) = length (mheap m)) by congruence.
  exists idx, s, pa, pb. eexists. eexists. exists (length (mheap m1)).
  split. { rewrite <- Hf. unfold mem_of. rewrite E1, E2, E3. reflexivity. }
  split; [auto|]. split; [auto|]. split; [auto|].
  cbn [set_handles add_handle set_inserted set_next_id set_springs set_heap msprings mpos mvel mtargets].
  split; [rewrite E3; reflexivity|].
  do 8 (split; [reflexivity|]).
  split. { unfold place. rewrite (proj2 (nth_error_None (mheap m) (length (mheap m1)))); auto. lia. }
  split. { unfold place. cbn [add_handle set_handles set_inserted set_next_id set_springs set_heap mheap].
           rewrite nth_error_app2, Nat.sub_diag; auto. }
  split. { unfold anchor_point. cbn [add_handle set_handles set_inserted set_next_id set_springs set_heap mheap mhandles mnext_handle].
           rewrite E5, E4. rewrite lookup_app.
           destruct (lookup_handle (mhandles m) (mnext_handle m)) eqn:LH.
           { exfalso. apply lookup_handle_in in LH. apply (in_map fst) in LH. apply (inv_next _ I) in LH. simpl in LH. lia. }
           cbn [lookup_handle]. rewrite Nat.eqb_refl. rewrite nth_error_app2, Nat.sub_diag; auto. }
  split; [auto|]. split; [subst m1; auto|].
  assert (AC : active m1 = (Nat.eqb (length (live_anchors ops)) 0)).
  { unfold active. rewrite E6, HC, HL, map_length. destruct (length (mhandles m)) as [|k0]; [reflexivity|].
    cbn [Nat.eqb]. apply Z.eqb_neq. lia. }
  split.
  - intros Hne. assert (AF : active m1 = false).
    { rewrite AC. destruct (live_anchors ops); [congruence|reflexivity]. }
    unfold desired_position, active in *. cbn [set_heap mcount] in *. rewrite AF in Hda, Hdb. inv_ok. auto.
  - intros He. assert (AF : active m1 = true) by (rewrite AC, He; auto).
    unfold desired_position, active in Hda, Hdb, AF. cbn [set_heap mcount mpos mtargets] in *. rewrite AF in Hda, Hdb. inv_ok.
    rewrite E1 in *.
    repeat match goal with X : of_option _ _ = Ok _ |- _ => apply of_option_ok in X end.
    repeat match goal with X : index_of_position _ _ 0 = Some _ |- _ => apply index_of_position_any in X; destruct X as (? & ? & -> & ? & ?) end.
    cbn [Nat.add] in *.
    match goal with A : vequals pa ?ra = true, B : nth_error (mpos m) ?i = Some ?ra, C : vequals pb ?rb = true, D : nth_error (mpos m) ?j = Some ?rb |- _ =>
      exists i, j, ra, rb, da, db end.
    repeat split; auto.
Qed.
End Shape.
