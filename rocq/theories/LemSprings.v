(** Invariants of the spring network, for any arithmetic. *)

From Coq Require Import ZArith Bool List Lia Permutation.
From Verif Require Import Num Geometry Outcome Wobbly LemBasic LemInv.
Import ListNotations.
Local Open Scope Z_scope.

Section Springs.
Context {T : Type} `{Num T}.
Implicit Types (m : model T) (s : spring T) (hs : list (nat * handle T)).

Definition ids (ss : list (spring T)) : list Z := map s_id ss.

(** Springs taken out by live inserted anchors, and the identifiers of the
    springs these anchors put in. *)
Definition stolen_of (nh : nat * handle T) : list (spring T) :=
  match snd nh with HIns st _ _ _ _ => [st] | HGrab _ => [] end.
Definition own_ids (nh : nat * handle T) : list Z :=
  match snd nh with HIns _ a b _ _ => [a; b] | HGrab _ => [] end.
Definition own_blk (nh : nat * handle T) : list (Z * nat) :=
  match snd nh with HIns _ _ _ b aid => [(aid, b)] | HGrab _ => [] end.
Definition stolens hs : list (spring T) := flat_map stolen_of hs.
Definition live_ids hs : list Z := flat_map own_ids hs.
Definition live_blks hs : list (Z * nat) := flat_map own_blk hs.

Definition handle_ids_ok (h : handle T) : Prop :=
  match h with HGrab _ => True | HIns st a b _ _ => s_id st < a /\ b = a + 1 end.

Record SInv (base : list Z) m : Prop := {
  si_perm : Permutation (ids (msprings m ++ stolens (mhandles m)))
                        (base ++ live_ids (mhandles m) ++ mpending m);
  si_pend : incl (mpending m) (ids (stolens (mhandles m)));
  si_nodup : NoDup (base ++ live_ids (mhandles m) ++ mpending m);
  si_le : forall i, In i (base ++ live_ids (mhandles m) ++ mpending m) -> i <= mnext_id m;
  si_hid : forall n h, In (n, h) (mhandles m) -> handle_ids_ok h }.

Lemma ids_app l l' : ids (l ++ l') = ids l ++ ids l'.
Proof. apply map_app. Qed.
Lemma stolens_app l l' : stolens (l ++ l') = stolens l ++ stolens l'.
Proof. apply flat_map_app. Qed.
Lemma live_ids_app l l' : live_ids (l ++ l') = live_ids l ++ live_ids l'.
Proof. apply flat_map_app. Qed.
Lemma live_blks_app l l' : live_blks (l ++ l') = live_blks l ++ live_blks l'.
Proof. apply flat_map_app. Qed.

(** ** Removing and replacing *)

Lemma filter_ids_length id (ss : list (spring T)) :
  NoDup (ids ss) ->
  (In id (ids ss) /\
   length ss = S (length (filter (fun s => negb (s_id s =? id)) ss)) /\
   Permutation (ids ss) (id :: ids (filter (fun s => negb (s_id s =? id)) ss)))
  \/ (~ In id (ids ss) /\ filter (fun s => negb (s_id s =? id)) ss = ss).
Proof.
  induction ss as [|s ss IH]; simpl; intros ND; [tauto|].
  inversion ND; subst. destruct (Z.eqb_spec (s_id s) id).
  - left. subst. simpl. split; auto. rewrite filter_all; auto.
    intros x Hx. destruct (Z.eqb_spec (s_id x) (s_id s)); auto.
    exfalso. apply H2. rewrite <- e. apply in_map; auto.
  - destruct (IH H3) as [(I & L & P) | (I & F)]; simpl.
    + left. split; auto. split; [lia|]. etransitivity; [apply perm_skip, P|]. apply perm_swap.
    + right. split; [tauto|]. rewrite F; auto.
Qed.

Lemma spring_remover_spec id (ss : list (spring T)) pd :
  NoDup (ids ss) ->
  exists ss' pd', spring_remover id ss pd = Ok (ss', pd') /\
    ((In id (ids ss) /\ Permutation (ids ss) (id :: ids ss') /\ pd' = pd /\
      ss' = filter (fun s => negb (s_id s =? id)) ss)
     \/ (~ In id (ids ss) /\ ss' = ss /\ pd' = pd ++ [id])).
Proof.
  intros ND. unfold spring_remover. destruct (filter_ids_length id ss ND) as [(I & L & P) | (I & F)].
  - rewrite L. replace (S (length _) - length _)%nat with 1%nat by lia. do 2 eexists; split; [reflexivity|].
    left; auto.
  - rewrite F, Nat.sub_diag. do 2 eexists; split; [reflexivity|]. right; auto.
Qed.

Lemma filter_Z_length id (l : list Z) :
  NoDup l ->
  (In id l /\ length l = S (length (filter (fun i => negb (id =? i)) l)) /\
   Permutation l (id :: filter (fun i => negb (id =? i)) l))
  \/ (~ In id l /\ filter (fun i => negb (id =? i)) l = l).
Proof.
  induction l as [|s ss IH]; simpl; intros ND; [tauto|].
  inversion ND; subst. destruct (Z.eqb_spec id s).
  - left. subst. simpl. split; auto. rewrite filter_all; auto.
    intros x Hx. destruct (Z.eqb_spec s x); auto. subst; tauto.
  - destruct (IH H3) as [(I & L & P) | (I & F)]; simpl.
    + left. split; auto. split; [lia|]. etransitivity; [apply perm_skip, P|]. apply perm_swap.
    + right. split; [intros [?|?]; subst; tauto|]. rewrite F; auto.
Qed.

Lemma spring_replacer_spec s (ss : list (spring T)) pd :
  NoDup pd ->
  exists ss' pd', spring_replacer s ss pd = Ok (ss', pd') /\
    ((In (s_id s) pd /\ Permutation pd (s_id s :: pd') /\ ss' = ss)
     \/ (~ In (s_id s) pd /\ ss' = ss ++ [s] /\ pd' = pd)).
Proof.
  intros ND. unfold spring_replacer. destruct (filter_Z_length (s_id s) pd ND) as [(I & L & P) | (I & F)].
  - rewrite L. replace (S (length _) - length _)%nat with 1%nat by lia. do 2 eexists; split; [reflexivity|].
    left; auto.
  - rewrite F, Nat.sub_diag. do 2 eexists; split; [reflexivity|]. right; auto.
Qed.

(** ** The base network *)

Lemma number_springs_ids (l : list (nat * nat * vec T)) next :
  ids (number_springs l next) = map (fun k => next + 1 + Z.of_nat k) (seq 0 (length l)).
Proof.
  revert next; induction l as [|[[a b] len] l IH]; intros next; simpl; auto.
  f_equal; [lia|]. rewrite IH. rewrite <- seq_shift, map_map. apply map_ext. intros; lia.
Qed.

Lemma base_specs_length (tile : vec T) : length (base_spring_specs tile) = 24%nat.
Proof. reflexivity. Qed.

Definition base_ids (next : Z) : list Z := map (fun k => next + 1 + Z.of_nat k) (seq 0 24).

Lemma base_springs_ids (tile : vec T) next : ids (base_springs tile next) = base_ids next.
Proof. unfold base_springs. rewrite number_springs_ids, base_specs_length. reflexivity. Qed.

Lemma base_ids_nodup next : NoDup (base_ids next).
Proof.
  unfold base_ids. apply FinFun.Injective_map_NoDup; [|apply seq_NoDup].
  intros a b E. lia.
Qed.

Lemma base_ids_le next i : In i (base_ids next) -> next < i <= next + base_spring_count.
Proof.
  unfold base_ids. rewrite in_map_iff. intros (k & <- & Hk). apply in_seq in Hk.
  unfold base_spring_count. lia.
Qed.

Lemma sinv_init p w h st next : SInv (base_ids next) (model_init p w h st next).
Proof.
  constructor; cbn [model_init msprings mpending mhandles mnext_id stolens live_ids flat_map app].
  - rewrite !app_nil_r. rewrite base_springs_ids. auto.
  - intros x [].
  - rewrite app_nil_r. apply base_ids_nodup.
  - rewrite app_nil_r. intros i Hi. apply base_ids_le in Hi. lia.
  - intros n hd [].
Qed.

(** The invariant only looks at these fields. *)
Lemma sinv_ext base m m' :
  SInv base m -> ids (msprings m') = ids (msprings m) -> mpending m' = mpending m ->
  mhandles m' = mhandles m -> mnext_id m <= mnext_id m' -> SInv base m'.
Proof.
  intros [P1 P2 P3 P4 P5] E1 E2 E3 E4. constructor; rewrite ?E2, ?E3; auto.
  - rewrite ids_app, E1, <- ids_app. auto.
  - intros i Hi. apply P4 in Hi. lia.
Qed.

Lemma sinv_grab base m n i :
  SInv base m -> ~ In n (map fst (mhandles m)) ->
  forall m', msprings m' = msprings m -> mpending m' = mpending m -> mnext_id m <= mnext_id m' ->
    mhandles m' = mhandles m ++ [(n, HGrab i)] -> SInv base m'.
Proof.
  intros [P1 P2 P3 P4 P5] _ m' E1 E2 E3 E4. constructor;
    rewrite ?E1, ?E2, ?E4, ?stolens_app, ?live_ids_app; simpl; rewrite ?app_nil_r; auto.
  - intros j Hj. apply P4 in Hj. lia.
  - intros k h. rewrite in_app_iff. simpl. intros [?|[E|[]]]; eauto. inversion E; subst; simpl; auto.
Qed.

Lemma nodup_perm_l base m : SInv base m -> NoDup (ids (msprings m ++ stolens (mhandles m))).
Proof. intros [P1 _ P3 _ _]. eapply Permutation_NoDup; [symmetry; exact P1|]. auto. Qed.

Lemma nodup_springs base m : SInv base m -> NoDup (ids (msprings m)).
Proof. intros S. apply nodup_perm_l in S. rewrite ids_app in S. apply NoDup_app_remove_r in S. auto. Qed.

Lemma sinv_install base m idx found n id1 id2 b aid s1 s2 m' :
  SInv base m -> nth_error (msprings m) idx = Some found ->
  id1 = mnext_id m + 1 -> id2 = id1 + 1 -> s_id s1 = id1 -> s_id s2 = id2 ->
  msprings m' = list_del idx (msprings m) ++ [s1; s2] -> mpending m' = mpending m ->
  mnext_id m' = id2 -> mhandles m' = mhandles m ++ [(n, HIns found id1 id2 b aid)] ->
  SInv base m'.
Proof.
  intros [P1 P2 P3 P4 P5] Hn I1 I2 S1 S2 E1 E2 E3 E4.
  pose proof (list_del_perm _ _ _ Hn) as PD. apply (Permutation_map s_id) in PD. simpl in PD.
  assert (PR : Permutation (base ++ (live_ids (mhandles m) ++ [id1; id2]) ++ mpending m)
                           (id1 :: id2 :: base ++ live_ids (mhandles m) ++ mpending m)).
  { rewrite <- app_assoc. simpl. rewrite !app_assoc.
    etransitivity; [symmetry; apply Permutation_middle|]. apply perm_skip.
    etransitivity; [symmetry; apply Permutation_middle|]. auto. }
  constructor; rewrite ?E1, ?E2, ?E3, ?E4, ?stolens_app, ?live_ids_app; simpl.
  - etransitivity; [|symmetry; exact PR].
    etransitivity; [|do 2 apply perm_skip; exact P1].
    rewrite !ids_app. simpl. unfold ids in *. rewrite S1, S2.
    rewrite <- !app_assoc. simpl.
    etransitivity; [symmetry; apply Permutation_middle|]. apply perm_skip.
    etransitivity; [symmetry; apply Permutation_middle|]. apply perm_skip.
    rewrite app_assoc. etransitivity; [symmetry; apply Permutation_cons_append|].
    rewrite app_comm_cons. apply Permutation_app_tail. symmetry. auto.
  - intros x Hx. rewrite ids_app. apply in_or_app. auto.
  - eapply Permutation_NoDup; [symmetry; exact PR|].
    constructor; [|constructor; auto].
    + intros [E|Hin]; [lia|]. apply P4 in Hin. lia.
    + intros Hin. apply P4 in Hin. lia.
  - intros i Hi. eapply Permutation_in in Hi; [|exact PR]. destruct Hi as [?|[?|Hi]]; try lia.
    apply P4 in Hi. lia.
  - intros k h. rewrite in_app_iff. simpl. intros [?|[E|[]]]; eauto. inversion E; subst; simpl.
    split; auto.
    assert (Hf : In (s_id found) (base ++ live_ids (mhandles m) ++ mpending m)).
    { eapply Permutation_in; [exact P1|]. rewrite ids_app. apply in_or_app. left.
      apply in_map. eapply nth_error_In; eauto. }
    apply P4 in Hf. lia.
Qed.

Lemma Permutation_app_swap_mid {A} (a b c : list A) : Permutation (a ++ b ++ c) (b ++ a ++ c).
Proof. rewrite !app_assoc. apply Permutation_app_tail, Permutation_app_comm. Qed.

(** Releasing an inserted anchor: the four updates always succeed, and the
    invariant is preserved. *)
Lemma sinv_release_ins base m l1 l2 n stolen id1 id2 b aid :
  SInv base m -> mhandles m = l1 ++ (n, HIns stolen id1 id2 b aid) :: l2 ->
  exists r2 r1 r0,
    spring_remover id2 (msprings m) (mpending m) = Ok r2 /\
    spring_remover id1 (fst r2) (snd r2) = Ok r1 /\
    spring_replacer stolen (fst r1) (snd r1) = Ok r0 /\
    (forall s, In s (fst r0) -> (In s (msprings m) \/ s = stolen) /\ s_id s <> id1 /\ s_id s <> id2) /\
    forall m', msprings m' = fst r0 -> mpending m' = snd r0 -> mnext_id m <= mnext_id m' ->
      mhandles m' = l1 ++ l2 -> SInv base m'.
Proof.
  intros [P1 P2 P3 P4 P5] El.
  assert (HO : s_id stolen < id1 /\ id2 = id1 + 1).
  { apply (P5 n (HIns stolen id1 id2 b aid)). rewrite El. apply in_elt. }
  destruct HO as [HO1 HO2].
  rewrite El in *. rewrite stolens_app, live_ids_app in *. simpl in *.
  set (L := live_ids l1 ++ live_ids l2).
  set (S := stolens l1 ++ stolens l2).
  assert (PL : Permutation (ids (msprings m ++ stolens l1 ++ stolen :: stolens l2))
                           (s_id stolen :: ids (msprings m) ++ ids S)).
  { rewrite app_assoc. etransitivity; [apply Permutation_map; symmetry; apply Permutation_middle|].
    simpl. apply perm_skip. unfold S. rewrite <- app_assoc, ids_app. auto. }
  assert (PR : Permutation (base ++ (live_ids l1 ++ id1 :: id2 :: live_ids l2) ++ mpending m)
                           (id1 :: id2 :: (base ++ L) ++ mpending m)).
  { unfold L. clear. rewrite <- perm_count. intros x. rewrite ?count_occ_app. simpl.
    destruct (Z.eq_dec id1 x), (Z.eq_dec id2 x); rewrite ?count_occ_app; lia. }
  assert (P1' : Permutation (s_id stolen :: ids (msprings m) ++ ids S)
                            (id1 :: id2 :: (base ++ L) ++ mpending m)).
  { etransitivity; [symmetry; exact PL|]. etransitivity; [exact P1|exact PR]. }
  assert (ND : NoDup (id1 :: id2 :: (base ++ L) ++ mpending m)).
  { eapply Permutation_NoDup; [exact PR|exact P3]. }
  assert (NDl : NoDup (s_id stolen :: ids (msprings m) ++ ids S)).
  { eapply Permutation_NoDup; [symmetry; exact P1'|exact ND]. }
  assert (NDs : NoDup (ids (msprings m))).
  { inversion NDl; subst. eapply NoDup_app_remove_r; eauto. }
  assert (HP2 : forall x, In x (mpending m) -> x = s_id stolen \/ In x (ids S)).
  { intros x Hx. apply P2 in Hx. rewrite ids_app in Hx. simpl in Hx. unfold S. rewrite ids_app.
    rewrite in_app_iff in *. simpl in Hx. intuition. }
  assert (HLE : forall x, In x ((base ++ L) ++ mpending m) -> x <= mnext_id m).
  { intros x Hx. apply P4. eapply Permutation_in; [symmetry; exact PR|]. right; right; auto. }
  (* first remover *)
  destruct (spring_remover_spec id2 (msprings m) (mpending m) NDs) as (ss2 & pd2 & R2 & C2).
  (* state after it: Permutation (st :: ss2 ++ S) (id1 :: (base++L) ++ pd2) *)
  assert (Q2 : Permutation (s_id stolen :: ids ss2 ++ ids S) (id1 :: (base ++ L) ++ pd2) /\
               (forall x, In x pd2 -> x = s_id stolen \/ In x (ids S)) /\
               (forall s, In s ss2 -> In s (msprings m) /\ s_id s <> id2) /\
               (forall x, In x ((base ++ L) ++ pd2) -> In x (id2 :: (base ++ L) ++ mpending m)) /\
               (In id1 (ids (msprings m)) -> In id1 (ids ss2))).
  { destruct C2 as [(I & P & -> & ->) | (I & -> & ->)].
    - repeat split; auto.
      + apply (Permutation_cons_inv (a := id2)).
        etransitivity; [|etransitivity; [exact P1'|apply perm_swap]].
        etransitivity; [apply perm_swap|]. apply perm_skip.
        rewrite app_comm_cons. apply Permutation_app_tail. symmetry; auto.
      + apply filter_In in H0. tauto.
      + apply filter_In in H0. destruct H0 as [_ F]. apply negb_true_iff, Z.eqb_neq in F. auto.
      + right; auto.
      + intros Hin. eapply Permutation_in in Hin; [|exact P]. destruct Hin; auto; lia.
    - assert (HS : In id2 (ids S)).
      { assert (In id2 (s_id stolen :: ids (msprings m) ++ ids S)).
        { eapply Permutation_in; [symmetry; exact P1'|]. right; left; auto. }
        destruct H0 as [?|H0]; [lia|]. apply in_app_or in H0. tauto. }
      repeat split; auto.
      + etransitivity; [exact P1'|]. apply perm_skip. rewrite app_assoc.
        apply Permutation_cons_append.
      + intros x. rewrite in_app_iff. simpl. intros [?|[?|[]]]; subst; auto.
      + intros E. apply I. rewrite <- E. apply in_map; auto.
      + intros x. rewrite !in_app_iff. simpl. rewrite !in_app_iff. intuition. }
  destruct Q2 as (Q2 & Q2p & Q2s & Q2i & Q2j).
  assert (ND2 : NoDup (id1 :: (base ++ L) ++ pd2)).
  { destruct C2 as [(I & P & -> & ->) | (I & -> & ->)].
    - inversion ND; subst. inversion H3; subst. constructor; [intros Hin; apply H2; right; auto | auto].
    - eapply Permutation_NoDup; [|exact ND]. apply perm_skip. rewrite app_assoc.
      apply Permutation_cons_append. }
  assert (NDs2 : NoDup (ids ss2)).
  { eapply Permutation_NoDup in ND2; [|symmetry; exact Q2]. inversion ND2; subst.
    eapply NoDup_app_remove_r; eauto. }
  destruct (spring_remover_spec id1 ss2 pd2 NDs2) as (ss1 & pd1 & R1 & C1).
  assert (Q1 : Permutation (s_id stolen :: ids ss1 ++ ids S) ((base ++ L) ++ pd1) /\
               (forall x, In x pd1 -> x = s_id stolen \/ In x (ids S)) /\
               (forall s, In s ss1 -> In s (msprings m) /\ s_id s <> id1 /\ s_id s <> id2) /\
               (forall x, In x ((base ++ L) ++ pd1) -> x <= mnext_id m)).
  { assert (HI2 : id2 <= mnext_id m).
    { apply P4. eapply Permutation_in; [symmetry; exact PR|]. right; left; auto. }
    assert (HB : forall x, In x ((base ++ L) ++ pd2) -> x <= mnext_id m).
    { intros x Hx. apply Q2i in Hx. destruct Hx as [<-|Hx]; auto. }
    destruct C1 as [(I & P & -> & ->) | (I & -> & ->)].
    - repeat split; auto.
      + apply (Permutation_cons_inv (a := id1)).
        etransitivity; [|exact Q2].
        etransitivity; [apply perm_swap|]. apply perm_skip.
        rewrite app_comm_cons. apply Permutation_app_tail. symmetry; auto.
      + apply filter_In in H0. apply Q2s; tauto.
      + apply filter_In in H0. destruct H0 as [_ F]. apply negb_true_iff, Z.eqb_neq in F. auto.
      + apply filter_In in H0. apply Q2s; tauto.
    - assert (HS : In id1 (ids S)).
      { assert (In id1 (s_id stolen :: ids ss2 ++ ids S)).
        { eapply Permutation_in; [symmetry; exact Q2|]. left; auto. }
        destruct H0 as [?|H0]; [lia|]. apply in_app_or in H0. tauto. }
      repeat split; auto.
      + etransitivity; [exact Q2|]. rewrite app_assoc. apply Permutation_cons_append.
      + intros x. rewrite in_app_iff. simpl. intros [?|[?|[]]]; subst; auto.
      + apply Q2s; auto.
      + intros E. apply I. rewrite <- E. apply in_map; auto.
      + apply Q2s; auto.
      + intros x. rewrite app_assoc. rewrite in_app_iff. simpl. intros [?|[?|[]]]; subst; auto. lia. }
  destruct Q1 as (Q1 & Q1p & Q1s & Q1le).
  assert (ND1 : NoDup ((base ++ L) ++ pd1)).
  { destruct C1 as [(I & P & -> & ->) | (I & -> & ->)].
    - inversion ND2; subst. auto.
    - eapply Permutation_NoDup; [|exact ND2]. rewrite app_assoc. apply Permutation_cons_append. }
  assert (NDp : NoDup pd1) by (eapply NoDup_app_remove_l; eauto).
  destruct (spring_replacer_spec stolen ss1 pd1 NDp) as (ss0 & pd0 & R0 & C0).
  exists (ss2, pd2), (ss1, pd1), (ss0, pd0). simpl. split; auto. split; auto. split; auto. split.
  - intros s Hs. destruct C0 as [(I & P & ->) | (I & -> & ->)].
    + apply Q1s in Hs. tauto.
    + apply in_app_or in Hs. destruct Hs as [Hs|[<-|[]]]; [apply Q1s in Hs; tauto|].
      split; auto. lia.
  - intros m' E1 E2 E3 E4.
    assert (NDx : NoDup (s_id stolen :: ids ss1 ++ ids S)).
    { eapply Permutation_NoDup; [symmetry; exact Q1|]. exact ND1. }
    constructor; rewrite ?E1, ?E2, ?E4, ?stolens_app, ?live_ids_app.
    + fold S L. rewrite app_assoc. destruct C0 as [(I & P & ->) | (I & -> & ->)].
      * apply (Permutation_cons_inv (a := s_id stolen)). rewrite ids_app.
        etransitivity; [exact Q1|].
        etransitivity; [apply Permutation_app_head; exact P|].
        symmetry; apply Permutation_middle.
      * rewrite !ids_app. simpl. rewrite <- app_assoc. simpl.
        etransitivity; [symmetry; apply Permutation_middle|]. exact Q1.
    + fold S. destruct C0 as [(I & P & ->) | (I & -> & ->)].
      * intros x Hx. assert (In x pd1) as Hx1 by (eapply Permutation_in; [symmetry; exact P|]; right; auto).
        apply Q1p in Hx1. destruct Hx1 as [->|]; auto.
        exfalso. eapply Permutation_NoDup in NDp; [|exact P]. inversion NDp; auto.
      * intros x Hx. pose proof (Q1p _ Hx) as [->|]; auto. tauto.
    + fold L. rewrite app_assoc. destruct C0 as [(I & P & ->) | (I & -> & ->)]; auto.
      assert (Px : Permutation ((base ++ L) ++ pd1) (s_id stolen :: (base ++ L) ++ pd0)).
      { etransitivity; [apply Permutation_app_head; exact P|]. symmetry; apply Permutation_middle. }
      eapply Permutation_NoDup in Px; [|exact ND1]. inversion Px; auto.
    + fold L. rewrite app_assoc. intros i Hi.
      assert (i <= mnext_id m); [|lia]. apply Q1le.
      rewrite in_app_iff in *. destruct Hi as [?|Hi]; auto. right.
      destruct C0 as [(I & P & ->) | (I & -> & ->)]; auto.
      eapply Permutation_in; [symmetry; exact P|]. right; auto.
    + intros k h Hk. apply (P5 k h). rewrite in_app_iff in *. simpl. tauto.
Qed.

End Springs.
