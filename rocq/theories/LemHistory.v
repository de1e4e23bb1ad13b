(** The anchors of the model are those the client believes it holds. *)

From Coq Require Import ZArith Bool List Lia Permutation.
From Verif Require Import Num Geometry Outcome Wobbly Spec LemBasic LemInv.
Import ListNotations.
Local Open Scope Z_scope.

Section History.
Context {T : Type} `{Num T}.
Implicit Types (m : model T).

Definition kind_of (h : handle T) : kind := match h with HGrab _ => KGrab | HIns _ _ _ _ _ => KInsert end.
Definition view (nh : nat * handle T) : nat * kind := (fst nh, kind_of (snd nh)).

Definition agrees (c : client) m : Prop :=
  c_live c = map view (mhandles m) /\ c_acquired c = mnext_handle m /\ c_destroyed c = negb (malive m).

Lemma agrees_init p w h st next : agrees client_start (model_init p w h st next).
Proof. repeat split. Qed.

Lemma agrees_ext c m m' :
  agrees c m -> mhandles m' = mhandles m -> mnext_handle m' = mnext_handle m -> malive m' = malive m ->
  agrees c m'.
Proof. unfold agrees. intros (A & B & C) -> -> ->. auto. Qed.

Lemma remove_view n (l : list (nat * handle T)) :
  map view (remove_handle l n) = filter (fun e => negb (Nat.eqb (fst e) n)) (map view l).
Proof. unfold remove_handle. rewrite filter_map_comm. reflexivity. Qed.

Lemma agrees_grab fuel p m m' n c :
  grab_anchor fuel p m = Ok (m', n) -> agrees c m ->
  n = mnext_handle m /\ agrees (client_step c (OpGrab p)) m'.
Proof.
  unfold grab_anchor. intros E (A & B & C). inv_ok. split; auto.
  apply activate_shape in Ha0. destruct Ha0 as (tg & id & -> & _ & _).
  unfold agrees. simpl. rewrite A, B, C, map_app. auto.
Qed.

Lemma agrees_insert fuel p m m' n c :
  insert_anchor fuel p m = Ok (m', n) -> agrees c m ->
  n = mnext_handle m /\ agrees (client_step c (OpInsert p)) m'.
Proof.
  unfold insert_anchor. intros E (A & B & C). inv_ok. split; auto.
  apply activate_shape in Ha. destruct Ha as (tg & id & -> & _ & _).
  destruct a0 as [m1 hd]. apply install_anchor_shape in Ha0.
  destruct Ha0 as (idx & found & da & db & _ & _ & -> & _ & _ & ->).
  unfold agrees. simpl. rewrite A, B, C, map_app. auto.
Qed.

Lemma release_strategy_handles hd m m' :
  release_strategy hd m = Ok m' ->
  mhandles m' = mhandles m /\ mnext_handle m' = mnext_handle m /\ malive m' = malive m.
Proof.
  destruct hd; intros E.
  - simpl in E. inv_ok. auto.
  - apply release_strategy_ins_shape in E.
    destruct E as (hp & r2 & r1 & r0 & _ & _ & _ & _ & ->). auto.
Qed.

Lemma agrees_release fuel n m m' c :
  release_anchor fuel n m = Ok m' -> agrees c m -> agrees (client_step c (OpRelease n : op T)) m'.
Proof.
  unfold release_anchor. intros E (A & B & C).
  destruct (lookup_handle (mhandles m) n) as [hd|] eqn:EL.
  - destruct (malive m) eqn:EA; [|discriminate]. inv_ok.
    apply release_strategy_handles in Ha. simpl in Ha. destruct Ha as (H1 & H2 & H3).
    apply deactivate_shape in E. destruct E as (tg & id & -> & _ & _).
    unfold agrees. simpl. rewrite A, B, C, H1, H2, H3, remove_view, EA. auto.
  - inv_ok. unfold agrees. simpl. repeat split; auto. rewrite A. apply filter_all.
    intros [k x] Hk. apply in_map_iff in Hk. destruct Hk as ([j hd] & E & Hj). inversion E; subst.
    simpl. apply lookup_handle_none in EL. destruct (Nat.eqb_spec k n); auto. subst.
    exfalso. apply EL. apply in_map_iff. exists (n, hd); auto.
Qed.

Lemma move_anchor_handles n d m m' :
  move_anchor n d m = Ok m' ->
  mhandles m' = mhandles m /\ mnext_handle m' = mnext_handle m /\ malive m' = malive m.
Proof.
  unfold move_anchor. intros E. destruct (lookup_handle (mhandles m) n) as [hd|]; [|discriminate].
  destruct (malive m) eqn:EA; [|discriminate].
  destruct (active m); destruct hd; inv_ok; simpl; auto.
Qed.

Lemma agrees_step fuel m o m' u c :
  step_op fuel m o = Ok (m', u) -> agrees c m -> agrees (client_step c o) m'.
Proof.
  unfold step_op. destruct (needs_model o && negb (malive m)); [discriminate|].
  intros E A. destruct o; inv_ok; simpl.
  - destruct a as [m1 k]. eapply agrees_grab in Ha; eauto. tauto.
  - destruct a as [m1 k]. eapply agrees_insert in Ha; eauto. tauto.
  - apply move_anchor_handles in Ha. eapply agrees_ext; eauto; tauto.
  - eapply agrees_release; eauto.
  - destruct a as [m1 k]. apply model_step_shape in Ha. destruct Ha as (pp & v & h & -> & _).
    eapply agrees_ext; eauto.
  - apply move_model_by_shape in Ha. destruct Ha as (h & -> & Hh). eapply agrees_ext; eauto.
  - unfold move_model_to in Ha. inv_ok. destruct a as [q m1].
    apply target_position_shape in Ha0. destruct Ha0 as (id & -> & _).
    apply move_model_by_shape in Ha. destruct Ha as (h & -> & Hh). eapply agrees_ext; eauto.
  - apply resize_model_shape in Ha. destruct Ha as [->|(po & to & id & hp & -> & _)]; auto.
  - eapply agrees_ext; eauto.
  - destruct A as (A & B & C). unfold agrees; simpl. auto.
Qed.

Lemma agrees_run fuel ops m m' us c :
  run fuel m ops = Ok (m', us) -> agrees c m -> agrees (fold_left client_step ops c) m'.
Proof.
  revert m us c; induction ops; intros m us c E A; simpl in E; inv_ok; auto.
  destruct a0 as [m1 u1]. destruct a1 as [m2 us2]. simpl in *. inv_ok.
  eapply IHops; eauto. eapply agrees_step; eauto.
Qed.

Lemma agrees_reached p w h st ops m : reached p w h st ops m -> agrees (client_after ops) m.
Proof.
  intros (fuel & next & us & E). eapply agrees_run; eauto. apply agrees_init.
Qed.

Lemma inv_reached p w h st ops m : reached p w h st ops m -> Inv m.
Proof. intros (fuel & next & us & E). eapply inv_run; eauto. apply inv_init. Qed.

Lemma reached_live p w h st ops m :
  reached p w h st ops m -> live_anchors ops = map view (mhandles m).
Proof. intros R. apply agrees_reached in R. apply R. Qed.

Lemma reached_active p w h st ops m :
  reached p w h st ops m -> (active m = true <-> length (live_anchors ops) = 1%nat).
Proof.
  intros R. rewrite (reached_live _ _ _ _ _ _ R), map_length. unfold active.
  rewrite (inv_count _ (inv_reached _ _ _ _ _ _ R)), Z.eqb_eq. lia.
Qed.

(** Runs compose. *)
Lemma run_app fuel ops1 ops2 m m1 us1 :
  run fuel m ops1 = Ok (m1, us1) ->
  run fuel m (ops1 ++ ops2) = bind (run fuel m1 ops2) (fun r => Ok (fst r, us1 ++ snd r)).
Proof.
  revert m us1; induction ops1; intros m us1 E; simpl in *; inv_ok.
  - match goal with |- context [run fuel ?x ops2] => destruct (run fuel x ops2) as [[? ?]|] end; reflexivity.
  - destruct a0 as [ma ua]. destruct a1 as [mb ub]. simpl in *. inv_ok.
    rewrite Ha. simpl. rewrite (IHops1 _ _ Ha0).
    match goal with |- context [run fuel ?x ops2] => destruct (run fuel x ops2) as [[? ?]|] end; reflexivity.
Qed.

End History.
