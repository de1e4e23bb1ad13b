(** Calls that cannot fail, in [double] arithmetic. *)

From Coq Require Import ZArith Reals Bool List Lia Lra.
From Flocq Require Import Core IEEE754.BinarySingleNaN.
From Verif Require Import Num Geometry Outcome Wobbly Spec SpecMotion SpecDouble LemBasic LemInv LemSprings LemHistory LemNetwork LemLifo
  LemAnchors LemMoves LemDouble LemHang LemSafe LemSearch LemRounded.
Import ListNotations.
Local Open Scope R_scope.

Lemma equals_self (q : vec f64) : finite_point q -> vequals q q = true.
Proof.
  intros (Fx & Fy). unfold vequals. cbn [andb]. rewrite !eqb_ok by auto.
  rewrite !Req_bool_true by reflexivity. reflexivity.
Qed.

Lemma found_again (pts : list (vec f64)) q : (forall r, In r pts -> finite_point r) -> In q pts -> forall i, index_of_position pts q i <> None.
Proof.
  induction pts as [|a l IH]; intros F Hin i; [destruct Hin|]. cbn [index_of_position].
  destruct (vequals q a) eqn:E; [discriminate|]. destruct Hin as [->|Hin].
  - rewrite equals_self in E by (apply F; left; reflexivity). discriminate.
  - apply IH; [|exact Hin]. intros r Hr. apply F. right. exact Hr.
Qed.

Lemma find_spring_found64 mm p ss e :
  (forall s, In s ss -> exists k, spring_key_any mm p s k /\ good val fin k) -> ss <> [] -> find_spring mm p ss <> Err e.
Proof.
  intros K NE E. unfold find_spring in E. apply bind_err in E. destruct E as [E|(acc & E1 & E)].
  - clear NE. revert E. generalize 0%nat, (@None nat, nmax : f64, nmax : f64).
    induction ss as [|s ss IH]; intros i acc E; cbn [find_from] in E; [discriminate|].
    destruct (K s (or_introl eq_refl)) as (k & (pa & pb & Ea & Eb & _) & _).
    apply bind_err in E. destruct E as [E|(acc1 & _ & E)].
    + unfold find_one in E. destruct acc as [[f pr] se]. rewrite Ea, Eb in E. cbn [bind] in E.
      repeat match type of E with context [if ?b then _ else _] => destruct b end; discriminate.
    + refine (IH _ _ _ E). intros s' Hs'. apply K. right; auto.
  - apply (find_from_any val fin ltb_ok eqb_ok eq_refl mm p ss [] (None, nmax, nmax)) in E1; [|exact K|cbn; repeat split].
    destruct acc as [[[i|] prim] sec]; simpl in *; [discriminate|]. destruct E1 as (_ & _ & _ & E1). auto.
Qed.

Lemma install_ok_any {T} `{Num T} base fuel (m m1 : model T) p e :
  Net base m -> RInv m ->
  find_spring (mem_of m) p (msprings m) <> Err e ->
  (forall x, In x (mpos m) -> index_of_position (mpos m) x 0 <> None) ->
  activate fuel (set_unequal m true) = Ok m1 -> install_anchor p m1 <> Err e.
Proof.
  intros N Rv Fs Fp E1 E. pose proof (net_inv _ _ N) as I. pose proof (net_h _ _ N) as HH.
  assert (Hc : active m1 = true -> mhandles m = []).
  { apply activate_shape in E1. destruct E1 as (tg & id & -> & _). unfold active. simpl. intros X. apply Z.eqb_eq in X.
    pose proof (inv_count _ I). destruct (mhandles m); auto. simpl in *. lia. }
  apply activate_shape in E1. destruct E1 as (tg & id & -> & _ & Ltg). simpl in Ltg.
  set (m1 := set_targets _ tg) in *.
  pose proof (rinv_valid m HH Rv) as F.
  unfold install_anchor in E. apply bind_err in E. destruct E as [E|(idx & Hidx & E)].
  { exact (Fs E). }
  apply bind_err in E. destruct E as [E|(found & Hf & E)].
  { apply of_option_err in E. destruct E as [E _]. apply nth_error_None in E.
    apply find_spring_range in Hidx. simpl in *. lia. }
  apply of_option_ok in Hf.
  assert (Hin : In found (msprings m)) by (eapply nth_error_In; eauto).
  assert (Vf : spring_valid (mheap m) found) by (eapply Forall_forall; [exact F|]; auto).
  assert (Rf : refs_ok (mhandles m) found).
  { eapply Forall_forall in Rv; [exact Rv|]. apply in_or_app; auto. }
  assert (VA : forall l, loc_valid (mheap m) l -> loc_valid (mheap m ++ [Some (p, vzero)]) l).
  { intros [i|b]; simpl; auto. intros X. rewrite heap_live_app. rewrite nth_error_app1; auto.
    apply nth_error_Some. rewrite X. discriminate. }
  destruct Vf as (V1 & V2 & V3 & V4). destruct Rf as (R1 & R2 & R3 & R4).
  set (m2 := set_heap m1 (mheap m1 ++ [Some (p, vzero)])) in *.
  assert (X : forall l, loc_valid (mheap m) l -> loc_ok (mhandles m) (s_id found) l ->
             exists x y, rd_pos (mem_of m2) l = Ok x /\ desired_position m2 x = Ok y).
  { intros l Vl Rl. destruct (rd_pos_valid (mem_of m2) l) as (x & Ex); [apply (inv_pos _ I)|apply VA; auto|].
    exists x. unfold desired_position. change (active m2) with (active m1). destruct (active m1) eqn:Ac.
    - specialize (Hc eq_refl). destruct l as [i|b].
      + simpl in Ex. apply of_option_ok in Ex.
        destruct (index_of_position (mpos m2) x 0) as [j|] eqn:Ej.
        2:{ exfalso. eapply Fp; [|exact Ej]. eapply nth_error_In; exact Ex. }
        apply index_of_position_range in Ej. simpl in Ej. rewrite (inv_pos _ I) in Ej.
        destruct (nth_error_ex tg j) as (y & Hy). { rewrite Ltg; [lia|]. apply (inv_tgt _ I). }
        exists y. split. { simpl. rewrite Ex. auto. } cbn [of_option bind]. simpl. rewrite Hy. auto.
      + exfalso. simpl in Rl. rewrite Hc in Rl. destruct Rl as (? & ? & ? & ? & ? & X & _). destruct X.
    - exists x. auto. }
  destruct (X _ V3 R3) as (pa & da & Epa & Eda). destruct (X _ V4 R4) as (pb & db & Epb & Edb).
  rewrite Epa, Epb in E. cbn [bind] in E. rewrite Eda, Edb in E. discriminate.
Qed.

Lemma install_ok64 base fuel (m m1 : model f64) p e :
  Net base m -> base <> [] -> RInv m -> in_double_range m (OpInsert p) ->
  activate fuel (set_unequal m true) = Ok m1 -> install_anchor p m1 <> Err e.
Proof.
  intros N NB Rv (Wp & IR). pose proof (net_inv _ _ N) as I. pose proof (net_h _ _ N) as HH.
  pose proof (rinv_valid m HH Rv) as F.
  apply (install_ok_any base fuel m m1 p e N Rv).
  - apply find_spring_found64.
    + intros s Hs. eapply Forall_forall in F; [|exact Hs]. destruct F as (_ & _ & V3 & V4).
      destruct (rd_pos_valid (mem_of m) (s_pa s)) as (x & A); [apply (inv_pos _ I)|exact V3|].
      destruct (rd_pos_valid (mem_of m) (s_pb s)) as (y & B); [apply (inv_pos _ I)|exact V4|].
      eexists. split; [exists x, y; split; [exact A|split; [exact B|reflexivity]]|].
      apply place_rd_any, IR in A. apply place_rd_any, IR in B. unfold good. cbn [fst snd]. unfold fin, val.
      split; [apply dist_ok; assumption|]. split; [apply dist_ok; assumption|]. split; apply dist_below_max; assumption.
    + exact (springs_nonempty base m (net_s _ _ N) NB).
  - intros x Hx. apply found_again; [|exact Hx]. intros r Hr. apply In_nth_error in Hr. destruct Hr as (k & Hk).
    destruct (IR (LMesh k) r Hk) as ((A & _) & (B & _)). split; assumption.
Qed.

Lemma insert_ok64 base fuel (m : model f64) p e :
  Net base m -> base <> [] -> RInv m -> in_double_range m (OpInsert p) ->
  insert_anchor fuel p m = Err e -> e = NoFuel.
Proof.
  intros N NB Rv IR E. pose proof (net_inv _ _ N) as I.
  unfold insert_anchor in E. apply bind_err in E. destruct E as [E|(m1 & E1 & E)].
  { exact (activate_err (T := f64) fuel (set_unequal m true) m e I eq_refl E). }
  exfalso. apply bind_err in E. destruct E as [E|(q & _ & E)]; [|discriminate].
  eapply install_ok64; eauto.
Qed.

Lemma safe_reached64 p w h st ops (m : model f64) o fuel e :
  reached p w h st ops m -> careful_history (ops ++ [o]) -> lifo_history ops -> in_double_range m o ->
  step_op fuel m o = Err e -> e = NoFuel.
Proof.
  intros Rc C L IR E. pose proof C as C0. unfold careful_history in C. rewrite each_call_app in C. destruct C as [C1 [C2 _]].
  destruct (net_reached _ _ _ _ _ _ Rc) as (next & N). pose proof (rinv_reached _ _ _ _ _ _ Rc L) as Rv.
  pose proof E as E0. eapply step_op_err in E0;
    [|exact N|exact Rv|eapply agrees_reached; eauto|exact (careful_alive ops client_start (fun _ => eq_refl) C1)|exact C2].
  destruct E0 as [E0|E0]; [exact E0|]. destruct o; try tauto.
  - destruct IR as (Q & W). exfalso. destruct E0 as [E0 _]. subst e.
    exact (proj1 (grab_double _ _ _ _ _ _ _ fuel Rc Q W) E).
  - unfold step_op in E. destruct (needs_model (OpInsert p0) && negb (malive m))%bool.
    { destruct E0; congruence. }
    apply bind_err in E. destruct E as [E|(q & _ & E)]; [|discriminate].
    eapply insert_ok64; eauto using base_ids_nonempty.
  - destruct E0 as [_ E0]. destruct IR as ((Fw & P1) & (Fh & P2)). exfalso.
    rewrite !ltb_ok, !Rlt_bool_true in E0 by (try assumption; reflexivity). discriminate E0.
Qed.
