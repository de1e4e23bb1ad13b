(** [MoveModelBy] in any arithmetic, and in [double]. *)

From Coq Require Import ZArith Reals Bool List Lia Lra.
From Flocq Require Import Core IEEE754.BinarySingleNaN Plus_error Relative.
From Verif Require Import Num Geometry Outcome Wobbly Spec SpecMesh SpecShift LemBasic LemInv LemHistory LemSprings LemNetwork LemLifo LemSafe LemReal LemDouble.
Import ListNotations.

Section Any.
Context {T : Type} `{Num T}.

Lemma update_all (f : vec T -> vec T) : forall l (h : list (block T)),
  NoDup (map snd l) -> (forall b, In b (map snd l) -> exists pf, nth_error h b = Some (Some pf)) ->
  exists h', update_inserted f l h = Ok h' /\
    forall b, nth_error h' b =
      if in_dec Nat.eq_dec b (map snd l) then option_map (option_map (fun pf => (f (fst pf), snd pf))) (nth_error h b)
      else nth_error h b.
Proof.
  induction l as [|[a b] l IH]; intros h ND X.
  - exists h. split; [reflexivity|]. intros b. destruct (in_dec _ _ _) as [[]|]. auto.
  - cbn [map snd] in *. apply NoDup_cons_iff in ND. destruct ND as [NB ND]. cbn [update_inserted].
    destruct (X b (or_introl eq_refl)) as (pf & Hb).
    assert (Lb : (b < length h)%nat) by (apply nth_error_Some; unfold block in *; congruence).
    rewrite (proj2 (rd_blk_ok h b pf) Hb). cbn [bind].
    destruct (IH (list_set b (Some (f (fst pf), snd pf)) h) ND) as (h' & E & Hn).
    { intros b' Hb'. destruct (X b' (or_intror Hb')) as (pf' & Hf). exists pf'.
      rewrite nth_error_list_set_neq; [exact Hf|]. intros ->. auto. }
    exists h'. split; [exact E|]. intros b'. rewrite Hn.
    destruct (Nat.eq_dec b b') as [<-|Nb].
    + destruct (in_dec _ b (map snd l)); [tauto|]. destruct (in_dec _ b (b :: map snd l)) as [_|Y]; [|exfalso; apply Y; left; auto].
      rewrite nth_error_list_set_eq by auto. unfold block in *. rewrite Hb. reflexivity.
    + rewrite nth_error_list_set_neq by auto.
      destruct (in_dec _ b' (map snd l)) as [Y|Y]; destruct (in_dec _ b' (b :: map snd l)) as [Z|Z]; auto.
      * exfalso. apply Z. right; auto.
      * exfalso. destruct Z; auto.
Qed.

Lemma update_net (f : vec T -> vec T) (m : model T) :
  HInv m ->
  update_inserted f (minserted m) (mheap m) = Ok (map (option_map (fun pf => (f (fst pf), snd pf))) (mheap m)).
Proof.
  intros HH. destruct HH as [A _ _ ND L]. rewrite A.
  assert (X : forall b, In b (map snd (live_blks (mhandles m))) -> exists pf, nth_error (mheap m) b = Some (Some pf)).
  { intros b Hb. apply L in Hb. unfold heap_live in Hb. rewrite nth_error_map in Hb. unfold block in *.
    match type of Hb with context [@nth_error ?A (mheap m) b] => destruct (@nth_error A (mheap m) b) as [[pf|]|] end; try discriminate. eauto. }
  destruct (update_all f _ _ ND X) as (h' & E & Hn). rewrite E. f_equal. apply nth_error_ext. intros b.
  rewrite Hn, nth_error_map. destruct (in_dec _ _ _) as [Y|Y]; auto.
  specialize (L b). unfold heap_live in L. rewrite nth_error_map in L. unfold block in *.
  match goal with |- context [@nth_error ?A (mheap m) b] => destruct (@nth_error A (mheap m) b) as [[pf|]|] end; try reflexivity. exfalso. apply Y, L. reflexivity.
Qed.

Lemma shift_any p w h st ops (m : model T) d fuel :
  reached p w h st ops m -> malive m = true ->
  exists m', step_op fuel m (OpMoveBy d) = Ok (m', ONone) /\ shifted d m m'.
Proof.
  intros Hr Al. destruct (net_reached _ _ _ _ _ _ Hr) as (next & N). pose proof (net_h _ _ N) as HH.
  unfold step_op. cbn [needs_model]. rewrite Al. cbn [negb andb]. unfold move_model_by. cbv zeta. cbn [set_targets set_pos minserted mheap].
  rewrite update_net by auto. cbn [bind]. eexists. split; [reflexivity|].
  unfold shifted. repeat split; try reflexivity; try exact Al. intros n. unfold anchor_point. cbn [set_heap set_targets set_pos mhandles mpos mheap].
  destruct (lookup_handle (mhandles m) n) as [[i|s a b k aid]|]; [| |reflexivity].
  - apply nth_error_map.
  - rewrite nth_error_map. unfold block in *.
    match goal with |- context [@nth_error ?A (mheap m) k] => destruct (@nth_error A (mheap m) k) as [[[q f]|]|] end; reflexivity.
Qed.
End Any.

Local Open Scope R_scope.

Lemma moderate_sum (a b : f64) : moderate a -> moderate b -> near_sum (nadd a b) a b.
Proof.
  intros (Fa & La) (Fb & Lb).
  assert (L : Rabs (B2R a + B2R b) <= bpow radix2 1001).
  { eapply Rle_trans; [apply Rabs_triang|]. change (bpow radix2 1001) with (bpow radix2 (1000 + 1)). rewrite bpow_plus. change (bpow radix2 1) with 2. lra. }
  destruct (add_ok 1001 ltac:(lia) a b Fa Fb L) as (F & E).
  split; [exact F|]. rewrite E.
  set (x := B2R a + B2R b).
  destruct (Req_dec x 0) as [Z|Z].
  { rewrite Z, rd_0. rewrite Rminus_0_r, Rabs_R0. lra. }
  destruct (Rle_or_lt (bpow radix2 (-1022)) (Rabs x)) as [Big|Small].
  - pose proof (relative_error_N_FLT radix2 (-1074) 53 ltac:(lia) (fun x => negb (Z.even x)) x) as Rel.
    specialize (Rel Big). eapply Rle_trans; [exact Rel|]. apply Rmult_le_compat_r; [apply Rabs_pos|].
    change (bpow radix2 (- (53) + 1)) with (bpow radix2 (1 + -53)). rewrite bpow_plus. change (bpow radix2 1) with 2. lra.
  - (* a subnormal sum is exact *)
    assert (G : generic_format radix2 (SpecFloat.fexp 53 1024) x).
    { unfold x. apply (FLT_format_plus_small radix2 (-1074) 53).
      - apply (generic_format_B2R 53 1024).
      - apply (generic_format_B2R 53 1024).
      - fold x. eapply Rle_trans; [apply Rlt_le, Small|]. apply bpow_le. lia. }
    rewrite rd_gen by exact G. rewrite Rminus_diag_eq by reflexivity. rewrite Rabs_R0. apply Rmult_le_pos; [apply bpow_ge_0|apply Rabs_pos].
Qed.

Lemma pixel_sum (a b : f64) : pixel a -> pixel b -> exact_sum (nadd a b) a b.
Proof.
  intros (Fa & n & Ea & Ln) (Fb & k & Eb & Lk).
  assert (E : B2R a + B2R b = IZR (n + k)) by (rewrite Ea, Eb, plus_IZR; reflexivity).
  assert (L : Rabs (B2R a + B2R b) <= bpow radix2 53).
  { rewrite E, <- abs_IZR. change (bpow radix2 53) with (IZR (2 ^ 53)). apply IZR_le. lia. }
  destruct (add_ok 53 ltac:(lia) a b Fa Fb L) as (F & V). split; [exact F|]. rewrite V, E.
  apply rd_gen. replace (IZR (n + k)) with (IZR (n + k) * bpow radix2 0) by (cbn; ring). apply gen_scaled; lia.
Qed.

Lemma eqb_finite (x y : f64) : is_finite y = true -> neqb x y = true -> is_finite x = true.
Proof.
  intros F E. destruct x as [s|s| |s a b c]; try reflexivity; exfalso.
  - destruct y as [s'|s'| |s' a' b' c']; try discriminate F; destruct s; discriminate E.
  - destruct y as [s'|s'| |s' a' b' c']; try discriminate F; discriminate E.
Qed.
