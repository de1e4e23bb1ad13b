(** * Lemmas: calls that do not read the settings *)

From Coq Require Import ZArith Lia Bool List.
From Verif Require Import Num Geometry Outcome Wobbly SettingsLife Spec SpecLife LemInv LemHistory.
Import ListNotations.
Local Open Scope Z_scope.

Section LemLife.
Context {T : Type} `{Num T}.
Notation ss := set_settings.

Lemma activate_free fuel (m : model T) st :
  mcount m <> 0 ->
  activate fuel (ss m st) = (m' <- activate fuel m ;; Ok (ss m' st)).
Proof.
  intros C. unfold activate. cbn [mcount set_count ss].
  destruct (Z.eqb_spec (mcount m + 1) 1) as [E | E]; [lia | reflexivity].
Qed.

Lemma deactivate_free fuel (m : model T) st :
  mcount m <> 2 ->
  deactivate fuel (ss m st) = (m' <- deactivate fuel m ;; Ok (ss m' st)).
Proof.
  intros C. unfold deactivate. cbn [mcount set_count ss].
  destruct (Z.eqb_spec (mcount m - 1) 1) as [E | E]; [lia | reflexivity].
Qed.

Lemma target_free fuel (m : model T) st :
  active m = true ->
  target_position fuel (ss m st) = (r <- target_position fuel m ;; Ok (fst r, ss (snd r) st)).
Proof.
  intros A. unfold target_position. change (active (ss m st)) with (active m). rewrite A.
  cbn [mtargets ss]. destruct (nth_error (mtargets m) 0); reflexivity.
Qed.

Lemma move_by_free d (m : model T) st :
  move_model_by d (ss m st) = (m' <- move_model_by d m ;; Ok (ss m' st)).
Proof.
  unfold move_model_by.
  change (minserted (set_targets (set_pos (ss m st) ?a) ?b)) with (minserted m).
  cbn [minserted mheap set_targets set_pos ss mpos mtargets].
  destruct (update_inserted _ _ _); reflexivity.
Qed.

Lemma resize_free fuel w h (m : model T) st :
  active m = true \/ nltb nzero w && nltb nzero h = false \/
  vequals (mkV (ndiv w (mw m)) (ndiv h (mh m))) (mkV (nof 1) (nof 1)) = true ->
  resize_model fuel w h (ss m st) = (m' <- resize_model fuel w h m ;; Ok (ss m' st)).
Proof.
  intros C. unfold resize_model. change (mw (ss m st)) with (mw m). change (mh (ss m st)) with (mh m).
  destruct (nltb nzero w && nltb nzero h); cbn [negb]; [| reflexivity].
  destruct (vequals _ _); [reflexivity |].
  destruct C as [A | [C | C]]; [| discriminate C | discriminate C].
  rewrite (target_free fuel m st A).
  unfold target_position. rewrite A.
  destruct (nth_error (mtargets m) 0) as [o |] eqn:E; cbn [of_option bind fst snd]; [| reflexivity].
  change (mtargets (ss m st)) with (mtargets m). rewrite E. cbn [of_option bind].
  cbn [minserted mheap set_springs set_targets set_pos ss mpos mtargets msprings mpending].
  destruct (update_inserted _ _ _); reflexivity.
Qed.

Lemma install_free p (m : model T) st :
  install_anchor p (ss m st) = (r <- install_anchor p m ;; Ok (ss (fst r) st, snd r)).
Proof.
  unfold install_anchor. change (mem_of (ss m st)) with (mem_of m).
  change (msprings (ss m st)) with (msprings m). change (mheap (ss m st)) with (mheap m).
  destruct (find_spring _ _ _) as [i |]; cbn [bind]; [| reflexivity].
  destruct (nth_error (msprings m) i) as [s |]; cbn [of_option bind]; [| reflexivity].
  set (hp := mheap m ++ _).
  change (mem_of (set_heap (ss m st) hp)) with (mem_of (set_heap m hp)).
  destruct (rd_pos _ (s_pa s)) as [pa |]; cbn [bind]; [| reflexivity].
  destruct (rd_pos _ (s_pb s)) as [pb |]; cbn [bind]; [| reflexivity].
  change (desired_position (set_heap (ss m st) hp)) with (desired_position (set_heap m hp)).
  destruct (desired_position _ pa) as [da |]; cbn [bind]; [| reflexivity].
  destruct (desired_position _ pb) as [db |]; cbn [bind]; reflexivity.
Qed.

Lemma strategy_free hd (m : model T) st :
  release_strategy hd (ss m st) = (m' <- release_strategy hd m ;; Ok (ss m' st)).
Proof.
  destruct hd as [i | s i1 i2 b a]; cbn [release_strategy].
  - change (mtracked (ss m st)) with (mtracked m).
    destruct (tracked_unlock _ _); reflexivity.
  - cbn [minserted mheap mnext_anchor set_inserted ss msprings mpending set_heap].
    destruct (free_blk _ _); cbn [bind]; [| reflexivity].
    cbn [minserted mheap mnext_anchor set_inserted ss msprings mpending set_heap].
    destruct (spring_remover i2 _ _); cbn [bind]; [| reflexivity].
    destruct (spring_remover i1 _ _); cbn [bind]; [| reflexivity].
    destruct (spring_replacer _ _ _); reflexivity.
Qed.

Lemma strategy_count hd (m m' : model T) :
  release_strategy hd m = Ok m' -> mcount m' = mcount m.
Proof.
  destruct hd as [i | s i1 i2 b a]; cbn [release_strategy].
  - destruct (tracked_unlock _ _); cbn [bind]; [| discriminate]. intros [= <-]. reflexivity.
  - destruct (free_blk _ _); cbn [bind]; [| discriminate].
    destruct (spring_remover i2 _ _); cbn [bind]; [| discriminate].
    destruct (spring_remover i1 _ _); cbn [bind]; [| discriminate].
    destruct (spring_replacer _ _ _); cbn [bind]; [| discriminate].
    intros [= <-]. reflexivity.
Qed.

Lemma release_free fuel n (m : model T) st :
  lookup_handle (mhandles m) n = None \/ mcount m <> 2 ->
  release_anchor fuel n (ss m st) = (m' <- release_anchor fuel n m ;; Ok (ss m' st)).
Proof.
  intros C. unfold release_anchor. change (mhandles (ss m st)) with (mhandles m).
  destruct (lookup_handle (mhandles m) n) as [hd |]; [| reflexivity].
  destruct C as [C | C]; [discriminate C |].
  change (malive (ss m st)) with (malive m). destruct (malive m); [| reflexivity].
  change (set_handles (ss m st) ?a ?b) with (ss (set_handles m a b) st).
  rewrite strategy_free.
  destruct (release_strategy hd _) as [m1 |] eqn:E; cbn [bind]; [| reflexivity].
  apply strategy_count in E. apply deactivate_free. rewrite E. exact C.
Qed.

Lemma move_anchor_free n d (m : model T) st :
  move_anchor n d (ss m st) = (m' <- move_anchor n d m ;; Ok (ss m' st)).
Proof.
  unfold move_anchor. change (mhandles (ss m st)) with (mhandles m).
  destruct (lookup_handle (mhandles m) n) as [hd |]; [| reflexivity].
  change (malive (ss m st)) with (malive m). destruct (malive m); [| reflexivity].
  change (active (ss m st)) with (active m).
  destruct (active m), hd as [i | s i1 i2 b a]; cbn [mpos mheap set_targets ss].
  1, 3 : destruct (nth_error (mpos m) i); reflexivity.
  all: destruct (rd_blk _ _); reflexivity.
Qed.

Lemma step_zero t (m : model T) st :
  t <= 0 ->
  model_step t (ss m st) = (r <- model_step t m ;; Ok (ss (fst r) st, snd r)).
Proof.
  intros C. unfold model_step. change (munequal (ss m st)) with (munequal m).
  assert (step_count t = 0%nat) as -> .
  { unfold step_count. assert ((t + 15) / 16 <= 0) by (apply Z.lt_succ_r; apply Z.div_lt_upper_bound; lia). lia. }
  cbn [integrate_n bind].
  set (b := (if t =? 0 then munequal m else false) || false).
  change (active (set_unequal (ss m st) b)) with (active (set_unequal m b)).
  destruct (negb b && active (set_unequal m b)); reflexivity.
Qed.

Theorem step_free fuel (m : model T) o st :
  reads_settings m o = false ->
  step_op fuel (ss m st) o = with_settings st (step_op fuel m o).
Proof.
  intros C. unfold step_op. change (malive (ss m st)) with (malive m).
  destruct (needs_model o && negb (malive m)); [reflexivity |].
  destruct o as [p | p | n d | n | t | d | p | w h | st' | ]; cbn [reads_settings] in C.
  - unfold grab_anchor. change (mpos (ss m st)) with (mpos m).
    change (set_unequal (ss m st) true) with (ss (set_unequal m true) st).
    apply Z.eqb_neq in C. rewrite activate_free by exact C.
    destruct (closest_index (mpos m) p); cbn [of_option bind]; [| reflexivity].
    destruct (activate _ _) as [m1 |]; cbn [bind]; [| reflexivity].
    change (mtracked (ss m1 st)) with (mtracked m1).
    destruct (tracked_lock _ _); reflexivity.
  - unfold insert_anchor.
    change (set_unequal (ss m st) true) with (ss (set_unequal m true) st).
    apply Z.eqb_neq in C. rewrite activate_free by exact C.
    destruct (activate _ _) as [m1 |]; cbn [bind]; [| reflexivity].
    rewrite install_free. destruct (install_anchor p m1) as [[m2 hd] |]; reflexivity.
  - rewrite move_anchor_free. destruct (move_anchor n d m); reflexivity.
  - rewrite release_free. { destruct (release_anchor fuel n m); reflexivity. }
    destruct (lookup_handle (mhandles m) n); [right; apply Z.eqb_neq, C | left; reflexivity].
  - rewrite step_zero by (apply Z.ltb_ge, C). destruct (model_step t m) as [[m' b] |]; reflexivity.
  - rewrite move_by_free. destruct (move_model_by d m); reflexivity.
  - unfold move_model_to. apply negb_false_iff in C. rewrite target_free by exact C.
    destruct (target_position fuel m) as [[q m1] |]; cbn [bind fst snd]; [| reflexivity].
    rewrite move_by_free. destruct (move_model_by _ m1); reflexivity.
  - rewrite resize_free. { destruct (resize_model fuel w h m); reflexivity. }
    destruct (active m); [left; reflexivity | right].
    rewrite andb_true_r in C.
    destruct (nltb nzero w && nltb nzero h); [right | left; reflexivity].
    apply negb_false_iff, C.
  - discriminate C.
  - reflexivity.
Qed.

(** Writing one's settings object again restores the model. *)
Lemma with_same (r : res (model T * out)) m u st :
  r = Ok (m, u) -> with_settings st r = Ok (set_settings m st, u).
Proof. intros ->. reflexivity. Qed.

Lemma lookup_in (l : list (nat * handle T)) n :
  In n (map fst l) <-> exists hd, lookup_handle l n = Some hd.
Proof.
  induction l as [| [i hd] l IH]; cbn [map fst In lookup_handle].
  - split; [intros [] | intros (hd & C); discriminate C].
  - destruct (Nat.eqb_spec i n) as [E | E].
    + split; [intros _; exists hd; reflexivity | intros _; left; exact E].
    + rewrite <- IH. split; [intros [C | C]; [contradiction | exact C] | right; assumption].
Qed.

(** What the model reads is what the client can tell. *)
Theorem reads_consults p w h st ops (m : model T) o :
  reached p w h st ops m ->
  (reads_settings m o = true <-> consults (live_anchors ops) (mw m) (mh m) o).
Proof.
  intros R. pose proof (reached_live _ _ _ _ _ _ R) as L.
  pose proof (inv_count _ (inv_reached _ _ _ _ _ _ R)) as C.
  assert (length (live_anchors ops) = length (mhandles m)) as Ln by (rewrite L; apply map_length).
  assert (Ac : active m = true <-> length (live_anchors ops) = 1%nat)
    by (unfold active; rewrite Z.eqb_eq; lia).
  assert (An : negb (active m) = true <-> length (live_anchors ops) <> 1%nat)
    by (rewrite negb_true_iff, <- Ac; destruct (active m); split; congruence).
  assert (Z0 : (mcount m =? 0) = true <-> live_anchors ops = [])
    by (rewrite Z.eqb_eq, <- length_zero_iff_nil; lia).
  destruct o as [q | q | n d | n | t | d | q | w' h' | st' | ]; cbn [reads_settings consults];
    try exact Z0; try exact An; try (split; [discriminate | contradiction]); try tauto.
  - rewrite L, map_map, map_length.
    replace (map (fun x => fst (view x)) (mhandles m)) with (map fst (mhandles m))
      by (apply map_ext; intros [i [j | ? ? ? ? ?]]; reflexivity).
    rewrite lookup_in.
    destruct (lookup_handle (mhandles m) n) as [hd |]; rewrite ?Z.eqb_eq.
    + split; [intros E; split; [exists hd; reflexivity | lia] | lia].
    + split; [discriminate | intros ((hd & E) & _); discriminate E].
  - apply Z.ltb_lt.
  - rewrite !andb_true_iff, An, negb_true_iff. tauto.
Qed.

(** A history after the object is gone. *)
Lemma gone_run fuel ls (m : model T) s us :
  life_run fuel (m, true) (map LCall ls) = Ok (s, us) ->
  forall st, exists m', s = (m', true) /\ run fuel (ss m st) ls = Ok (ss m' st, us).
Proof.
  revert m s us. induction ls as [| o ls IH]; intros m s us E st.
  - injection E as <- <-. exists m. split; reflexivity.
  - cbn [map life_run life_do fst snd] in E.
    destruct (reads_settings m o) eqn:R; [discriminate E |]. cbn [andb] in E.
    pose proof (step_free fuel m o st R) as F.
    destruct (step_op fuel m o) as [[m1 u] |]; cbn [bind fst snd] in E; [| discriminate E].
    destruct (life_run fuel (m1, true) (map LCall ls)) as [[s' us'] |] eqn:E'; cbn [bind fst snd] in E;
      [| discriminate E].
    injection E as <- <-. destruct (IH _ _ _ E' st) as (m' & Es & Er).
    exists m'. split; [exact Es |]. cbn [run]. rewrite F. cbn [with_settings bind fst snd].
    rewrite Er. reflexivity.
Qed.

End LemLife.
