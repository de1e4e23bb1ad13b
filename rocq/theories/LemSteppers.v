(** Steppers and progress. *)

From Coq Require Import ZArith Reals Bool List Lia Lra.
From Flocq Require Import Core IEEE754.BinarySingleNaN.
From Verif Require Import Num Geometry Outcome Steppers Transforms MagicLamp Program SpecAnim LemReal LemBasic LemFloat.
Import ListNotations.
Local Open Scope Z_scope.

(** ** Comparisons of single-precision numbers *)

Definition one32 : f32 := nof 1.
Lemma one32_R : B2R one32 = 1%R.
Proof. unfold one32. cbn. unfold F2R. cbn. lra. Qed.
Lemma zero32_form : (nof 0 : f32) = B754_zero false.
Proof. reflexivity. Qed.
Lemma one32_finite : is_finite one32 = true.
Proof. reflexivity. Qed.

Lemma lt32 (x y : f32) : is_finite x = true -> is_finite y = true -> nltb x y = Rlt_bool (B2R x) (B2R y).
Proof. intros. apply Bltb_correct; auto. Qed.
Lemma le32 (x y : f32) : is_finite x = true -> is_finite y = true -> nleb x y = Rle_bool (B2R x) (B2R y).
Proof. intros. apply Bleb_correct; auto. Qed.
Lemma eq32 (x y : f32) : is_finite x = true -> is_finite y = true -> neqb x y = Req_bool (B2R x) (B2R y).
Proof. intros. apply Beqb_correct; auto. Qed.

Lemma finite_not_nan (x : f32) : is_finite x = true -> nisnan x = false.
Proof. intros F. unfold nisnan. rewrite eq32 by auto. rewrite Req_bool_true by reflexivity. reflexivity. Qed.

Lemma clamp_unit (v : f32) : in_unit (clamp_progress v).
Proof.
  unfold clamp_progress, clamp. rewrite zero32_form. fold one32.
  assert (Z0 : in_unit (B754_zero false)) by (split; [reflexivity|cbn; lra]).
  assert (O1 : in_unit one32) by (split; [reflexivity|rewrite one32_R; lra]).
  destruct (is_finite v) eqn:Fv.
  - unfold nfmax. rewrite (finite_not_nan (B754_zero false)) by reflexivity. rewrite (finite_not_nan v) by auto.
    rewrite (lt32 (B754_zero false) v) by auto. cbn [B2R].
    destruct (Rlt_bool_spec 0 (B2R v)) as [P|P].
    + unfold nfmin. rewrite (finite_not_nan one32), (finite_not_nan v) by auto. rewrite lt32 by auto. rewrite one32_R.
      destruct (Rlt_bool_spec (B2R v) 1) as [Q|Q]; auto. split; auto. lra.
    + unfold nfmin. rewrite (finite_not_nan one32), (finite_not_nan (B754_zero false)) by auto. rewrite lt32 by auto. rewrite one32_R. cbn [B2R].
      rewrite Rlt_bool_true by lra. auto.
  - destruct v as [s|s| |s m e h]; try discriminate; [destruct s|].
    + replace (nfmax (B754_zero false) (B754_infinity true : f32)) with (B754_zero false : f32) by reflexivity.
      replace (nfmin one32 (B754_zero false)) with (B754_zero false : f32) by reflexivity. exact Z0.
    + replace (nfmax (B754_zero false) (B754_infinity false : f32)) with (B754_infinity false : f32) by reflexivity.
      replace (nfmin one32 (B754_infinity false)) with one32 by reflexivity. exact O1.
    + replace (nfmax (B754_zero false) (B754_nan : f32)) with (B754_zero false : f32) by reflexivity.
      replace (nfmin one32 (B754_zero false)) with (B754_zero false : f32) by reflexivity. exact Z0.
Qed.

Lemma more_inside (p : f32) : in_unit p -> (more_progress p = true <-> inside_unit p).
Proof.
  intros [F U]. unfold more_progress, inside_unit. rewrite zero32_form. fold one32.
  rewrite (eq32 p (B754_zero false)), (eq32 p one32) by auto. rewrite one32_R. cbn [B2R].
  destruct (Req_bool_spec (B2R p) 0), (Req_bool_spec (B2R p) 1); cbn; split; intros X; try discriminate; auto; try (destruct X; lra).
  split; auto. lra.
Qed.

(** Values inside the unit interval are kept by [clamp]. *)
Lemma clamp_keeps (v : f32) : in_unit v -> B2R (clamp_progress v) = B2R v.
Proof.
  intros [F U]. unfold clamp_progress, clamp. rewrite zero32_form. fold one32.
  unfold nfmax. rewrite (finite_not_nan (B754_zero false)) by reflexivity. rewrite (finite_not_nan v) by auto.
  rewrite (lt32 (B754_zero false) v) by auto. cbn [B2R].
  destruct (Rlt_bool_spec 0 (B2R v)) as [P|P].
  - unfold nfmin. rewrite (finite_not_nan one32), (finite_not_nan v) by auto. rewrite lt32 by auto. rewrite one32_R.
    destruct (Rlt_bool_spec (B2R v) 1) as [Q|Q]; auto. rewrite one32_R. lra.
  - unfold nfmin. rewrite (finite_not_nan one32), (finite_not_nan (B754_zero false)) by auto. rewrite lt32 by auto. rewrite one32_R. cbn [B2R].
    rewrite Rlt_bool_true by lra. cbn. lra.
Qed.

(** ** Histories of animations *)

Section Histories.
Context {L1 : Libm f32} {L2 : Libm f64} {St : Type} (call : St -> Z -> f32 * St).

Lemma bounce_unit ops : forall a : bounce f32 f64 St,
  in_unit (bn_progress a) \/ existsb bn_is_step ops = true -> in_unit (bn_progress (fold_left (bounce_do call) ops a)).
Proof.
  induction ops as [|o ops IH]; intros a H; cbn [fold_left existsb] in *; [destruct H; [auto|discriminate]|].
  apply IH. destruct o; cbn [bn_is_step orb bounce_do bn_progress] in *; auto.
  left. unfold bounce_step. destruct (call (bn_stepper a) ms) as [v s1]. cbn [fst bn_progress]. apply clamp_unit.
Qed.

Lemma glide_unit ops : forall a : glide f32 f64 St,
  in_unit (gl_progress a) \/ existsb gl_is_step ops = true -> in_unit (gl_progress (fold_left (glide_do call) ops a)).
Proof.
  induction ops as [|o ops IH]; intros a H; cbn [fold_left existsb] in *; [destruct H; [auto|discriminate]|].
  apply IH. destruct o; cbn [gl_is_step orb glide_do gl_progress] in *; auto.
  left. unfold glide_step. destruct (call (gl_stepper a) ms) as [v s1]. cbn [fst gl_progress]. apply clamp_unit.
Qed.

Lemma zoom_unit ops : forall a : zoom f32 f64 St,
  in_unit (zm_progress a) \/ existsb zm_is_step ops = true -> in_unit (zm_progress (fold_left (zoom_do call) ops a)).
Proof.
  induction ops as [|o ops IH]; intros a H; cbn [fold_left existsb] in *; [destruct H; [auto|discriminate]|].
  apply IH. destruct o; cbn [zm_is_step orb zoom_do zm_progress] in *; auto.
  left. unfold zoom_step. destruct (call (zm_stepper a) ms) as [v s1]. cbn [fst zm_progress]. apply clamp_unit.
Qed.

Lemma lamp_unit ops : forall a a' : lamp f32 f64 St,
  in_unit (ml_progress a) \/ existsb ml_is_step ops = true -> lamp_run call a ops = Ok a' -> in_unit (ml_progress a').
Proof.
  induction ops as [|o ops IH]; intros a a' H E; cbn [lamp_run existsb] in *.
  - inv_ok. destruct H; [auto|discriminate].
  - inv_ok. eapply IH; [|exact E]. destruct o; cbn [ml_is_step orb lamp_do] in *; inv_ok; cbn [ml_progress]; auto.
    left. unfold lamp_step in *. destruct (call (ml_stepper a) ms) as [v s1]. inv_ok. cbn [fst ml_progress]. apply clamp_unit.
Qed.

Lemma bounce_more ms (a a' : bounce f32 f64 St) b : bounce_step call ms a = (a', b) ->
  (b = true <-> inside_unit (bn_progress a')) /\ bn_progress a' = clamp_progress (fst (call (bn_stepper a) ms)).
Proof. unfold bounce_step. destruct (call (bn_stepper a) ms) as [v s1]. intros E. inversion E; subst. split; [apply more_inside, clamp_unit|reflexivity]. Qed.
Lemma glide_more ms (a a' : glide f32 f64 St) b : glide_step call ms a = (a', b) ->
  (b = true <-> inside_unit (gl_progress a')) /\ gl_progress a' = clamp_progress (fst (call (gl_stepper a) ms)).
Proof. unfold glide_step. destruct (call (gl_stepper a) ms) as [v s1]. intros E. inversion E; subst. split; [apply more_inside, clamp_unit|reflexivity]. Qed.
Lemma zoom_more ms (a a' : zoom f32 f64 St) b : zoom_step call ms a = (a', b) ->
  (b = true <-> inside_unit (zm_progress a')) /\ zm_progress a' = clamp_progress (fst (call (zm_stepper a) ms)).
Proof. unfold zoom_step. destruct (call (zm_stepper a) ms) as [v s1]. intros E. inversion E; subst. split; [apply more_inside, clamp_unit|reflexivity]. Qed.
Lemma lamp_more ms (a a' : lamp f32 f64 St) b : lamp_step call ms a = Ok (a', b) ->
  (b = true <-> inside_unit (ml_progress a')) /\ ml_progress a' = clamp_progress (fst (call (ml_stepper a) ms)).
Proof. unfold lamp_step. destruct (call (ml_stepper a) ms) as [v s1]. intros E. inv_ok. split; [apply more_inside, clamp_unit|reflexivity]. Qed.
End Histories.

(** ** Grids: a [Step] writes only existing vertices *)

Section Grids.
Context {F D : Type} `{Num F} `{Num D} `{Conv F D} `{Libm F} `{Libm D}.
Context {St : Type} (call : St -> Z -> F * St).

Lemma do_writes_iff ws : forall g : list (vec D),
  Forall (fun w => fst w < Z.of_nat (length g)) ws <-> exists g', do_writes ws g = Ok g' /\ length g' = length g.
Proof.
  induction ws as [|[k v] ws IH]; intros g; cbn [do_writes]; split.
  - exists g; auto.
  - constructor.
  - intros A. inversion A as [|? ? K R]; subst. cbn in K. apply Z.ltb_lt in K. rewrite K.
    destruct (proj1 (IH (list_set (Z.to_nat k) v g))) as [g' [E L]]. { rewrite list_set_length. auto. }
    exists g'. split; auto. rewrite L. apply list_set_length.
  - intros [g' [E L]]. destruct (k <? Z.of_nat (length g)) eqn:K; [|discriminate]. apply Z.ltb_lt in K. constructor; auto.
    rewrite <- (list_set_length (Z.to_nat k) v g). apply IH. exists g'. rewrite list_set_length. auto.
Qed.

Lemma do_writes_length ws : forall g g' : list (vec D), do_writes ws g = Ok g' -> length g' = length g.
Proof.
  induction ws as [|[k v] ws IH]; intros g g' E; cbn [do_writes] in E; inv_ok; auto.
  destruct (k <? Z.of_nat (length g)); [|discriminate]. rewrite (IH _ _ E). apply list_set_length.
Qed.

(** The vertices written depend on the resolution only. *)
Lemma writes_where (q q' : lamp_params F D) r p p' : map fst (lamp_writes q r p) = map fst (lamp_writes q' r p').
Proof.
  unfold lamp_writes. rewrite !flat_map_concat_map, !concat_map, !map_map. f_equal. apply map_ext. intros j.
  rewrite !map_map. reflexivity.
Qed.

Lemma forall_fst {A B} (P : A -> Prop) (l : list (A * B)) : Forall (fun w => P (fst w)) l <-> Forall P (map fst l).
Proof. induction l; cbn; split; intros X; constructor; inversion X; subst; auto; apply IHl; auto. Qed.

Lemma move_again (q q' : lamp_params F D) r p p' (g g1 h : list (vec D)) :
  move_grid q r p g = Ok g1 -> length h = length g -> exists h1, move_grid q' r p' h = Ok h1 /\ length h1 = length h.
Proof.
  unfold move_grid. intros E L. apply do_writes_iff.
  assert (W : exists g', do_writes (lamp_writes q r p) g = Ok g' /\ length g' = length g) by (exists g1; split; auto; eapply do_writes_length; eauto).
  apply do_writes_iff in W. rewrite L. apply (forall_fst (fun k => k < _)). apply (forall_fst (fun k => k < _)) in W.
  rewrite (writes_where q' q r p' p). exact W.
Qed.

(** An animation whose last construction or [Step] returned can be stepped. *)
Definition steppable (a : anim F D St) : Prop :=
  match a with
  | ALamp b => exists q p g g1, length (ml_grid b) = length g /\ move_grid q (ml_res b) p g = Ok g1
  | _ => True
  end.

Lemma new_steppable c s (a : anim F D St) : anim_new call c s = Ok a -> steppable a.
Proof.
  destruct c; cbn [anim_new]; intros E; inv_ok; cbn; auto.
  unfold lamp_new in *. destruct (call s 0) as [p s1]. inv_ok. cbn.
  match goal with X : move_grid q _ p (init_grid _) = Ok ?g |- _ => exists q, p, (init_grid r), g; split; auto; eapply do_writes_length; eauto end.
Qed.

Lemma step_total ms (a : anim F D St) : steppable a -> exists a' b, anim_step call ms a = Ok (a', b) /\ steppable a'.
Proof.
  destruct a as [b|b|b|b]; cbn [anim_step steppable]; intros S.
  - destruct (bounce_step call ms b) as [b' r]. exists (ABounce b'), r. cbn; auto.
  - destruct (glide_step call ms b) as [b' r]. exists (AGlide b'), r. cbn; auto.
  - destruct (zoom_step call ms b) as [b' r]. exists (AZoom b'), r. cbn; auto.
  - destruct S as [q [p [g [g1 [L E]]]]]. unfold lamp_step. destruct (call (ml_stepper b) ms) as [v s1].
    destruct (move_again q (ml_params b) (ml_res b) p (clamp_progress v) g g1 (ml_grid b) E L) as [h [Eh Lh]].
    rewrite Eh. cbn. eexists _, _. split; [reflexivity|]. cbn. exists (ml_params b), (clamp_progress v), (ml_grid b), h. auto.
Qed.

Lemma step_progress ms (a a' : anim F D St) b : anim_step call ms a = Ok (a', b) ->
  anim_progress a' = clamp_progress (fst (call (anim_stepper a) ms)) /\
  anim_stepper a' = snd (call (anim_stepper a) ms) /\ b = more_progress (anim_progress a').
Proof.
  destruct a as [x|x|x|x]; cbn [anim_step anim_stepper]; intros E.
  - unfold bounce_step in E. destruct (call (bn_stepper x) ms) as [v s1]. inversion E; subst. cbn. auto.
  - unfold glide_step in E. destruct (call (gl_stepper x) ms) as [v s1]. inversion E; subst. cbn. auto.
  - unfold zoom_step in E. destruct (call (zm_stepper x) ms) as [v s1]. inversion E; subst. cbn. auto.
  - unfold lamp_step in E. destruct (call (ml_stepper x) ms) as [v s1]. inv_ok. cbn. auto.
Qed.

Lemma new_progress c s (a : anim F D St) : anim_new call c s = Ok a ->
  anim_progress a = fst (call s 0) /\ anim_stepper a = snd (call s 0).
Proof.
  destruct c; cbn [anim_new]; intros E; inv_ok.
  - unfold bounce_new. destruct (call s 0); cbn; auto.
  - unfold glide_new. destruct (call s 0); cbn; auto.
  - unfold zoom_new. destruct (call s 0); cbn; auto.
  - unfold lamp_new in *. destruct (call s 0). inv_ok. cbn; auto.
Qed.

Lemma steps_total ts : forall a : anim F D St, steppable a -> exists a' rs, anim_steps call a ts = Ok (a', rs).
Proof.
  induction ts as [|t ts IH]; intros a S; cbn [anim_steps]; [eauto|].
  destruct (step_total t a S) as [a1 [b [E S1]]]. rewrite E. cbn [bind].
  destruct (IH a1 S1) as [a2 [rs E2]]. rewrite E2. cbn. eauto.
Qed.

(** The progress values and results of a sequence of steps are those of the
    stepper. *)
Lemma steps_progress ts : forall (a a' : anim F D St) rs, anim_steps call a ts = Ok (a', rs) ->
  rs = map (fun v => (clamp_progress v, more_progress (clamp_progress v))) (fst (calls call (anim_stepper a) ts)) /\
  anim_stepper a' = snd (calls call (anim_stepper a) ts).
Proof.
  induction ts as [|t ts IH]; intros a a' rs E; cbn [anim_steps calls] in *; inv_ok; auto.
  match goal with X : anim_step call t a = Ok ?p |- _ => destruct p as [a1 b]; apply step_progress in X; destruct X as [P [S B]] end.
  inv_ok. match goal with X : anim_steps call a1 ts = Ok ?p |- _ => destruct p as [a2 rs2]; apply IH in X; destruct X as [R Q] end.
  inv_ok. rewrite S in *. destruct (call (anim_stepper a) t) as [v s1]. cbn [fst snd] in *.
  destruct (calls call s1 ts) as [vs s2]. cbn [fst snd] in *. subst. rewrite P. auto.
Qed.
End Grids.

(** ** Linear *)

Lemma linear_calls (ts : list Z) : forall (s : linear R),
  fst (calls linear_call s ts) = map (fun k => lin_progress s + IZR (total ts k) / lin_length s)%R (seq 0 (length ts)).
Proof.
  induction ts as [|t ts IH]; intros s; cbn [calls]; auto.
  unfold linear_call at 1. cbn [nadd ndiv nof Num_R].
  specialize (IH (mkLinear (lin_progress s + IZR t / lin_length s)%R (lin_length s))).
  destruct (calls linear_call _ ts) as [vs s2]. cbn [fst lin_progress lin_length] in *. rewrite IH.
  cbn [length seq map]. f_equal.
  - unfold total. cbn. rewrite Z.add_0_r. reflexivity.
  - rewrite <- seq_shift, map_map. apply map_ext. intros k. unfold total. cbn [firstn elapsed]. rewrite plus_IZR. unfold Rdiv. lra.
Qed.

Lemma linear_state (ts : list Z) : forall (s : linear R),
  snd (calls linear_call s ts) = mkLinear (lin_progress s + IZR (elapsed ts) / lin_length s)%R (lin_length s).
Proof.
  induction ts as [|t ts IH]; intros [p l]; cbn [calls].
  - cbn. f_equal. unfold Rdiv. lra.
  - unfold linear_call at 1. cbn [nadd ndiv nof Num_R lin_progress lin_length].
    specialize (IH (mkLinear (p + IZR t / l)%R l)). destruct (calls linear_call _ ts) as [vs s2]. cbn [snd lin_progress lin_length] in *.
    rewrite IH. cbn [elapsed]. rewrite plus_IZR. f_equal. unfold Rdiv. lra.
Qed.

Lemma elapsed_app a b : elapsed (a ++ b) = elapsed a + elapsed b.
Proof. induction a; cbn; auto. rewrite IHa. lia. Qed.
Lemma elapsed_nonneg ts : all_u32 ts -> 0 <= elapsed ts.
Proof. induction 1; cbn; unfold is_u32 in *; lia. Qed.
Lemma total_nonneg ts k : all_u32 ts -> 0 <= total ts k.
Proof.
  intros A. apply elapsed_nonneg. unfold all_u32 in *. rewrite Forall_forall in *. intros x I. apply A.
  rewrite <- (firstn_skipn (S k) ts). apply in_or_app. auto.
Qed.

Lemma clamp_R (v : R) : clamp_progress v = Rmin 1 (Rmax 0 v).
Proof. unfold clamp_progress, clamp. rewrite nfmax_R, nfmin_R. reflexivity. Qed.

Lemma more_R (v : R) : (more_progress (clamp_progress v) = true <-> 0 < v < 1)%R.
Proof.
  rewrite clamp_R. unfold more_progress. cbn [neqb nof Num_R]. rewrite andb_true_iff, !negb_true_iff, !Reqb_niff.
  unfold Rmin, Rmax. destruct (Rle_dec 0 v), (Rle_dec 1 _); split; intros; try (exfalso; lra); try split; lra.
Qed.

Lemma div_range (t l : R) : (0 < l -> (0 < t / l < 1 <-> 0 < t < l))%R.
Proof.
  intros L. assert (E : (t = t / l * l)%R) by (field; lra). split; intros [A B].
  - rewrite E. split; [apply Rmult_lt_0_compat; auto|]. rewrite <- (Rmult_1_l l) at 3. apply Rmult_lt_compat_r; auto.
  - split; [apply Rdiv_lt_0_compat; auto|]. apply Rmult_lt_reg_r with l; auto. rewrite <- E. lra.
Qed.

(** ** Single precision *)

Lemma calls_cons {F St} `{Num F} (call : St -> Z -> F * St) s t ts :
  fst (calls call s (t :: ts)) = fst (call s t) :: fst (calls call (snd (call s t)) ts).
Proof. cbn [calls]. destruct (call s t) as [v s1]. cbn. destruct (calls call s1 ts). reflexivity. Qed.

Lemma linear32_mono (ts : list Z) : forall s : linear f32,
  nn (lin_progress s) -> nltb (nof 0) (lin_length s) = true -> all_u32 ts ->
  Forall nn (fst (calls linear_call s ts)) /\
  (forall v, nth_error (fst (calls linear_call s ts)) 0 = Some v -> nleb (lin_progress s) v = true) /\
  (forall k v w, nth_error (fst (calls linear_call s ts)) k = Some v ->
     nth_error (fst (calls linear_call s ts)) (S k) = Some w -> nleb v w = true).
Proof.
  induction ts as [|t ts IH]; intros s N L U.
  - cbn. split; [constructor|]. split; intros; [discriminate|]. destruct k; discriminate.
  - inversion U as [|? ? Ut Us]; subst. rewrite calls_cons. unfold linear_call at 1 2 4 6 8. cbn [fst snd].
    destruct (of_u32 t Ut) as [Nt [Ft _]]. pose proof (div_nn (nof t) (lin_length s) Nt Ft L) as Nd.
    destruct (add_nn (lin_progress s) (ndiv (nof t) (lin_length s)) N Nd) as [Na [Le _]].
    specialize (IH (mkLinear (nadd (lin_progress s) (ndiv (nof t) (lin_length s))) (lin_length s)) Na L Us).
    cbn [lin_progress lin_length] in IH.
    set (vs := fst (calls linear_call _ ts)) in *. destruct IH as [A [B C]].
    split; [constructor; auto|]. split.
    + intros v E. cbn [nth_error] in E. injection E as <-. exact Le.
    + intros [|k] v w E1 E2; cbn [nth_error] in *; [injection E1 as <-; apply B; auto|eauto].
Qed.

Lemma linear32_long (s : linear f32) ms :
  nn (lin_progress s) -> nltb (nof 0) (lin_length s) = true -> is_u32 ms -> is_finite (lin_length s) = true ->
  (B2R (lin_length s) <= IZR ms)%R -> nleb (nof 1) (fst (linear_call s ms)) = true.
Proof.
  intros N L U FL G. unfold linear_call. cbn [fst].
  destruct (of_u32 ms U) as [Nt [Ft Et]]. pose proof (div_nn (nof ms) (lin_length s) Nt Ft L) as Nd.
  destruct (add_nn (lin_progress s) (ndiv (nof ms) (lin_length s)) N Nd) as [Na [_ Le]].
  apply le_trans32 with (ndiv (nof ms) (lin_length s)); auto. { split; reflexivity. }
  destruct (lt_pos _ L) as [E|[_ [PL SL]]]. { rewrite E in FL. discriminate. }
  assert (G' : (B2R (lin_length s) <= B2R (nof ms : f32))%R). { rewrite Et, <- (rnd_gen (lin_length s)). apply rnd_mono. auto. }
  assert (NZ : B2R (lin_length s) <> 0%R) by lra.
  generalize (Bdiv_correct 24 128 Hprec32 Hemax32 mode_NE (nof ms) (lin_length s) NZ).
  change (Bdiv mode_NE (nof ms) (lin_length s)) with (ndiv (nof ms : f32) (lin_length s)).
  case Rlt_bool_spec; intros O C.
  - destruct C as [E [F _]]. rewrite Ft in F. rewrite le32 by auto. fold one32. rewrite one32_R, E. apply Rle_bool_true.
    rewrite <- one32_R at 1. rewrite <- (rnd_gen one32). apply rnd_mono. rewrite one32_R.
    apply Rmult_le_reg_r with (B2R (lin_length s)); [lra|]. unfold Rdiv. rewrite Rmult_assoc, Rinv_l by lra. lra.
  - rewrite SL, (proj1 Nt) in C. apply overflow_inf in C. rewrite C. reflexivity.
Qed.

Lemma linear_call_length (s : linear f32) t : lin_length (snd (linear_call s t)) = lin_length s.
Proof. reflexivity. Qed.

Lemma linear32_above (ts : list Z) : forall (s : linear f32) k v,
  nn (lin_progress s) -> nleb (nof 1) (lin_progress s) = true -> nltb (nof 0) (lin_length s) = true -> all_u32 ts ->
  nth_error (fst (calls linear_call s ts)) k = Some v -> nleb (nof 1) v = true.
Proof.
  induction ts as [|t ts IH]; intros s k v N G L U E; [destruct k; discriminate|]. inversion U as [|? ? Ut Us]; subst.
  rewrite calls_cons in E. destruct (of_u32 t Ut) as [Nt [Ft _]]. pose proof (div_nn (nof t) (lin_length s) Nt Ft L) as Nd.
  destruct (add_nn (lin_progress s) (ndiv (nof t) (lin_length s)) N Nd) as [Na [Le _]].
  assert (G' : nleb (nof 1) (fst (linear_call s t)) = true). { apply le_trans32 with (lin_progress s); auto. split; reflexivity. }
  destruct k as [|k]; cbn [nth_error] in E; [injection E as <-; auto|]. eapply (IH (snd (linear_call s t))); eauto.
Qed.

Lemma linear32_finished (ts us : list Z) : forall ms (s : linear f32) k v,
  nn (lin_progress s) -> nltb (nof 0) (lin_length s) = true -> is_finite (lin_length s) = true -> all_u32 (ts ++ ms :: us) ->
  (B2R (lin_length s) <= IZR ms)%R -> (length ts <= k)%nat ->
  nth_error (fst (calls linear_call s (ts ++ ms :: us))) k = Some v -> nleb (nof 1) v = true.
Proof.
  induction ts as [|t ts IH]; intros ms s k v N L F U G K E; cbn [app] in *; inversion U as [|? ? Ut Us]; subst;
    rewrite calls_cons in E; destruct (of_u32 _ Ut) as [Nt [Ft _]];
    match type of Nt with nn (nof ?t) => pose proof (div_nn (nof t) (lin_length s) Nt Ft L) as Nd;
      destruct (add_nn (lin_progress s) (ndiv (nof t) (lin_length s)) N Nd) as [Na [Le _]] end.
  - pose proof (linear32_long s ms N L Ut F G) as One.
    destruct k as [|k]; cbn [nth_error] in E; [injection E as <-; auto|]. eapply (linear32_above us (snd (linear_call s ms))); eauto.
  - destruct k as [|k]; cbn [length] in K; [lia|]. cbn [nth_error] in E.
    apply (IH ms (snd (linear_call s t)) k v Na L F Us G); [apply le_S_n; exact K|exact E].
Qed.

Lemma clamp_one (v : f32) : nleb (nof 1) v = true -> clamp_progress v = one32.
Proof.
  intros L. unfold clamp_progress, clamp. rewrite zero32_form. change (nof 1) with one32 in *.
  destruct v as [s|s| |s m e h].
  - destruct s; vm_compute in L; discriminate.
  - destruct s; [vm_compute in L; discriminate|]. reflexivity.
  - vm_compute in L. discriminate.
  - assert (F : is_finite (B754_finite s m e h : f32) = true) by reflexivity. revert L F. generalize (B754_finite s m e h : f32). intros v L F.
    rewrite le32 in L by auto. rewrite one32_R in L. destruct (Rle_bool_spec 1 (B2R v)); [|discriminate].
    unfold nfmax. rewrite (finite_not_nan (B754_zero false)) by reflexivity. rewrite (finite_not_nan v) by auto.
    rewrite (lt32 (B754_zero false) v) by auto. cbn [B2R]. rewrite Rlt_bool_true by lra.
    unfold nfmin. rewrite (finite_not_nan one32), (finite_not_nan v) by auto. rewrite lt32 by auto. rewrite one32_R.
    rewrite Rlt_bool_false by lra. reflexivity.
Qed.

Lemma clamp_mono (v w : f32) : nn v -> nn w -> nleb v w = true -> (B2R (clamp_progress v) <= B2R (clamp_progress w))%R.
Proof.
  intros V W L. destruct (nleb (nof 1) w) eqn:O.
  - rewrite (clamp_one w O), one32_R. apply clamp_unit.
  - assert (Fw : is_finite w = true /\ (0 <= B2R w)%R). { destruct (nn_cases w W) as [->|[F [P _]]]; auto. discriminate. }
    destruct Fw as [Fw Pw]. assert (Fv : is_finite v = true /\ (0 <= B2R v)%R).
    { destruct (nn_cases v V) as [->|[F [P _]]]; auto. destruct w as [s|s| |s m e h]; try discriminate. }
    destruct Fv as [Fv Pv]. rewrite le32 in L, O by auto. fold one32 in O. rewrite one32_R in O.
    destruct (Rle_bool_spec (B2R v) (B2R w)); try discriminate. destruct (Rle_bool_spec 1 (B2R w)); try discriminate.
    rewrite !clamp_keeps; try lra; split; auto; lra.
Qed.

(** ** Reverse *)

Lemma reverse_calls {F St} `{Num F} (call : St -> Z -> F * St) ts : forall s,
  calls (reverse_call call) s ts = (map (nsub (nof 1)) (fst (calls call s ts)), snd (calls call s ts)).
Proof.
  induction ts as [|t ts IH]; intros s; cbn [calls]; auto.
  unfold reverse_call at 1. destruct (call s t) as [v s1]. rewrite IH.
  destruct (calls call s1 ts) as [vs s2]. reflexivity.
Qed.

Lemma reverse_twice {St} (call : St -> Z -> R * St) s ms : reverse_call (reverse_call call) s ms = call s ms.
Proof. unfold reverse_call. destruct (call s ms) as [v s1]. f_equal. cbn. lra. Qed.

(** ** Programs *)

Section Worlds.
Context {F D : Type} `{Num F} `{Num D} `{Conv F D} `{Libm F} `{Libm D}.
Context {St : Type} (call : St -> Z -> F * St).
Notation world_do := (world_do call).
Notation world_run := (world_run call).

Lemma app_keeps {A} (l : list A) x i y : nth_error l i = Some y -> nth_error (l ++ [x]) i = Some y.
Proof. intros E. rewrite nth_error_app1; auto. apply nth_error_Some. congruence. Qed.

Lemma stepper_do (w w' : world F D St) o i s : world_do w o = Ok w' -> nth_error (w_steppers w) i = Some s ->
  nth_error (w_steppers w') i = Some (snd (calls call s (own_calls i [o]))).
Proof.
  intros E S. destruct o; cbn [Program.world_do own_calls calls] in *; unfold the_stepper, the_anim, of_option in *; inv_ok;
    unfold set_anim; cbn [w_steppers w_anims snd]; try (apply app_keeps); auto.
  - rewrite nth_error_list_set. destruct (Nat.eqb_spec i i0) as [->|Ne].
    + rewrite S in *. rewrite Nat.eqb_refl. destruct (i0 <? length (w_steppers w))%nat eqn:L.
      * inv_ok. cbn. destruct (call a ms). reflexivity.
      * apply Nat.ltb_ge in L. apply nth_error_None in L. congruence.
    + rewrite (proj2 (Nat.eqb_neq i0 i)) by auto. auto.
  - rewrite nth_error_list_set. destruct (Nat.eqb_spec i i0) as [->|Ne].
    + rewrite S in *. rewrite Nat.eqb_refl. destruct (i0 <? length (w_steppers w))%nat eqn:L.
      * inv_ok. cbn. destruct (call a 0). reflexivity.
      * apply Nat.ltb_ge in L. apply nth_error_None in L. congruence.
    + rewrite (proj2 (Nat.eqb_neq i0 i)) by auto. auto.
Qed.

Lemma own_calls_cons i o (ops : list (world_op F D St)) : own_calls i (o :: ops) = own_calls i [o] ++ own_calls i ops.
Proof. destruct o; cbn; auto; destruct (Nat.eqb _ _); auto. Qed.
Lemma own_steps_cons i o (ops : list (world_op F D St)) : own_steps i (o :: ops) = own_steps i [o] ++ own_steps i ops.
Proof. destruct o; cbn; auto; destruct (Nat.eqb _ _); auto. Qed.

Lemma calls_app a b : forall s, snd (calls call s (a ++ b)) = snd (calls call (snd (calls call s a)) b).
Proof.
  induction a as [|t a IH]; intros s; cbn [calls app]; auto. destruct (call s t) as [v s1].
  specialize (IH s1). destruct (calls call s1 (a ++ b)) as [vs s2], (calls call s1 a) as [us s3]. exact IH.
Qed.

Lemma stepper_run ops : forall (w w' : world F D St) i s, world_run w ops = Ok w' -> nth_error (w_steppers w) i = Some s ->
  nth_error (w_steppers w') i = Some (snd (calls call s (own_calls i ops))).
Proof.
  induction ops as [|o ops IH]; intros w w' i s E S; cbn [Program.world_run] in E; inv_ok; auto.
  rewrite own_calls_cons, calls_app. eapply IH; [exact E|]. eapply stepper_do; eauto.
Qed.

Lemma anim_do (w w' : world F D St) o a x : world_do w o = Ok w' -> nth_error (w_anims w) a = Some (Some x) -> left_alone a [o] ->
  exists x' rs, nth_error (w_anims w') a = Some (Some x') /\ anim_steps call x (own_steps a [o]) = Ok (x', rs).
Proof.
  intros E S L. inversion L as [|? ? Lo _]; subst.
  destruct o; cbn [Program.world_do own_steps anim_steps] in *; unfold the_stepper, the_anim, of_option in *; inv_ok;
    unfold set_anim; cbn [w_steppers w_anims]; try (exists x, []; split; auto; try (apply app_keeps); auto; fail).
  - rewrite nth_error_list_set. destruct (Nat.eqb_spec a a0) as [->|Ne].
    + rewrite S in *. inv_ok. rewrite Nat.eqb_refl. destruct (a0 <? length (w_anims w))%nat eqn:Lt.
      * cbn [andb anim_steps]. match goal with X : anim_step call ms _ = Ok ?p |- _ => rewrite X; destruct p as [x1 b] end. cbn. eauto.
      * apply Nat.ltb_ge in Lt. apply nth_error_None in Lt. congruence.
    + rewrite (proj2 (Nat.eqb_neq a0 a)) by auto. cbn. eauto.
  - rewrite nth_error_list_set. rewrite (proj2 (Nat.eqb_neq a0 a)) by auto. cbn. eauto.
  - rewrite nth_error_list_set. rewrite (proj2 (Nat.eqb_neq a0 a)) by auto. cbn. eauto.
Qed.

Lemma anim_steps_app a b : forall (x y z : anim F D St) rs rs', anim_steps call x a = Ok (y, rs) -> anim_steps call y b = Ok (z, rs') ->
  anim_steps call x (a ++ b) = Ok (z, rs ++ rs').
Proof.
  induction a as [|t a IH]; intros x y z rs rs' E1 E2; cbn [anim_steps app] in *; inv_ok; auto.
  match goal with X : anim_step call t x = Ok ?p |- _ => rewrite X; destruct p as [x1 b1] end. cbn [bind].
  inv_ok. match goal with X : anim_steps call x1 a = Ok ?p |- _ => destruct p as [x2 rs2]; inv_ok; rewrite (IH _ _ _ _ _ X E2) end. reflexivity.
Qed.

Lemma anim_run ops : forall (w w' : world F D St) a x, world_run w ops = Ok w' -> nth_error (w_anims w) a = Some (Some x) -> left_alone a ops ->
  exists x' rs, nth_error (w_anims w') a = Some (Some x') /\ anim_steps call x (own_steps a ops) = Ok (x', rs).
Proof.
  induction ops as [|o ops IH]; intros w w' a x E S L; cbn [Program.world_run] in E; inv_ok.
  - exists x, []. auto.
  - inversion L; subst. match goal with X : world_do w o = Ok _ |- _ => destruct (anim_do _ _ _ a x X S) as [x1 [r1 [S1 E1]]] end. { constructor; auto. }
    destruct (IH _ _ _ _ E S1) as [x2 [r2 [S2 E2]]]; auto. exists x2, (r1 ++ r2). split; auto.
    rewrite own_steps_cons. eapply anim_steps_app; eauto.
Qed.

Lemma construct_do (w w' : world F D St) c i : world_do w (WNew c i) = Ok w' ->
  exists s x, nth_error (w_steppers w) i = Some s /\
    w_anims w' = w_anims w ++ [Some x] /\ anim_progress x = fst (call s 0) /\ anim_stepper x = snd (call s 0) /\
    w_steppers w' = list_set i (snd (call s 0)) (w_steppers w).
Proof.
  cbn [Program.world_do]. unfold the_stepper, of_option. intros E. inv_ok.
  match goal with X : match nth_error ?l i with _ => _ end = Ok ?s |- _ => destruct (nth_error l i) eqn:N; inv_ok end.
  match goal with X : anim_new call c _ = Ok ?x |- _ => apply new_progress in X; destruct X as [P Q]; exists s0, x end || 
  match goal with X : anim_new call c ?s = Ok ?x |- _ => apply new_progress in X; destruct X as [P Q]; exists s, x end.
  cbn. auto.
Qed.

Lemma replace_do (w w' : world F D St) a i : world_do w (WSetStepper a i) = Ok w' ->
  exists s x, nth_error (w_steppers w) i = Some s /\ w_steppers w' = w_steppers w /\
    nth_error (w_anims w') a = Some (Some x) /\ anim_stepper x = s.
Proof.
  cbn [Program.world_do]. unfold the_stepper, the_anim, of_option. intros E. inv_ok.
  destruct (nth_error (w_steppers w) i) eqn:N; inv_ok. destruct (nth_error (w_anims w) a) as [[y|]|] eqn:M; inv_ok.
  cbn [set_anim w_steppers w_anims]. eexists _, _. split; [reflexivity|]. split; [reflexivity|]. split.
  - rewrite nth_error_list_set_eq; [reflexivity|]. apply nth_error_Some. congruence.
  - match goal with |- anim_stepper (anim_set_stepper _ _ ?y) = _ => destruct y; reflexivity end.
Qed.
End Worlds.

(** ** The linear stepper that stops moving *)

Definition len26 : f32 := nof (2 ^ 26).
Definition tick : f32 := ndiv (nof 1) len26.
Definition quarter : f32 := ndiv (nof 1) (nof 4).

Lemma tick_R : B2R tick = bpow radix2 (-26) /\ is_finite tick = true /\ Bsign tick = false.
Proof. split; [|split; reflexivity]. rewrite <- SF2R_B2SF. replace (B2SF tick) with (SpecFloat.S754_finite false 8388608 (-49)) by (vm_compute; reflexivity).
  cbn. unfold F2R. cbn. lra. Qed.
Lemma quarter_R : B2R quarter = (1 / 4)%R /\ is_finite quarter = true /\ Bsign quarter = false.
Proof. split; [|split; reflexivity]. rewrite <- SF2R_B2SF. replace (B2SF quarter) with (SpecFloat.S754_finite false 8388608 (-25)) by (vm_compute; reflexivity).
  cbn. unfold F2R. cbn. lra. Qed.
Lemma quarter_stuck : nadd quarter tick = quarter.
Proof. apply B2SF_inj. vm_compute. reflexivity. Qed.

Lemma tick_add (p : f32) k : is_finite p = true -> Bsign p = false -> B2R p = (IZR k * bpow radix2 (-26))%R -> 0 <= k < 2 ^ 24 ->
  is_finite (nadd p tick) = true /\ Bsign (nadd p tick) = false /\ B2R (nadd p tick) = (IZR (k + 1) * bpow radix2 (-26))%R.
Proof.
  intros F S E K. destruct tick_R as [T [Ft St]].
  generalize (Bplus_correct 24 128 Hprec32 Hemax32 mode_NE p tick F Ft).
  change (Bplus mode_NE p tick) with (nadd p tick).
  rewrite E, T. replace (IZR k * bpow radix2 (-26) + bpow radix2 (-26))%R with (IZR (k + 1) * bpow radix2 (-26))%R by (rewrite plus_IZR; lra).
  assert (G : (rnd32 (IZR (k + 1) * bpow radix2 (-26)) = IZR (k + 1) * bpow radix2 (-26))%R).
  { apply round_generic; [apply valid_rnd_round_mode|]. destruct (Z.eq_dec (k + 1) (2 ^ 24)) as [Q|Q].
    - rewrite Q. replace (IZR (2 ^ 24) * bpow radix2 (-26))%R with (bpow radix2 (-2)) by (cbn; lra). apply generic_format_bpow. cbn. lia.
    - apply generic_format_FLT with (emin := -149) (prec := 24). exists (Float radix2 (k + 1) (-26)); [reflexivity| |]; cbn; lia. }
  rewrite G. assert (P : (0 < IZR (k + 1) * bpow radix2 (-26))%R) by (apply Rmult_lt_0_compat; [apply IZR_lt; lia|apply bpow_gt_0]).
  rewrite Rlt_bool_true.
  - intros [A [B C]]. split; auto. split; auto. rewrite C. rewrite Rcompare_Gt; auto.
  - rewrite Rabs_pos_eq by lra. apply Rle_lt_trans with (bpow radix2 24 * bpow radix2 (-26))%R.
    + apply Rmult_le_compat_r; [apply bpow_ge_0|]. cbn. apply IZR_le. lia.
    + rewrite <- bpow_plus. apply bpow_lt. lia.
Qed.

Lemma quarter_is (p : f32) : is_finite p = true -> Bsign p = false -> B2R p = (IZR (2 ^ 24) * bpow radix2 (-26))%R -> p = quarter.
Proof. intros F S E. destruct quarter_R as [Q [Fq Sq]]. apply B2R_Bsign_inj; auto. rewrite E, Q. cbn. lra. Qed.

(** [n] one-millisecond calls. *)
Lemma slow_state n : exists p : f32, snd (calls linear_call (linear_new len26) (repeat 1 n)) = mkLinear p len26 /\
  is_finite p = true /\ Bsign p = false /\ B2R p = (IZR (Z.min (Z.of_nat n) (2 ^ 24)) * bpow radix2 (-26))%R.
Proof.
  induction n as [|n IH].
  - exists nzero. split; [reflexivity|]. split; [reflexivity|]. split; [reflexivity|]. cbn. lra.
  - destruct IH as [p [E [F [S R]]]]. replace (repeat 1 (Datatypes.S n)) with (repeat 1 n ++ [1]) by (rewrite <- (repeat_cons n 1); reflexivity).
    rewrite calls_app, E. cbn [calls]. unfold linear_call. cbn [lin_progress lin_length fst snd]. change (ndiv (nof 1) len26) with tick.
    exists (nadd p tick). split; [reflexivity|]. destruct (Z_lt_ge_dec (Z.of_nat n) (2 ^ 24)) as [L|G].
    + destruct (tick_add p (Z.of_nat n) F S) as [A [B C]]; try lia. { rewrite R. f_equal. f_equal. lia. }
      repeat split; auto. rewrite C. f_equal. f_equal. lia.
    + assert (Q : p = quarter). { apply quarter_is; auto. rewrite R. f_equal. f_equal. lia. }
      subst p. rewrite quarter_stuck. repeat split; auto. rewrite R. f_equal. f_equal. lia.
Qed.
