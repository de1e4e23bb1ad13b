(** * Facts about the GObject steppers and animations *)

From Coq Require Import ZArith Bool String List Lia.
From Verif Require Import Num Geometry Outcome Steppers Transforms MagicLamp Program LemBasic LemSteppers LemLamp
  GlibParams GlibAnim SpecGlibAnim.
Import ListNotations.

(** ** Construct parameters *)

Section Params.
Context {V : Type}.
Implicit Types (t : table) (ps : params V).

Lemma ht_find_insert k k' v t : ht_find k (ht_insert k' v t) = if String.eqb k' k then Some v else ht_find k t.
Proof.
  induction t as [|[n x] t IH]; simpl; [reflexivity|].
  destruct (String.eqb n k') eqn:E; simpl.
  - apply String.eqb_eq in E. subst. destruct (String.eqb k' k); reflexivity.
  - rewrite IH. destruct (String.eqb n k) eqn:E2; [|reflexivity].
    apply String.eqb_eq in E2. subst. rewrite String.eqb_sym in E. rewrite E. reflexivity.
Qed.

Lemma wanted_find k l : forall t,
  ht_find k (fold_left (fun t k => ht_insert k None t) l t) = if in_dec string_dec k l then Some None else ht_find k t.
Proof.
  induction l as [|a l IH]; intros t; [reflexivity|]. cbn [fold_left]. rewrite IH, ht_find_insert.
  destruct (in_dec string_dec k l) as [I|I], (in_dec string_dec k (a :: l)) as [J|J]; try reflexivity.
  - exfalso. apply J. right. exact I.
  - destruct (String.eqb_spec a k); [reflexivity|]. exfalso. destruct J; tauto.
  - destruct (String.eqb_spec a k); [|reflexivity]. exfalso. apply J. left. auto.
Qed.

Lemma fill_unwanted k ps : forall t i, ht_find k t = None -> ht_find k (fill_table t i ps) = None.
Proof.
  induction ps as [|[n v] r IH]; intros t i N; [exact N|]. simpl. apply IH.
  destruct (ht_find n t) eqn:E; [|exact N]. rewrite ht_find_insert.
  destruct (String.eqb_spec n k); [|exact N]. subst. rewrite N in E. discriminate E.
Qed.

Lemma fill_wanted k ps : forall pre t, ht_find k t <> None ->
  lookup_gvalue (pre ++ ps) (fill_table t (length pre) ps) k =
  match last_value k ps with Some v => Some v | None => lookup_gvalue (pre ++ ps) t k end.
Proof.
  induction ps as [|[n v] r IH]; intros pre t N; [reflexivity|]. simpl.
  set (t' := match ht_find n t with Some _ => ht_insert n (Some (length pre)) t | None => t end).
  replace (pre ++ (n, v) :: r) with ((pre ++ [(n, v)]) ++ r) by (rewrite <- app_assoc; reflexivity).
  replace (S (length pre)) with (length (pre ++ [(n, v)])) by (rewrite app_length; simpl; lia).
  assert (T : ht_find k t' = if String.eqb n k then Some (Some (length pre)) else ht_find k t).
  { unfold t'. destruct (ht_find n t) eqn:E.
    - apply ht_find_insert.
    - destruct (String.eqb_spec n k); [|reflexivity]. subst. contradiction. }
  rewrite IH.
  - destruct (last_value k r); [reflexivity|]. unfold lookup_gvalue at 1. rewrite T.
    destruct (String.eqb_spec n k), (string_dec n k); try contradiction; [|reflexivity].
    rewrite nth_error_app1 by (rewrite app_length; simpl; lia).
    rewrite nth_error_app2, Nat.sub_diag by lia. reflexivity.
  - rewrite T. destruct (String.eqb n k); [discriminate|exact N].
Qed.

Lemma values_spec wanted ps k :
  (In k wanted -> lookup_gvalue ps (values_for_specs wanted ps) k = last_value k ps) /\
  (~ In k wanted -> lookup_gvalue ps (values_for_specs wanted ps) k = None).
Proof.
  assert (W : ht_find k (wanted_table wanted) = if in_dec string_dec k wanted then Some None else None)
    by (unfold wanted_table; rewrite wanted_find; reflexivity).
  destruct (in_dec string_dec k wanted) as [I|I]; split; intros J; try contradiction; unfold values_for_specs.
  - pose proof (fill_wanted k ps [] (wanted_table wanted)) as X. cbn [app length] in X. rewrite X by (rewrite W; discriminate).
    destruct (last_value k ps); [reflexivity|]. unfold lookup_gvalue. rewrite W. reflexivity.
  - unfold lookup_gvalue. rewrite fill_unwanted; auto.
Qed.

Lemma replace_first before name (v v' : V) after : ~ In name (map fst before) ->
  replace_construct_param (before ++ (name, v) :: after) name v' = Ok (before ++ (name, v') :: after).
Proof.
  induction before as [|[n x] b IH]; simpl; intros N.
  - rewrite String.eqb_refl. reflexivity.
  - destruct (String.eqb_spec n name); [subst; tauto|]. rewrite IH by tauto. reflexivity.
Qed.

Lemma replace_null_first is_null before name (v d : V) after : ~ In name (map fst before) ->
  replace_if_null is_null (before ++ (name, v) :: after) name d =
  Ok (before ++ (name, if is_null v then d else v) :: after, is_null v).
Proof.
  induction before as [|[n x] b IH]; simpl; intros N.
  - rewrite String.eqb_refl. destruct (is_null v); reflexivity.
  - destruct (String.eqb_spec n name); [subst; tauto|]. rewrite IH by tauto. reflexivity.
Qed.

Lemma replace_absent ps name (v : V) : ~ In name (map fst ps) -> replace_construct_param ps name v = Err AssertFailed.
Proof.
  induction ps as [|[n x] b IH]; simpl; intros N; [reflexivity|].
  destruct (String.eqb_spec n name); [subst; tauto|]. rewrite IH by tauto. reflexivity.
Qed.

Lemma replace_null_absent is_null ps name (d : V) : ~ In name (map fst ps) ->
  replace_if_null is_null ps name d = Err AssertFailed.
Proof.
  induction ps as [|[n x] b IH]; simpl; intros N; [reflexivity|].
  destruct (String.eqb_spec n name); [subst; tauto|]. rewrite IH by tauto. reflexivity.
Qed.

Lemma first_named name ps : In name (map fst ps) ->
  exists before v after, ps = before ++ (name, v) :: after /\ ~ In name (map fst before).
Proof.
  induction ps as [|[n x] r IH]; simpl; intros I; [tauto|].
  destruct (string_dec n name) as [->|E].
  - exists [], x, r. auto.
  - destruct I as [I|I]; [contradiction|]. destruct (IH I) as (b & v & a & -> & N).
    exists ((n, x) :: b), v, a. split; [reflexivity|]. simpl. tauto.
Qed.

End Params.

(** ** Construction *)

Section Objects.
Context {F D : Type} `{Num F} `{Num D} `{Conv F D} `{Libm F} `{Libm D}.
Implicit Types (w : gaworld F D) (s : gstepper F).

Lemma linear_object_ok n : linear_object (F := F) (D := D) n =
  Ok (SHolder (GLin (linear_new (nof (match n with Some n => n | None => 300%Z end))))).
Proof. reflexivity. Qed.

Lemma reverse_object_ok w b : reverse_object w b =
  (x <- stepper_from w (Some (VObject b)) ;; Ok (SHolder (GRev x))).
Proof. unfold reverse_object. cbn. destruct b; cbn; [destruct (read_stepper w n)|]; reflexivity. Qed.

(** What [g_object_new] hands to the native constructor. *)
Definition args_of (c : gargs F D) : res (anim_args F D) :=
  match c with
  | GBounce i m n t _ =>
      Ok (NewBounce (or_default (nlit 7 10) i) (or_default (nlit 12 10) m) (or_default 1%Z n) (box_or_unit t))
  | GGlide d xr yr xa ya wd t _ =>
      Ok (NewGlide (or_default (nlit (-3) 10) d) (or_default (nof 0) xr) (or_default (nof 0) yr)
            (or_default (nlit 2 10) xa) (or_default (nlit 5 10) ya) (or_default 1%Z wd) (box_or_unit t))
  | GZoom f t _ => Ok (NewZoom (box_or_unit f) (box_or_unit t))
  | GLamp f t r b o st sp _ =>
      let p := match r with Some p => p | None => mkV (nof 10) (nof 10) end in
      x <- to_size (vx p) ;; y <- to_size (vy p) ;;
      Ok (NewLamp (mkLamp (box_or_unit f) (box_or_unit t) (or_default (nof 10) b) (or_default (nlit 5 10) o)
            (or_default (nlit 45 100) st) (or_default (nlit 23 10) sp)) (mkRes x y))
  end.

(** What is set once more after the native constructor. *)
Definition set_again (c : gargs F D) s a : ganim F D :=
  anim_set_stepper gcall s (match c with GZoom (Some b) _ _ => set_box "from" (Some b) a | _ => a end).

Definition stepper_of w (i : option nat) : res (gstepper F) :=
  match i with Some i => read_stepper w i | None => Ok (GLin (linear_new (nof 300))) end.

Lemma set_same w k n v r a : set_property w n v a = Ok a -> (forall x, v <> VInterface x) ->
  set_construct w k ((n, v) :: r) (Some a) = set_construct w k r (Some a).
Proof.
  intros E N. cbn [set_construct]. destruct v; try (exfalso; eapply N; reflexivity);
  (destruct (valid k n _); [cbn [of_option bind]; rewrite E; reflexivity|reflexivity]).
Qed.

Lemma set_next w k n v r a a' : valid k n v = true -> set_property w n v a = Ok a' -> (forall x, v <> VInterface x) ->
  set_construct w k ((n, v) :: r) (Some a) = set_construct w k r (Some a').
Proof.
  intros V E N. cbn [set_construct]. destruct v; try (exfalso; eapply N; reflexivity);
  rewrite V; cbn [of_option bind]; rewrite E; reflexivity.
Qed.

Lemma set_interface w k n x r (a : option (ganim F D)) : set_construct w k ((n, VInterface x) :: r) a = set_construct w k r x.
Proof. reflexivity. Qed.

Lemma read_added w x : read_stepper (add_stepper w (SHolder x)) (length (ga_steppers w)) = Ok x.
Proof. unfold read_stepper, add_stepper. cbn [ga_steppers]. rewrite nth_error_app2, Nat.sub_diag by lia. reflexivity. Qed.

Lemma set_last w k n i a x : read_stepper w i = Ok x -> n = "stepper"%string ->
  set_construct w k [(n, VObject (Some i))] (Some a) = Ok (Some (anim_set_stepper gcall x a)).
Proof.
  intros R ->. cbn [set_construct]. replace (valid k "stepper" (VObject (Some i))) with true by (destruct k; reflexivity).
  cbn [of_option bind set_property set_stepper]. rewrite String.eqb_refl, R. reflexivity.
Qed.

(** The tables the constructors build. *)
Lemma glide_table d xr yr xa ya wd t (s : option nat) :
  values_for_specs (wanted CGlide) (gargs_params (GGlide (F := F) (D := D) d xr yr xa ya wd t s)) =
  [("initial-distance", Some 1); ("x-rotation-angle-degrees", Some 2); ("y-rotation-angle-degrees", Some 3);
   ("x-axis-location-unit", Some 4); ("y-axis-location-unit", Some 5); ("screen-width", Some 6);
   ("target", Some 7); ("stepper", Some 8)]%string%nat.
Proof. reflexivity. Qed.
Lemma lamp_table f t r b o st sp (s : option nat) :
  values_for_specs (wanted CLamp) (gargs_params (GLamp (F := F) (D := D) f t r b o st sp s)) =
  [("source", Some 1); ("target", Some 2); ("resolution", Some 3); ("bend-factor", Some 4);
   ("offset-factor", Some 5); ("stretch-factor", Some 6); ("deform-speed-factor", Some 7);
   ("stepper", Some 8)]%string%nat.
Proof. reflexivity. Qed.

(** Construction from the parameters after the defaults have been put in. *)
Lemma anim_object_eq w c :
  anim_object w c = (args <- args_of c ;; s <- stepper_of w (stepper_arg c) ;;
                     x <- anim_new gcall args s ;; Ok (set_again c s x)).
Proof.
  remember (stepper_arg c) as sa eqn:SA.
  remember (if match sa with Some _ => false | None => true end
            then add_stepper w (SHolder (GLin (linear_new (nof 300)))) else w) as w1 eqn:W. symmetry in W.
  remember (match sa with Some i => i | None => length (ga_steppers w) end) as i eqn:I. symmetry in I.
  assert (E : read_stepper w1 i = stepper_of w sa).
  { subst. destruct (stepper_arg c); [reflexivity|apply read_added]. }
  unfold anim_object. rewrite linear_object_ok.
  destruct c as [ci m n t s|d xr yr xa ya wd t s|f t s|f t r b o st sp s]; cbn [stepper_arg] in SA; subst sa.
  - replace (replace_if_null is_null (gargs_params (GBounce ci m n t s)) "stepper" (VObject (Some (length (ga_steppers w)))))
      with (Ok (gargs_params (GBounce ci m n t (Some i)), match s with Some _ => false | None => true end))
      by (subst i; destruct s; reflexivity).
    cbn [bind fst snd gargs_class]. rewrite W.
    cbn -[set_construct]. rewrite E. destruct (stepper_of w s) as [x|e]; [|reflexivity]. cbn [bind].
    unfold bounce_new. destruct (gcall x 0) as [p x1] eqn:C. cbn -[set_construct].
    rewrite set_interface, !set_same by (reflexivity || discriminate).
    rewrite (set_last _ _ _ _ _ x E) by reflexivity. reflexivity.
  - replace (replace_if_null is_null (gargs_params (GGlide d xr yr xa ya wd t s)) "stepper" (VObject (Some (length (ga_steppers w)))))
      with (Ok (gargs_params (GGlide d xr yr xa ya wd t (Some i)), match s with Some _ => false | None => true end))
      by (subst i; destruct s; reflexivity).
    cbn [bind fst snd gargs_class]. rewrite W. unfold native_args, native_stepper. rewrite !glide_table.
    cbn -[set_construct]. rewrite E. destruct (stepper_of w s) as [x|e]; [|reflexivity]. cbn [bind].
    unfold glide_new. destruct (gcall x 0) as [p x1] eqn:C. cbn -[set_construct].
    rewrite set_interface, !set_same by (reflexivity || discriminate).
    rewrite (set_last _ _ _ _ _ x E) by reflexivity. reflexivity.
  - replace (replace_if_null is_null (gargs_params (GZoom (F := F) f t s)) "stepper" (VObject (Some (length (ga_steppers w)))))
      with (Ok (gargs_params (GZoom (F := F) f t (Some i)), match s with Some _ => false | None => true end))
      by (subst i; destruct s; reflexivity).
    cbn [bind fst snd gargs_class]. rewrite W.
    cbn -[set_construct]. rewrite E. destruct (stepper_of w s) as [x|e]; [|reflexivity]. cbn [bind].
    unfold zoom_new. destruct (gcall x 0) as [p x1] eqn:C. cbn -[set_construct].
    rewrite set_interface. destruct f as [f|].
    + erewrite set_next; [|reflexivity|reflexivity|discriminate].
      rewrite set_same; [|destruct t; reflexivity|discriminate].
      rewrite (set_last _ _ _ _ _ x E) by reflexivity. reflexivity.
    + rewrite set_same by (reflexivity || discriminate).
      rewrite set_same; [|destruct t; reflexivity|discriminate].
      rewrite (set_last _ _ _ _ _ x E) by reflexivity. reflexivity.
  - replace (replace_if_null is_null (gargs_params (GLamp f t r b o st sp s)) "stepper" (VObject (Some (length (ga_steppers w)))))
      with (Ok (gargs_params (GLamp f t r b o st sp (Some i)), match s with Some _ => false | None => true end))
      by (subst i; destruct s; reflexivity).
    cbn [bind fst snd gargs_class]. rewrite W.
    set (p := match r with Some p => p | None => mkV (nof 10) (nof 10) end).
    replace (replace_if_null is_null (gargs_params (GLamp f t r b o st sp (Some i))) "resolution" (VVec (Some (mkV (nof 10) (nof 10)))))
      with (Ok (gargs_params (GLamp f t (Some p) b o st sp (Some i)), match r with Some _ => false | None => true end))
      by (unfold p; destruct r; reflexivity).
    cbn [bind fst snd]. unfold native_args, native_stepper. rewrite !lamp_table.
    cbn -[set_construct to_size]. unfold size_from. cbn [get_vec]. fold p.
    destruct (to_size (vx p)) as [x|e]; [|reflexivity]. cbn [bind].
    destruct (to_size (vy p)) as [y|e]; [|reflexivity]. cbn [bind].
    rewrite E. destruct (stepper_of w s) as [z|e]; [|reflexivity]. cbn [bind anim_new].
    unfold lamp_new. destruct (gcall z 0) as [pr z1] eqn:C.
    replace (box_from (Some (VBox f))) with (box_or_unit f) by reflexivity.
    replace (box_from (Some (VBox t))) with (box_or_unit t) by reflexivity.
    cbn [get_float].
    destruct (move_grid _ _ _ _) as [g|e]; [|reflexivity]. cbn [bind].
    rewrite set_interface.
    rewrite set_same; [|destruct f; reflexivity|discriminate].
    rewrite set_same; [|destruct t; reflexivity|discriminate].
    rewrite !set_same by (reflexivity || discriminate).
    rewrite (set_last _ _ _ _ _ z E) by reflexivity. reflexivity.
Qed.

(** ** Objects and the client's knowledge of them *)

Definition kind_of (x : sobj F) : option skind :=
  match x with SHolder _ => Some Own | SWrapper a => Some (Observes a) | SGone => None end.
Definition is_there (x : option (ganim F D)) : bool := match x with Some _ => true | None => false end.
Definition arel w (c : aclient) : Prop :=
  ac_steppers c = map kind_of (ga_steppers w) /\ ac_anims c = map is_there (ga_anims w).

Lemma arel_start : arel ga_start aclient_start.
Proof. split; reflexivity. Qed.

Lemma set_kind w i x y : nth_error (ga_steppers w) i = Some x -> kind_of y = kind_of x ->
  map kind_of (list_set i y (ga_steppers w)) = map kind_of (ga_steppers w).
Proof. intros N K. rewrite list_set_map, K. apply list_set_same. rewrite nth_error_map, N. reflexivity. Qed.
Lemma set_there w (a : nat) x y : nth_error (ga_anims w) a = Some (Some x) ->
  map is_there (list_set a (Some y) (ga_anims w)) = map is_there (ga_anims w).
Proof. intros N. rewrite list_set_map. apply list_set_same. rewrite nth_error_map, N. reflexivity. Qed.

Lemma the_ganim_nth w (a : nat) x : the_ganim w a = Ok x <-> nth_error (ga_anims w) a = Some (Some x).
Proof.
  unfold the_ganim. destruct (nth_error (ga_anims w) a) as [[y|]|]; split; intros E; try discriminate E; injection E as <-; reflexivity.
Qed.

(** What a successful call does, case by case. *)
Lemma ga_do_cases w o w' u : ga_do w o = Ok (w', u) ->
  match o with
  | ANewLinear n => w' = add_stepper w (SHolder (GLin (linear_new (nof (match n with Some n => n | None => 300%Z end))))) /\
      u = RStepper (length (ga_steppers w))
  | ANewReverse b => u = RStepper (length (ga_steppers w)) /\
      exists s, stepper_of w b = Ok s /\ w' = add_stepper w (SHolder (GRev s))
  | AStepperStep i ms => exists s, read_stepper w i = Ok s /\ u = RValue (fst (gcall s ms)) /\
      ((nth_error (ga_steppers w) i = Some (SHolder s) /\ w' = set_stepper_obj w i (SHolder (snd (gcall s ms)))) \/
       exists a x, nth_error (ga_steppers w) i = Some (SWrapper a) /\ nth_error (ga_anims w) a = Some (Some x) /\
         s = anim_stepper x /\ w' = set_ganim w a (Some (anim_set_stepper gcall (snd (gcall s ms)) x)))
  | AStepperFinalize i => exists s, nth_error (ga_steppers w) i = Some (SHolder s) /\ w' = set_stepper_obj w i SGone
  | ANew g => exists x, anim_object w g = Ok x /\ u = RAnim (length (ga_anims w)) /\
      w' = mkGA (ga_steppers w) (ga_anims w ++ [Some x])
  | AStep a ms => exists x x' b, nth_error (ga_anims w) a = Some (Some x) /\ anim_step gcall ms x = Ok (x', b) /\
      u = RMore b /\ w' = set_ganim w a (Some x')
  | ASetStepper a i => exists x j s, nth_error (ga_anims w) a = Some (Some x) /\ i = Some j /\ read_stepper w j = Ok s /\
      w' = set_ganim w a (Some (anim_set_stepper gcall s x))
  | AGetStepper a => exists x, nth_error (ga_anims w) a = Some (Some x) /\
      u = RStepper (length (ga_steppers w)) /\ w' = add_stepper w (SWrapper a)
  | ASetTo a n v => exists x, nth_error (ga_anims w) a = Some (Some x) /\ w' = set_ganim w a (Some (set_to n v x))
  | ASet a n v => exists x x', nth_error (ga_anims w) a = Some (Some x) /\ object_set w n v x = Ok x' /\
      w' = set_ganim w a (Some x')
  | AFinalize a => exists x, nth_error (ga_anims w) a = Some (Some x) /\ w' = set_ganim w a None
  end.
Proof.
  destruct o as [n|b|i ms|i|g|a ms|a i|a|a n v|a n v|a]; cbn [ga_do]; intros E.
  - injection E as <- <-. auto.
  - rewrite reverse_object_ok in E. replace (stepper_from w (Some (VObject b))) with (stepper_of w b) in E by (destruct b; reflexivity).
    destruct (stepper_of w b) as [s|]; [|discriminate E]. injection E as <- <-. eauto.
  - destruct (stepper_step w i ms) as [[w1 v]|] eqn:S; [|discriminate E]. injection E as <- <-.
    unfold stepper_step in S. destruct (read_stepper w i) as [s|] eqn:R; [|discriminate S]. cbn [bind] in S.
    exists s. split; [reflexivity|]. destruct (gcall s ms) as [v' s'] eqn:G. cbn [fst snd].
    unfold read_stepper in R. destruct (nth_error (ga_steppers w) i) as [[t|a|]|] eqn:N; try discriminate R.
    + injection R as ->. injection S as <- <-. auto.
    + destruct (nth_error (ga_anims w) a) as [[x|]|] eqn:X; try discriminate R. injection R as <-. injection S as <- <-.
      split; [reflexivity|]. right. exists a, x. repeat split; auto.
  - unfold stepper_finalize in E. destruct (nth_error (ga_steppers w) i) as [[t|a|]|] eqn:N; try discriminate E.
    + injection E as <- <-. eauto.
    + destruct (nth_error (ga_anims w) a) as [[x|]|]; discriminate E.
  - destruct (anim_object w g) as [x|]; [|discriminate E]. injection E as <- <-. eauto.
  - destruct (the_ganim w a) as [x|] eqn:A; [|discriminate E]. apply the_ganim_nth in A. cbn [bind] in E.
    destruct (anim_step gcall ms x) as [[x' b]|] eqn:S; [|discriminate E]. injection E as <- <-. exists x, x', b. auto.
  - destruct (the_ganim w a) as [x|] eqn:A; [|discriminate E]. apply the_ganim_nth in A. cbn [bind] in E.
    unfold set_stepper in E. destruct i as [j|]; [|discriminate E]. destruct (read_stepper w j) as [s|] eqn:R; [|discriminate E].
    injection E as <- <-. exists x, j, s. auto.
  - destruct (the_ganim w a) as [x|] eqn:A; [|discriminate E]. apply the_ganim_nth in A. injection E as <- <-. eauto.
  - destruct (the_ganim w a) as [x|] eqn:A; [|discriminate E]. apply the_ganim_nth in A. injection E as <- <-. eauto.
  - destruct (the_ganim w a) as [x|] eqn:A; [|discriminate E]. apply the_ganim_nth in A. cbn [bind] in E.
    destruct (object_set w n v x) as [x'|] eqn:O; [|discriminate E]. injection E as <- <-. exists x, x'. auto.
  - destruct (the_ganim w a) as [x|] eqn:A; [|discriminate E]. apply the_ganim_nth in A. injection E as <- <-. eauto.
Qed.

Lemma arel_do w c o w' u : arel w c -> ga_do w o = Ok (w', u) -> arel w' (aclient_do c o).
Proof.
  intros [R1 R2] E. pose proof (ga_do_cases _ _ _ _ E) as C. unfold arel.
  destruct o as [n|b|i ms|i|g|a ms|a i|a|a n v|a n v|a]; cbn [aclient_do ac_steppers ac_anims]; try rewrite R1; try rewrite R2.
  - destruct C as [-> _]. cbn. rewrite map_app. auto.
  - destruct C as (_ & s & _ & ->). cbn. rewrite map_app. auto.
  - destruct C as (s & _ & _ & [[N ->]|(a & x & N & A & _ & ->)]); cbn.
    + erewrite set_kind; eauto.
    + erewrite set_there; eauto.
  - destruct C as (s & N & ->). cbn. rewrite list_set_map. auto.
  - destruct C as (x & _ & _ & ->). cbn. rewrite map_app. auto.
  - destruct C as (x & x' & b & A & _ & _ & ->). cbn. erewrite set_there; eauto.
  - destruct C as (x & j & s & A & _ & _ & ->). cbn. erewrite set_there; eauto.
  - destruct C as (x & A & _ & ->). cbn. rewrite map_app. auto.
  - destruct C as (x & A & ->). cbn. erewrite set_there; eauto.
  - destruct C as (x & x' & A & _ & ->). cbn. erewrite set_there; eauto.
  - destruct C as (x & A & ->). cbn. rewrite list_set_map. auto.
Qed.

Lemma run_cons w o t w' us : ga_run w (o :: t) = Ok (w', us) ->
  exists w1 u us', ga_do w o = Ok (w1, u) /\ ga_run w1 t = Ok (w', us') /\ us = u :: us'.
Proof.
  cbn [ga_run]. destruct (ga_do w o) as [[w1 u]|]; [|discriminate]. cbn [bind fst snd].
  destruct (ga_run w1 t) as [[w2 us']|] eqn:E2; [|discriminate]. intros E. injection E as <- <-. eauto 8.
Qed.

Lemma run_app l1 : forall w l2 w' us, ga_run w (l1 ++ l2) = Ok (w', us) ->
  exists w1 us1 us2, ga_run w l1 = Ok (w1, us1) /\ ga_run w1 l2 = Ok (w', us2) /\ us = us1 ++ us2 /\ length us1 = length l1.
Proof.
  induction l1 as [|o t IH]; intros w l2 w' us E.
  - exists w, [], us. auto.
  - cbn [app] in E. apply run_cons in E. destruct E as (w1 & u & us' & D1 & E & ->).
    destruct (IH _ _ _ _ E) as (w2 & us1 & us2 & E1 & E2 & -> & L).
    exists w2, (u :: us1), us2. cbn [ga_run]. rewrite D1. cbn [bind fst snd]. rewrite E1. cbn. rewrite L. auto.
Qed.

Lemma arel_run ops : forall w c w' us, arel w c -> ga_run w ops = Ok (w', us) -> arel w' (fold_left aclient_do ops c).
Proof.
  induction ops as [|o t IH]; intros w c w' us R E.
  - injection E as <- <-. exact R.
  - apply run_cons in E. destruct E as (w1 & u & us' & E1 & E2 & _). cbn [fold_left]. eapply IH; [|exact E2]. eapply arel_do; eauto.
Qed.

(** ** Careful clients *)

Lemma read_usable w c i : arel w c -> usable c i -> exists s, read_stepper w i = Ok s.
Proof.
  intros [R1 R2] U. unfold usable, present in U. unfold read_stepper. rewrite R1, nth_error_map in U.
  destruct (nth_error (ga_steppers w) i) as [[s|a|]|] eqn:N; cbn in U.
  - eauto.
  - destruct U as [U|(b & U & P)]; [discriminate U|]. injection U as <-. rewrite R2, nth_error_map in P.
    destruct (nth_error (ga_anims w) a) as [[x|]|]; try discriminate P. eauto.
  - destruct U as [U|(b & U & _)]; discriminate U.
  - destruct U as [U|(b & U & _)]; discriminate U.
Qed.

Lemma there w c (a : nat) : arel w c -> present c a -> exists x, the_ganim w a = Ok x.
Proof.
  intros [_ R2] P. unfold present in P. rewrite R2, nth_error_map in P. unfold the_ganim.
  destruct (nth_error (ga_anims w) a) as [[x|]|]; try discriminate P. eauto.
Qed.

Definition harmless (e : err) : Prop := e <> UseAfterFree /\ e <> BadFree /\ e <> NullDeref.

Lemma writes_harmless ws : forall (g : list (vec D)) e, do_writes ws g = Err e -> harmless e.
Proof.
  induction ws as [|[k p] t IH]; intros g e E; [discriminate E|]. cbn [do_writes] in E.
  destruct (Z.ltb k (Z.of_nat (length g))); [|injection E as <-; repeat split; discriminate].
  eapply IH; eauto.
Qed.

Lemma new_harmless args s e : anim_new gcall args s = Err e -> harmless e.
Proof.
  destruct args; try discriminate. cbn [anim_new]. unfold lamp_new. destruct (gcall s 0) as [p s1].
  unfold move_grid. destruct (do_writes _ _) eqn:W; [discriminate|]. intros E. injection E as <-. eapply writes_harmless; eauto.
Qed.

Lemma step_harmless ms a e : anim_step gcall ms a = Err e -> harmless e.
Proof.
  destruct a as [b|b|b|b]; cbn [anim_step].
  1: destruct (bounce_step gcall ms b); discriminate.
  1: destruct (glide_step gcall ms b); discriminate.
  1: destruct (zoom_step gcall ms b); discriminate.
  unfold lamp_step. destruct (gcall _ ms) as [p s1]. unfold move_grid.
  destruct (do_writes _ _) eqn:W; [discriminate|]. intros E. injection E as <-. eapply writes_harmless; eauto.
Qed.

Lemma size_harmless (d : D) e : to_size d = Err e -> harmless e.
Proof.
  unfold to_size. destruct (ntrunc d); [destruct (_ && _); [discriminate|]|]; intros E; injection E as <-; repeat split; discriminate.
Qed.

Lemma careful_do w c o e : arel w c -> acareful c o -> ga_do w o = Err e -> harmless e.
Proof.
  intros R C E.
  assert (ST : forall i, usable_or_null c i -> exists s, stepper_of w i = Ok s).
  { intros [i|] U; [eapply read_usable; eauto|]. cbn. eauto. }
  destruct o as [n|b|i ms|i|g|a ms|a i|a|a n v|a n v|a]; cbn [ga_do acareful] in *.
  - discriminate E.
  - rewrite reverse_object_ok in E. replace (stepper_from w (Some (VObject b))) with (stepper_of w b) in E by (destruct b; reflexivity).
    destruct (ST _ C) as (s & X). rewrite X in E. discriminate E.
  - destruct (read_usable _ _ _ R C) as (s & X). unfold stepper_step in E. rewrite X in E. cbn [bind] in E.
    destruct (gcall s ms) as [v s']. unfold read_stepper in X.
    destruct (nth_error (ga_steppers w) i) as [[t|a|]|]; try discriminate X; try discriminate E.
    destruct (nth_error (ga_anims w) a) as [[x|]|]; try discriminate X; try discriminate E.
  - destruct R as [R1 _]. rewrite R1, nth_error_map in C. unfold stepper_finalize in E.
    destruct (nth_error (ga_steppers w) i) as [[t|a|]|]; try discriminate C; discriminate E.
  - rewrite anim_object_eq in E. destruct (ST _ C) as (s & X). rewrite X in E.
    destruct (args_of g) as [args|e'] eqn:A.
    + cbn [bind] in E. destruct (anim_new gcall args s) as [x|e'] eqn:N; [discriminate E|]. injection E as <-. eapply new_harmless; eauto.
    + injection E as <-. destruct g as [| | |f t r b o st sp s0]; try discriminate A. cbn [args_of] in A.
      set (p := match r with Some p => p | None => mkV (nof 10) (nof 10) end) in A.
      destruct (to_size (vx p)) eqn:T1; [|injection A as <-; eapply size_harmless; eauto]. cbn [bind] in A.
      destruct (to_size (vy p)) eqn:T2; [discriminate A|]. injection A as <-. eapply size_harmless; eauto.
  - destruct (there _ _ _ R C) as (x & X). rewrite X in E. cbn [bind] in E.
    destruct (anim_step gcall ms x) as [?|e'] eqn:S; [discriminate E|]. injection E as <-. eapply step_harmless; eauto.
  - destruct C as [P (j & -> & U)]. destruct (there _ _ _ R P) as (x & X). destruct (read_usable _ _ _ R U) as (s & Y).
    rewrite X in E. cbn [bind set_stepper] in E. rewrite Y in E. discriminate E.
  - destruct (there _ _ _ R C) as (x & X). rewrite X in E. discriminate E.
  - destruct (there _ _ _ R C) as (x & X). rewrite X in E. discriminate E.
  - destruct C as [P U]. destruct (there _ _ _ R P) as (x & X). rewrite X in E. cbn [bind] in E.
    assert (OK : exists x', object_set w n v x = Ok x').
    { unfold object_set. destruct (_ && _); [|eauto]. destruct v; cbn [set_property]; eauto.
      destruct U as (j & -> & U). destruct (String.eqb n "stepper"); [|eauto]. cbn [set_stepper].
      destruct (read_usable _ _ _ R U) as (s & ->). cbn. eauto. }
    destruct OK as (x' & X'). rewrite X' in E. discriminate E.
  - destruct (there _ _ _ R C) as (x & X). rewrite X in E. discriminate E.
Qed.

Lemma careful_run ops : forall w c e, arel w c -> aeach acareful c ops -> ga_run w ops = Err e -> harmless e.
Proof.
  induction ops as [|o t IH]; intros w c e R C E; [discriminate E|]. destruct C as [C1 C2]. cbn [ga_run] in E.
  destruct (ga_do w o) as [[w1 u]|e'] eqn:X.
  - cbn [bind fst snd] in E. destruct (ga_run w1 t) as [?|e'] eqn:Y; [discriminate E|]. injection E as <-.
    eapply IH; [|exact C2|exact Y]. eapply arel_do; eauto.
  - injection E as <-. eapply careful_do; eauto.
Qed.

(** ** Private steppers *)

Lemma holder_frame w o w' u i s : ga_do w o = Ok (w', u) -> nth_error (ga_steppers w) i = Some (SHolder s) ->
  (forall ms, o <> AStepperStep i ms) -> o <> AStepperFinalize i -> nth_error (ga_steppers w') i = Some (SHolder s).
Proof.
  intros E N S X. apply ga_do_cases in E.
  assert (L : (i < length (ga_steppers w))%nat) by (apply nth_error_Some; congruence).
  assert (AP : forall y, nth_error (ga_steppers w ++ [y]) i = Some (SHolder s)) by (intros; rewrite nth_error_app1; auto).
  destruct o as [n|b|j ms|j|g|a ms|a j|a|a n v|a n v|a].
  - destruct E as [-> _]. apply AP.
  - destruct E as (_ & x & _ & ->). apply AP.
  - destruct E as (x & _ & _ & [[M ->]|(a & y & M & _ & _ & ->)]); [|exact N].
    cbn. rewrite nth_error_list_set_neq; auto. intros ->. apply (S ms). reflexivity.
  - destruct E as (x & M & ->). cbn. rewrite nth_error_list_set_neq; [exact N|congruence].
  - destruct E as (x & _ & _ & ->). exact N.
  - destruct E as (x & x' & b & _ & _ & _ & ->). exact N.
  - destruct E as (x & k & y & _ & _ & _ & ->). exact N.
  - destruct E as (x & _ & _ & ->). apply AP.
  - destruct E as (x & _ & ->). exact N.
  - destruct E as (x & x' & _ & _ & ->). exact N.
  - destruct E as (x & _ & ->). exact N.
Qed.

Lemma holder_step w i ms w' u s : ga_do w (AStepperStep i ms) = Ok (w', u) -> nth_error (ga_steppers w) i = Some (SHolder s) ->
  u = RValue (fst (gcall s ms)) /\ nth_error (ga_steppers w') i = Some (SHolder (snd (gcall s ms))).
Proof.
  intros E N. apply ga_do_cases in E. destruct E as (t & R & -> & C). unfold read_stepper in R. rewrite N in R. injection R as <-.
  split; [reflexivity|]. destruct C as [[_ ->]|(a & x & M & _)]; [|congruence].
  cbn. apply nth_error_list_set_eq. apply nth_error_Some. congruence.
Qed.

Lemma gone_frame w o w' u i : ga_do w o = Ok (w', u) -> nth_error (ga_steppers w) i = Some SGone ->
  (forall ms, o <> AStepperStep i ms) /\ nth_error (ga_steppers w') i = Some SGone.
Proof.
  intros E N. split.
  - intros ms ->. apply ga_do_cases in E. destruct E as (t & R & _). unfold read_stepper in R. rewrite N in R. discriminate R.
  - assert (L : (i < length (ga_steppers w))%nat) by (apply nth_error_Some; congruence).
    assert (AP : forall y, nth_error (ga_steppers w ++ [y]) i = Some SGone) by (intros; rewrite nth_error_app1; auto).
    apply ga_do_cases in E. destruct o as [n|b|j ms|j|g|a ms|a j|a|a n v|a n v|a].
    + destruct E as [-> _]. apply AP.
    + destruct E as (_ & x & _ & ->). apply AP.
    + destruct E as (x & _ & _ & [[M ->]|(a & y & M & _ & _ & ->)]); [|exact N].
      cbn. rewrite nth_error_list_set_neq; [exact N|congruence].
    + destruct E as (x & M & ->). cbn. rewrite nth_error_list_set_neq; [exact N|congruence].
    + destruct E as (x & _ & _ & ->). exact N.
    + destruct E as (x & x' & b & _ & _ & _ & ->). exact N.
    + destruct E as (x & k & y & _ & _ & _ & ->). exact N.
    + destruct E as (x & _ & _ & ->). apply AP.
    + destruct E as (x & _ & ->). exact N.
    + destruct E as (x & x' & _ & _ & ->). exact N.
    + destruct E as (x & _ & ->). exact N.
Qed.

Lemma gone_values ops : forall w w' us i, ga_run w ops = Ok (w', us) -> nth_error (ga_steppers w) i = Some SGone ->
  stepper_times i ops = [] /\ stepper_values i ops us = [] /\ nth_error (ga_steppers w') i = Some SGone.
Proof.
  induction ops as [|o t IH]; intros w w' us i E N; [injection E as <- <-; auto|].
  apply run_cons in E. destruct E as (w1 & u & us' & E1 & E2 & ->).
  destruct (gone_frame _ _ _ _ _ E1 N) as [S N1]. destruct (IH _ _ _ _ E2 N1) as (T & V & G).
  destruct o; cbn [stepper_times stepper_values]; auto.
  assert (X : Nat.eqb i0 i = false) by (apply Nat.eqb_neq; intros ->; eapply S; reflexivity).
  rewrite X. destruct u; auto.
Qed.

Lemma private_run ops : forall w w' us i s, ga_run w ops = Ok (w', us) -> nth_error (ga_steppers w) i = Some (SHolder s) ->
  stepper_values i ops us = fst (calls gcall s (stepper_times i ops)) /\
  (nth_error (ga_steppers w') i = Some SGone \/
   nth_error (ga_steppers w') i = Some (SHolder (snd (calls gcall s (stepper_times i ops))))).
Proof.
  induction ops as [|o t IH]; intros w w' us i s E N.
  - injection E as <- <-. auto.
  - apply run_cons in E. destruct E as (w1 & u & us' & E1 & E2 & ->).
    assert (SKIP : (forall ms, o <> AStepperStep i ms) -> o <> AStepperFinalize i ->
      stepper_values i t us' = fst (calls gcall s (stepper_times i t)) /\
      (nth_error (ga_steppers w') i = Some SGone \/
       nth_error (ga_steppers w') i = Some (SHolder (snd (calls gcall s (stepper_times i t)))))).
    { intros S X. apply (IH _ _ _ _ _ E2 (holder_frame _ _ _ _ _ _ E1 N S X)). }
    destruct o as [n|b|j ms|j|g|a ms|a j|a|a n v|a n v|a]; cbn [stepper_times stepper_values];
      try (apply SKIP; [intros ?; discriminate|discriminate]).
    + destruct (Nat.eqb_spec j i) as [->|J].
      * destruct (holder_step _ _ _ _ _ _ E1 N) as [-> N1]. destruct (IH _ _ _ _ _ E2 N1) as [A B].
        rewrite calls_cons, A. split; [reflexivity|].
        replace (snd (calls gcall s (ms :: stepper_times i t))) with (snd (calls gcall (snd (gcall s ms)) (stepper_times i t))); [exact B|].
        cbn [calls]. destruct (gcall s ms) as [v s1]. cbn [snd]. destruct (calls gcall s1 (stepper_times i t)). reflexivity.
      * destruct u; apply SKIP; (intros ?; congruence) || discriminate.
    + destruct (Nat.eq_dec j i) as [->|J].
      * apply ga_do_cases in E1. destruct E1 as (x & M & ->).
        assert (G : nth_error (ga_steppers (set_stepper_obj w i SGone)) i = Some SGone)
          by (cbn; apply nth_error_list_set_eq, nth_error_Some; congruence).
        destruct (gone_values _ _ _ _ _ E2 G) as (T & V & G'). rewrite T, V. auto.
      * apply SKIP; [intros ?; discriminate|congruence].
Qed.

(** ** Animations *)

Lemma set_stepper_facts s a : anim_stepper (anim_set_stepper gcall s a) = s /\ anim_progress (anim_set_stepper gcall s a) = anim_progress a.
Proof. destruct a; split; reflexivity. Qed.

(** A careful client whose magic lamps have a good resolution never fails. *)
Definition all_steppable w : Prop := forall (a : nat) x, nth_error (ga_anims w) a = Some (Some x) -> steppable x.

Lemma set_stepper_steppable s a : steppable a -> steppable (anim_set_stepper gcall s a).
Proof. destruct a; auto. Qed.
Lemma set_float_steppable n v (a : ganim F D) : steppable a -> steppable (set_float n v a).
Proof. destruct a; cbn; repeat (match goal with |- context [String.eqb n ?m] => destruct (String.eqb n m) end); auto. Qed.
Lemma set_uint_steppable n v (a : ganim F D) : steppable a -> steppable (set_uint n v a).
Proof. destruct a; cbn; auto. destruct (String.eqb n _); auto. Qed.
Lemma set_box_steppable n v (a : ganim F D) : steppable a -> steppable (set_box n v a).
Proof. destruct a, v; cbn; auto; destruct (String.eqb n _); auto. Qed.
Lemma set_to_steppable n v (a : ganim F D) : steppable a -> steppable (set_to n v a).
Proof. destruct v; [apply set_float_steppable|apply set_uint_steppable|apply set_box_steppable]. Qed.
Lemma object_set_steppable w n v a a' : object_set w n v a = Ok a' -> steppable a -> steppable a'.
Proof.
  unfold object_set. destruct (_ && _); [|intros E; injection E as <-; auto].
  destruct v; cbn [set_property]; try (intros E; injection E as <-; auto using set_float_steppable, set_uint_steppable, set_box_steppable; fail).
  destruct (String.eqb n _); [|intros E; injection E as <-; auto].
  unfold set_stepper. destruct i as [i|]; [|discriminate]. destruct (read_stepper w i); [|discriminate].
  intros E. injection E as <-. apply set_stepper_steppable.
Qed.
Lemma object_steppable w g x : anim_object w g = Ok x -> steppable x.
Proof.
  rewrite anim_object_eq. destruct (args_of g) as [args|]; [|discriminate]. destruct (stepper_of w (stepper_arg g)) as [s|]; [|discriminate]. cbn [bind].
  destruct (anim_new gcall args s) as [y|] eqn:E; [|discriminate]. intros X. injection X as <-. unfold set_again.
  apply set_stepper_steppable. apply new_steppable in E. destruct g as [| |[f|]|]; auto using set_box_steppable.
Qed.

Lemma set_all (l : list (option (ganim F D))) (a : nat) y : (forall (b : nat) x, nth_error l b = Some (Some x) -> steppable x) ->
  (forall x, y = Some x -> steppable x) -> forall (b : nat) x, nth_error (list_set a y l) b = Some (Some x) -> steppable x.
Proof.
  intros A B b x N. rewrite nth_error_list_set in N. destruct (_ && _) in N; [injection N as N; auto|eauto].
Qed.

Lemma all_steppable_do w o w' u : all_steppable w -> ga_do w o = Ok (w', u) -> all_steppable w'.
Proof.
  intros A E. apply ga_do_cases in E. unfold all_steppable in *.
  destruct o as [n|b|i ms|i|g|a ms|a i|a|a n v|a n v|a].
  - destruct E as [-> _]. exact A.
  - destruct E as (_ & s & _ & ->). exact A.
  - destruct E as (s & _ & _ & [[N ->]|(a & x & N & X & _ & ->)]); [exact A|]. cbn.
    apply set_all; [exact A|]. intros y Y. injection Y as <-. apply set_stepper_steppable. eauto.
  - destruct E as (s & N & ->). exact A.
  - destruct E as (x & X & _ & ->). cbn. intros b y N. destruct (lt_dec b (length (ga_anims w))).
    + rewrite nth_error_app1 in N by auto. eauto.
    + rewrite nth_error_app2 in N by lia. destruct (b - _)%nat as [|[|k]]; try discriminate N. injection N as <-. eapply object_steppable; eauto.
  - destruct E as (x & x' & b & X & S & _ & ->). cbn. apply set_all; [exact A|]. intros y Y. injection Y as <-.
    destruct (step_total gcall ms x) as (x2 & b2 & S2 & T2); [eauto|]. congruence.
  - destruct E as (x & j & s & X & _ & _ & ->). cbn. apply set_all; [exact A|]. intros y Y. injection Y as <-. apply set_stepper_steppable; eauto.
  - destruct E as (x & X & _ & ->). exact A.
  - destruct E as (x & X & ->). cbn. apply set_all; [exact A|]. intros y Y. injection Y as <-. apply set_to_steppable; eauto.
  - destruct E as (x & x' & X & O & ->). cbn. apply set_all; [exact A|]. intros y Y. injection Y as <-. eapply object_set_steppable; eauto.
  - destruct E as (x & X & ->). cbn. apply set_all; [exact A|]. discriminate.
Qed.

Lemma args_ok g : good_resolution g -> exists args, args_of g = Ok args /\ forall s, exists x, anim_new gcall args s = Ok x.
Proof.
  destruct g as [ci m n t s|d xr yr xa ya wd t s|f t s|f t r b o st sp s]; cbn [good_resolution args_of]; intros R.
  1-3: (eexists; split; [reflexivity|]; intros s'; cbn; eauto).
  set (p := match r with Some p => p | None => mkV (nof 10) (nof 10) end) in *.
  destruct R as (x & y & X & Y & P1 & P2 & P3). assert (x < 2 ^ 64 /\ y < 2 ^ 64)%Z as [L1 L2] by nia.
  unfold to_size. rewrite X, Y.
  rewrite (proj2 (Z.leb_le 0 x)), (proj2 (Z.leb_le 0 y)), (proj2 (Z.ltb_lt x _)), (proj2 (Z.ltb_lt y _)) by lia. cbn [andb bind].
  eexists. split; [reflexivity|]. intros s'. cbn [anim_new]. rewrite lamp_new_full by (unfold fits; cbn; auto). cbn. eauto.
Qed.

Lemma careful_ok w c o : arel w c -> all_steppable w -> acareful c o ->
  match o with ANew g => good_resolution g | _ => True end -> exists r, ga_do w o = Ok r.
Proof.
  intros R A C G.
  assert (ST : forall i, usable_or_null c i -> exists s, stepper_of w i = Ok s).
  { intros [i|] U; [eapply read_usable; eauto|]. cbn. eauto. }
  destruct o as [n|b|i ms|i|g|a ms|a i|a|a n v|a n v|a]; cbn [ga_do acareful] in *.
  - eexists. reflexivity.
  - rewrite reverse_object_ok. replace (stepper_from w (Some (VObject b))) with (stepper_of w b) by (destruct b; reflexivity).
    destruct (ST _ C) as (s & X). rewrite X. eexists. reflexivity.
  - destruct (read_usable _ _ _ R C) as (s & X). unfold stepper_step. rewrite X. cbn [bind].
    destruct (gcall s ms) as [v s']. unfold read_stepper in X.
    destruct (nth_error (ga_steppers w) i) as [[t|a|]|]; try discriminate X; [eexists; reflexivity|].
    destruct (nth_error (ga_anims w) a) as [[x|]|]; try discriminate X. eexists; reflexivity.
  - destruct R as [R1 _]. rewrite R1, nth_error_map in C. unfold stepper_finalize.
    destruct (nth_error (ga_steppers w) i) as [[t|a|]|]; try discriminate C. eexists; reflexivity.
  - rewrite anim_object_eq. destruct (ST _ C) as (s & X). rewrite X. destruct (args_ok g G) as (args & -> & Y).
    destruct (Y s) as (x & Z). cbn [bind]. rewrite Z. eexists; reflexivity.
  - destruct (there _ _ _ R C) as (x & X). rewrite X. cbn [bind]. apply the_ganim_nth in X.
    destruct (step_total gcall ms x) as (x2 & b2 & S2 & T2); [eauto|]. rewrite S2. eexists; reflexivity.
  - destruct C as [P (j & -> & U)]. destruct (there _ _ _ R P) as (x & X). destruct (read_usable _ _ _ R U) as (s & Y).
    rewrite X. cbn [bind set_stepper]. rewrite Y. eexists; reflexivity.
  - destruct (there _ _ _ R C) as (x & X). rewrite X. eexists; reflexivity.
  - destruct (there _ _ _ R C) as (x & X). rewrite X. eexists; reflexivity.
  - destruct C as [P U]. destruct (there _ _ _ R P) as (x & X). rewrite X. cbn [bind].
    assert (OK : exists x', object_set w n v x = Ok x').
    { unfold object_set. destruct (_ && _); [|eauto]. destruct v; cbn [set_property]; eauto.
      destruct U as (j & -> & U). destruct (String.eqb n "stepper"); [|eauto]. cbn [set_stepper].
      destruct (read_usable _ _ _ R U) as (s & ->). cbn. eauto. }
    destruct OK as (x' & X'). rewrite X'. eexists; reflexivity.
  - destruct (there _ _ _ R C) as (x & X). rewrite X. eexists; reflexivity.
Qed.

Lemma careful_run_ok ops : forall w c, arel w c -> all_steppable w -> aeach acareful c ops ->
  Forall (fun o => match o with ANew g => good_resolution g | _ => True end) ops ->
  exists w' us, ga_run w ops = Ok (w', us).
Proof.
  induction ops as [|o t IH]; intros w c R A C G; [cbn; eauto|]. destruct C as [C1 C2]. inversion G as [|? ? G1 G2]; subst.
  destruct (careful_ok w c o R A C1 G1) as ([w1 u] & E). cbn [ga_run]. rewrite E. cbn [bind fst snd].
  destruct (IH w1 (aclient_do c o)) as (w' & us & E2); [eapply arel_do; eauto|eapply all_steppable_do; eauto|exact C2|exact G2|].
  rewrite E2. cbn. eauto.
Qed.

Lemma run_steppable ops : forall w w' us, all_steppable w -> ga_run w ops = Ok (w', us) -> all_steppable w'.
Proof.
  induction ops as [|o t IH]; intros w w' us A E; [injection E as <- <-; exact A|].
  apply run_cons in E. destruct E as (w1 & u & us' & E1 & E2 & _). eapply IH; [|exact E2]. eapply all_steppable_do; eauto.
Qed.
Lemma start_steppable : all_steppable ga_start.
Proof. intros [|a] x N; discriminate N. Qed.

(** Wrappers point at animations that were made. *)
Definition wrappers_ok w : Prop := forall i (a : nat), nth_error (ga_steppers w) i = Some (SWrapper a) -> (a < length (ga_anims w))%nat.

Lemma wrapper_do w o w' u i (a : nat) : ga_do w o = Ok (w', u) -> nth_error (ga_steppers w') i = Some (SWrapper a) ->
  nth_error (ga_steppers w) i = Some (SWrapper a) \/ (o = AGetStepper a /\ nth_error (ga_anims w) a <> None).
Proof.
  intros E N. apply ga_do_cases in E.
  assert (AP : forall y, nth_error (ga_steppers w ++ [y]) i = Some (SWrapper a) -> nth_error (ga_steppers w) i = Some (SWrapper a) \/ y = SWrapper a).
  { intros y M. destruct (lt_dec i (length (ga_steppers w))).
    - rewrite nth_error_app1 in M by auto. auto.
    - rewrite nth_error_app2 in M by lia. destruct (i - _)%nat as [|[|k]]; try discriminate M. injection M as ->. auto. }
  assert (SE : forall j y, nth_error (list_set j y (ga_steppers w)) i = Some (SWrapper a) -> y <> SWrapper a -> nth_error (ga_steppers w) i = Some (SWrapper a)).
  { intros j y M Y. rewrite nth_error_list_set in M. destruct (_ && _) in M; [congruence|exact M]. }
  destruct o as [n|b|j ms|j|g|b ms|b j|b|b n v|b n v|b].
  - destruct E as [-> _]. destruct (AP _ N) as [M|M]; [auto|discriminate M].
  - destruct E as (_ & s & _ & ->). destruct (AP _ N) as [M|M]; [auto|discriminate M].
  - destruct E as (s & _ & _ & [[M ->]|(b & x & M & X & _ & ->)]); [|auto]. left. eapply SE; [exact N|discriminate].
  - destruct E as (s & M & ->). left. eapply SE; [exact N|discriminate].
  - destruct E as (x & _ & _ & ->). auto.
  - destruct E as (x & x' & r & _ & _ & _ & ->). auto.
  - destruct E as (x & k & s & _ & _ & _ & ->). auto.
  - destruct E as (x & X & _ & ->). destruct (AP _ N) as [M|M]; [auto|]. injection M as ->. right. split; [reflexivity|congruence].
  - destruct E as (x & _ & ->). auto.
  - destruct E as (x & x' & _ & _ & ->). auto.
  - destruct E as (x & _ & ->). auto.
Qed.

Lemma anims_grow w o w' u : ga_do w o = Ok (w', u) -> (length (ga_anims w) <= length (ga_anims w'))%nat.
Proof.
  intros E. apply ga_do_cases in E. destruct o as [n|b|j ms|j|g|b ms|b j|b|b n v|b n v|b].
  - destruct E as [-> _]. auto.
  - destruct E as (_ & s & _ & ->). auto.
  - destruct E as (s & _ & _ & [[M ->]|(b & x & M & X & _ & ->)]); cbn; rewrite ?list_set_length; auto.
  - destruct E as (s & M & ->). auto.
  - destruct E as (x & _ & _ & ->). cbn. rewrite app_length. lia.
  - destruct E as (x & x' & r & _ & _ & _ & ->). cbn. rewrite list_set_length. auto.
  - destruct E as (x & k & s & _ & _ & _ & ->). cbn. rewrite list_set_length. auto.
  - destruct E as (x & X & _ & ->). auto.
  - destruct E as (x & _ & ->). cbn. rewrite list_set_length. auto.
  - destruct E as (x & x' & _ & _ & ->). cbn. rewrite list_set_length. auto.
  - destruct E as (x & _ & ->). cbn. rewrite list_set_length. auto.
Qed.

Lemma wrappers_run ops : forall w w' us, wrappers_ok w -> ga_run w ops = Ok (w', us) -> wrappers_ok w'.
Proof.
  induction ops as [|o t IH]; intros w w' us A E; [injection E as <- <-; exact A|].
  apply run_cons in E. destruct E as (w1 & u & us' & E1 & E2 & _). eapply IH; [|exact E2].
  intros i a N. pose proof (anims_grow _ _ _ _ E1). destruct (wrapper_do _ _ _ _ _ _ E1 N) as [M|[_ M]].
  - apply A in M. lia.
  - apply nth_error_Some in M. lia.
Qed.
Lemma start_wrappers : wrappers_ok ga_start.
Proof. intros [|i] a N; discriminate N. Qed.

Definition unobserved w (a : nat) : Prop := forall i, nth_error (ga_steppers w) i <> Some (SWrapper a).

Lemma unobserved_do w o w' u (a : nat) : unobserved w a -> ga_do w o = Ok (w', u) -> o <> AGetStepper a -> unobserved w' a.
Proof. intros U E N i M. destruct (wrapper_do _ _ _ _ _ _ E M) as [K|[K _]]; [eapply U; eauto|contradiction]. Qed.

Lemma unobserved_run ops : forall w w' us (a : nat), unobserved w a -> ga_run w ops = Ok (w', us) -> ~ In (AGetStepper a) ops -> unobserved w' a.
Proof.
  induction ops as [|o t IH]; intros w w' us a A E N; [injection E as <- <-; exact A|].
  apply run_cons in E. destruct E as (w1 & u & us' & E1 & E2 & _). eapply IH; [|exact E2|intros I; apply N; right; exact I].
  eapply unobserved_do; eauto. intros ->. apply N. left. reflexivity.
Qed.

Lemma anim_frame w o w' u (a : nat) x : ga_do w o = Ok (w', u) -> unobserved w a -> nth_error (ga_anims w) a = Some x ->
  ~ names a o -> nth_error (ga_anims w') a = Some x.
Proof.
  intros E U N NA. apply ga_do_cases in E.
  assert (L : (a < length (ga_anims w))%nat) by (apply nth_error_Some; congruence).
  destruct o as [n|b|j ms|j|g|b ms|b j|b|b n v|b n v|b]; cbn [names] in NA.
  - destruct E as [-> _]. auto.
  - destruct E as (_ & s & _ & ->). auto.
  - destruct E as (s & _ & _ & [[M ->]|(b & y & M & X & _ & ->)]); [auto|]. cbn. rewrite nth_error_list_set_neq; [exact N|].
    intros ->. eapply U; eauto.
  - destruct E as (s & M & ->). auto.
  - destruct E as (y & _ & _ & ->). cbn. rewrite nth_error_app1; auto.
  - destruct E as (y & x' & r & _ & _ & _ & ->). cbn. rewrite nth_error_list_set_neq; auto.
  - destruct E as (y & k & s & _ & _ & _ & ->). cbn. rewrite nth_error_list_set_neq; auto.
  - destruct E as (y & X & _ & ->). auto.
  - destruct E as (y & _ & ->). cbn. rewrite nth_error_list_set_neq; auto.
  - destruct E as (y & x' & _ & _ & ->). cbn. rewrite nth_error_list_set_neq; auto.
  - destruct E as (y & _ & ->). cbn. rewrite nth_error_list_set_neq; auto.
Qed.

Lemma anim_frame_run ops : forall w w' us (a : nat) x, ga_run w ops = Ok (w', us) -> unobserved w a ->
  nth_error (ga_anims w) a = Some x -> Forall (fun o => ~ names a o) ops -> nth_error (ga_anims w') a = Some x.
Proof.
  induction ops as [|o t IH]; intros w w' us a x E U N A; [injection E as <- <-; exact N|].
  apply run_cons in E. destruct E as (w1 & u & us' & E1 & E2 & _). inversion A as [|? ? A1 A2]; subst.
  eapply IH; [exact E2| |eapply anim_frame; eauto|exact A2].
  eapply unobserved_do; eauto. intros ->. apply A1. reflexivity.
Qed.

Lemma set_float_facts n v (x : ganim F D) : anim_stepper (set_float n v x) = anim_stepper x /\
  anim_progress (set_float n v x) = anim_progress x /\ class_of (set_float n v x) = class_of x.
Proof. destruct x; cbn; repeat (match goal with |- context [String.eqb n ?m] => destruct (String.eqb n m) end); auto. Qed.
Lemma set_uint_facts n v (x : ganim F D) : anim_stepper (set_uint n v x) = anim_stepper x /\
  anim_progress (set_uint n v x) = anim_progress x /\ class_of (set_uint n v x) = class_of x.
Proof. destruct x; cbn; auto. destruct (String.eqb n _); auto. Qed.
Lemma set_box_facts n v (x : ganim F D) : anim_stepper (set_box n v x) = anim_stepper x /\
  anim_progress (set_box n v x) = anim_progress x /\ class_of (set_box n v x) = class_of x.
Proof. destruct x, v; cbn; auto; destruct (String.eqb n _); auto. Qed.

Lemma set_to_facts n v (x : ganim F D) : anim_stepper (set_to n v x) = anim_stepper x /\
  anim_progress (set_to n v x) = anim_progress x /\ class_of (set_to n v x) = class_of x.
Proof. destruct v; [apply set_float_facts|apply set_uint_facts|apply set_box_facts]. Qed.

Lemma object_set_stepper w n v x x' : object_set w n v x = Ok x' -> n <> "stepper"%string -> anim_stepper x' = anim_stepper x.
Proof.
  intros E N. unfold object_set in E. destruct (_ && _); [|injection E as <-; auto].
  destruct v; cbn [set_property] in E; try (injection E as <-; auto; fail).
  - injection E as <-. apply set_float_facts.
  - injection E as <-. apply set_uint_facts.
  - injection E as <-. apply set_box_facts.
  - apply String.eqb_neq in N. rewrite N in E. injection E as <-. auto.
Qed.

(** The results of [Step] come from the animation's own stepper. *)
Lemma anim_run ops : forall w w' us (a : nat) x, ga_run w ops = Ok (w', us) -> unobserved w a ->
  nth_error (ga_anims w) a = Some (Some x) -> Forall (keeps_stepper a) ops ->
  step_results a ops us = map (fun v => more_progress (clamp_progress v)) (fst (calls gcall (anim_stepper x) (step_times a ops))).
Proof.
  assert (GONE : forall l w w' us (a : nat), ga_run w l = Ok (w', us) -> unobserved w a -> nth_error (ga_anims w) a = Some None ->
    step_times a l = [] /\ step_results a l us = []).
  { induction l as [|o t IH]; intros w w' us a E U N; [auto|].
    apply run_cons in E. destruct E as (w1 & u & us' & E1 & E2 & ->).
    assert (NA : ~ names a o).
    { intros K. pose proof (ga_do_cases _ _ _ _ E1) as C. destruct o; cbn [names] in K; try contradiction; subst.
      - destruct C as (? & ? & ? & C & _); congruence.
      - destruct C as (? & ? & ? & C & _); congruence.
      - destruct C as (? & C & _); congruence.
      - destruct C as (? & C & _); congruence.
      - destruct C as (? & ? & C & _); congruence.
      - destruct C as (? & C & _); congruence. }
    destruct (IH _ _ _ a E2) as [T R].
    - eapply unobserved_do; eauto. intros ->. apply NA. reflexivity.
    - eapply anim_frame; eauto.
    - destruct o as [n|b|j ms|j|g|b ms|b j|b|b n v|b n v|b]; cbn [step_times step_results]; auto.
      assert (X : Nat.eqb b a = false) by (apply Nat.eqb_neq; intros ->; apply NA; reflexivity).
      rewrite X. destruct u; auto. }
  induction ops as [|o t IH]; intros w w' us a x E U N K; [reflexivity|].
  apply run_cons in E. destruct E as (w1 & u & us' & E1 & E2 & ->). inversion K as [|? ? K1 K2]; subst.
  assert (U1 : unobserved w1 a).
  { eapply unobserved_do; eauto. intros ->. cbn in K1. congruence. }
  assert (L : (a < length (ga_anims w))%nat) by (apply nth_error_Some; congruence).
  assert (SKIP : ~ names a o -> step_results a t us' = map (fun v => more_progress (clamp_progress v)) (fst (calls gcall (anim_stepper x) (step_times a t)))).
  { intros NA. eapply IH; eauto. eapply anim_frame; eauto. }
  assert (SAME : forall y, w1 = set_ganim w a (Some y) -> anim_stepper y = anim_stepper x ->
    step_results a t us' = map (fun v => more_progress (clamp_progress v)) (fst (calls gcall (anim_stepper x) (step_times a t)))).
  { intros y -> Y. rewrite <- Y. eapply IH; eauto. cbn. apply nth_error_list_set_eq. exact L. }
  destruct o as [n|b|j ms|j|g|b ms|b j|b|b n v|b n v|b]; cbn [step_times step_results keeps_stepper] in *; try (apply SKIP; intros []; fail).
  - destruct (Nat.eqb_spec b a) as [->|J].
    + apply ga_do_cases in E1. destruct E1 as (y & y' & r & M & S & -> & ->). rewrite N in M. injection M as <-.
      apply step_progress in S. destruct S as (P & Q & ->).
      rewrite calls_cons. cbn [map fst]. rewrite P. f_equal. rewrite <- Q. eapply IH; eauto. cbn. apply nth_error_list_set_eq. exact L.
    + destruct u; apply SKIP; cbn; congruence.
  - apply SKIP. cbn. congruence.
  - apply SKIP. cbn. congruence.
  - destruct (Nat.eq_dec b a) as [->|J]; [|apply SKIP; cbn; congruence].
    apply ga_do_cases in E1. destruct E1 as (y & M & ->). rewrite N in M. injection M as <-.
    eapply SAME; [reflexivity|]. apply set_to_facts.
  - destruct (Nat.eq_dec b a) as [->|J]; [|apply SKIP; cbn; congruence].
    apply ga_do_cases in E1. destruct E1 as (y & y' & M & O & ->). rewrite N in M. injection M as <-.
    eapply SAME; [reflexivity|]. eapply object_set_stepper; eauto. destruct K1; congruence.
  - destruct (Nat.eq_dec b a) as [->|J]; [|apply SKIP; cbn; congruence].
    apply ga_do_cases in E1. destruct E1 as (y & M & ->).
    destruct (GONE _ _ _ _ a E2 U1) as [T R]; [cbn; apply nth_error_list_set_eq; exact L|]. rewrite T, R. reflexivity.
Qed.

(** ** Steppers of the two classes *)

Lemma calls_lin ts : forall (l : linear F), calls gcall (GLin l) ts = (fst (calls linear_call l ts), GLin (snd (calls linear_call l ts))).
Proof.
  induction ts as [|t ts IH]; intros l; [reflexivity|]. cbn [calls gcall]. destruct (linear_call l t) as [v l1]. rewrite IH.
  destruct (calls linear_call l1 ts). reflexivity.
Qed.
Lemma calls_rev ts : forall (s : gstepper F), calls gcall (GRev s) ts = (map (nsub (nof 1)) (fst (calls gcall s ts)), GRev (snd (calls gcall s ts))).
Proof.
  induction ts as [|t ts IH]; intros l; [reflexivity|]. cbn [calls gcall]. unfold reverse_call. destruct (gcall l t) as [v l1]. rewrite IH.
  destruct (calls gcall l1 ts). reflexivity.
Qed.

Lemma app_eq_len {A} (a b c d : list A) : a ++ b = c ++ d -> length a = length c -> a = c /\ b = d.
Proof.
  revert c. induction a as [|x a IH]; intros [|y c] E L; try discriminate L; [auto|].
  injection E as -> E. injection L as L. destruct (IH c E L) as [-> ->]. auto.
Qed.

(** A run cut at a call. *)
Lemma run_cut b1 o b2 w0 w us1 u us2 : ga_run w0 (b1 ++ o :: b2) = Ok (w, us1 ++ u :: us2) -> length us1 = length b1 ->
  exists w1 w2, ga_run w0 b1 = Ok (w1, us1) /\ ga_do w1 o = Ok (w2, u) /\ ga_run w2 b2 = Ok (w, us2).
Proof.
  intros E L. destruct (run_app _ _ _ _ _ E) as (w1 & v1 & v2 & E1 & E2 & V & L1).
  apply run_cons in E2. destruct E2 as (w2 & x & v3 & D2 & E2 & ->).
  destruct (app_eq_len _ _ _ _ V) as [<- X]; [congruence|]. injection X as <- <-. eauto.
Qed.

(** The stepper of an object made by [ANewLinear], later. *)
Definition made_linear (n : option Z) : linear F := linear_new (nof (match n with Some n => n | None => 300%Z end)).

Lemma linear_made w n w' u : ga_do w (ANewLinear n) = Ok (w', u) ->
  u = RStepper (length (ga_steppers w)) /\ nth_error (ga_steppers w') (length (ga_steppers w)) = Some (SHolder (GLin (made_linear n))).
Proof.
  intros E. apply ga_do_cases in E. destruct E as [-> ->]. split; [reflexivity|]. cbn. rewrite nth_error_app2, Nat.sub_diag by lia. reflexivity.
Qed.

Lemma linear_later b1 n b2 w us1 i us2 s : ga_run ga_start (b1 ++ ANewLinear n :: b2) = Ok (w, us1 ++ RStepper i :: us2) ->
  length us1 = length b1 -> read_stepper w i = Ok s ->
  s = GLin (snd (calls linear_call (made_linear n) (stepper_times i b2))).
Proof.
  intros E L R. destruct (run_cut _ _ _ _ _ _ _ _ E L) as (w1 & w2 & E1 & E2 & E3).
  apply linear_made in E2. destruct E2 as [X M]. injection X as ->.
  destruct (private_run _ _ _ _ _ _ E3 M) as [_ [G|G]]; unfold read_stepper in R; rewrite G in R; [discriminate R|].
  injection R as <-. rewrite calls_lin. reflexivity.
Qed.

(** ** What the getters return *)

Lemma eqb_dec a b : String.eqb a b = if string_dec a b then true else false.
Proof. destruct (String.eqb_spec a b), (string_dec a b); congruence. Qed.

Definition same_reads (x y : ganim F D) : Prop :=
  (forall n, read_float n x = read_float n y) /\ (forall n, read_uint n x = read_uint n y) /\
  (forall n, read_box n x = read_box n y) /\ class_of x = class_of y.

Lemma same_refl x : same_reads x x.
Proof. repeat split; auto. Qed.

Lemma step_reads ms x x' b : anim_step gcall ms x = Ok (x', b) -> same_reads x' x.
Proof.
  destruct x as [y|y|y|y]; cbn [anim_step]; intros E.
  - unfold bounce_step in E. destruct (gcall _ ms). inversion E; subst. repeat split; reflexivity.
  - unfold glide_step in E. destruct (gcall _ ms). inversion E; subst. repeat split; reflexivity.
  - unfold zoom_step in E. destruct (gcall _ ms). inversion E; subst. repeat split; reflexivity.
  - unfold lamp_step in E. destruct (gcall _ ms). destruct (move_grid _ _ _ _); [|discriminate E]. inversion E; subst. repeat split; reflexivity.
Qed.
Lemma set_stepper_reads s x : same_reads (anim_set_stepper gcall s x) x.
Proof. destruct x; repeat split; reflexivity. Qed.

Lemma object_reads w g x : anim_object w g = Ok x ->
  (forall n, read_float n x = given_float g n) /\ (forall n, read_uint n x = given_uint g n) /\
  (forall n, read_box n x = given_box g n) /\ class_of x = gargs_class g /\
  exists s, stepper_of w (stepper_arg g) = Ok s /\ anim_stepper x = s /\ anim_progress x = fst (gcall s 0).
Proof.
  rewrite anim_object_eq. destruct (args_of g) as [args|] eqn:A; [|discriminate].
  destruct (stepper_of w (stepper_arg g)) as [s|]; [|discriminate]. cbn [bind].
  destruct (anim_new gcall args s) as [y|] eqn:E; [|discriminate]. intros X. injection X as <-.
  assert (P : anim_progress (set_again g s y) = fst (gcall s 0)).
  { unfold set_again. rewrite (proj2 (set_stepper_facts _ _)). apply new_progress in E. destruct E as [E _]. rewrite <- E.
    destruct g as [| |[f|]|]; auto. apply set_box_facts. }
  assert (Q : anim_stepper (set_again g s y) = s) by apply set_stepper_facts.
  destruct g as [ci m n t i|d xr yr xa ya wd t i|f t i|f t r b o st sp i]; cbn [args_of] in A.
  - injection A as <-. cbn [anim_new] in E. unfold bounce_new in E. destruct (gcall s 0) as [p s1] eqn:C. injection E as <-.
    repeat split; try (intros k; cbn; rewrite ?eqb_dec; repeat destruct (string_dec k _); reflexivity).
    exists s. rewrite C. auto.
  - injection A as <-. cbn [anim_new] in E. unfold glide_new in E. destruct (gcall s 0) as [p s1] eqn:C. injection E as <-.
    repeat split; try (intros k; cbn; rewrite ?eqb_dec; repeat destruct (string_dec k _); reflexivity).
    exists s. rewrite C. auto.
  - injection A as <-. cbn [anim_new] in E. unfold zoom_new in E. destruct (gcall s 0) as [p s1] eqn:C. injection E as <-.
    repeat split; try (intros k; unfold set_again; destruct f; cbn -[ensure_non_zero box_or_unit]; rewrite ?eqb_dec; repeat destruct (string_dec k _); reflexivity).
    + unfold set_again. destruct f; reflexivity.
    + exists s. rewrite C. auto.
  - set (p := match r with Some p => p | None => mkV (nof 10) (nof 10) end) in A.
    destruct (to_size (vx p)); [|discriminate A]. cbn [bind] in A. destruct (to_size (vy p)); [|discriminate A]. cbn [bind] in A.
    injection A as <-. cbn [anim_new] in E. unfold lamp_new in E. destruct (gcall s 0) as [q s1] eqn:C.
    destruct (move_grid _ _ _ _); [|discriminate E]. injection E as <-.
    repeat split; try (intros k; cbn -[box_or_unit]; rewrite ?eqb_dec; repeat destruct (string_dec k _); reflexivity).
    exists s. rewrite C. auto.
Qed.

Lemma set_float_reads n v x :
  (forall k, read_float k (set_float n v x) =
     if string_dec k n then match read_float n x with Some _ => Some v | None => None end else read_float k x) /\
  (forall k, read_uint k (set_float n v x) = read_uint k x) /\ (forall k, read_box k (set_float n v x) = read_box k x).
Proof.
  destruct x as [y|y|y|y]; cbn [set_float].
  - repeat split; intros k; rewrite ?eqb_dec; repeat destruct (string_dec n _); subst; cbn; rewrite ?eqb_dec;
      repeat destruct (string_dec k _); subst; try congruence; try reflexivity;
      repeat (match goal with |- context [string_dec ?a ?b] => destruct (string_dec a b) end); congruence.
  - repeat split; intros k; rewrite ?eqb_dec; repeat destruct (string_dec n _); subst; cbn; rewrite ?eqb_dec;
      repeat destruct (string_dec k _); subst; try congruence; try reflexivity;
      repeat (match goal with |- context [string_dec ?a ?b] => destruct (string_dec a b) end); congruence.
  - repeat split; intros k. cbn. destruct (string_dec k n); reflexivity.
  - unfold lamp_set, with_params.
    repeat split; intros k; rewrite ?eqb_dec; repeat destruct (string_dec n _); subst; cbn; rewrite ?eqb_dec;
      repeat destruct (string_dec k _); subst; try congruence; try reflexivity;
      repeat (match goal with |- context [string_dec ?a ?b] => destruct (string_dec a b) end); congruence.
Qed.

Lemma set_uint_reads n v x :
  (forall k, read_uint k (set_uint n v x) =
     if string_dec k n then match read_uint n x with Some _ => Some v | None => None end else read_uint k x) /\
  (forall k, read_float k (set_uint n v x) = read_float k x) /\ (forall k, read_box k (set_uint n v x) = read_box k x).
Proof.
  destruct x as [y|y|y|y]; cbn [set_uint]; repeat split; intros k; rewrite ?eqb_dec; repeat destruct (string_dec n _); subst; cbn; rewrite ?eqb_dec;
      repeat destruct (string_dec k _); subst; try congruence; try reflexivity;
      repeat (match goal with |- context [string_dec ?a ?b] => destruct (string_dec a b) end); congruence.
Qed.

Lemma set_box_reads n v x :
  (forall k, read_uint k (set_box n v x) = read_uint k x) /\ (forall k, read_float k (set_box n v x) = read_float k x) /\
  (forall k, k <> n -> read_box k (set_box n v x) = read_box k x).
Proof.
  destruct x as [y|y|y|y], v as [v|]; cbn [set_box]; repeat split; intros k; try intros K; rewrite ?eqb_dec; repeat destruct (string_dec n _); subst; cbn; rewrite ?eqb_dec;
      repeat destruct (string_dec k _); subst; try congruence; try reflexivity.
Qed.

Lemma valid_documented k n (lo hi v : F) : documented k n = Some (lo, hi) -> valid (D := D) k n (VFloat v) = true ->
  nleb lo v = true /\ nleb v hi = true.
Proof.
  destruct k; cbn [documented valid]; rewrite ?eqb_dec; intros E V; try discriminate E;
  repeat (match goal with X : context [if string_dec n ?m then _ else _] |- _ => destruct (string_dec n m) end);
  try discriminate E; injection E as <- <-; apply andb_true_iff in V; exact V.
Qed.

Lemma range_same x y : same_reads x y -> in_documented_range y -> in_documented_range x.
Proof.
  intros (A & B & _ & C) [R1 R2]. split.
  - intros n lo hi v E V. rewrite C in E. rewrite A in V. eauto.
  - intros n V. rewrite B in V. eauto.
Qed.

Lemma range_set w n v x x' : object_set w n v x = Ok x' -> in_documented_range x -> in_documented_range x'.
Proof.
  intros E R. unfold object_set in E. destruct (existsb _ _); cbn [andb] in E; [|injection E as <-; exact R].
  destruct (valid (class_of x) n v) eqn:V; [|injection E as <-; exact R].
  destruct v; cbn [set_property] in E; try (injection E as <-; exact R).
  - injection E as <-. destruct (set_float_reads n v x) as (A & B & _). destruct R as [R1 R2]. split.
    + intros k lo hi u K U. rewrite A in U. rewrite (proj2 (proj2 (set_float_facts n v x))) in K.
      destruct (string_dec k n) as [->|]; [|eauto]. destruct (read_float n x); [|discriminate U]. injection U as <-.
      eapply valid_documented; eauto.
    + intros u U. rewrite B in U. eauto.
  - injection E as <-. destruct (set_uint_reads n n0 x) as (A & B & _). destruct R as [R1 R2]. split.
    + intros k lo hi u K U. rewrite B in U. rewrite (proj2 (proj2 (set_uint_facts n n0 x))) in K. eauto.
    + intros u U. rewrite A in U. destruct (string_dec _ n) as [<-|]; [|eauto].
      destruct x; try discriminate U. cbn in U. injection U as <-. cbn in V. apply andb_true_iff in V. destruct V as [V1 V2].
      apply Z.leb_le in V1, V2. lia.
  - injection E as <-. destruct (set_box_reads n b x) as (A & B & _). destruct R as [R1 R2]. split.
    + intros k lo hi u K U. rewrite B in U. rewrite (proj2 (proj2 (set_box_facts n b x))) in K. eauto.
    + intros u U. rewrite A in U. eauto.
  - destruct (String.eqb n _); [|injection E as <-; exact R]. unfold set_stepper in E. destruct i as [i|]; [|discriminate E].
    destruct (read_stepper w i); [|discriminate E]. injection E as <-. eapply range_same; [apply set_stepper_reads|exact R].
Qed.

Lemma range_run ops : forall w w' us (a : nat), ga_run w ops = Ok (w', us) ->
  (forall n v, ~ In (ASetTo a n v) ops) ->
  (a < length (ga_anims w))%nat -> (forall x, nth_error (ga_anims w) a = Some (Some x) -> in_documented_range x) ->
  forall x, nth_error (ga_anims w') a = Some (Some x) -> in_documented_range x.
Proof.
  induction ops as [|o t IH]; intros w w' us a E NF L R x X.
  - injection E as <- <-. auto.
  - apply run_cons in E. destruct E as (w1 & u & us' & E1 & E2 & _).
    eapply IH; [exact E2|intros n v I; eapply NF; right; exact I| |clear x X; intros x X|exact X].
    { pose proof (anims_grow _ _ _ _ E1). lia. }
    assert (SET : forall b y x, nth_error (list_set b y (ga_anims w)) a = Some (Some x) ->
      (b = a /\ y = Some x) \/ nth_error (ga_anims w) a = Some (Some x)).
    { intros b y z N. destruct (Nat.eq_dec b a) as [->|J].
      - rewrite nth_error_list_set_eq in N by exact L. injection N as <-. auto.
      - rewrite nth_error_list_set_neq in N by auto. auto. }
    apply ga_do_cases in E1. destruct o as [n|b|j ms|j|g|b ms|b j|b|b n v|b n v|b].
    + destruct E1 as [-> _]. auto.
    + destruct E1 as (_ & s & _ & ->). auto.
    + destruct E1 as (s & _ & _ & [[M ->]|(b & y & M & Y & _ & ->)]); [auto|]. destruct (SET _ _ _ X) as [[-> K]|K]; [|auto].
      injection K as <-. eapply range_same; [apply set_stepper_reads|auto].
    + destruct E1 as (s & M & ->). auto.
    + destruct E1 as (y & _ & _ & ->). cbn in X. rewrite nth_error_app1 in X by auto. auto.
    + destruct E1 as (y & x' & r & Y & S & _ & ->). destruct (SET _ _ _ X) as [[-> K]|K]; [|auto].
      injection K as <-. eapply range_same; [eapply step_reads; eauto|auto].
    + destruct E1 as (y & k & s & Y & _ & _ & ->). destruct (SET _ _ _ X) as [[-> K]|K]; [|auto].
      injection K as <-. eapply range_same; [apply set_stepper_reads|auto].
    + destruct E1 as (y & Y & _ & ->). auto.
    + destruct E1 as (y & Y & ->). destruct (SET _ _ _ X) as [[-> K]|K]; [|auto]. exfalso. eapply NF. left. reflexivity.
    + destruct E1 as (y & x' & Y & O & ->). destruct (SET _ _ _ X) as [[-> K]|K]; [|auto].
      injection K as <-. eapply range_set; eauto.
    + destruct E1 as (y & Y & ->). destruct (SET _ _ _ X) as [[-> K]|K]; [discriminate K|auto].
Qed.

Lemma added w (x : sobj F) : nth_error (ga_steppers (add_stepper w x)) (length (ga_steppers w)) = Some x.
Proof. cbn. rewrite nth_error_app2, Nat.sub_diag by lia. reflexivity. Qed.

End Objects.
