(** * Specification vocabulary for the queries of animation objects *)

From Coq Require Import ZArith Bool String List.
From Verif Require Import Num Geometry Outcome Steppers Transforms MagicLamp Program GlibParams GlibAnim SpecGlibAnim GlibQuery.
Import ListNotations.

Section SpecQuery.
Context {F D : Type} `{Num F} `{Num D} `{Conv F D} `{Libm F} `{Libm D}.
Local Open Scope string_scope.

(** The call only asks; [g_object_get] of "stepper" makes an object. *)
Definition only_asks (o : qop F D) : Prop :=
  match o with QCall _ => False | QGet _ name => name <> "stepper" | _ => True end.

(** The calls of a history that are not queries, and what they returned. *)
Definition calls_only (ops : list (qop F D)) : list (gaop F D) :=
  flat_map (fun o => match o with QCall c => [c] | _ => [] end) ops.
Definition results_only (us : list (qout F D)) : list (gaout F) :=
  flat_map (fun u => match u with QOut c => [c] | _ => [] end) us.

(** The matrix of a native transform animation, and its number in a column and a
    row. *)
Definition matrix_is (x : ganim F D) (m : mat4 F) : Prop :=
  match x with
  | ABounce b => m = bn_transform b
  | AGlide b => m = gl_transform b
  | AZoom b => m = zm_transform b
  | ALamp _ => False
  end.
Definition in_column_row (m : mat4 F) (col row : nat) : F :=
  let v := match col with 0 => c0 m | 1 => c1 m | 2 => c2 m | _ => c3 m end%nat in
  match row with 0 => v4x v | 1 => v4y v | 2 => v4z v | _ => v4w v end%nat.

(** The properties other than "stepper" that the classes declare as readable. *)
Definition declared_readable (k : aclass) (name : string) : Prop :=
  match k with
  | CBounce => name = "initial-scale" \/ name = "maximum-scale" \/ name = "n-bounce" \/ name = "target"
  | CGlide => name = "initial-distance" \/ name = "x-rotation-angle-degrees" \/ name = "y-rotation-angle-degrees" \/
              name = "x-axis-location-unit" \/ name = "y-axis-location-unit"
  | CZoom => name = "from" \/ name = "to"
  | CLamp => name = "source" \/ name = "target" \/ name = "bend-factor" \/ name = "offset-factor" \/ name = "deform-speed-factor"
  end.

(** ** The native calls an object's calls stand for *)

(** A number that [g_object_set] accepts. *)
Definition accepted (k : aclass) (name : string) (v : F) : bool :=
  match documented (F := F) k name with Some (lo, hi) => nleb lo v && nleb v hi | None => false end.

Definition bounce_number {St} (name : string) (v : F) : list (bounce_op F St) :=
  if string_dec name "initial-scale" then [BnSetInitial v]
  else if string_dec name "maximum-scale" then [BnSetMaximum v] else [].
Definition bounce_call {St} (a : nat) (o : gaop F D) : list (bounce_op F St) :=
  match o with
  | AStep b ms => if Nat.eqb b a then [BnStep ms] else []
  | ASetTo b name (SetFloat v) => if Nat.eqb b a then bounce_number name v else []
  | ASetTo b name (SetUint n) => if Nat.eqb b a && (if string_dec name "n-bounce" then true else false) then [BnSetN n] else []
  | ASet b name (VFloat v) => if Nat.eqb b a && accepted CBounce name v then bounce_number name v else []
  | ASet b name (VUint n) =>
      if Nat.eqb b a && (if string_dec name "n-bounce" then (1 <=? n)%Z && (n <=? 10)%Z else false) then [BnSetN n] else []
  | _ => []
  end.

Definition glide_number {St} (name : string) (v : F) : list (glide_op F St) :=
  if string_dec name "initial-distance" then [GlSetDistance v]
  else if string_dec name "x-rotation-angle-degrees" then [GlSetXRot v]
  else if string_dec name "y-rotation-angle-degrees" then [GlSetYRot v]
  else if string_dec name "x-axis-location-unit" then [GlSetXAxis v]
  else if string_dec name "y-axis-location-unit" then [GlSetYAxis v] else [].
Definition glide_call {St} (a : nat) (o : gaop F D) : list (glide_op F St) :=
  match o with
  | AStep b ms => if Nat.eqb b a then [GlStep ms] else []
  | ASetTo b name (SetFloat v) => if Nat.eqb b a then glide_number name v else []
  | ASet b name (VFloat v) => if Nat.eqb b a && accepted CGlide name v then glide_number name v else []
  | _ => []
  end.

Definition zoom_call {St} (a : nat) (o : gaop F D) : list (zoom_op D St) :=
  match o with
  | AStep b ms => if Nat.eqb b a then [ZmStep ms] else []
  | ASetTo b name (SetBox f) | ASet b name (VBox (Some f)) =>
      if Nat.eqb b a && (if string_dec name "from" then true else false) then [ZmSetFrom f] else []
  | _ => []
  end.

(** A lamp's setters of one parameter. *)
Definition lamp_number (name : string) (v : F) (q : lamp_params F D) : option (lamp_params F D) :=
  let '(mkLamp f t b o s d) := q in
  if string_dec name "bend-factor" then Some (mkLamp f t v o s d)
  else if string_dec name "offset-factor" then Some (mkLamp f t b v s d)
  else if string_dec name "stretch-factor" then Some (mkLamp f t b o v d)
  else if string_dec name "deform-speed-factor" then Some (mkLamp f t b o s v) else None.
Definition lamp_source (f : box D) (q : lamp_params F D) : lamp_params F D :=
  let '(mkLamp _ t b o s d) := q in mkLamp f t b o s d.

(** What a call sets the parameters [q] to. *)
Definition lamp_assigns (a : nat) (o : gaop F D) (q : lamp_params F D) : option (lamp_params F D) :=
  match o with
  | ASetTo b name (SetFloat v) => if Nat.eqb b a then lamp_number name v q else None
  | ASet b name (VFloat v) =>
      if Nat.eqb b a && accepted CLamp name v && (if string_dec name "stretch-factor" then false else true) then lamp_number name v q else None
  | ASetTo b name (SetBox f) | ASet b name (VBox (Some f)) =>
      if Nat.eqb b a && (if string_dec name "source" then true else false) then Some (lamp_source f q) else None
  | _ => None
  end.
Fixpoint lamp_calls {St} (a : nat) (ops : list (gaop F D)) (q : lamp_params F D) : list (lamp_op F D St) :=
  match ops with
  | [] => []
  | AStep b ms :: t => (if Nat.eqb b a then [MlStep ms] else []) ++ lamp_calls a t q
  | o :: t =>
      match lamp_assigns a o q with
      | Some q' => MlSetParams q' :: lamp_calls a t q'
      | None => lamp_calls a t q
      end
  end.

(** The number given, or the default. *)
Definition given {A} (d : A) (o : option A) : A := match o with Some v => v | None => d end.

(** The stepper given to a constructor after the history [before]: that of the
    stepper object, in the state it had then, or a linear one of 300 ms. *)
Definition stepper_at (before : list (gaop F D)) (i : option nat) (s : gstepper F) : Prop :=
  exists w us, ga_run ga_start before = Ok (w, us) /\
    match i with Some i => read_stepper w i = Ok s | None => s = GLin (linear_new (nof 300)) end.

End SpecQuery.
