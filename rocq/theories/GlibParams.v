(** * Construct parameters of the GObject classes

    Models [animation-glib/constructor-helpers.cpp].  A construct parameter is a
    property name and a [GValue]; what the helpers do does not depend on what
    the values are, so their type is [V]. *)

From Coq Require Import Bool List String.
From Verif Require Import Outcome.
Import ListNotations.

Section GlibParams.
Context {V : Type}.

(** [GObjectConstructParam] arrays (constructor-helpers.cpp:26-29). *)
Definition params : Type := list (string * V).

(** A [GHashTable] from names to [GValue] pointers: NULL, or the position of the
    construct parameter that owns the value (constructor-helpers.cpp:31). *)
Definition table : Type := list (string * option nat).

(** [g_hash_table_insert] and [g_hash_table_lookup_extended]
    (constructor-helpers.cpp:37-52; constructor-helpers.h:42). *)
Fixpoint ht_insert (k : string) (v : option nat) (t : table) : table :=
  match t with
  | [] => [(k, v)]
  | (k', v') :: r => if String.eqb k' k then (k', v) :: r else (k', v') :: ht_insert k v r
  end.
Fixpoint ht_find (k : string) (t : table) : option (option nat) :=
  match t with
  | [] => None
  | (k', v) :: r => if String.eqb k' k then Some v else ht_find k r
  end.

(** [static_hash_table_of_values_for_specs] (constructor-helpers.cpp:26-55): first
    loop, lines 36-39; second loop, lines 43-52. *)
Definition wanted_table (wanted : list string) : table :=
  fold_left (fun t k => ht_insert k None t) wanted [].
Fixpoint fill_table (t : table) (i : nat) (ps : params) : table :=
  match ps with
  | [] => t
  | (n, _) :: r =>
      fill_table (match ht_find n t with Some _ => ht_insert n (Some i) t | None => t end) (S i) r
  end.
Definition values_for_specs (wanted : list string) (ps : params) : table :=
  fill_table (wanted_table wanted) 0 ps.

(** [lookup_gvalue] (constructor-helpers.h:39-43) and the value behind the
    pointer; [None] is NULL. *)
Definition lookup_gvalue (ps : params) (t : table) (key : string) : option V :=
  match ht_find key t with
  | Some (Some i) => option_map snd (nth_error ps i)
  | _ => None
  end.

(** [replace_construct_param] (constructor-helpers.cpp:70-92). *)
Fixpoint replace_construct_param (ps : params) (name : string) (v : V) : res params :=
  match ps with
  | [] => Err AssertFailed
  | (n, v0) :: r =>
      if String.eqb n name then Ok ((n, v) :: r)
      else r' <- replace_construct_param r name v ;; Ok ((n, v0) :: r')
  end.

(** [replace_named_pointer_prop_in_construct_params_if_null]
    (constructor-helpers.cpp:132-156), with whether the default was
    constructed. *)
Fixpoint replace_if_null (is_null : V -> bool) (ps : params) (name : string) (v : V)
  : res (params * bool) :=
  match ps with
  | [] => Err AssertFailed
  | (n, v0) :: r =>
      if String.eqb n name then
        if is_null v0 then Ok ((n, v) :: r, true) else Ok ((n, v0) :: r, false)
      else r' <- replace_if_null is_null r name v ;; Ok ((n, v0) :: fst r', snd r')
  end.

End GlibParams.

Arguments params V : clear implicits.
