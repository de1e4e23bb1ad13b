# Design: a Rocq model of libanimation

Contents: what is modelled, how each property is stated and proved, what is not
modelled, the trusted base with the assumptions of each theorem, and how the
theorems were tested against wrong programs.

## Layout

Everything is in `rocq/theories`.  There are four kinds of file.

* **Model** files hold definitions only.  Each definition cites the file and
  lines of `/repo` it transcribes and says where it simplifies.
* **`Spec*.v`** files hold the vocabulary in which properties are stated.  They
  are written from the English descriptions: what a client knows from its own
  calls, what a nearest point is, what a convex combination is.
* **`Prop*.v`** files hold the property theorems, named after the property
  (`C17_…`).  Each theorem is followed by `Print Assumptions` and by an `Example`
  (`C17_case`) that meets its hypotheses on a concrete case.
* **`Lem*.v`** and `Cases.v` hold the proofs and shared example states.

| model file | code |
|------|------|
| `Num.v` | the arithmetic: a record of operations (`Num`) with instances for the real numbers, IEEE binary32 (`float`), binary64 (`double`) and x87 80-bit (`long double`); conversions between them (`Conv`) |
| `Geometry.v` | `animation/geometry.h`, `geometry_traits.h`, `math.h`, `box_calculation.h` |
| `Outcome.v` | ways in which a call fails to return normally |
| `Wobbly.v` | `animation/wobbly/wobbly_internal.h`, `wobbly.cpp`, `wobbly.h`: anchors, target mesh, springs, spring vector with split springs, integration, constrainment, prediction loop, Bezier deformation, extremes, and the public API as a state machine |
| `Steppers.v` | `animation/stepper/{linear,reverse,stepper}.h` |
| `Transforms.v` | `bounce.cpp`, `glide.cpp`, `zoom.cpp`, `transform_calculation.h`, `property.h`, and the functions of glm they call (`translate`, `scale`, `rotate`, matrix product) |
| `MagicLamp.v` | `magiclamp.cpp` |
| `Program.v` | programs that hold stepper variables and animations together: which call advances or copies which stepper |
| `Process.v` | what models of one process share (`wobbly.cpp`), `emscripten.cpp` |
| `AnchorVars.v` | `wobbly::Anchor` as a C++ variable: construction, move, assignment, destruction (`wobbly.h`, `wobbly.cpp`) |
| `GlibWobbly.v` | `animation-glib/wobbly/model.cpp`, `anchor.cpp` |
| `GlibParams.v` | `animation-glib/constructor-helpers.{h,cpp}` |
| `GlibAnim.v` | `animation-glib/{stepper,transform,grid,bounce,glide,zoom,magiclamp}`, and the conversions of `vector4d-internal.h` they use |
| `GlibQuery.v` | `g_object_get`, `animation-glib/transform/transform.cpp`, `grid/grid.cpp`: progress, matrix, corners, resolution, deformation |
| `GlibRefs.v` | reference counts of stepper and animation objects: `stepper/reverse.cpp` (dispose), the default steppers of the four constructors |
| `Matchers.v` | `matchers/mathematical_model_matcher.h`: function models, their matcher, geometrical equality |
| `RepoTests.v`, `RepoTestsParts.v` | no code: the unit tests of `tests/` run on the model, as a check of the model against its authors' expectations |

**Arithmetic.**  The code is transcribed once, over an arbitrary `Num`, with the
order of operations of the C++ source.  Bookkeeping and memory safety are proved
for *every* arithmetic, so in particular for IEEE `double`.  Geometric laws are
proved for the reals, and some of them again for binary64 with rounding-error
bounds (`LemDouble.v` has the toolkit: exact value or error bound of each
operation on operands of bounded size).  Statements about rounding, overflow and NaN are proved, or
refuted by computation, for the IEEE instances.

**Outcomes.**  A model operation returns `Ok` or an error that names the reason:
use after free, out-of-bounds access, null dereference, failed assertion, thrown
exception, moved-from element, bad free, out-of-range cast, or `NoFuel` for the
one unbounded loop (the prediction loop).  Undefined behaviour is never given a
value.  "Hangs" means `NoFuel` for every amount of fuel.

**Executions.**  The wobbly API is `step_op fuel model op`; a history is a list
of operations and `run` folds over it.  Animations, programs and the GObject
layer have operation types of their own (`bounce_op`, `world_op`, `gop`, `gaop`,
…).  Theorems about histories are by induction over that list.

## Property by property

Properties that start with "Expectation" are false of the code.  For these the
main theorem is the refutation (suffix `_refuted`), next to the strongest true
variant we found.

### Wobbly model: anchors

* **C01** Every reachable model, any arithmetic.  Invariant: activation count = number of live handles.  Stated by its effects: with one live anchor a move drags the rest mesh and a step clamps (or snaps) every point to it; otherwise a step does not read the rest mesh.
* **C02** Invariant: lock count of a point = number of live grabs of it.  Stated as "integration leaves the state of a point alone iff some live grab holds it" and as the equation of motion of the others (reals).
* **C03** Invariant on the remembered first anchor, by induction over histories and over the `max_element` search.
* **C04** Loop invariant of the search of the nearest point, for any ordered arithmetic (`LemSearch.v`); reals, and binary64 with the error of the computed distance (`LemRounded.v`).
* **C05** Loop invariant of the search of the nearest spring; reals and binary64, as C04.
* **C20** From the integration equation; histories with two live anchors.
* **C51** Equation of `move_anchor`, every reachable state.
* **C52** Frame property of integration and constrainment on the heap of inserted points.

### Wobbly model: spring network and storage

* **C06, C55, C56** Invariant relating springs in the vector, springs held by anchors, live tracking ids and pending ids; permutation of the network after all releases; computation of the base network.
* **C07, C08, C53** Heap of live and freed blocks.  C07: invariant kept by the reverse-release discipline.  C08: a concrete history for every arithmetic in which a release in the other order leaves a spring that refers to freed storage; every later step then fails.  C53: the only errors are those named in the statement, for histories that keep the discipline and, with one more error, for all others; a step fails exactly when a spring refers to freed storage.
* **C54** Computation in binary64 (no finite distance is below the maximum).
* **C57** Settings are read at each call, never copied.
* **C72, C73** A process: several models, one identifier counter, settings objects.  A model among others is its solo run under an injective renaming of identifiers; every operation commutes with renaming.
* **C78, C79, C80** Programs over anchor variables.  A reader of the program text computes the native calls; conservation law between acquisitions, variables and releases; C79 reduces classes of programs to the release discipline of C07.
* **C74** Rounding to binary32 and back, relative error from Flocq; counterexample by computation.

### Wobbly model: movement

* **C09** Every operation commutes with translation of the state (reals); by induction over histories.
* **C10** Equation of `MoveModelBy`; any arithmetic, with Flocq's relative error and exactness on integers in binary64 (`SpecShift.v`, `LemShift.v`).  Exact equality in binary64 is refuted for C09, C10 and C11 by computation (`PropShift.v`).
* **C11, C12** Prediction loop: fuel monotonicity, and simulation between the prediction run and the real run up to permutation of springs.
* **C13** Loop invariant under which the prediction never ends: two locked points pulled apart, so that the spring between them always carries force.  Reals, and binary64 with explicit error bounds (`LemDouble.v`, `LemHang.v`).
* **C14, C15** Rescaled rest mesh = rest mesh of the new size, which stays the target mesh of a held grab; counterexamples by computation over the reals.
* **C16** Sum of forces, induction over the spring list (reals); error bound of one spring in binary64, where the two forces are exactly opposite because rounding is odd.
* **C17, C18** Reals, and binary64: the offset of every spring stays below the threshold in spite of rounding, so velocities stay zero (`LemQuiet.v`).
* **C21** Invariant: mesh = rest mesh at the held point.  Reals, and binary64 with the rounded additions written out (`SpecHold.v`, `LemHold64.v`).
* **C19, C22–C25** Invariants and equations of the step function; counterexamples (`_refuted`) over the reals or IEEE.  C23 also in binary64, with an error bound (`LemRange64.v`).
* **C26, C27, C28** Bernstein weights: non-negative, sum to 1, linear precision; corners also in binary64.  C27 and C28 also in binary64 with binary80 intermediates, as the code computes them, with an error bound (`LemDeform64.v`).
* **C29** Fold invariant of the running bounding box, rounding half away from zero; reals and binary64 (`LemBox64.v`).

### Steppers and animations

* **C30, C31, C32, C36, C50** Arbitrary stepper (state type and call function), binary32; histories of setter and `Step` calls.
* **C33, C34, C35** Reals for the closed form; binary32 by monotone rounding, and by an induction over the calls that adds one rounding error per call (`LemLinear32.v`, reversed in `LemReverse32.v`); counterexamples by computation.
* **C37–C41** 4×4 matrices over the reals; `ring`/`field`.  Glide's axis claim is refuted and replaced by a bound.  Coq's x / 0 is 0, which the code's is not: where a theorem over the reals would rest on that, a hypothesis excludes it (`lamp_regular`, a positive screen width or length) and a theorem in IEEE arithmetic says what happens there.  C37, C39 and C40 also in binary32 with the binary64 intermediates: matrices that scale and shift have rounded but known entries, and the roundings are added up in units of 2^-24 times the size (`SpecPixel.v`, `LemZoom32.v`, `LemBounce32.v`).  The same is done for reading the magic lamp's grid (C43: `LemGrid32.v`, `PropGrid.v`) and for its last frame (C42: `LemLampEnd.v`, `PropLampEnd.v`; of `exp` only coarse bounds are assumed, `rough_exp`).
* **C81** The same matrices in binary32, with the binary64 intermediates of the code: at progress 1 every factor has exact entries 0, 1 or a pair of opposite shifts, so that all sums and products are exact (`LemFinal.v`).  libm enters through two hypotheses of the theorems (finite sines; cos 0 = 1 and sin 0 = 0).  The `_run_out` theorems join this with the error bound of the linear stepper (C34), from the constructor to the last frame.
* **C42–C46** Grid as a list with bounds-checked access; reals, and binary64 for the index computation.  C44 classifies every texture coordinate by its cell numbers, in any arithmetic (`LemEdge.v`).
* **C47, C48, C49** Componentwise algebra; containment also in IEEE with NaN.

### GObject layer

* **C58, C61–C64** `gw_do` translates a call on the objects into native calls.  C61 is a simulation: every history of the objects is the history of the native calls it stands for.
* **C59, C65–C71** World of stepper objects and animation objects with their aliasing: a holder owns its stepper, a wrapper points into the animation.  C59 is the double free of the wrapper.
* **C75, C76, C77** Queries added to that world, pointers to matrices included.  C68 also in binary32/64, from C37.  C76 is an invariant over histories: the object equals a fold of native operations over the calls made on it.
* **C82, C83** `k_do` keeps the reference counts and translates taking and dropping references into the calls above.  Invariant: each count is the client's balance plus the live reverse steppers plus one for a default stepper.  C83 refutes that everything is freed: default steppers are leaked.
* **C84** One spring step of a motionless free mesh as a function of the pulls between grid neighbours (`SpecStall.v`); a step that keeps the state and reports motion keeps doing so, and the prediction loop with it.  For spring constants of at least 3: among the points out of place with respect to a neighbour the furthest one is pulled back by all neighbours that pull.  That stepping ends for the default settings is not proved: the mesh is then a damped oscillator with dead zones in force and velocity, no energy argument was found, and it is false close to them: `C84_moves_for_ever_in_double_refuted` computes, for spring constant 1479075000/185546321 = 7.97 and the default friction 3, an orbit of the binary64 model that comes back exactly after 12 steps (`LemOrbit.v`).
* **C85** Each axis of a free mesh is a linear recurrence v' = (1 - f/15) v - (k/30) L x + d, x' = x + v'/2, where L is the Laplacian of the 4 by 4 grid graph and the dead zones are the disturbance d, bounded by a number that depends on k only.  The largest eigenvalue of L is 4 + 2 sqrt 2 (`LemGrid.v`).  A quadratic form of x and v, positive definite on the motion modulo translation, contracts by a fixed ratio up to a constant (`LemLyap.v`), so it is ultimately bounded (`LemStable.v`).  Beyond the condition the component along the top eigenvector is multiplied by a number below -1 in each round; it grows once it outweighs d.  In real arithmetic.
* **C86** `Matchers.v` transcribes the factories and the sampling loop over any arithmetic and any `log`, `pow`; the verdicts are proved in real arithmetic with `ln` and `Rpower`, the NaN of constant functions in binary64 for every `log` and `pow` that propagate NaN.
* **C87** The comparison in binary64 by monotonicity of rounding (the tolerance is a binary64 number); the `int` instance over integers with undefined overflow.
* **C88** Refinement of `Step` to a relation that names no function of the model (`SpecLaw.v`), by induction over the rounds; uniqueness of the relation's outcome from uniqueness of the confined point.
* **C89** `SettingsLife.v` adds the destruction of the settings object and marks the calls that read it; proved equal to what the client can tell from its anchors (`SpecLife.v`), and all other calls are shown to commute with any change of the settings.
* **C60** Association-list model of the `GHashTable` and induction over the construct parameters.

No property of the list was found to be inexpressible.

## Simplifications and what is not modelled

* **GLib itself** is not part of `/repo`.  Where it matters its behaviour is
  written out in the model: `g_object_new` passes one construct parameter per
  construct property, parents first; a value outside the range of the property
  specification is not set; construct-only and read-only properties are not set
  by `g_object_set`; private data starts zeroed.  Type registration and signals
  are left out.  Reference counts of stepper and animation objects are in
  `GlibRefs.v` (without weak, toggle and floating references); elsewhere dropping
  the last reference is a call of its own (`GAnchorFinalize`, `AFinalize`, …).
* **glm** is not part of `/repo` either.  The four functions used are written out
  in `Transforms.v` after their documented definitions.
* **libm.**  `sin`, `cos`, `exp`, `pow` are given by a class `Libm`.  The only
  instance in the model is the reals; IEEE theorems quantify over all instances
  (examples beside them use toy ones).
* **Compiler freedom.**  Each IEEE operation is rounded on its own, to nearest
  even.  Contraction to fma and wider intermediate results are not modelled.
* **Integer widths.**  `unsigned int` arguments are integers; theorems that need
  it say `is_u32`.  Wrap-around is modelled where the code can reach it (cited
  in the definitions).
* **Move-only helper types** (`TemporaryOwner`, `unique_ptr`, `std::function`)
  are modelled by their effect on ownership, not as types.  The order of effects
  of a `unique_ptr` assignment (store, then delete) is that of the C++ standard.
* **Allocation failure** is not modelled.
* **Concurrency.**  The library is single threaded.
* **Settings objects** of the client are never destroyed in the model, except in
  `SettingsLife.v` (C89), where each call is marked with whether it reads them.
* **Not modelled at all:** the registration code of `emscripten.cpp`,
  `wobbly_concept_assert.h` (a compile-time check), the boxed-type registration
  in `animation-glib/{box,vector,vector4d}.cpp`, the fixtures of `tests/`, and of
  `matchers/` the streams and the template dispatch.

## Trusted base

* The kernel of Coq 8.16.1, including its virtual machine (`vm_compute`).
* The axioms that `Print Assumptions` prints, all from Coq's standard library:
  * `functional_extensionality_dep` (`FunctionalExtensionality`),
  * `sig_forall_dec` and `sig_not_dec` (`ClassicalDedekindReals`, the
    construction of the real numbers),
  * `classic` (`Classical_Prop`).
* No axiom of our own, no `Admitted`, no open obligation, no functor or module
  type, no kernel check switched off.
* Flocq is used for its definitions of IEEE operations and lemmas about them.  It
  adds no axiom.  For the IEEE theorems its definitions are part of what a
  reader must trust.
* The correspondence of model and code is by reading, through the citations.

### Assumptions of each theorem

**Closed under the global context** (no axiom), 122 theorems:

`C01_move_drags_rest_mesh`, `C01_single_anchor_clamps`,
`C01_single_anchor_snaps`, `C01_step_ignores_rest_mesh`,
`C02_attachment_is_permanent`, `C02_integration_skips_exactly_grabbed_points`,
`C02_only_live_grabs_hold`, `C03_first_anchor_is_kept`,
`C03_first_anchor_is_locked`, `C06_network_restored`,
`C07_reverse_release_is_safe`, `C08_every_later_step_fails`,
`C08_step_fails_exactly_when_dangling`, `C10_same_for_all`,
`C15_held_springs_keep_their_length`, `C19_batches`, `C19_integrations`,
`C19_zero`, `C20_grabbed_points_stay`, `C25_moved_anchor_not_reported`,
`C35_reverse_complements`, `C36_animation_unaffected`, `C36_caller_unaffected`,
`C36_construction`, `C36_replacement`, `C44_exactly`, `C45_enlarge_refuted`,
`C45_same_resolution`, `C45_shrink`, `C45_uncountable_refuted`,
`C47_assignment_exact_iff`, `C47_assignment_exchanges_z_w`,
`C47_copy_construction_copies`, `C47_points_are_copied`, `C47_swap`,
`C47_two_assignments_cancel`, `C49_componentwise`, `C50_getters`,
`C50_setters_keep_the_picture`, `C50_step_uses_current_values`,
`C51_move_by_moves_only_its_point`,
`C52_simulation_never_moves_inserted_points`, `C53_any_release_order`,
`C55_identifiers_unique`, `C56_base_network_is_the_grid`,
`C57_assignment_changes_nothing_else`, `C57_settings_are_the_last_assigned`,
`C58_careful_clients_are_safe`, `C58_inert_after_release`,
`C58_no_move_after_release`, `C58_released_exactly_once`,
`C59_careful_clients_are_safe`, `C59_last_reference_refuted`,
`C59_release_refuted`, `C59_shared_with_animation_refuted`,
`C60_default_only_when_null`, `C60_replaced`, `C60_unknown_name_aborts`,
`C60_values_looked_up`, `C61_careful_histories_return`,
`C61_object_models_are_reached`, `C61_objects_follow_native_model`,
`C61_queries_are_native`, `C62_anchor_outlives_model_refuted`,
`C63_settings_follow_assignments`, `C64_null_vectors_refuted`,
`C65_animations_independent`, `C65_animations_own_their_stepper`,
`C65_default_stepper`, `C65_stepper_objects_private`,
`C66_constructed_as_given`, `C66_construction_succeeds`,
`C67_construction_unchecked_refuted`, `C67_set_keeps_range`,
`C69_bounce_and_zoom_new`, `C69_glide_and_lamp_new`, `C69_lamp_factors_refuted`,
`C70_default_base`, `C70_reverse_object`, `C71_object_set_box`,
`C71_object_set_count`, `C71_object_set_number`,
`C71_setter_changes_only_its_property`, `C71_setter_of_box_or_count`,
`C71_target_is_given_once`, `C72_as_if_alone`, `C72_every_model`,
`C72_made_objects_are_new`, `C73_setters_act_on_all_default_models`,
`C73_settings_in_force`, `C75_get_stepper_is_the_getter`,
`C75_matrix_is_a_view`, `C75_null_arguments_are_refused`,
`C75_queries_change_nothing`, `C76_bounce_is_native`, `C76_glide_is_native`,
`C76_lamp_is_native`, `C76_lamp_resolution_fixed`, `C76_zoom_is_native`,
`C77_get_is_the_getter`, `C77_lamp_unreadable_refuted`, `C77_set_then_get`,
`C78_one_owner_one_release`, `C78_program_is_its_calls`, `C79_grabs_are_safe`,
`C79_one_at_a_time_is_safe`, `C79_scoped_anchors_are_safe`,
`C80_move_by_empty_refuted`, `C80_move_by_returns`,
`C82_alive_while_referenced`, `C82_careful_clients_are_safe`,
`C82_same_objects`, `C83_all_released_refuted`, `C83_default_resolutions_stay`,
`C83_default_steppers_stay`, `C83_what_is_left`, `C87_integer_zero_refuted`,
`C87_integers`, `C89_calls_after_the_settings_are_gone`,
`C89_histories_without_the_settings`, `C89_other_calls_ignore_the_settings`,
`C89_temporary_settings_refuted`

**`functional_extensionality_dep`, `sig_forall_dec`**, 1 theorems:

`C47_assignment_copies_refuted`

**`functional_extensionality_dep`, `sig_forall_dec`, `sig_not_dec`**, 94 theorems:

`C02_motion_law`, `C04_grab_fails_only_out_of_range`, `C04_grab_takes_nearest`,
`C05_insert_splits_nearest_spring`, `C06_network_restored_after_resizing`,
`C09_deformation`, `C09_translation`, `C10_additive`, `C10_does_not_wake`,
`C10_rigid`, `C11_again`, `C11_idempotent`, `C11_target`, `C12_at_rest`,
`C12_comes_to_rest`, `C13_hang`, `C13_move_to_returns_refuted`, `C14_resize`,
`C14_same_size`, `C14_twice`, `C16_action_reaction`, `C16_one_spring`,
`C16_rest`, `C17_fresh_model_is_at_rest`, `C18_settled_stays_settled`,
`C21_single_grab`, `C21_single_grab_home`, `C22_grabbed_point`,
`C23_constrainment`, `C26_corners`, `C27_convex_combination`,
`C27_inside_every_half_plane`, `C28_commutes_with_affine_maps`,
`C28_linear_on_a_resting_mesh`, `C29_contains_all_points_refuted`,
`C29_contains_rounded_points`, `C29_misses_by_at_most_half`,
`C29_rounded_bounding_box`, `C33_linear_animation`, `C33_linear_split`,
`C33_linear_value`, `C35_reverse_twice`, `C35_reversed_linear`,
`C37_zoom_constructed`, `C37_zoom_ends`, `C37_zoom_interpolates`,
`C38_zoom_extent`, `C39_bounce_ends_at_identity`,
`C39_bounce_scales_about_centre`, `C40_bounce_envelope`,
`C40_bounce_positive_refuted`, `C41_glide_axis_fixed_refuted`,
`C41_glide_axis_near`, `C41_glide_ends_flat`, `C41_glide_rigid`,
`C42_ends_on_target`, `C43_bilinear`, `C43_exact_at_nodes`, `C43_interpolates`,
`C44_below_refuted`, `C44_exactly_real`, `C44_left_refuted`, `C44_near`,
`C44_right_refuted`, `C45_enlarge_read_refuted`, `C46_source_above_refuted`,
`C48_contains_is_closed_rectangle`, `C48_monotone`, `C48_translation_invariant`,
`C49_add_subtract_inverse`, `C49_distance_is_euclidean`, `C49_distance_metric`,
`C49_equals_decides`, `C50_resolution_refuted`,
`C53_well_formed_histories_do_not_fail`, `C63_properties_stay_in_range`,
`C63_settings_always_in_range_refuted`, `C68_empty_from_collapses_refuted`,
`C69_glide_length_refuted`, `C75_matrix_is_a_copy_refuted`,
`C76_lamp_objects_end_on_target`, `C76_transform_objects_end_where_they_belong`,
`C84_moving_means_moving`, `C84_stall_lasts`, `C84_stalls_exactly_when`,
`C84_strong_springs_move`, `C84_wobbling_ends_refuted`,
`C85_documented_ranges_are_damped`, `C85_motion_dies_down`,
`C85_motion_dies_down_refuted`, `C86_linear_accepts`, `C86_linear_verdict`,
`C88_law_determines_the_outcome`, `C88_step_obeys_the_law`

**`classic`, `functional_extensionality_dep`, `sig_forall_dec`, `sig_not_dec`**, 98 theorems:

`C04_grab_takes_nearest_in_double`,
`C05_insert_splits_nearest_spring_in_double`,
`C08_any_release_order_is_safe_refuted`, `C09_translation_double_refuted`,
`C10_nearly_rigid_double`, `C10_rigid_double_refuted`,
`C10_rigid_on_pixels_double`, `C11_target_double_refuted`,
`C12_at_rest_double_refuted`, `C13_hang_in_double`,
`C13_move_to_returns_in_double_refuted`, `C14_settled_model_refuted`,
`C15_consistent_after_release_refuted`, `C16_one_spring_in_double`,
`C17_far_away_refuted`, `C17_fresh_model_is_at_rest_in_double`,
`C18_settled_stays_settled_in_double`, `C18_single_inserted_anchor_refuted`,
`C21_exact_after_moving_refuted`, `C21_rounding_of_movements`,
`C21_single_grab_in_double`, `C21_whole_units_are_exact`,
`C22_grabbed_point_immobile_refuted`, `C23_constrainment_in_double`,
`C24_zero_range`, `C24_zero_range_harmless_refuted`,
`C25_step_zero_reports_moves_refuted`, `C26_corners_in_double`,
`C27_convex_combination_in_double`, `C27_inside_every_half_plane_in_double`,
`C28_linear_on_a_resting_mesh_in_double`,
`C29_misses_by_at_most_half_in_double`, `C29_rounded_bounding_box_in_double`,
`C30_progress_in_unit`, `C31_step_result`, `C31_step_returns`,
`C32_construction_clamps_refuted`, `C32_first_value`,
`C32_linear_starts_at_zero`, `C33_linear_never_decreases`,
`C33_progress_never_decreases`, `C33_value_in_single`,
`C34_exact_length_refuted`, `C34_finishes_up_to_rounding`,
`C34_long_step_finishes`, `C34_never_finishes_refuted`,
`C35_reverse_twice_in_single_refuted`, `C35_reversed_linear_in_single`,
`C37_zoom_near_float`, `C38_zoom_extent_double`,
`C38_zoom_extent_double_refuted`, `C39_bounce_near_float`,
`C40_bounce_envelope_float`, `C41_no_screen_refuted`,
`C42_ends_on_target_float`, `C42_full_stretch_refuted`, `C42_new_lamp`,
`C42_no_bend_refuted`, `C42_one_column_refuted`, `C42_one_row_refuted`,
`C42_same_height_refuted`, `C42_source_above_refuted`, `C42_starts_on_source`,
`C43_bilinear_float`, `C43_in_bounds_double`, `C43_interpolates_float`,
`C46_extremes_bound`, `C48_contains_ieee`, `C48_nan_never_contained`,
`C53_well_formed_histories_do_not_fail_in_double`,
`C54_any_finite_position_refuted`, `C67_zero_length_refuted`,
`C68_empty_from_collapses_float_refuted`, `C74_float_sizes_kept`,
`C74_size_error`, `C74_size_kept_refuted`, `C76_full_stretch_refuted`,
`C76_lamp_queries_in_bounds`, `C79_replacing_an_anchor_refuted`,
`C81_bounce_any_scale_refuted`, `C81_bounce_last_frame`, `C81_bounce_run_out`,
`C81_glide_last_frame`, `C81_glide_run_out`, `C81_pixels_are_exact`,
`C81_zoom_last_frame`, `C81_zoom_run_out`,
`C84_moves_for_ever_in_double_refuted`, `C84_wobbling_ends_in_double_refuted`,
`C86_decay_accepts_refuted`, `C86_decay_from_one_above`,
`C86_parabolic_accepts`, `C86_parabolic_flat_refuted`, `C86_parabolic_sound`,
`C87_accepts_near_points`, `C87_infinite_points_refuted`,
`C87_points_equal_themselves`, `C87_rejects_distant_points`

## Tests against wrong programs

`seeded/LOG.jsonl` has one line per wrong program: the definition edited, the
edit, the claim it breaks, the theorems that failed, the theorems tightened.
The method: edit one definition of the model in a scratch copy, rebuild, replace
each proof that now fails by a hole, and print the assumptions of every property
theorem.  A theorem whose proof rests on a hole is counted as failed.  Theorems
that still hold are compared with their English claim.
