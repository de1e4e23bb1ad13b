{"id": "C01", "title": "Target constraint is in force exactly while one anchor is live", "statement": "After any history of API calls on a wobbly Model, the model is in target-constrained mode (Anchor::MoveBy drags the whole rest mesh, Step clamps points to within maximumRange of their rest position and snaps on settling) if and only if exactly one Anchor obtained from GrabAnchor or InsertAnchor is still alive.", "quantifier": "every sequence of GrabAnchor/InsertAnchor/Anchor::MoveBy/Anchor release/Step/MoveModelBy/MoveModelTo/ResizeModel calls and settings changes, with anchors released in any order", "why_tests_cant": "The set of interleavings of acquiring and releasing anchors is unbounded; a test only visits a handful.", "anchors": ["animation/wobbly/wobbly.cpp: TargetMesh::Activate", "animation/wobbly/wobbly_internal.h: TargetMesh::Active", "animation/wobbly/wobbly_internal.h: ConstrainingAnchor"]}
{"id": "C02", "title": "A mesh point is held immobile by integration exactly while some live grab holds it", "statement": "After any history, a mesh point is exempt from spring integration (its velocity is reset instead of being integrated) if and only if at least one live Anchor from GrabAnchor was attached to that point; several grabs of the same point are counted, and the point is freed only when the last one is released.", "quantifier": "every call history, every release order, every number of simultaneous grabs (below the 2^32 counter range)", "why_tests_cant": "Reference-counting mistakes only show up under particular interleavings of overlapping grabs.", "anchors": ["animation/wobbly/wobbly_internal.h: TrackedAnchors::Lock/Unlock/PerformActions", "animation/wobbly/wobbly.cpp: GrabAnchor"]}
{"id": "C03", "title": "The remembered first grabbed point is always a point that is really grabbed", "statement": "After any sequence of grabs and releases, the anchor bookkeeping reports a 'first grabbed' index exactly when at least one point is grabbed, and the index it reports is a grabbed one.", "quantifier": "every sequence of Lock/Unlock calls in which each Unlock matches an earlier Lock", "why_tests_cant": "The heaviest-anchor fallback in Unlock is only exercised by specific unlock orders.", "anchors": ["animation/wobbly/wobbly_internal.h: TrackedAnchors::Lock/Unlock/WithFirstGrabbed"]}
{"id": "C04", "title": "GrabAnchor attaches to a nearest mesh point, lowest index on ties", "statement": "GrabAnchor(p) attaches the anchor to the mesh point with the least Euclidean distance to p, and to the one with the smallest index (row-major) when several are equally near; it never attaches to a point that is farther than another.", "quantifier": "every mesh configuration (settled, deformed, with coincident points) and every grab position whose distance is representable (real arithmetic; in double, coordinates up to 2^500 and nearest up to a relative error of 2^-48)", "why_tests_cant": "Depends on 16 arbitrary real positions and on tie breaking.", "anchors": ["animation/wobbly/wobbly_internal.h: mesh::ClosestIndexToPosition", "animation/wobbly/wobbly.cpp: Model::GrabAnchor"]}
{"id": "C05", "title": "InsertAnchor splits the spring nearest to the insertion point", "statement": "InsertAnchor(p) splits a spring whose first end is at least as near to p as the first end of any other spring and, among the springs sharing that distance, one whose second end is nearest; the two replacement springs connect the inserted point to exactly the two ends of the spring that was removed.", "quantifier": "every mesh configuration, every set of already inserted anchors, every insertion position (real arithmetic; in double, coordinates up to 2^500 and nearest up to a relative error of 2^-48)", "why_tests_cant": "Depends on arbitrary positions, ties and on springs created by earlier insertions.", "anchors": ["animation/wobbly/wobbly.cpp: FindSpringToSplit, InstallAnchorSprings"]}
{"id": "C06", "title": "Releasing all inserted anchors restores the original spring network", "statement": "Whatever sequence of InsertAnchor calls and releases is made, and in whatever order the anchors are released, once every inserted anchor has been released the model holds exactly the springs it was built with: nothing is lost, duplicated or left over, and no deferred removals remain.", "quantifier": "every number of nested or overlapping inserted anchors and every release order (no resize while an anchor is inserted)", "why_tests_cant": "A spring created by one anchor may be split by a later one, and release orders are factorial in the number of anchors.", "anchors": ["animation/wobbly/wobbly_internal.h: SpringVector::TakeMatching/EmplaceAndTrack", "animation/wobbly/wobbly.cpp: InstallAnchorSprings"]}
{"id": "C07", "title": "Inserted anchors are memory-safe when released in reverse order of insertion", "statement": "If inserted anchors are always released in the reverse of the order in which they were inserted (grabs may be interleaved freely), no API call ever reads or writes the storage of a released anchor.", "quantifier": "every call history obeying that release discipline", "why_tests_cant": "Use-after-free depends on the history; tests exercise one or two anchors.", "anchors": ["animation/wobbly/wobbly.cpp: InsertedSprings, InstallAnchorSprings", "animation/wobbly/wobbly_internal.h: SpringVector"]}
{"id": "C08", "title": "Inserted anchors can be released in any order without touching freed storage", "statement": "Expectation: the anchors returned by InsertAnchor may be released in any order. The code violates it: after a second anchor has split a spring attached to the first, releasing the first one leaves a live spring pointing into freed storage and the next Step reads it.", "quantifier": "every release order", "why_tests_cant": "Needs a particular nesting of two insertions and a particular release order.", "anchors": ["animation/wobbly/wobbly.cpp: InsertedSprings", "animation/wobbly/wobbly_internal.h: SpringVector::EmplaceAndTrack"]}
{"id": "C09", "title": "Behaviour is translation invariant", "statement": "Running any history of API calls on a model created at p+d with every position argument (grab, insert and MoveModelTo positions) displaced by d produces, call by call, the same results as the original history with every returned position displaced by d: same Step results, same anchors, same deformation up to the displacement.", "quantifier": "every displacement, every initial position/size/settings, every call history (real arithmetic; in double a counterexample to exact equality)", "why_tests_cant": "A relational statement over pairs of unbounded executions.", "anchors": ["animation/wobbly/wobbly.cpp: Model::*"]}
{"id": "C10", "title": "MoveModelBy is a rigid translation", "statement": "MoveModelBy(d) adds d to every mesh point, every rest position and every inserted anchor, leaves velocities, grabs, springs and size untouched, never wakes a settled model, and moving by d then e equals moving by d+e; the result of DeformTexcoords is displaced by d for every texture coordinate. In double each coordinate is the sum up to a relative error of 2^-53, and exactly the sum for whole numbers of pixels; moving by d and back is then not exact in general.", "quantifier": "every reachable model state and every vector (displacement: any arithmetic, with the error bound in double; composition and DeformTexcoords: real arithmetic)", "why_tests_cant": "Quantifies over all states and all texture coordinates.", "anchors": ["animation/wobbly/wobbly.cpp: Model::MoveModelBy", "animation/wobbly/wobbly_internal.h: AnchorDataVector::MoveBy"]}
{"id": "C11", "title": "MoveModelTo makes the predicted rest position equal to the requested point", "statement": "Whenever MoveModelTo(p) returns, the model's predicted top-left rest position is exactly p, and asking again for the same point does not move anything.", "quantifier": "every reachable state in which the prediction terminates, every p (real arithmetic; in double a counterexample to exact equality)", "why_tests_cant": "The prediction is an unbounded integration loop.", "anchors": ["animation/wobbly/wobbly.cpp: Model::MoveModelTo, Private::TargetPosition"]}
{"id": "C12", "title": "A free model really comes to rest where MoveModelTo put it", "statement": "If no anchor is live, then after MoveModelTo(p) returns, calling Step(16) until it returns false leaves the top-left mesh point exactly at p: the internal prediction and the real simulation agree.", "quantifier": "every reachable state without inserted anchors, any velocities, any positive size (real arithmetic; in double a counterexample to exact equality)", "why_tests_cant": "Relates two unbounded loops step by step.", "anchors": ["animation/wobbly/wobbly.cpp: TargetPositionByFullIntegration, Model::Step"]}
{"id": "C13", "title": "MoveModelTo and ResizeModel can hang", "statement": "Expectation: MoveModelTo and ResizeModel always return. The code violates it: while two neighbouring points are grabbed so far off their rest vector that the spring between them pulls, neither returns, in real and in double arithmetic.", "quantifier": "every reachable state with two such grabs, every argument, every number of rounds (real arithmetic; double with coordinates up to 2^50 and an offset of at least 2)", "why_tests_cant": "Non-termination cannot be observed by a test; it has to be proved for every number of iterations.", "anchors": ["animation/wobbly/wobbly.cpp: TargetPositionByFullIntegration"]}
{"id": "C14", "title": "ResizeModel rescales the rest mesh and keeps a settled model settled", "statement": "ResizeModel(w,h) on an undeformed resting model without inserted anchors yields an undeformed resting model of size w x h whose top-left corner is unchanged, also while points are grabbed (if a single one is, provided that the mesh lies at its rest positions, as it does after grabbing an undeformed model); resizing to the current size changes nothing; resizing twice equals resizing once to the last size. For a model that merely settled (Step returned false while springs are within the threshold of their rest length) the expectation that the mesh becomes the regular grid of the new size is refuted.", "quantifier": "every position, every positive old and new size (real arithmetic)", "why_tests_cant": "Real-valued sizes and iterated resizes.", "anchors": ["animation/wobbly/wobbly.cpp: Model::ResizeModel", "animation/wobbly/wobbly_internal.h: SpringStep::Scale"]}
{"id": "C15", "title": "Resizing while an anchor is inserted and then releasing it keeps the model consistent", "statement": "Expectation: insert an anchor, resize the model, release the anchor; the springs then match the new size. The code violates it: the split spring is not in the vector while it is stolen, so it keeps its old rest length and the released model is pulled out of shape.", "quantifier": "every insert/resize/release history", "why_tests_cant": "Needs an interleaving of three features.", "anchors": ["animation/wobbly/wobbly.cpp: SpringMesh::Scale, ResizeModel", "animation/wobbly/wobbly_internal.h: TakeMatching"]}
{"id": "C16", "title": "Springs obey action and reaction", "statement": "In every force calculation each spring adds opposite forces to its two ends, so the total force over all mesh points and inserted anchors is zero; a model at rest lengths has zero force everywhere. In double arithmetic the two forces of a spring are still exactly opposite and are its extension times half the spring constant up to rounding.", "quantifier": "every mesh configuration, spring constant and set of springs (real arithmetic; for one spring also double with coordinates up to 2^50)", "why_tests_cant": "Sum over arbitrary real configurations and arbitrary spring sets.", "anchors": ["animation/wobbly/wobbly_internal.h: Spring::ApplyForces, SpringMesh::CalculateForces"]}
{"id": "C17", "title": "A freshly created model is at rest", "statement": "For every position, size and settings, Step(t) on a new model returns false and moves nothing, for every t and any number of repetitions. In double arithmetic this holds for positions and sizes up to 2^48 with finite settings and is refuted at 2^54, where rounding alone sets the mesh in motion.", "quantifier": "every position, every size, every setting, every sequence of times (real arithmetic; double up to 2^48)", "why_tests_cant": "Real-valued inputs and unbounded repetition.", "anchors": ["animation/wobbly/wobbly.cpp: Model::Private::Private, Model::Step"]}
{"id": "C18", "title": "Step returning false means settled, and settled models stay settled", "statement": "When Step(t) with t>0 returns false and there is no single live anchor that was inserted, every point has zero velocity, every spring is within one unit per axis of its rest vector, and every later Step with any t returns false again and leaves the geometry unchanged, until another call disturbs the model. With a single inserted anchor this is refuted: the snap to the rest positions can wake the model again.", "quantifier": "every reachable state and every t (real arithmetic; double for every history that leaves none or several anchors held)", "why_tests_cant": "Quiescence must hold for every later step.", "anchors": ["animation/wobbly/wobbly.cpp: Model::Step, Integrate", "animation/wobbly/wobbly_internal.h: EulerIntegrate"]}
{"id": "C19", "title": "Step performs one integration per started 16 ms and composes", "statement": "Step(t) performs exactly ceil(t/16) integrations; with no single-anchor constraint, or when both steps report that more is to come, Step(16*a) followed by Step(16*b) reaches the same mesh as Step(16*(a+b)), so the trajectory does not depend on how frames are batched; Step(0) never changes velocities.", "quantifier": "every state, all times", "why_tests_cant": "All splits of all durations.", "anchors": ["animation/wobbly/wobbly.cpp: Model::Step, Integrate"]}
{"id": "C20", "title": "Step never moves a grabbed point while two or more anchors are live", "statement": "With two or more live anchors, Step leaves every grabbed mesh point exactly where its anchor put it, whatever the forces, and its velocity is zero afterwards.", "quantifier": "every state with at least two live anchors, every t", "why_tests_cant": "Any configuration of forces and any number of integration steps.", "anchors": ["animation/wobbly/wobbly_internal.h: AnchoredIntegration", "animation/wobbly/wobbly.cpp: ConstrainmentStep"]}
{"id": "C21", "title": "A single grab taken on a settled mesh pins its point", "statement": "If a point is grabbed on a settled, undeformed model and no other anchor is live, then through any sequence of Anchor::MoveBy, Step, MoveModelBy calls the grabbed point is always exactly at its grab-time position plus the sum of the movements, for any maximumRange > 0. In double arithmetic it is exactly where the rounded additions of the movements put it, so movements by whole pixels are exact and others are off by at most one rounding each; this holds for a mesh as a new model has it and is refuted for one that moving the model has rounded.", "quantifier": "every sequence of moves and steps (real arithmetic; double with corner and size up to 2^48)", "why_tests_cant": "Invariant over unbounded histories.", "anchors": ["animation/wobbly/wobbly.cpp: Model::Step, ConstrainmentStep", "animation/wobbly/wobbly_internal.h: ConstrainingAnchor::MoveBy"]}
{"id": "C22", "title": "A grab on an unsettled mesh keeps its point immobile", "statement": "Expectation (header): a grabbed point becomes immobile and only its anchor moves it. The code violates it: with a single grab taken on a mesh that has not settled, settling snaps the grabbed point to its predicted rest position although the anchor was never moved.", "quantifier": "every state", "why_tests_cant": "Needs a deformed mesh at grab time and settling later.", "anchors": ["animation/wobbly/wobbly.h: GrabAnchor", "animation/wobbly/wobbly.cpp: Model::Step (snap), ConstrainmentStep"]}
{"id": "C23", "title": "Constrainment bounds the distance to the rest position", "statement": "With exactly one live anchor and maximumRange r > 0, the constraint pass moves every point farther than r from its rest position to distance exactly r along the same direction, and leaves nearer points untouched; after a one-integration Step no point is farther from its rest position than r plus half its velocity.", "quantifier": "every configuration and every r > 0 (real arithmetic); in double every reachable configuration with coordinates and range up to 2^j, j <= 500, up to an error of 2^(j-43)", "why_tests_cant": "Arbitrary real configurations.", "anchors": ["animation/wobbly/wobbly.cpp: ConstrainmentStep::operator()"]}
{"id": "C24", "title": "Zero maximum range is harmless", "statement": "Expectation: maximumRange 0 simply keeps every point at its rest position. The code violates it: a point exactly at its rest position is divided 0/0 and the mesh becomes NaN and never recovers.", "quantifier": "IEEE double arithmetic", "why_tests_cant": "Boundary of a real-valued parameter combined with exact coincidence.", "anchors": ["animation/wobbly/wobbly.cpp: ConstrainmentStep::operator()"]}
{"id": "C25", "title": "Step(0) reports an anchor that was moved on a settled model", "statement": "Expectation: after Anchor::MoveBy on a settled model with a held grab, Step(0) reports that more steps are required and does not move the mesh. The code violates it: it returns false and snaps all points to their rest positions at once.", "quantifier": "every settled state with one live grab", "why_tests_cant": "History dependent: needs settling while the anchor is held.", "anchors": ["animation/wobbly/wobbly.cpp: Model::Step"]}
{"id": "C26", "title": "DeformTexcoords maps the unit-square corners to the mesh corners", "statement": "For every mesh, texture coordinates (0,0), (0,1), (1,0), (1,1) are mapped exactly to the four corner points of the mesh, and nothing else in the mesh influences them.", "quantifier": "every mesh", "why_tests_cant": "All real configurations.", "anchors": ["animation/wobbly/wobbly_internal.h: BezierMesh::DeformUnitCoordsToMeshSpace"]}
{"id": "C27", "title": "DeformTexcoords stays within the hull of the mesh", "statement": "For every texture coordinate in [0,1]^2 the deformed point is a convex combination of the mesh points, so it lies in every axis-aligned box and every half-plane containing all mesh points.", "quantifier": "every mesh and every texture coordinate in the unit square (real arithmetic); in double every reachable mesh with coordinates up to 2^j, j <= 900, up to an error of 2^(j-43)", "why_tests_cant": "Two continuous parameters and 32 real coordinates.", "anchors": ["animation/wobbly/wobbly_internal.h: BezierMesh::DeformUnitCoordsToMeshSpace"]}
{"id": "C28", "title": "DeformTexcoords commutes with affine maps and is linear on a resting mesh", "statement": "Applying any affine map to the mesh applies the same map to every deformed point; on an undeformed mesh of size w x h at p the result is p + (v*w, u*h): the first texture component runs down the mesh and the second runs across.", "quantifier": "every mesh, affine map and texture coordinate (real arithmetic); linearity on a resting mesh also in double, up to an error of 2^(j-40)", "why_tests_cant": "All reals; the transposition is easy to overlook on square, symmetric tests.", "anchors": ["animation/wobbly/wobbly_internal.h: BezierMesh::DeformUnitCoordsToMeshSpace"]}
{"id": "C29", "title": "Extremes is the rounded bounding box of the mesh", "statement": "Extremes returns the four corners of one axis-aligned rectangle whose sides are the minimum and maximum mesh coordinates rounded to the nearest integer; it therefore misses no mesh point by more than half a unit, it contains every point after rounding, and it is not always a true bounding box.", "quantifier": "every reachable model, in real arithmetic and in double arithmetic for finite meshes", "why_tests_cant": "All real configurations; rounding is applied repeatedly inside the loop.", "anchors": ["animation/wobbly/wobbly.cpp: BezierMesh::Extremes"]}
{"id": "C30", "title": "Progress stays in [0,1] whatever the stepper returns", "statement": "After any Step of a bounce, glide, zoom or magic-lamp animation, Progress() is a number in [0,1] even when the stepper returns values outside that range, infinities or NaN.", "quantifier": "every stepper (any stateful function), every call sequence, IEEE single precision", "why_tests_cant": "The stepper is an arbitrary user function.", "anchors": ["animation/math.h: clamp", "animation/bounce/bounce.cpp: Step", "animation/glide/glide.cpp: Step", "animation/zoom/zoom.cpp: Step", "animation/magiclamp/magiclamp.cpp: Step"]}
{"id": "C31", "title": "An animation Step returns true exactly while progress is strictly between 0 and 1", "statement": "Step returns true iff 0 < Progress() < 1 afterwards; in particular it returns false once the stepper reaches 1 and also while it is still at 0.", "quantifier": "every stepper and call sequence", "why_tests_cant": "Arbitrary stepper.", "anchors": ["animation/bounce/bounce.cpp: Step", "animation/zoom/zoom.cpp: Step"]}
{"id": "C32", "title": "Construction clamps progress", "statement": "Expectation: Progress() is in [0,1] as soon as an animation has been constructed. The code violates it: the constructor stores the stepper's first value unclamped.", "quantifier": "every stepper", "why_tests_cant": "Steppers used in tests start at 0.", "anchors": ["animation/bounce/bounce.cpp: Private::Private", "animation/zoom/zoom.cpp: Private::Private"]}
{"id": "C33", "title": "Linear stepper accumulates elapsed time", "statement": "In exact arithmetic Linear(length) returns (total elapsed ms)/length, independent of how the time is split, so an animation driven by it stops exactly at the first Step where the total reaches length; in IEEE single precision successive values never decrease, and after k calls the value is within (k+6) 2^-23 of the elapsed fraction as long as that is at most 2, and at least 1 beyond it.", "quantifier": "every positive length and every sequence of step times (in single precision up to 2^20 calls)", "why_tests_cant": "All splits of all durations, all float lengths.", "anchors": ["animation/stepper/linear.h: Linear"]}
{"id": "C34", "title": "Linear stepper finishes after exactly its length in single precision", "statement": "Expectation: stepping a Linear(length) stepper for a total of length ms ends the animation. The code violates it in single precision: rounding can leave progress below 1 after exactly length ms, above 1 before, and for long enough lengths progress stops increasing altogether. What holds: up to 2^20 steps, the progress of any animation driven by it is within err = (k+7) 2^-23 of the elapsed fraction cut off at 1; Step answers false with progress exactly 1 once the fraction is 1 + err, and true with progress strictly between 0 and 1 while it is below 1 - err.", "quantifier": "IEEE single precision, all lengths and splits", "why_tests_cant": "Depends on accumulated rounding.", "anchors": ["animation/stepper/linear.h: Linear"]}
{"id": "C35", "title": "Reverse stepper complements its source", "statement": "Reverse(s) returns 1 - s(ms) at each call and advances s exactly once per call; Reverse of Reverse equals the original in exact arithmetic; a reversed Linear animation runs from 1 to 0 in the same total time. In single precision the progress of a reversed Linear animation is after k steps within (k+8) 2^-23 of 1 minus the elapsed fraction and ends at exactly 0; reversing twice then loses small values (refuted).", "quantifier": "every stepper and call sequence (linear in single precision: up to 2^20 calls)", "why_tests_cant": "Arbitrary stateful function.", "anchors": ["animation/stepper/reverse.h: Reverse"]}
{"id": "C36", "title": "An animation owns an independent copy of its stepper", "statement": "The stepper given to a constructor is called exactly once, with 0, and then copied: stepping the animation never advances the caller's stepper and vice versa; replacing the Stepper property restarts progress from the new stepper's state.", "quantifier": "every stepper and interleaving of calls on both copies", "why_tests_cant": "Aliasing is only visible under interleavings.", "anchors": ["animation/bounce/bounce.cpp: Private::Private", "animation/property.h"]}
{"id": "C37", "title": "Zoom interpolates linearly between its boxes", "statement": "At progress p the zoom transform maps every corner of the 'to' box (relative to its top-left) to the linear interpolation (1-p)*from + p*to of the corresponding corners; in particular p=0 gives the 'from' box and p=1 is the identity, and z=0 is preserved. In float and double the drawn point is off by at most 2^(k-19) for coordinates up to 2^k: 1/32 of a pixel on screens of 16384 pixels.", "quantifier": "every pair of boxes with non-zero 'to' extent, every progress, every surface point (real arithmetic, and float and double with an error bound)", "why_tests_cant": "Continuous in ten parameters.", "anchors": ["animation/zoom/zoom.cpp: ComputeZoomTransform"]}
{"id": "C38", "title": "Zoom never divides by a zero extent after construction", "statement": "Boxes given to the zoom constructor are widened to at least a non-zero extent on each axis, only when the extent is exactly zero, keeping the top-left corner, so the transform has finite scale at every progress; assigning From later bypasses the widening of 'from' but never makes the divisor zero.", "quantifier": "every pair of boxes, every progress; refuted for huge IEEE coordinates where x+1 = x", "why_tests_cant": "Degenerate boxes and float absorption.", "anchors": ["animation/zoom/zoom.cpp: EnsureNonZeroArea, ZoomAnimation::From"]}
{"id": "C39", "title": "Bounce ends at the identity and starts at the initial scale, about the box centre", "statement": "At progress 1 the bounce transform is the identity; at progress 0 it scales by initialScale about the centre of the target; the centre is fixed at every progress. In float and double this holds up to 2^(k+j-19) for coordinates up to 2^k and scales up to 2^j, with the same scale at both ends.", "quantifier": "every box, every scale, every bounce count, every progress (real arithmetic, and float and double with an error bound)", "why_tests_cant": "Continuous parameters.", "anchors": ["animation/bounce/bounce.cpp: ComputeBounceTransform"]}
{"id": "C40", "title": "Bounce scale stays inside its envelope", "statement": "For progress in [0,1] and initialScale <= maximumScale the scale factor differs from the straight line between initialScale and 1 by at most (maximumScale-initialScale)*(1-progress), hence never exceeds max(maximumScale,1); it is not always positive: some allowed parameters mirror the surface. In float and double it holds up to 2^(j-19) for scales up to 2^j.", "quantifier": "every progress, every bounce count, every scale pair (real arithmetic, and float and double with an error bound)", "why_tests_cant": "Sine of an arbitrary argument.", "anchors": ["animation/bounce/bounce.cpp: ComputeScaleFactorFromProgressParameters"]}
{"id": "C41", "title": "Glide ends with the surface flat and in place", "statement": "At progress 1 the glide transform leaves the x and y of every surface point unchanged, and at every progress it moves the surface rigidly (distances in space are kept). Expectation: the configured rotation axis point keeps its x,y at every progress and is displaced only in depth. The code violates it by up to 1/screenWidth, and by no more. The constructor accepts a screen of width 0, with which the last frame is NaN (refuted); the other claims are for positive widths.", "quantifier": "every box, angle, axis, distance and progress (real arithmetic)", "why_tests_cant": "Continuous parameters.", "anchors": ["animation/glide/glide.cpp: ComputeGlideTransform"]}
{"id": "C42", "title": "Magic lamp ends exactly on the target and starts exactly on the source", "statement": "At progress 1 every point of the surface is on the target box at its own proportion, provided the tops of the boxes are at different heights, bend is not 0 and stretch < 1; at progress 0 it is on the source box, provided the source is below the target, deformSpeed >= 1, bend is not 0 and 0 <= stretch < 1; with the source above the target the start claim is refuted. In IEEE arithmetic resolutions of one column or one row, and boxes with the same top, give NaN (refuted), and so do no bend and, for every lamp of two or more rows, the stretch factor 1 in the bottom row of the last frame, although the property of the GObject wrapper accepts it. In float and double the last frame is at most 2^(k-16) off for boxes with coordinates up to 2^k, tops at least a pixel apart and factors in their ranges, whatever exp returns as long as it is roughly an exponential.", "quantifier": "every pair of boxes, every grid resolution >= 2x2, every uv of the unit square, every bend/offset/stretch/speed (real arithmetic, the last frame also in float and double with an error bound; refutations in IEEE)", "why_tests_cant": "Any resolution, any real parameters.", "anchors": ["animation/magiclamp/magiclamp.cpp: MoveGridVerticallyTowardsTargetWithXSigmoidDeformation"]}
{"id": "C43", "title": "Magic lamp interpolation is in bounds and interpolates", "statement": "For every texture coordinate in [0,1]^2 DeformUVToModelSpace reads only existing grid vertices (also in IEEE double), returns the vertex itself at grid nodes, and lies within the bounding box of the four surrounding vertices. In float and double the shown point is within 2^(k-19) + (columns * dh + rows * dv) 2^-20 of the bilinear mean of the corners of its cell, for coordinates up to 2^k and neighbours at most dh (in a row) and dv (in a column) apart. So it lies within the bounding box of those corners up to 2^(k-18) plus the same second term.", "quantifier": "every resolution >= 2x2, every grid content, every uv in the unit square (real arithmetic; float and double with an error bound for grids up to 65536 columns and rows)", "why_tests_cant": "Continuous uv and arbitrary resolutions.", "anchors": ["animation/magiclamp/magiclamp.cpp: InterpolateIntoGrid"]}
{"id": "C44", "title": "Magic lamp tolerates texture coordinates outside the unit square", "statement": "Expectation: coordinates outside [0,1] are clamped (the code computes a clamped pair). The code violates it: the clamped pair is unused; below the grid it reads out of bounds, to the left or above by a column or row it converts a negative number to an unsigned one, to the right it silently uses the next rows as long as there are any. The reads are in bounds exactly if the cell numbers are not negative, the cell's row exists and its lower left vertex, counted through the rows, is in the grid; in particular within one cell of the edge.", "quantifier": "every uv below 2^31 cells, every resolution below 2^31 by 2^31, every arithmetic", "why_tests_cant": "Reads past the end of a vector may go unnoticed in tests.", "anchors": ["animation/magiclamp/magiclamp.cpp: InterpolateIntoGrid"]}
{"id": "C45", "title": "Magic lamp grid resolution can be changed", "statement": "With unchanged resolution every Step writes exactly the existing vertices. Expectation: after setting GridResolution the next Step uses the new resolution. The code violates it: the vertex storage keeps its old size, so enlarging makes Step write, and deformation read, out of bounds. Shrinking stays in bounds. A resolution with 2^64 vertices or more makes already the constructor write out of bounds.", "quantifier": "every resolution pair", "why_tests_cant": "Heap overflow; any resolution.", "anchors": ["animation/magiclamp/magiclamp.cpp: GridResolution, MoveGridVertically..."]}
{"id": "C46", "title": "Magic lamp extremes bound the animated surface", "statement": "The four extremes returned by the magic lamp bound every grid vertex (axis-aligned), at every progress, when the source is below the target; with the source above it is refuted.", "quantifier": "every progress, resolution, boxes with source below target (real arithmetic)", "why_tests_cant": "Continuous parameters, any resolution.", "anchors": ["animation/magiclamp/magiclamp.cpp: Extremes"]}
{"id": "C47", "title": "Copying a Vector4D by assignment preserves it", "statement": "Expectation: after a = b, a equals b. The code violates it: assignment exchanges z and w; copy construction is correct and two assignments cancel. swap exchanges x and y, and z and w crosswise, in both operands. Points are copied, swapped and assigned faithfully.", "quantifier": "every vector", "why_tests_cant": "Only visible when z differs from w.", "anchors": ["animation/geometry.h: Vector4DModel::swap, operator="]}
{"id": "C48", "title": "Box containment is the closed rectangle", "statement": "Box::contains(p) holds iff p is between the top-left and bottom-right corners inclusively on both axes; it is monotone in the box and translation invariant; NaN coordinates are never contained.", "quantifier": "every box and point, IEEE double included", "why_tests_cant": "Comparisons with special values.", "anchors": ["animation/geometry.h: Box::contains"]}
{"id": "C49", "title": "Point arithmetic helpers act componentwise", "statement": "add/subtract/scale/divide helpers act on each coordinate independently; add then subtract restores a point in exact arithmetic; distance is symmetric, zero exactly on equal points, satisfies the triangle inequality and is translation invariant.", "quantifier": "all points (real arithmetic)", "why_tests_cant": "All reals.", "anchors": ["animation/geometry_traits.h: pointwise_add, distance, equals"]}
{"id": "C50", "title": "Property setters take effect on the next Step only", "statement": "Setting a property of a bounce, glide, zoom or magic-lamp animation makes the getter return the new value at once but leaves the current transform, grid and progress unchanged until the next Step, which uses the last value set. For the grid resolution this is refuted: deformation uses the new resolution at once.", "quantifier": "every sequence of property assignments and steps", "why_tests_cant": "All interleavings.", "anchors": ["animation/property.h", "animation/bounce/bounce.cpp: Step"]}
{"id": "C51", "title": "Anchor::MoveBy moves only its own point and, if it is the only anchor, the rest mesh", "statement": "Moving a grab moves exactly its mesh point by the given vector; moving an inserted anchor moves exactly its inserted point; all other mesh points, velocities and springs are unchanged; the rest mesh moves along exactly when no other anchor is live.", "quantifier": "every reachable state and vector", "why_tests_cant": "All states.", "anchors": ["animation/wobbly/wobbly_internal.h: ConstrainingAnchor::MoveBy", "animation/wobbly/wobbly.cpp: GrabAnchor::MoveBy, InsertedSprings::MoveBy"]}
{"id": "C52", "title": "Inserted anchors are never moved by the simulation", "statement": "Step never moves an inserted anchor's point, whatever forces its springs exert; only its own MoveBy, MoveModelBy/MoveModelTo and ResizeModel do.", "quantifier": "every state, every t", "why_tests_cant": "Any configuration of forces.", "anchors": ["animation/wobbly/wobbly_internal.h: AnchoredIntegration, AnchorDataVector", "animation/wobbly/wobbly.cpp: InsertedSprings::MoveBy"]}
{"id": "C53", "title": "The API is free of assertion failures, exceptions and out-of-bounds accesses on well-formed histories", "statement": "For histories with positive sizes, positions within representable range, live handles and inserted anchors released in reverse order, no call asserts, throws, or accesses memory out of bounds. In exact arithmetic representable means that compared distances are below the largest double; in double arithmetic it suffices that coordinates are at most 2^500 in size.", "quantifier": "every well-formed history, in real and in double arithmetic; every history whatsoever for which errors are possible", "why_tests_cant": "Safety over all histories.", "anchors": ["animation/wobbly/wobbly.cpp: Model::*", "animation/wobbly/wobbly_internal.h: *"]}
{"id": "C54", "title": "GrabAnchor works for any finite position", "statement": "Expectation: any finite position can be grabbed. The code violates it: beyond about 1e154 units the squared distance overflows, no point is nearer than DBL_MAX and the call asserts (or dereferences an empty optional).", "quantifier": "IEEE double arithmetic", "why_tests_cant": "Extreme values.", "anchors": ["animation/wobbly/wobbly_internal.h: ClosestIndexToPosition", "animation/geometry_traits.h: distance"]}
{"id": "C55", "title": "Spring identifiers are unique among live springs", "statement": "No two springs present in a model or held back by a live anchor share an identifier; an identifier is pending removal at most once, and only while a live anchor holds its spring back.", "quantifier": "every history", "why_tests_cant": "All histories.", "anchors": ["animation/wobbly/wobbly.cpp: NextSpringID, CreateWithTrackingID", "animation/wobbly/wobbly_internal.h: ObjectIdentifier"]}
{"id": "C56", "title": "A new model has 24 springs forming the 4x4 grid", "statement": "The base network has exactly one spring for each horizontally or vertically adjacent pair of the 4x4 grid, from the lower to the higher index, with rest vector (w/3,0) or (0,h/3), and no others.", "quantifier": "every size", "why_tests_cant": "Exhaustive over pairs for every size.", "anchors": ["animation/wobbly/wobbly.cpp: GenerateBaseSpringMesh, SpringCountForGridSize"]}
{"id": "C57", "title": "Settings are live", "statement": "Changing the Settings object given to the constructor affects the model from the next call on, exactly as if the model had been created with them in its current state; it does not move anything by itself.", "quantifier": "every state and settings value", "why_tests_cant": "All interleavings.", "anchors": ["animation/wobbly/wobbly.cpp: Model::Private mSettings, SpringStep constant/friction references"]}
{"id": "C58", "title": "A GObject anchor is inert after release", "statement": "animation_wobbly_anchor_release may be called any number of times and move_by afterwards has no effect; every native anchor is released exactly once, at release or finalization.", "quantifier": "every sequence of move_by/release/finalize calls", "why_tests_cant": "Double-free safety over all sequences.", "anchors": ["animation-glib/wobbly/anchor.cpp"]}
{"id": "C59", "title": "Reading an animation's stepper property is safe", "statement": "Expectation: the stepper object returned by the getter of an animation object can be used and dropped like any other. The code violates it: dropping it frees memory inside the animation that was never allocated on its own (or was freed with the animation), and stepping it moves the animation. A client that keeps such objects, uses no finalized object and assigns no NULL stepper is safe.", "quantifier": "every history of calls on stepper and animation objects, with and without reference counts, every arithmetic", "why_tests_cant": "Lifetime bug visible only under a memory checker.", "anchors": ["animation-glib/stepper/stepper-wrapper.cpp: animation_stepper_wrapper_finalize", "animation-glib/bounce/bounce.cpp: animation_bounce_animation_get_stepper"]}
{"id": "C60", "title": "GObject construct parameters are defaulted only when missing", "statement": "A constructor sees for each property it asked for the last value among the construct parameters (NULL if there is none) and no other property. The helpers substitute the default exactly when the named construct parameter is NULL and leave every other parameter untouched; a name that is not among the parameters aborts.", "quantifier": "every list of construct parameters", "why_tests_cant": "Arbitrary parameter lists.", "anchors": ["animation-glib/constructor-helpers.cpp"]}
{"id": "C61", "title": "The GObject wobbly model is the native model", "statement": "Whatever a client calls on the GObject model and anchor objects, the native model receives exactly the corresponding native calls (property assignments outside their range and calls on released anchors stand for nothing) and the client sees exactly the native results; nothing is refused to a client that uses its objects carefully.", "quantifier": "every history of calls on the model and anchor objects, every arithmetic", "why_tests_cant": "All interleavings of property assignments, anchor calls and finalizations.", "anchors": ["animation-glib/wobbly/model.cpp", "animation-glib/wobbly/anchor.cpp"]}
{"id": "C62", "title": "Anchor objects may be dropped at any time", "statement": "Expectation: an anchor object may be moved, released or dropped whenever its owner wants. The code violates it: an anchor object keeps no reference to the model object, so once the model object is finalized while the anchor is held, moving, releasing and finalizing the anchor use freed storage.", "quantifier": "every history", "why_tests_cant": "Lifetime order is chosen by the client and the language binding's collector.", "anchors": ["animation-glib/wobbly/anchor.cpp: animation_wobbly_anchor_finalize", "animation-glib/wobbly/model.cpp: animation_wobbly_model_finalize"]}
{"id": "C63", "title": "Settings properties follow assignments and stay in range", "statement": "The settings the model works with are those of construction with every later assignment applied in order. Properties assigned through g_object_set never leave their documented ranges; the setter functions store any value and a value outside its range given at construction leaves zero (refutes the expectation that the ranges always hold).", "quantifier": "every history, every value", "why_tests_cant": "All sequences of assignments and all values.", "anchors": ["animation-glib/wobbly/model.cpp: set_property, animation_wobbly_model_set_spring_k, set_friction, set_maximum_range"]}
{"id": "C64", "title": "Position and size may be left out", "statement": "Expectation: every property of the model object has a usable default. The code violates it: without a position or a size construction dereferences NULL, and so does assigning NULL later.", "quantifier": "every construction", "why_tests_cant": "Every combination of given and missing properties.", "anchors": ["animation-glib/wobbly/model.cpp: animation_wobbly_model_constructed, set_property"]}
{"id": "C65", "title": "Stepper objects and animation objects do not disturb each other", "statement": "A stepper object returns exactly what a native stepper would that received its own calls alone; an animation object steps its own copy of the stepper it was given, taken at construction (Linear of 300 ms if none was given); calls that do not name an animation leave it alone as long as its stepper was not handed out.", "quantifier": "every interleaving of calls on any number of stepper and animation objects, every arithmetic", "why_tests_cant": "The number of interleavings and of objects is unbounded.", "anchors": ["animation-glib/stepper/stepper-holder.cpp", "animation-glib/constructor-helpers.h: animation_stepper_from_gvalue"]}
{"id": "C66", "title": "An animation object is constructed as specified", "statement": "A new animation object reports the values it was given and the documented default for each that was left out, holds an unadvanced copy of the given stepper, starts at the progress that stepper reports for 0 ms, and leaves every other object alone; construction succeeds with any usable stepper object and any countable grid resolution.", "quantifier": "every combination of given and missing properties, every value, every state, every arithmetic", "why_tests_cant": "2^n combinations of properties and arbitrary values.", "anchors": ["animation-glib/bounce/bounce.cpp", "animation-glib/glide/glide.cpp", "animation-glib/zoom/zoom.cpp", "animation-glib/magiclamp/magiclamp.cpp"]}
{"id": "C67", "title": "Animation properties stay in their documented ranges", "statement": "g_object_set never takes a number out of its documented range. Expectation: neither does construction. The code violates it: the native constructor receives any value unchecked; a linear stepper of length 0 (documented minimum 1) returns NaN.", "quantifier": "every history and value", "why_tests_cant": "Arbitrary values and histories.", "anchors": ["animation-glib/bounce/bounce.cpp: class_init", "animation-glib/stepper/linear.cpp"]}
{"id": "C68", "title": "A zoom object never collapses the surface to a point", "statement": "Expectation: as in the native constructor, an empty 'from' box is widened. The code violates it: the construct property is applied once more after the native constructor, unwidened, and at progress 0 the whole surface is drawn in one point.", "quantifier": "every empty box, every 'to' box and stepper (real arithmetic, and float and double up to 2^(k-19) for coordinates up to 2^k)", "why_tests_cant": "Depends on the order of construction phases.", "anchors": ["animation-glib/zoom/zoom.cpp: constructor, set_property", "animation/zoom/zoom.cpp: SetFrom"]}
{"id": "C69", "title": "Convenience constructors use all their arguments", "statement": "Expectation: animation_glide_new, animation_magiclamp_new and animation_zoom_new use all their arguments. The code violates it: the length of a glide is dropped (it always takes 300 ms), the four factors of a magic lamp are dropped, and so is the current box of a zoom. Every other argument of the four constructors is handed on.", "quantifier": "every argument", "why_tests_cant": "Arbitrary values.", "anchors": ["animation-glib/glide/glide.cpp: animation_glide_new", "animation-glib/magiclamp/magiclamp.cpp: animation_magiclamp_new", "animation-glib/zoom/zoom.cpp: animation_zoom_new"]}
{"id": "C70", "title": "A reverse stepper object complements a copy of its base", "statement": "A reverse stepper object returns 1 minus what its base, in the state it had when the reverse one was made, would have returned for the same calls (Linear of 300 ms without a base); stepping one never moves the other.", "quantifier": "every interleaving of calls on both", "why_tests_cant": "Interleavings are unbounded.", "anchors": ["animation-glib/stepper/reverse.cpp"]}
{"id": "C71", "title": "Assigning one property of an animation object changes no other", "statement": "Assigning a number, a count or a box makes its getter return it and changes no other property, nor the progress, the stepper or any other object; g_object_set does the same inside the documented range and nothing outside of it or for a construct-only property. The surface an animation ends on is the one it was made with, whatever is called later.", "quantifier": "every class, property, value and state, every later history, every arithmetic", "why_tests_cant": "Arbitrary values and states.", "anchors": ["animation-glib/bounce/bounce.cpp: set_property", "animation-glib/glide/glide.cpp: set_property", "animation-glib/magiclamp/magiclamp.cpp: set_property"]}
{"id": "C72", "title": "Models of one process do not disturb each other", "statement": "A model among others returns what it would return alone: given the calls made on it and the writes to its own settings object, its results, its state and the result or failure of its next call are those of a single model, whatever happens to the other models in between.", "quantifier": "every interleaving of calls on any number of models and settings objects, every arithmetic", "why_tests_cant": "The number of interleavings and of models is unbounded; the models share a counter and settings objects.", "anchors": ["animation/wobbly/wobbly.cpp: CurrentSpringID, Model::Model, Spring", "animation/wobbly/emscripten.cpp"]}
{"id": "C73", "title": "Models made without settings share the default settings", "statement": "SetSpringConstant, SetFriction and SetMaximumRange act at once on every model made without settings of its own, made before or after, and on no other; a model always uses what was last written to its settings object.", "quantifier": "every history with any number of models and settings objects, every arithmetic", "why_tests_cant": "Histories and numbers of models are unbounded.", "anchors": ["animation/wobbly/emscripten.cpp: SetSpringConstant, SetFriction, SetMaximumRange", "animation/wobbly/wobbly.cpp: Model::DefaultSettings"]}
{"id": "C74", "title": "A model made from JavaScript has the size asked for", "statement": "Expectation: the model has the width and height given to the constructor. The code violates it: they pass through float, so that 16777217 becomes 16777216. Sizes that are floats are kept; others in the range of normal floats change by at most one part in 2^24.", "quantifier": "every position and every pair of sizes (IEEE)", "why_tests_cant": "All double values.", "anchors": ["animation/wobbly/emscripten.cpp: EMSCRIPTEN_BINDINGS"]}
{"id": "C75", "title": "Asking an animation object changes nothing", "statement": "Progress, matrix, corner, resolution, deformation and property queries change no object and no result of later calls; the matrix pointer shows the matrix of the animation at the moment it is read and dangles once the animation is finalized. Expectation: it is a snapshot. The code violates it: a later step changes the numbers behind the pointer. g_object_get of 'stepper' is no query: it makes an observing stepper object as the getter does. Queries without corners or without a place for the answer are refused and touch nothing.", "quantifier": "every interleaving of queries and calls on any number of objects, every arithmetic", "why_tests_cant": "Interleavings are unbounded; aliasing shows only in some of them.", "anchors": ["animation-glib/transform/transform.cpp: animation_transform_animation_matrix, animation_transform_animation_progress", "animation-glib/grid/grid.cpp", "animation/transform/transform.h: Matrix"]}
{"id": "C76", "title": "An animation object is the native animation", "statement": "An animation object whose stepper is neither replaced nor handed out is at every moment the native animation made from the given values and the defaults, on which the calls of the history were made (a property assignment only where its documented range allows it). After a step that ends an animation, with whatever history, if the formulas of the animation divide by no zero, a transform object reports the corners asked about and a magic lamp object shows every texture coordinate at its place in the target. The resolution of a lamp object never changes and no query in the unit square reads outside its vertices. With the largest stretch factor the property accepts the bottom edge of a lamp object ends at NaN (refuted).", "quantifier": "every history of calls on any number of objects, every arithmetic (end positions: reals; bounds: double)", "why_tests_cant": "Histories and values are unbounded.", "anchors": ["animation-glib/bounce/bounce.cpp", "animation-glib/glide/glide.cpp", "animation-glib/zoom/zoom.cpp", "animation-glib/magiclamp/magiclamp.cpp", "animation-glib/transform/transform.cpp", "animation-glib/grid/grid.cpp"]}
{"id": "C77", "title": "g_object_get agrees with the getters", "statement": "g_object_get of a readable property other than 'stepper' gives what the getter function returns, and what an accepted g_object_set stored. Expectation: every documented property can be read. The code violates it for the magic lamp: 'stepper' has no case in get_property, and 'stretch-factor' and 'resolution' are write-only.", "quantifier": "every class, property, value and reachable state, every arithmetic", "why_tests_cant": "Arbitrary values and states.", "anchors": ["animation-glib/magiclamp/magiclamp.cpp: get_property, class_init", "animation-glib/bounce/bounce.cpp: get_property", "animation-glib/glide/glide.cpp: get_property", "animation-glib/zoom/zoom.cpp: get_property"]}
{"id": "C78", "title": "An anchor variable owns its anchor", "statement": "A program of declarations, assignments, moves and scope ends of Anchor variables makes exactly the native calls its text stands for; every anchor acquired is either held by exactly one variable and not released, or held by none and released exactly once.", "quantifier": "every program over any number of variables, every arithmetic", "why_tests_cant": "Programs are unbounded; ownership passes through moves and assignments.", "anchors": ["animation/wobbly/wobbly.h: Anchor", "animation/wobbly/wobbly.cpp: Anchor::Anchor, Anchor::~Anchor, MovableAnchorDeleter"]}
{"id": "C79", "title": "Scoped anchors are safe, replaced ones are not", "statement": "A program never reaches freed storage if every variable gets its anchor where it is declared, or if it only grabs, or if it inserts only while no variable holds an anchor. Expectation: so does one that assigns a newly inserted anchor to a variable that holds another. The code violates it: the assignment inserts before it releases, the new anchor splits a spring of the old one and the next Step reads freed storage.", "quantifier": "every program of these classes, every arithmetic", "why_tests_cant": "Depends on the order in which statements and scopes release anchors.", "anchors": ["animation/wobbly/wobbly.h: Anchor::operator=", "animation/wobbly/wobbly.cpp: InsertAnchor", "animation/wobbly/wobbly_internal.h: SpringVector::TakeMatching"]}
{"id": "C80", "title": "Moving an empty anchor", "statement": "Expectation: MoveBy on a default-constructed, moved-from or emptied Anchor is inert, as it is for the GObject wrapper. The code violates it: it dereferences a null pointer. On every anchor that is held MoveBy returns as long as the model exists.", "quantifier": "every program, every variable, every arithmetic", "why_tests_cant": "Programs are unbounded.", "anchors": ["animation/wobbly/wobbly.cpp: Anchor::MoveBy"]}
{"id": "C81", "title": "A finished animation leaves the surface exactly where it belongs", "statement": "When the progress of a zoom, bounce or glide animation has reached 1, every point of the surface is drawn at its own coordinates as single precision holds them (whole pixels up to 2^24 are held exactly), and for zoom and bounce the matrix is the identity: the rounding of the intermediate translations, scalings and rotations leaves no residue. In particular this is so from construction to end: after a linear stepper has been stepped for its length and a margin of 2^-23 per step. For bounce this needs an initial scale from 0 to 2: it fails for some negative scales.", "quantifier": "every history of steps and property changes, every box with coordinates up to 2^100, every point, in float and double arithmetic, any libm with finite sines and exact values at zero", "why_tests_cant": "Rounding residues appear for particular coordinates only; tests look at a few boxes with a tolerance.", "anchors": ["animation/zoom/zoom.cpp: ComputeZoomTransform, ZoomAnimation::Extremes, Matrix", "animation/bounce/bounce.cpp: ComputeBounceTransform", "animation/glide/glide.cpp: ComputeGlideTransform"]}
{"id": "C82", "title": "Objects live exactly as long as somebody refers to them", "statement": "Stepper and animation objects exist as long as the client holds a reference to them or to a reverse stepper made from them (directly or through other reverse steppers), and are finalized when the last such reference is dropped. A client that uses only objects it holds, assigns no NULL stepper and keeps one reference to each stepper it got from an animation never reaches freed memory, frees nothing twice and dereferences no NULL.", "quantifier": "every history of constructor, ref, unref, step, getter and setter calls on any number of objects, every arithmetic", "why_tests_cant": "Histories and chains of reverse steppers are unbounded; lifetime errors need not show in a test run.", "anchors": ["animation-glib/stepper/reverse.cpp: animation_reverse_stepper_dispose", "animation-glib/stepper/stepper-holder.cpp: animation_stepper_holder_finalize", "animation-glib/stepper/stepper-wrapper.cpp: animation_stepper_wrapper_finalize", "animation-glib/constructor-helpers.cpp"]}
{"id": "C83", "title": "Dropping every reference frees every object", "statement": "Expectation: when the client has dropped every reference it was given, no object is left. The code violates it: each animation made without a stepper leaves its default stepper behind, to which nobody can get a reference, and each magic lamp made without a resolution leaves a vector. Exactly these objects are left; nothing is if every animation was given a stepper (and every lamp a resolution).", "quantifier": "every history of calls, every number of animations, every arithmetic", "why_tests_cant": "Counts every object of an unbounded history; a leak changes no result.", "anchors": ["animation-glib/bounce/bounce.cpp: animation_bounce_animation_constructor", "animation-glib/glide/glide.cpp", "animation-glib/zoom/zoom.cpp", "animation-glib/magiclamp/magiclamp.cpp: animation_magiclamp_animation_constructor"]}
{"id": "C84", "title": "Wobbling ends", "statement": "Expectation: once no anchor is held, stepping the model eventually returns false. The code violates it for weak springs: a corner pulled by one unit and let go with a spring constant below 3/2 gains a velocity that is rounded to zero, so nothing ever moves again, but every Step returns true and MoveModelTo, ResizeModel, GrabAnchor and InsertAnchor never return. A model without anchors whose points are at rest stalls so exactly if two neighbours are a unit or more out of place and no point is pulled hard enough to move. With a spring constant of 3 or more (the default is 8) that cannot be: the model never answers 'still moving' twice in a row without moving a point. But it can move for ever: with the default friction and a spring constant of 7.97 an inner point pulled by one unit in a 90 by 90 model swings for ever in double arithmetic, every Step returns true and the same four calls never return.", "quantifier": "every history without a resize while an anchor is inserted, every later sequence of steps, every friction and range (real arithmetic; the failure also in double)", "why_tests_cant": "The stall depends on exact force balances and shows as something that never happens; hanging calls cannot be observed by a test that ends.", "anchors": ["animation/wobbly/wobbly.cpp: Model::Step, Model::Private::Integrate, Model::Private::TargetPosition, TargetMesh::Activate", "animation/wobbly/wobbly_internal.h: Spring::ApplyForces, EulerIntegrate, SpringStep", "animation-glib/wobbly/model.cpp: PROP_SPRING_K"]}
{"id": "C85", "title": "A released surface calms down", "statement": "Once nothing holds the model, its motion dies down: if (2+sqrt 2)/4 * spring constant + friction < 30, which holds for all values the GObject properties accept, the velocities and the displacements of neighbouring points relative to each other stay bounded however often and with whatever times Step is called, and after finitely many steps they are below a bound that depends on the two settings only and not on the size of the model or on how it was pulled. The setters of the C++ settings accept any value; where the left side exceeds 30 a corner pulled far enough and let go starts a motion that exceeds every bound.", "quantifier": "every spring constant and friction, every model position and size, every history of calls without a resize while an anchor is inserted that leaves no anchor held, every number and length of steps", "why_tests_cant": "tests step a few models a few hundred times; the claim is about every pull, size and setting and an unbounded number of steps", "anchors": ["animation/wobbly/wobbly.cpp: Model::Step", "animation/wobbly/wobbly_internal.h: EulerIntegrate, ResetIfCloseToZero, ClipThreshold, Spring::ApplyForces", "animation-glib/wobbly/model.cpp: spring-k and friction properties"]}
{"id": "C86", "title": "A function matcher accepts exactly the functions of its model", "statement": "SatisfiesModel(Linear) accepts a function exactly when at 1, 2, 4, ... it is within the tolerance of the line through its values at 0 and 1, so every linear function is accepted; Parabolic accepts every a x^m + c with a other than 0, and what it accepts is within the tolerance of such a function at every sample. Expectation: constants are accepted as the case a = 0, and ExponentialDecayTowards accepts every decay a e^(-wx) + c. The code violates both: constants lead to 0/0 and are rejected whatever the tolerance, and the rate of a decay is computed by a wrong formula that is right only for a = 1, so the others are rejected for small tolerances.", "quantifier": "every function from integers to numbers, every number of samples and tolerance", "why_tests_cant": "The matchers are what the tests rest on; a matcher tested on a few functions says nothing about the functions of later tests.", "anchors": ["matchers/mathematical_model_matcher.h: MathematicalModelMatcher, linear::Model, parabolic::Model, exponential::DecayModel, SolveForXCoeff"]}
{"id": "C87", "title": "Geometrical equality of points", "statement": "Eq on points with double coordinates accepts every finite point for itself, accepts points up to 2^-20 apart in each coordinate and rejects points 1e-6 or more apart. Expectation: every point equals itself. The code violates it for infinite coordinates, and for int coordinates because 0 is compared with the most negative int: 0 does not equal 0, the most negative number does, and comparing a positive number with 0 overflows. Other ints are equal exactly if they are the same, and comparing them overflows exactly if their difference is no int.", "quantifier": "every pair of points with coordinates up to 2^1000 in double arithmetic, every pair of ints", "why_tests_cant": "Rounding near the tolerance and the special case of 0 concern single inputs among 2^128.", "anchors": ["matchers/mathematical_model_matcher.h: GeometricallyEqualMatcher, is_small, close_at_tolerance"]}
{"id": "C88", "title": "Step is a fixed law of motion", "statement": "Step(t) performs one round for each started 16 ms of t and nothing else. In a round every point is first confined to the range around its rest position if exactly one anchor is held; then every held point stays where it is with velocity zero, and every other point moves as a mass of 15 under the springs attached to it (half the extension on each axis times the spring constant, nothing below half a unit) and friction, velocities below 1/10 dropped, by half its new velocity. For t > 0 Step answers true exactly if some round confined a point, found a spring out of its rest vector by a unit or more, or left a velocity; when it answers false while one anchor is held the points are put at their rest positions. Rest positions, springs, settings, sizes, anchors and inserted points are untouched. The law determines positions, velocities and answer uniquely.", "quantifier": "every history of calls (fewer than 2^32), every time, every settings with a positive range (real arithmetic)", "why_tests_cant": "The outcome is a function of 64 numbers, the anchors and the springs; tests compare a few of them after a few steps.", "anchors": ["animation/wobbly/wobbly.cpp: Model::Step, ConstrainmentStep, Integrate", "animation/wobbly/wobbly_internal.h: AnchoredIntegration, EulerIntegrate, Spring::ApplyForces, SpringMesh::CalculateForces"]}
{"id": "C89", "title": "A model refers to its Settings object and does not copy it", "statement": "The Settings object given to a model must live as long as calls that need it are made. These are exactly: taking the first anchor; releasing one of exactly two held anchors; Step(t) with t > 0; MoveModelTo, and ResizeModel to another valid size, unless exactly one anchor is held. Made after the object is gone such a call reads freed memory; any other call gives the same result and outputs whatever values the object has, or had. So a model constructed from a temporary Settings object fails at its first anchor, Step or MoveModelTo.", "quantifier": "every history of calls, every settings, every arithmetic, any later sequence of calls", "why_tests_cant": "A read of a dangling reference usually returns the old values in a test; which calls read depends on how many anchors the history left.", "anchors": ["animation/wobbly/wobbly.cpp: Model::Private, mSettings, TargetPositionByFullIntegration, ConstrainmentStep", "animation/wobbly/wobbly_internal.h: SpringStep", "animation/wobbly/wobbly.h: Model::Settings, Model::Model"]}
