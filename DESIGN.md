# Formal model of ARTIST in Rocq (Coq 8.16.1)

## Layout (`rocq/theories`)

* `Model*.v`   – definitions only, total functions, each citing the modelled lines of `/repo`.
* `Spec*.v`    – small vocabulary used by the property statements, independent of the model's helpers.
* `Proofs*.v`, `RealSums.v`  – lemmas.
* `Prop*.v`    – property theorems only (`Cnn_…`), each closed by `exact`, with `Print Assumptions`
  and, beside them, an `Example` showing that a concrete non-trivial case meets the hypotheses.

`properties.jsonl` lists the properties, `MANIFEST.json` their theorems, `seeded/LOG.jsonl` the wrong programs the
theorems were tested against.

## Modelling decisions

* Index, partition, scheduling, bookkeeping, parsing and tree code: `nat`/`Z`/`N`, `list`, `option`/sum results;
  Python exceptions are values (`Err …`), unbounded loops carry fuel and "out of fuel" is a separate outcome.
* Numeric torch code: real numbers `R` of Coq's standard library. Rounding, overflow and infinities are not
  modelled, except that C112–C114 are about the rounded arithmetic itself: there binary64 and binary32 are the formats of
  Flocq (round to nearest even, gradual underflow, no overflow). Epsilons and clamps of the code *are* modelled (they change the real-number function). Where torch would
  produce NaN from a division by zero or an `acos` out of range, the model returns `None`, or the theorem's hypotheses exclude
  it explicitly. Memory from `torch.empty` that is never written is `None`.
* Tensors: functions on indices or lists; broadcasting is written out per element; failing broadcasts are errors.
* Autograd and optimizers are oracles: theorems quantify over every sequence of parameter values or every step function
  (with the hypotheses about it in the statement). Random draws (distortions) are universally quantified inputs.
* Distributed runs: the list of ranks with the list of their local results; collectives (`all_reduce`, `broadcast`) are
  functions of all ranks' contributions. Transport, timing and process failure inside a collective are not modelled.
* Files: HDF5 is a tree of named groups and datasets; JSON a tree of values with ordered keys; STRAL files are lists of
  bytes; PNG images are opaque values.

## Trusted base

* Coq 8.16.1's kernel, including `vm_compute` where a witness is evaluated.
* The axioms of the standard library listed per theorem below; none of our own, no other library's axioms.
* Flocq's definitions of formats and rounding (`Flocq.Core`) in C112–C114; its theorems used there rest on the listed axioms only.
* That the definitions in `Model*.v` describe the Python code: they were written by reading the cited lines; nothing was run.
* That torch operations (`linspace`, `normalize`, `grid_sample`, `repeat_interleave`, `cartesian_prod`, …) behave as
  documented, as written in the comments of the definitions that stand for them.


## Properties, theorems and how they are proved

Each entry: title, status, what is modelled and the method, then the theorems with their one-line meaning. `_partial` theorems say what holds, `_refuted` theorems show (mostly for all inputs of a kind) where the full statement fails of the model, which follows the code; the property text in `properties.jsonl` always keeps the full statement.

### C01 Distributed sampling traces every sample exactly once — proved

`RestrictedDistributedSampler` as a function of samples, active heliostats, world size and rank; div/mod arithmetic and list permutations. (PropDistributed.v)

* `C01_sampler_exact_partition`: With [per] samples for each of [active] heliostats, the ranks' samples are a partition of all sample indices; in particular two ranks never share a sample.
* `C01_tracer_exact_partition`: The same through the activation mask the ray tracer is given: every active heliostat has the same number of samples.

### C02 All samples of a heliostat stay on one rank and ranks are balanced — proved

`RestrictedDistributedSampler` as a function of samples, active heliostats, world size and rank; div/mod arithmetic and list permutations. (PropDistributed.v)

* `C02_heliostat_locality_and_balance`: Samples of one heliostat [h] are [h*per .. h*per+per-1]; they are all on one rank, each rank's list is increasing, the load of working ranks differs by at most one heliostat and ranks beyond the number of active heliostats are idle.

### C03 Unequal sample counts are either traced completely or rejected — partial

`RestrictedDistributedSampler` as a function of samples, active heliostats, world size and rank; div/mod arithmetic and list permutations. (PropDistributed.v)

* `C03_uneven_masks_refuted`: (full statement): for every mask the samples of all ranks are an exact partition of all activated samples. Refuted: masks [1;2] on one rank lose a sample.
* `C03_uneven_masks_partial`: What holds for every mask: exactly the last [sum mod active] samples are lost, so that the trace is complete if and only if the number of active heliostats divides the number of samples.

### C04 Heliostat groups are spread over all ranks without loss — proved

Distribution of groups among ranks and creation of subgroups as list functions; div/mod arithmetic. (PropDistributed.v)

* `C04_groups_distribution`

### C05 Nested process subgroups number their members consistently — proved

Distribution of groups among ranks and creation of subgroups as list functions; div/mod arithmetic. (PropDistributed.v)

* `C05_nested_subgroups_consistent`
* `C05_nested_ranks_complete`: The ranks within the subgroup are exactly [0..size-1]: every number below the size is taken.
* `C05_nested_run_traces_everything_once`: Composition of C04 and C05 with C01: in a nested run, every sample of a group is traced by exactly one of the ranks working on that group.

### C06 The heliostat-target-light-source mapping is followed faithfully — proved

Index mappings over association lists of names, activation via `repeat_interleave`; induction over mapping and mask, invariants over activation histories. (PropField.v)

* `C06_index_mapping_faithful`: [rows] are the samples in activation order (heliostat [i] repeated [mask_i] times): their targets and directions are the returned ones, for each heliostat of the group they are its entries of the mapping in order, and there are no others.

### C07 The index mapping rejects invalid requests — partial

Index mappings over association lists of names, activation via `repeat_interleave`; induction over mapping and mask, invariants over activation histories. (PropField.v)

* `C07_default_index_refuted`: (full statement): every malformed request is rejected with an error. A negative default target index is accepted, so the full statement is false.
* `C07_foreign_entries_refuted`: Entries for heliostats of other groups are not checked either.
* `C07_index_mapping_rejects_partial`: What holds: the exact acceptance conditions. Missing relative to C07: negative default indices and entries naming heliostats outside the group.

### C08 Activating heliostats keeps all per-heliostat data aligned — partial

Index mappings over association lists of names, activation via `repeat_interleave`; induction over mapping and mask, invariants over activation histories. (PropField.v)

* `C08_activation_alignment_refuted`: (full statement): after any history of activations, every active tensor is the selection of the base rows by one common owner list given by the last mask.
* `C08_empty_activation_refuted`: In every group and every history: after an activation that selects no heliostat, a later activation that selects some leaves the optimizable actuator parameters empty.
* `C08_activation_alignment_partial`: What holds for all histories: all tensors except the optimizable actuator parameters are aligned; the optimizable ones are aligned too if no earlier activation was empty.
* `C08_activation_succeeds`: Activation with a mask of the right length never fails.

### C09 Train/test split is a partition without leakage — proved

Train/test split over lists of indices; NoDup and permutation arguments. (PropField.v)

* `C09_split_partition`: [test_of_count n] is [int(n * test_fraction)].
* `C09_fraction_admissible`: [int(n * f)] for a real fraction [f] in [0,1) is an admissible test count.

### C10 Early stopping stops exactly on sustained lack of improvement — proved

Early stopping as a state machine over histories; training loops with a loss oracle; invariants over histories. (PropTraining.v)

* `C10_early_stopping`: After any history of losses the stop decision is taken exactly when each of the last [patience] prefixes of the history fills a window without sufficient improvement, hence never before [window_size + patience - 1] steps.

### C11 Optimization loops terminate within the epoch budget — partial

Early stopping as a state machine over histories; training loops with a loss oracle; invariants over histories. (PropTraining.v)

* `C11_aim_point_loop`: for the aim point optimizer: it finishes after between one and [max_epoch + 1] epochs, no earlier epoch's loss was at or below the tolerance, it ends for one of the three reasons, and the history holds the losses of all executed epochs in order.
* `C11_reconstruction_history_refuted`: for the reconstructors: the full statement about the history is false, the loss of the epoch that triggers early stopping is not recorded.
* `C11_reconstruction_loop_partial`: Everything else holds, and only that one loss is missing.
* `C11_early_stop_exact`: The loop stops early exactly in the first epoch in which the C10 condition holds.

### C12 Splatting conserves ray power — proved

Bilinear splatting over R with scatter-add as finite updates; sums over lists. (PropTracing.v)

* `C12_splatting_conserves_power`: Splatting any list of rays (with the non-negative bitmap coordinates the intersection code produces) never fails, the pixel sum is the total intensity of the rays inside the grid, and pixels are non-negative if intensities are.

### C13 Splatting places power at the hit position — proved

Bilinear splatting over R with scatter-add as finite updates; sums over lists. (PropTracing.v)

* `C13_splatting_pixel_values`: The pixel values are given by the bilinear hat weights of the rays inside the grid; pixel [r] rows above the bottom is row [height-1-r] of the returned image (rows are top-down).
* `C13_single_ray_placement`: A single ray inside the grid: only adjacent pixels, shares between zero and the intensity, mean position equal to the hit position.

### C14 A ray hitting anywhere inside the target area contributes its power — partial

Bilinear splatting over R with scatter-add as finite updates; sums over lists. (PropIntersections.v)

* `C14_border_rays_refuted`: The full claim is false: a ray on the west or the upper border of the area is lost, whatever the area and the resolution.
* `C14_area_power_partial`: What holds: rays hitting the area without those two borders contribute exactly their power.

### C15 Bitmaps per target add up to bitmaps per heliostat — proved

Bilinear splatting over R with scatter-add as finite updates; sums over lists. (PropTracing.v)

* `C15_bitmaps_per_target`: Each target's bitmap is the sum over exactly the heliostats aimed at it, all targets together hold what all heliostats hold, and untouched targets are zero.

### C16 Bit expansion spreads ten bits and rejects other values — proved

Bit expansion, Morton codes and common prefixes over N and Z; bitwise reasoning. (PropLBVH.v)

* `C16_expand_bits`: Bit expansion: bit [k] of an integer in 0..1023 goes to bit [3k], all other bits are zero; any other integer is rejected.

### C17 Morton codes are injective on grid cells and fit in 30 bits — proved

Bit expansion, Morton codes and common prefixes over N and Z; bitwise reasoning. (PropLBVH.v)

* `C17_morton_codes`: Morton codes of any non-empty set of centroids fit in 30 bits, interleave the cell coordinates and are equal exactly for centroids in the same cell.

### C18 Longest common prefix is computed correctly — proved

Bit expansion, Morton codes and common prefixes over N and Z; bitwise reasoning. (PropLBVH.v)

* `C18_longest_common_prefix`: Prefix length of two positions of a code list.
* `C18_unique`: The specification determines the length.

### C19 The bounding volume hierarchy contains every primitive — partial

Hierarchy construction over code lists, depth loop with fuel; well-founded induction on ranges, witnesses by evaluation. (PropLBVH.v)

* `C19_hierarchy_complete_refuted`: The full claim is false: for seven mirrors with different, sorted Morton codes the root does not reach every leaf. (The split search starts at half the range and halves with rounding down, so it cannot land on every position.)
* `C19_unbalanced_root_refuted`: The same for every set of codes: if the numbers of codes that continue with 0 and with 1 after the bits common to all codes cannot be found by halving, the root does not reach every leaf, for example for three and three codes.
* `C19_hierarchy_complete_partial`: What holds: no code three times, and halving finds every split.
* `C19_power_of_two_clusters_partial`: This includes all code lists whose clusters have 2^k or 2^k+1 members ...
* `C19_five_mirrors_partial`: ... and every set of at most five mirrors.

### C20 Building and measuring the hierarchy terminates — partial

Hierarchy construction over code lists, depth loop with fuel; well-founded induction on ranges, witnesses by evaluation. (PropLBVH.v)

* `C20_termination_refuted`: The full claim is false: with three centroids in one cell the depth computation runs forever, for every amount of fuel.
* `C20_construction_terminates`: Construction itself always ends ([node_fuel] is never used up), whatever the codes and their order.
* `C20_depth_partial`: The depth computation ends after at most [2n-1] steps if the children form a tree, and the result is the number of levels.

### C21 Hierarchy filtering never drops a potential blocker — partial

Stack traversal and slab test; invariant over the stack, case analysis on reals. (PropLBVH.v)

* `C21_filter_exact_partial`: In a well-formed hierarchy the filter returns exactly the primitives whose own box is met by a ray of another heliostat; the traversal stays within its stack of the measured depth (an overflow would be a [FilterError]).
* `C21_filter_complete_refuted`: Without the assumption on the hierarchy it is false: a mirror in the way is dropped.
* `C21_unbalanced_root_refuted`: In general: if halving cannot find the split at the root, no mirror whose code continues with 1 is ever returned, whatever the rays.
* `C21_five_mirrors`: For at most five mirrors with no three in one cell no assumption on the hierarchy is needed.
* `C21_boxes_tight`: The boxes of a well-formed hierarchy are tight.

### C22 The box test is exact — proved

Stack traversal and slab test; invariant over the stack, case analysis on reals. (PropLBVH.v)

* `C22_box_test_exact`: The box test accepts exactly the boxes met by the ray; for target distances above 1e-6 that is: some point of the ray with parameter in (1e-6, target distance] is inside the box. Larger boxes stay accepted.
* `C22_box_test_monotone`

### C23 Soft blocking is a fraction and adding blockers never unblocks — proved

Soft blocking over R, owners of primitives; monotonicity of exp, witnesses. (PropBlocking.v)

* `C23_soft_blocking_fraction`
* `C23_monotone`: Considering more primitives strictly increases the value; the order does not matter.
* `C23_degenerate_not_a_number`: Without the assumption the value may be undefined: a primitive shrunk to a point gives NaN for every ray.

### C24 Blocking only happens in front of the target — partial

Soft blocking over R, owners of primitives; monotonicity of exp, witnesses. (PropBlocking.v)

* `C24_blocking_before_target_refuted`: The full claim is false: the mask ignores the distance of the target, so a mirror lying wholly behind the target of a ray takes at least three quarters of its power as soon as another ray of the batch meets it.
* `C24_unmet_primitives_partial`: What holds: the values depend only on primitives whose box some ray of another heliostat in the batch meets before its own target.

### C25 A heliostat's own mirror is excluded from blocking its rays — partial

Soft blocking over R, owners of primitives; monotonicity of exp, witnesses. (PropBlocking.v, PropRayTracer.v)

* `C25_own_mirror_skipped_refuted`: The full claim is false in two ways. First, in all but the first group the skipped primitive belongs to a heliostat of another group (the position of the group in the field is not added).
* `C25_own_mirror_excluded_refuted`: Second, the primitives found for the batch are applied to all its rays, so the own mirror of a ray is used against it when another ray meets that mirror.
* `C25_own_mirror_applied_refuted`: In general: in every field whose hierarchy reaches each mirror once, the own mirror of a ray is applied to it as soon as a ray of another heliostat in the batch meets that mirror, and takes away at least what it would take away on its own.
* `C25_first_group_partial`: What holds: in the first group, without repeated heliostats, the skipped primitive is the own one.
* `C25_own_mirror_negligible_partial`: And the own mirror, where it is applied, takes at most 1e-13 from rays starting in its plane.
* `C25_only_own_mirror_partial`: A mirror does not block its own rays: if the rays of a batch meet the boxes of no other mirrors than that of their own heliostat, tracing with blocking gives what tracing without blocking gives.

### C26 Ray-plane intersection is geometrically right — proved

Ray-plane and ray-cylinder intersection and reflection over R; field arithmetic, trigonometry with atan2. (PropIntersections.v)

* `C26_hit_position`
* `C26_miss`
* `C26_bounds`
* `C26_single_column_accepts_all`: With a single column every ray facing the plane at the height of the area counts as a hit, however far away.

### C27 Rays do not hit targets behind them — partial

Ray-plane and ray-cylinder intersection and reflection over R; field arithmetic, trigonometry with atan2. (PropIntersections.v)

* `C27_no_hit_behind_refuted`: The full claim is false: whenever the area lies behind the origin of a ray, which never comes to it, the ray deposits the same power as if the area was in front.
* `C27_front_hits_forward_partial`: What holds: a ray starting in front of the plane hits only forwards, and a ray leaving the front deposits nothing.

### C28 Ray-cylinder intersection is geometrically right — partial

Ray-plane and ray-cylinder intersection and reflection over R; field arithmetic, trigonometry with atan2. (PropIntersections.v)

* `C28_hit_geometry_partial`
* `C28_front_side`: Of the two sides of the cylinder, a ray from outside takes the one where it enters.
* `C28_opening_angle_refuted`: The opening angle is measured wrongly unless the normal points north. With the normal at [psi] on a map, counted from the east, no ray is ever counted on the centre line of a cylinder turned away from north by more than half its opening.
* `C28_wide_opening_refuted`: Even facing north, the part of a cylinder more than a quarter turn to one side of its normal is never hit.
* `C28_any_opening_partial`: What holds for every direction of the normal: the accepted sector has the right size but is turned by the angle between the normal and north.
* `C28_north_opening_partial`: What holds: for a normal pointing north and at most half a turn, exactly the opening angle is accepted and the column is linear in the angle.

### C29 Reflection obeys the law of reflection — proved

Ray-plane and ray-cylinder intersection and reflection over R; field arithmetic, trigonometry with atan2. (PropIntersections.v)

* `C29_law_of_reflection`

### C30 Rotation and translation matrices are rigid motions — proved

4x4 matrices over R; trigonometric identities. (PropTransforms.v)

* `C30_rigid`
* `C30_axes`: Each axis stays where it is.
* `C30_additive`
* `C30_distortion`: A distortion tilts a ray first about the up axis, then about the east axis.
* `C30_translation`
* `C30_translation_batch`: Batches of distortions and translations: one matrix per entry, and a rejection of differing lengths.

### C31 All axis rotations turn in the documented direction — partial

4x4 matrices over R; trigonometric identities. (PropTransforms.v)

* `C31_north_refuted`: The full claim is false: the rotation about the north axis turns clockwise.
* `C31_directions_partial`: What holds: east and up turn counterclockwise, north turns by the opposite angle.

### C32 Canting is a rigid rotation with exact inverse — proved

4x4 matrices over R; trigonometric identities. (PropTransforms.v)

* `C32_canting`: Canting vectors that are not (nearly) parallel.

### C33 The rotation between two orientations maps one to the other — proved

4x4 matrices over R; trigonometric identities. (PropTransforms.v)

* `C33_rotation_between`
* `C33_directions_only`: Lengths do not matter.
* `C33_rotation_vector`: The rotation vector: its length is the angle, its direction the axis.

### C34 Linear actuator conversions are inverse to each other — proved

Linear and ideal actuators over R with clamps and softplus; acos/cos inverses, monotonicity. (PropActuators.v)

* `C34_motor_roundtrip`: motor positions to angles and back.
* `C34_angle_roundtrip`: angles to motor positions and back: the joint angle is the initial one plus the turn from the triangle's angle [f0] at motor position zero to its angle [f] at stroke [s].
* `C34_angle_roundtrip_any_start`: Also when the initial stroke is out of reach: then it counts as the nearest reachable one.
* `C34_ideal`

### C35 Linear actuators are monotone and always defined — proved

Linear and ideal actuators over R with clamps and softplus; acos/cos inverses, monotonicity. (PropActuators.v)

* `C35_physical`: for all raw parameters.
* `C35_values_kept`: Ordinary values are kept up to the margin, and no value gets smaller.
* `C35_defined`: Both conversions give a number, never NaN, for all inputs.
* `C35_monotone`
* `C35_strictly_monotone`
* `C35_start`
* `C35_stroke_limits`

### C36 Orientation matrices are rigid motions — proved

Rigid body kinematics, inverse kinematics and the alignment loop; matrix algebra, atan2, invariants over iterations and activation histories. (PropKinematics.v)

* `C36_orientation_rigid`: the orientation for any motor positions is a rigid motion, so are those of the alignment with rays, ...
* `C36_alignment_rigid`
* `C36_surfaces_moved`: ... and aligning moves exactly the surface points and normals of heliostat [i] with its own orientation.
* `C36_mirror_normal`: The surface, described lying flat, ends up facing where the kinematics points the mirror.
* `C36_chain`: Where every point of the surface goes: through the chain of shifts and turns of the mount.

### C37 Inverse kinematics reaches the requested normal — proved

Rigid body kinematics, inverse kinematics and the alignment loop; matrix algebra, atan2, invariants over iterations and activation histories. (PropKinematics.v)

* `C37_inverse_reaches`: for a reachable normal the motor positions stand for joint angles that point the mirror at it, up to the epsilons of the code; the error is smaller by orders of magnitude away from the first axis.
* `C37_reachable`: Which normals are reachable: those far enough from the first axis for the tilt between the axes.

### C38 Motor limits are respected by solution selection — proved

Rigid body kinematics, inverse kinematics and the alignment loop; matrix algebra, atan2, invariants over iterations and activation histories. (PropKinematics.v)

* `C38_selection`: the first solution within the limits is taken; the rows outside the limits are those reported.
* `C38_all_solutions`: The two solutions considered are all there are: any joint angles that point the mirror at the normal agree in the second angle (its side and, up to the epsilon, its sine) with one of them, which points there too.
* `C38_reported`

### C39 An aligned mirror reflects the sun onto the aim point — proved

Rigid body kinematics, inverse kinematics and the alignment loop; matrix algebra, atan2, invariants over iterations and activation histories. (PropKinematics.v)

* `C39_bisector`: the requested normal is the bisector, ...
* `C39_aligned_reflects`: ... and without translation deviations the aligned mirror sends the incident ray to the aim point.
* `C39_translations`: With translation deviations the concentrator moves on an arm about the first joint. The mirror then sends the ray to the aim point up to the angle under which the aim point sees the arm.

### C40 Stored motor positions match the returned orientation — partial

Rigid body kinematics, inverse kinematics and the alignment loop; matrix algebra, atan2, invariants over iterations and activation histories. (PropKinematics.v)

* `C40_stored_motors_refuted`: fails: with one iteration the orientation belongs to the motor positions before the only step.
* `C40_single_iteration_refuted`: In general: with one iteration the orientations are those of motor positions zero, whatever the incident rays and the aim points are.
* `C40_stored_motors_partial`: In general: either the pairs agree, or the iterations ran out and the motor positions are one step ahead.
* `C40_rounds`: The number of rounds: the first one after which the misalignment of no heliostat of the batch has changed by more than the tolerance, or all of them.
* `C40_no_translations_partial`: They agree for every heliostat without translation deviations once there are two iterations.
* `C40_defined`: Without iterations the call fails; with some it does not.

### C41 Aligning is idempotent per activation — partial

Rigid body kinematics, inverse kinematics and the alignment loop; matrix algebra, atan2, invariants over iterations and activation histories. (PropKinematics.v)

* `C41_align_twice_refuted`: fails: the second alignment moves the surfaces again.
* `C41_align_twice_compounds`
* `C41_reactivated_partial`: Activating in between restores the property: whatever happened before, activating and aligning gives the same group as on a fresh one.
* `C41_other_mask`: Aligning with another mask than the activated one is refused.

### C42 Knot vectors are clamped and non-decreasing — proved

Knot vectors, span search, the triangular basis recursion and surface sums; induction over degree, equality with Cox-de Boor. (PropNurbs.v)

* `C42_knot_vector`

### C43 The knot span contains the parameter — partial

Knot vectors, span search, the triangular basis recursion and surface sums; induction over degree, equality with Cox-de Boor. (PropNurbs.v)

* `C43_span_partial`
* `C43_agree_partial`
* `C43_general_partial`: The general search, for any non-decreasing or other knots.
* `C43_general_end_partial`
* `C43_end_refuted`: The uniform shortcut does not handle the end of the range; no surface can be evaluated there.
* `C43_evaluation_end_refuted`
* `C43_shape_refuted`: The general search works for several facets or surfaces only when its shapes happen to be broadcastable.

### C44 Basis functions are a partition of unity — proved

Knot vectors, span search, the triangular basis recursion and surface sums; induction over degree, equality with Cox-de Boor. (PropNurbs.v)

* `C44_cox_de_boor`
* `C44_derivative`: The derivatives are the derivatives: on the span the value with index [k] is differentiable.
* `C44_support`: All other basis functions vanish.

### C45 Surface points stay in the hull of the control points and move with them — proved

Knot vectors, span search, the triangular basis recursion and surface sums; induction over degree, equality with Cox-de Boor. (PropNurbs.v)

* `C45_textbook`: the surface point and normal of the textbook, and its consequences.
* `C45_weights`
* `C45_half_spaces`
* `C45_affine`
* `C45_flat`
* `C45_corner`

### C46 Surface normals are unit and perpendicular to the surface — proved

Knot vectors, span search, the triangular basis recursion and surface sums; induction over degree, equality with Cox-de Boor. (PropNurbs.v)

* `C46_normals`

### C47 Facet placement keeps homogeneous coordinates valid — proved

Knot vectors, span search, the triangular basis recursion and surface sums; induction over degree, equality with Cox-de Boor. (PropNurbs.v)

* `C47_rigid`
* `C47_homogeneous`
* `C47_all_facets`: All facets of a heliostat: every evaluation point is inside the valid range, so nothing is NaN.
* `C47_placed_when_flat`: Facets are placed when all heights are zero, and otherwise taken as placed already.

### C48 Losses are zero for perfect predictions and never negative — partial

Losses and regularizers over lists of R; sums, Gibbs' inequality. (PropLosses.v)

* `C48_vector_loss`
* `C48_pixel_loss`
* `C48_kl_loss_partial`: The Kullback-Leibler loss compares shares; its value is the divergence of the shares, each raised by the epsilon.
* `C48_kl_scale`
* `C48_kl_empty_truth_refuted`: With a ground truth without any flux the loss of every prediction with flux is negative.
* `C48_angle_loss`
* `C48_cosine_loss`

### C49 The pixel loss does not depend on the absolute flux level — partial

Losses and regularizers over lists of R; sums, Gibbs' inequality. (PropLosses.v)

* `C49_scale_refuted`: Scaling prediction and ground truth scales the pixel loss by the same factor, so it does depend on the flux level.

### C50 Per-heliostat reduction uses exactly the heliostat's own samples — proved

Losses and regularizers over lists of R; sums, Gibbs' inequality. (PropLosses.v)

* `C50_samples_per_heliostat`
* `C50_nothing_dropped`

### C51 Regularizers measure deformation only — proved

Losses and regularizers over lists of R; sums, Gibbs' inequality. (PropLosses.v)

* `C51_smoothness`
* `C51_ideal_surface`
* `C51_relative`
* `C51_shift`

### C52 The center of mass lies inside the bitmap — proved

Centre of mass and trapezoid windows; sums, case analysis. (PropBitmap.v)

* `C52_center_of_mass`: Inside the bitmap; the power-weighted mean up to the share of the epsilon; the first pixel for an empty flux.

### C53 The trapezoid window is a symmetric window — proved

Centre of mass and trapezoid windows; sums, case analysis. (PropBitmap.v)

* `C53_trapezoid`
* `C53_plateau_width`: If total width and plateau width have the same parity, exactly the requested number of indices is one ...
* `C53_plateau_width_odd`: ... otherwise one more.
* `C53_padding`

### C54 Homogeneous conversions append exactly one component — proved

Coordinate conversions over R; algebra and trigonometry. (PropCoordinates.v)

* `C54_points`
* `C54_directions`

### C55 Normalized parameters lie strictly inside the unit interval — proved

Coordinate conversions over R; algebra and trigonometry. (PropCoordinates.v)

* `C55_normalized_points`

### C56 Sun angles give unit directions — proved

Coordinate conversions over R; algebra and trigonometry. (PropCoordinates.v)

* `C56_direction`: The direction has the elevation's sine as height and length one (more generally the slant range); azimuth 0 is south and 90 degrees east of it; whole turns do not matter.
* `C56_unit`
* `C56_whole_turns`
* `C56_batches`

### C57 Pixel coordinates and target coordinates are consistent — partial

Coordinate conversions over R; algebra and trigonometry. (PropCoordinates.v)

* `C57_shrunk_refuted`: The full claim is false. The position computed for the pixel coordinates of a hit is the hit pulled towards the centre of the area by the factors 1 - 1/width and 1 - 1/height, with the centre's north coordinate.
* `C57_slanted_refuted`: On an area that does not face north or south the error does not get smaller with the pixels: the north coordinate is wrong by the slope of the area times the distance from its centre, whatever the resolution.
* `C57_half_pixel_partial`: What holds: at most half a pixel of error on areas facing north or south, and none exactly at the centre.
* `C57_cylinder_partial`: The same shrinking on a cylinder facing north, in angle and height.

### C58 Target names and indices identify the same target area — proved

Names and indices of target areas as list functions; induction. (PropField.v)

* `C58_target_names_and_indices`: [types] are the lists of names of the planar and the cylindrical target areas.
* `C58_centers_of_target_areas`

### C59 Scenario files store every configured parameter — proved

Nested dictionaries written to an HDF5 tree; induction over paths. (PropScenario.v)

* `C59_nested_configuration`: a nested dictionary written under a new name is found in the file, path by path, and nothing else changes.
* `C59_scenario_file`: A whole scenario file: besides the number of groups, it holds exactly the configured parameters.

### C60 Measured fluxes and calibration data stay paired — proved

Calibration parser over lists of files; induction, pairing invariants. (PropCalibration.v)

* `C60_paired`: fluxes, measurements and mask are those of one list of samples, in which the name, the property file and the image belong together.
* `C60_without_unique_names`: The first hypothesis is needed. A heliostat listed twice: only its last images are loaded, but the properties of both entries.
* `C60_incident_direction`: Incident rays come from the sun: the direction of every measurement is opposite to the sun's position.

### C61 A sample limit is respected — partial

Calibration parser over lists of files; induction, pairing invariants. (PropCalibration.v)

* `C61_limit_partial`: (full statement: with a sample limit, at most that many samples per heliostat are loaded, and fluxes, measurements and mask agree on their number). With a positive limit they do.
* `C61_zero_refuted`: The limit zero means no limit, for all data.

### C62 Optimized aim points keep motors within their limits — proved

Motor parameterization, augmented Lagrangian and gradient locking over R with arbitrary optimizers; invariants over training histories. (PropOptimization.v)

* `C62_motor_limits`: The parameters are arbitrary: whatever the optimizer does.
* `C62_motor_limits_of_group`
* `C62_overshoot_below_one_step`: Without a margin the limits can be exceeded, but by less than one step.
* `C62_start`: The optimization starts from the aligned motor positions.

### C63 Augmented-Lagrangian terms only penalize — proved

Motor parameterization, augmented Lagrangian and gradient locking over R with arbitrary optimizers; invariants over training histories. (PropOptimization.v)

* `C63_aim_points`: aim points. All heliostats have an intercept factor, the flux has at least one pixel. [d0] is the first epoch.
* `C63_flux_density`: The bound on a pixel is the configured bound on the flux density.
* `C63_target_dimensions`
* `C63_surfaces`: surfaces: [n] trained heliostats.

### C64 Edge control points keep their planar position — proved

Motor parameterization, augmented Lagrangian and gradient locking over R with arbitrary optimizers; invariants over training histories. (PropOptimization.v)

* `C64_locked_gradients`
* `C64_border_keeps_planar_position`: Over every training history the border of a facet keeps its planar position.

### C65 Ray fractions are consistent — proved

Ray fractions and batched tracing; sums, partition of samples among ranks and batches. (PropTracing.v)

* `C65_ray_fractions`: [rays] are the angle-reduced intensity (never negative, see C26) and the blocked share of every ray. The last part describes the exact-arithmetic effect of soft blocking: as long as no ray is blocked completely the intercept fraction does not see blocking at all.

### C66 Batched tracing is independent of the batch size — partial

Ray fractions and batched tracing; sums, partition of samples among ranks and batches. (PropTrace.v, PropTracing.v)

* `C66_blocking_refuted`: With blocking the full claim is false: the flux of a sample is 1 when it is traced in a batch of its own and at most 1/4 when it shares the batch with a certain other sample (same scene, same mirrors).
* `C66_shared_refuted`: This is so in every field whose hierarchy reaches each mirror once: as soon as a ray of another sample meets a mirror that the rays of a sample are not tested against (its own mirror, or one that none of them meets), every lit pixel of this sample is darker in the shared batch than when it is traced alone.
* `C66_same_mirrors_partial`: With blocking, in such a field, the row of a sample is what the sample gives when traced alone if the rays of the other samples meet only mirrors of others that its own rays meet too.
* `C66_unblocked_rows_partial`: Without blocking every row is what its sample gives when traced alone.
* `C66_batched_tracing_partial`: Whatever the batch size and the number of ranks, exactly one rank writes the result row of a sample, it is the row computed from this sample's own distortions and state, and all other ranks leave the row unwritten. All active heliostats have the same number of samples.

### C67 Prototype parameters are used exactly when individual ones are missing — partial

Loading scenarios from an HDF5 tree; induction over the heliostat list. (PropScenario.v)

* `C67_prototypes_and_groups_partial`: own parts first, the prototype's otherwise ([expected], via [facets_of], [kinematics_of] and [actuators_of]); one group for every pair of kinematics and actuator types that occurs; alphabetical order of heliostats kept in every group.
* `C67_own_actuators_refuted`: Every other valid configuration is written but cannot be loaded: a heliostat with actuators of its own and the prototype's kinematics needs a heliostat with kinematics of its own before it.

### C68 Ranks sharing a heliostat group leave the optimization loop together — partial

All ranks' training loops with their own losses; witnesses and simulation. (PropTraining.v)

* `C68_ranks_leave_together_refuted`: (full statement): all ranks execute the same number of epochs. False: each rank decides with its own loss.
* `C68_first_rank_leaves_refuted`: More generally: whenever some rank meets the tolerance in an epoch up to which another rank neither met it nor used up its patience, the first one leaves the loop before the second one.
* `C68_epochs_of_a_rank_partial`: The exact number of epochs of every rank: it leaves after the first epoch that meets the tolerance or ends the patience, and after the last epoch if there is none. So the ranks leave together exactly when these epochs agree.
* `C68_ranks_leave_together_partial`: They do if all ranks see the same losses, or if neither tolerance nor early stopping can end the loop. Missing: runs in which some rank reaches the tolerance or stops early.

### C69 Reported final losses belong to their heliostats — partial

Reconstruction bookkeeping over all ranks; sums over partitions. (PropReconstruction.v)

* `C69_reported_losses_partial`: (full statement: for all activation masks and all world sizes). Proved for masks in which all heliostats with data have the same number of samples, and at most as many ranks as groups. The loss of a sample compares the prediction and the measurement of the same training sample of the same heliostat.
* `C69_nested_refuted`: With more ranks than groups a reconstruction of groups with at least two trained heliostats fails.
* `C69_alignment_partial`: The reconstruction from alignments does not combine the results: a rank reports the losses of its own groups and infinity for all others, trained or not.

### C70 The traced power is the collected power — partial

Irradiance and mirror areas; algebra. (PropTrace.v, PropTracing.v)

* `C70_collected_power`: Rays carry irradiance times the computed area ...
* `C70_counted`: Without irradiance the rays carry one unit each, whatever the field looks like, so that fluxes count rays.
* `C70_four_facets_partial`: ... which is the area covered by 2 x 2 uncanted facets 2 cm apart, like the first facet of the first heliostat ...
* `C70_single_facet_refuted`: ... and therefore more than four times the area of a heliostat with a single facet, ...
* `C70_mixed_sizes_refuted`: ... and the same for heliostats of different size in one group: whatever the other facets and heliostats are, all get the area of the first facet of the first heliostat, so that a heliostat with other facets gets different power in a group of its own.
* `C70_ray_power`: With a given irradiance the rays of one heliostat carry irradiance times area in total.

### C71 Blocking mirrors are placed as currently aligned — partial

Blocking primitives from surface corners, blocking of rays with margins; real analysis of exp. (PropBlocking.v)

* `C71_blocking_surfaces`
* `C71_repeated_heliostat_refuted`: The documented use of a heliostat more than once makes the construction of the tracer fail, whatever else the field contains.

### C72 Soft blocking approximates geometric blocking — proved

Blocking primitives from surface corners, blocking of rays with margins; real analysis of exp. (PropBlocking.v)

* `C72_blocked_if_inside`: A ray through a primitive, at least [m] (in units of the spans) away from its edges and at least [offset + m] from the ray's start, is blocked ...
* `C72_free_if_outside`: ... and a ray that passes every primitive with a margin is not.
* `C72_free_if_behind`: Primitives behind the start of the ray never block, also when the ray is almost parallel to them.

### C73 Both ways of choosing mirror corners agree — proved

Blocking primitives from surface corners, blocking of rays with margins; real analysis of exp. (PropBlocking.v)

* `C73_corner_selection`
* `C73_rectangle`: The blocking rectangle is exactly what its four corners span, and its normal is perpendicular to it.

### C74 Configured initial orientation is honoured — partial

Initial orientations and batched alignment; witnesses, simulation. (PropKinematics.v)

* `C74_initial_orientation_refuted`: fails: the configured initial orientation is never used.
* `C74_motors_refuted`

### C75 Alignment of one heliostat does not depend on the others — partial

Initial orientations and batched alignment; witnesses, simulation. (PropKinematics.v)

* `C75_batch_refuted`: fails: a heliostat aligned together with another one can get another orientation than alone.
* `C75_batch_partial`: A heliostat without translation deviations gets the same as alone.
* `C75_rounds_partial`: Any heliostat takes at least as many rounds in a batch as alone. It gets the same as alone if the whole batch has settled by then, and it goes on past the round at which it would have stopped alone only because another heliostat of the batch has not settled.

### C76 Cropping never creates flux — proved

Crops and focal spots; sums, interpolation. (PropBitmap.v)

* `C76_crop_bounds`
* `C76_crop_points`: Pixel [(u, e)] of a crop shows the interpolated flux at the point that lies as far from the center, measured in the crop, as the pixel lies from the middle of the image; the center is that of the flux together with a weight of [1e-8] in the middle of the image.
* `C76_crop_identity`

### C77 Focal spots of traced rays — proved

Crops and focal spots; sums, interpolation. (PropBitmap.v, PropCoordinates.v)

* `C77_center_of_splatted_rays`
* `C77_focal_spot`: Tracing, splatting, centre of mass and conversion together: the focal spot of rays hitting an area is their power-weighted mean hit position, pulled towards the centre as in C57 (and by the share of the epsilon towards the east and upper border).

### C78 WGS84 offsets point the right way and have the right size — partial

WGS84 conversion; algebra with bounds on the radii. (PropCoordinates.v)

* `C78_local_offsets`
* `C78_antimeridian_refuted`: Longitudes are not wrapped: neighbours across the antimeridian are placed more than half the globe apart.

### C79 Generating and loading a scenario gives back the configuration — partial

Round trip of configurations through scenario files; induction over trees. (PropScenario.v)

* `C79_round_trip_partial`: a valid configuration is written, and loading the file gives back what was configured.
* `C79_every_file_loads_refuted`: Without planar or without cylindrical target areas the file is written but cannot be loaded, whatever else is configured.
* `C79_facet_order_refuted`: Facets come back in the alphabetical order of their keys, not in the configured order.
* `C79_facets_out_of_order_refuted`: ... and so for every heliostat with two facets whose names are not in alphabetical order, as facet_2 and facet_10 of ten or more numbered facets.

### C80 The stored number of heliostat groups is the number of groups loaded — proved

Round trip of configurations through scenario files; induction over trees. (PropScenario.v)

* `C80_number_of_groups`: the number of groups stored in the file, used to plan the ranks before loading, is that of the loaded field.

### C81 Surfaces are evaluated with their own degrees — partial

Round trip of configurations through scenario files; induction over trees. (PropScenario.v)

* `C81_degrees_partial`: (full statement: every surface is evaluated with its own degrees). Proved: if all facets of the power plant have the same degrees, every group uses them.
* `C81_own_degrees_refuted`: With different degrees some facet is evaluated with those of another one.
* `C81_mixed_degrees_refuted`: The same for every power plant in which two facets differ in their degrees: all groups get the degrees of one facet.

### C82 Data mappings list matching files only — partial

Data mappings and heliostat lists; induction over directory listings and paths. (PropCalibration.v)

* `C82_mapping_partial`: the data mapping built from a directory.
* `C82_first_files_partial`: As many as wanted: the first [wanted] property files that have an image, in the order of the listing.
* `C82_zero_refuted`: Asking for no measurements returns all of them: every heliostat with a measured image comes back with all of its measurements.

### C83 Mixed surfaces configure every heliostat once — partial

Data mappings and heliostat lists; induction over directory listings and paths. (PropCalibration.v, PropPaint.v)

* `C83_mixed_partial`: heliostats with measured and with ideal surfaces.
* `C83_only_one_kind_refuted`: With measured surfaces only, or ideal surfaces only, nothing is returned.
* `C83_identifiers_refuted`: Identifiers are given twice, in every field with heliostats of both kinds.
* `C83_read_surfaces`: with unreadable files. If a mixed list of heliostats is read, every path gives exactly one heliostat with its own name and properties, a fitted surface exactly if it has a deflectometry file; the prototype has an ideal surface.
* `C83_read_one_kind`: Lists of one kind keep the order of the paths and number the heliostats.
* `C83_read_partial`: Reading succeeds if there is a heliostat of each kind and every file can be read ...
* `C83_read_one_kind_refuted`: ... but never if all heliostats are of the same kind, ...
* `C83_read_identifiers_refuted`: ... and the ids of a mixed list are never unique.

### C84 Aim point optimization sees the flux of the whole field — partial

Distributed aim point optimization and reconstruction over all ranks' states; sums over partitions, broadcast order. (PropOptimization.v)

* `C84_total_flux_partial`: With at most as many ranks as groups, the flux seen by every rank is the flux of all heliostats.
* `C84_nested_refuted`: With more ranks than groups the optimization fails on every rank.

### C85 Ray fractions are reported per heliostat — partial

Distributed aim point optimization and reconstruction over all ranks' states; sums over partitions, broadcast order. (PropOptimization.v)

* `C85_factors_partial`: In a single process the reported factors belong to their heliostats.
* `C85_distributed_refuted`: In a distributed run a rank reports zero for all heliostats of the groups of other ranks.

### C86 All ranks end with the trained parameters — partial

Distributed aim point optimization and reconstruction over all ranks' states; sums over partitions, broadcast order. (PropReconstruction.v)

* `C86_same_parameters_partial`: After a distributed reconstruction from fluxes or of surfaces every rank holds, for every group, the parameters of one rank that trained the group.
* `C86_alignment_refuted`: The reconstruction from alignments has no broadcast: in every run with at least two ranks and two groups there are, for each group, ranks that keep its initial parameters.

### C87 Tracing never creates power — proved

Tracing of whole heliostats composed from scattering, intersection, blocking and splatting; composition of the earlier theorems. (PropTrace.v)

* `C87_sample_power`: The flux image of every sample is non-negative and holds at most the power its rays carry after extinction and reflection losses, with or without blocking, whatever the distortions and the target.
* `C87_all_targets`: The images of all target areas together hold at most the power of all samples.
* `C87_tracing_succeeds`: Without blocking tracing of proper samples always succeeds.

### C88 An aligned flat mirror focuses on its aim point — proved

Tracing of whole heliostats composed from scattering, intersection, blocking and splatting; composition of the earlier theorems. (PropTrace.v)

* `C88_flat_mirror_focal_spot`: A flat mirror whose normal is the one requested by the alignment for the mean of its surface points, without sun shape and blocking: the focal spot found in its bitmap is the aim point, up to the shrinking of C57 and the share of the epsilon of the centre of mass; and the bitmap holds all power.

### C89 Scattered rays stay unit length and close to the reflected direction — proved

Tracing of whole heliostats composed from scattering, intersection, blocking and splatting; composition of the earlier theorems. (PropTrace.v)

* `C89_scattered_rays`: Rays of a sample have unit length and deviate from the reflected direction at their surface point by at most the sum of the two angles drawn for them.
* `C89_number_of_rays`: There is one ray for each ray number and surface point.

### C90 Ideal facets are the rectangles given by their canting vectors — proved

Surface generation: planar nets, fits with an arbitrary optimizer; spline monotonicity, loop invariants. (PropSurfaceGenerator.v)

* `C90_ideal_facets`: The surface of an ideal heliostat: every facet is the flat rectangle around its translation whose half sides are its canting vectors; its points form a grid inside the rectangle, strictly increasing in both directions, and all its normals are the upper normal of the rectangle.
* `C90_ideal_defined`: One canting and one translation for each facet suffice.

### C91 A fitted facet is placed at its translation — partial

Surface generation: planar nets, fits with an arbitrary optimizer; spline monotonicity, loop invariants. (PropSurfaceGenerator.v)

* `C91_fitted_placed_partial`: A fitted facet is stored moved to its translation, and evaluates to the fit moved by it, if any height of any facet is not zero.
* `C91_points_partial`: A fit of points is stored as it was learned, without a translation: facets without canting evaluate to it even if they are flat.
* `C91_flat_refuted`: For exactly flat measurements of a facet without canting the full claim fails: the initial control points already fit, so the optimizer keeps them (their loss, and with it the gradient, is zero); all stored heights are zero, and loading therefore translates the already translated facet a second time.

### C92 A surface fit performs at most the maximum number of epochs — partial

Surface generation: planar nets, fits with an arbitrary optimizer; spline monotonicity, loop invariants. (PropSurfaceGenerator.v)

* `C92_steps_partial`: (full statement: a fit takes at most the maximum number of epochs and stops earlier only if its loss is within the tolerance). It takes at most one step more than the maximum, whatever the optimizer does, and if it takes fewer, the last loss it saw was within the tolerance.
* `C92_maximum_refuted`: The maximum itself is exceeded, for every maximum.

### C93 STRAL files are read back exactly and truncated ones rejected — partial

STRAL files as byte lists; induction over the file. (PropStral.v)

* `C93_round_trip`: A complete file is read back exactly, whatever follows it.
* `C93_truncated_partial`: A file that breaks off anywhere is rejected, unless it breaks off between two points of the last facet: then the points and normals that are missing are returned unset.
* `C93_truncated_refuted`: Every surface has a truncated file that is accepted, with unset memory as measurements.

### C94 The focal spot loss is the distance of the focal spots — partial

Focal spot loss composed from centre of mass and target coordinates; algebra, trigonometry. (PropFocalSpots.v)

* `C94_losses_partial`: For bitmaps of equal resolution every sample's loss is the distance of its two focal spots on its own area ...
* `C94_zero`: ... never negative, zero exactly for equal centres of mass, ...
* `C94_metric`: ... symmetric and fulfilling the triangle inequality, ...
* `C94_diagonal`: ... and on a planar area less than its diagonal.
* `C94_keywords`
* `C94_resolution_refuted`: The full claim fails if the ground truth has another resolution than the prediction, which is not checked: its centre of mass is converted with the resolution of the prediction. The same uniform flux on a finer bitmap is reported as far away (with twice as many columns by at least a third of the width).

### C95 Cylindrical target areas are reconstructed from their corners — partial

PAINT files as JSON trees; vector algebra, induction over lists. (PropPaint.v)

* `C95_cylinders_partial`: A cylindrical target area opening at most half way whose corners are in the tower file is reconstructed exactly, if it does not lean sideways; either side may be called left.
* `C95_wide_refuted`: The centre of an area opening further is on the wrong side of the corners, ...
* `C95_leaning_refuted`: ... and the axis of an area that leans sideways is wrong.

### C96 Planar target areas contain their points — partial

PAINT files as JSON trees; vector algebra, induction over lists. (PropPaint.v)

* `C96_planar_partial`: The points of a rectangular target area with horizontal upper edge that faces exactly north or south, tilted or not, are exactly those within the area computed from its corners.
* `C96_turned_refuted`: The area of a rectangle whose sides also run east, as those of a tilted area turned away from north, lacks one of its corners.

### C97 Every target area of a tower file is read — partial

PAINT files as JSON trees; vector algebra, induction over lists. (PropPaint.v)

* `C97_tower_partial`: A tower file that starts with the power plant and lists complete planar and cylindrical areas gives exactly these areas, in order.
* `C97_order_refuted`: A file in which the power plant does not come first is never read, although the order of keys has no meaning in JSON.
* `C97_types_refuted`: Areas of any other type are dropped without notice.

### C98 Heliostat and deflectometry files are read completely — partial

PAINT files as JSON trees; vector algebra, induction over lists. (PropPaint.v)

* `C98_facets`: As many facets are read as the heliostat file says; it must list that many, and further ones are ignored.
* `C98_deflectometry_partial`: Deflectometry data with as many normals as points are read unchanged; additional normals are rejected, ...
* `C98_deflectometry_file_partial`: ... and the facets of the file are returned in order, ...
* `C98_deflectometry_refuted`: ... but if normals are missing, unset memory is returned as normals.

### C99 Measured normals reflect the sun to the measured focal spots — partial

Measured normals with `repeat_interleave` and broadcasting; vector algebra. (PropFocalSpots.v)

* `C99_measured_partial`: Every sample gets the unit normal that, at the position of the heliostat it belongs to, reflects its rays to its measured focal spot, on the side of the sun.
* `C99_mirror_refuted`: The full claim, for the mirror where it is, fails: a mirror whose centre is not at the heliostat's position (translation deviations, as in the default kinematics) and not on the line to the focal spot misses the focal spot with the normal computed for it.

### C100 Updating surfaces without new control points changes nothing — partial

Surface update against surface loading; induction over facets, spline evaluation. (PropSurfaceUpdate.v)

* `C100_unchanged_partial`: For flat control points and as many points in both directions, an update without a change of the control points keeps all surface points and normals.
* `C100_fitted_refuted`: The full claim fails for every heliostat with any non-zero height, as all fitted ones: loading such a surface takes its facets where the control points are, but the update cants and translates them (again). A facet without canting is moved by its translation.
* `C100_grid_refuted`: It also fails for different numbers of points in the two directions: the number of points changes unless the product is a square.

### C101 Aim point results belong to the stored motor positions — proved

Optimization loops with parameters, arbitrary losses and steps; loop invariants. (PropEpochs.v)

* `C101_results_of_stored_motors`: The optimization with a Kullback-Leibler loss ends after at least one and at most [max_epoch + 1] epochs. The motor positions it leaves in the scenario are those of the last executed epoch; the loss and the fractions of rays it returns are the loss and the fractions of exactly these motor positions, and the history has the losses of all executed epochs in order.

### C102 Reconstruction losses belong to the stored parameters — partial

Optimization loops with parameters, arbitrary losses and steps; loop invariants. (PropEpochs.v)

* `C102_losses_of_stored_parameters_refuted`: (full statement: the losses returned by a reconstruction are the losses of the parameters left in the scenario). Whenever a step changes the losses, it fails: the losses are those before the last step.
* `C102_one_step_behind_partial`

### C103 Reported test losses belong to the stored parameters — partial

Optimization loops with parameters, arbitrary losses and steps; loop invariants. (PropEpochs.v)

* `C103_test_losses_partial`: (full statement: the test loss returned by a reconstruction is the loss of the parameters left in the scenario on the test data). It holds if the run was stopped early or the last executed epoch was logged, or if the run has exactly [max_epoch] epochs; in any case the test loss is that of the parameters at most [log_interval - 1] steps earlier.
* `C103_last_epoch_refuted`: The loop has [max_epoch + 1] epochs, but the epoch validated as the last one is the one before: a run through all epochs reports a test loss that misses the last step, unless [log_step] divides [max_epoch].

### C104 Aim points can be optimized with every loss — partial

Optimization loops with parameters, arbitrary losses and steps; loop invariants. (PropEpochs.v)

* `C104_other_losses_refuted`: (full statement: aim points can be optimized with every loss). With a loss other than the Kullback-Leibler loss the first epoch raises an exception.
* `C104_kullback_leibler_partial`

### C105 Gradients of different heliostat groups are kept apart — partial

Collective operations matched by call order; induction over groups and ranks. (PropCollectives.v)

* `C105_own_gradients_refuted`: (full statement: for every number of ranks and groups, the gradient with which the motor positions of a group are changed after the synchronization depends on gradients of this group only). With at least two ranks and a multiple of groups, it depends on the gradients of other groups: the ranks add the gradients of their k-th groups, which are different groups.
* `C105_mixed_partial`: What the ranks get instead.
* `C105_nested_partial`
* `C105_sizes_refuted`: Groups with different numbers of heliostats in the same place of two ranks, or ranks with different numbers of groups, make the synchronization fail.
* `C105_uneven_refuted`
* `C105_one_group_partial`: The statement holds for a single group, and for a single rank.
* `C105_one_rank_partial`

### C106 Blocking uses the current alignment of all heliostats — partial

Collective operations matched by call order; induction over groups and ranks. (PropCollectives.v)

* `C106_one_rank_partial`: (full statement: on every rank, the mirrors that may block rays are those of all heliostats as they are aligned in the current epoch). It holds for a single rank.
* `C106_unchanged_partial`: With any number of ranks it holds as long as the mirrors of the groups of other ranks have not moved since the start.
* `C106_stale_mirrors_refuted`: With two or more ranks and groups there is, for every rank, a group whose motor positions may change as they like: the rank goes on with the mirrors as they were at the start.

### C107 Tracing is reproducible — proved

Distortions from an arbitrary random generator and tracers with stale sizes; induction over batches, sums over pixels. (PropSun.v)

* `C107_reproducible`: With the same seed, the same rows are traced whatever random numbers were drawn before, ...
* `C107_shape`: ... and the distortions give one pair of angles for every sample, ray and surface point.

### C108 Distributing the work does not change traced results — partial

Distortions from an arbitrary random generator and tracers with stale sizes; induction over batches, sums over pixels. (PropSun.v)

* `C108_same_seed_partial`: (full statement: for all masks, and for tracing as well as for optimizations). With one seed for all ranks, as in a ray tracer a user creates, every sample is traced by exactly one rank, with the result a single process has. Active heliostats have the same number of samples.
* `C108_seeds_refuted`: The optimizers use the rank as seed: if the distortions of two seeds give different results, ranks sharing a group trace other results than a single process.

### C109 A tracer follows changes of the numbers of rays and points — partial

Distortions from an arbitrary random generator and tracers with stale sizes; induction over batches, sums over pixels. (PropSun.v)

* `C109_unchanged_partial`: (full statement: a tracer can be used after the number of rays of the light source or of surface points of the group was changed, and the traced power does not depend on these numbers). With unchanged numbers it traces its samples.
* `C109_rays_refuted`: Another number of rays or surface points is an error, ...
* `C109_points_refuted`
* `C109_single_ray_refuted`: ... except that a tracer created for a single ray counts this ray as often as there are rays now: the power is multiplied.
* `C109_set_rays_refuted`: In terms of the scenario: once its number of rays has been set, a tracer created before fails, unless the number is the old one or the tracer has a single ray, and one created afterwards traces its samples with the new number of rays.
* `C109_new_tracer_partial`

### C110 Regularizers compare each heliostat with itself — proved

Index arithmetic of samplers and masks over all ranks; induction over blocks of samples. (PropRegularization.v)

* `C110_own_originals`: for every group and every number of processes of the group, the regularizers on a process compare the present control points of heliostats with the control points the same heliostats had before the reconstruction; every heliostat with samples is regularized on exactly one process, once, and no heliostat without samples is.

### C111 A changed number of control points describes the loaded surface — partial

Loaded surfaces against updates from the group's control points; composition with C90 and C100. (PropSurfaceUpdate.v)

* `C111_ideal_partial`: The stored surface is an ideal one: then the surface points after loading with another number of control points, and the points of the new control points, are points of the same rectangles with the same normals (not always the same points of them).
* `C111_stored_refuted`: In general the surface points are still those of the stored control points, while the control points of the group are new and flat: wherever a stored facet leaves its rectangle, the surface point is not the one of the control points.

### C112 Counts and indices computed in floating point are exact — proved

IEEE 754 rounding with Flocq's formats; rounding error and midpoint arguments for all integers and all representable numbers. (PropFloats.v)

* `C112_samples`: The number of samples per heliostat is the integer quotient, ...
* `C112_fraction`: ... a fraction below one never takes all samples for testing, ...
* `C112_points`: ... the number of surface points per facet and direction is the integer square root of the quotient, ...
* `C112_corners`: ... and the corner indices of a mirror with four facets of [n] times [n] points are the ones of the model of C72 and C73.

### C113 Evaluation grids have knot spans in single precision — proved

IEEE 754 rounding with Flocq's formats; rounding error and midpoint arguments for all integers and all representable numbers. (PropFloats.v)

* `C113_spans`: Every single precision number from zero up to but excluding one has a knot span of the surface, ...
* `C113_grid`: ... so the points of every evaluation grid have one, for every number of points and control points and every degree.
* `C113_margin`: The margin of the grid matters: 1e-9 instead of 1e-7 would round to one, which has no span.

### C114 Splatting in single precision keeps intensities — proved

IEEE 754 rounding with Flocq's formats; rounding error and midpoint arguments for all integers and all representable numbers. (PropFloats.v)

* `C114_weights`: In single precision, the weights of a ray are between zero and one; from the second pixel on they add up to exactly one in both directions.
* `C114_intensities`: No pixel loses intensity to a ray, and the four pixels of a ray share its intensity up to one part in two million.

### C115 Test losses come from the held-out samples of their own heliostat — partial

Validation of one group as a function of the mask, the inputs and the measurements (ModelValidation); block structure of the test indices (ProofsValidation). The shared case is refuted for all masks with two or more held-out samples. (PropValidation.v)

* `C115_kinematics_partial`: (full statement: on every rank, for all groups, the test loss of a heliostat is the reduction of the losses of exactly its held-out samples, each predicted from its own inputs and compared with its own measurement). The kinematics reconstruction does this on every rank, whatever the distribution; proved for masks in which all heliostats with data have the same number of samples.
* `C115_surfaces_partial`: The surface reconstruction does so where a group is handled by one rank.
* `C115_shared_refuted`: Where ranks share a group with at least two heliostats, the validation of surfaces fails with two or more held-out samples per heliostat, ...
* `C115_silent_refuted`: ... and with one held-out sample it can compare a heliostat with the measurement of another one: here rank 1 of two ranks returns a loss for heliostat 0 that depends on uninitialised memory and on the measurement of heliostat 1, for all predictions and measurements.

### C116 The learning rate follows the configured schedule — partial

Schedulers as state machines over losses (ModelSchedulers); closed forms by induction on the losses, an invariant that relates the count of bad epochs to the last losses for the plateau scheduler (ProofsSchedulers). (PropPlateau.v, PropSchedulers.v)

* `C116_reductions_partial`: A reduction of the plateau scheduler is one by the configured factor, but not below the lower bound, and two reductions are more epochs apart than cooldown and patience together.
* `C116_reduced_partial`: It does not wait longer either: if that many losses and one more do not improve on any loss before, the rate is reduced (unless the reduction is smaller than 1e-8).
* `C116_fits_partial`: A plateau scheduler given to the fit of a facet gives the same learning rates as in the reconstructions, so that all of the above holds for fits too.
* `C116_exponential_partial`: (full statement: the learning rate starts with the configured initial one and then follows the configured schedule, whatever the losses are). The exponential scheduler multiplies it by the factor after every epoch, ...
* `C116_plateau_partial`: ... the plateau scheduler only reduces it, never below the lower bound (or the initial rate, if that is lower), and only if as many losses as the patience and one more did not improve on some earlier loss by the relative threshold, ...
* `C116_cyclic_partial`: ... and the cyclic scheduler moves it up and down between its bounds.
* `C116_initial_refuted`: The cyclic scheduler ignores the configured initial learning rate: the first epoch uses the lower bound, whatever was configured.

### C117 Ranks sharing a heliostat group keep identical parameters — partial

All ranks of a group step together (shared_epoch) with an arbitrary optimizer, arbitrary gradients and losses; equality of states is invariant if the scheduler ignores losses. For the plateau scheduler a construction that works for every configuration makes two ranks differ. (PropSchedulers.v)

* `C117_same_parameters_partial`: (full statement: ranks that share a heliostat group and average their gradients have the same parameters after every epoch). With exponential and cyclic learning rates they have the same parameters, learning rates and optimizer states, for every optimizer, all gradients and all losses.
* `C117_plateau_refuted`: The plateau scheduler of a rank only sees the losses of this rank: for every configuration that reduces the rate at all, there are losses with which two ranks have different parameters after as many epochs as the patience and three more.

### C118 Processes of a distributed run share the work and the devices — partial

Start of a process as a function of what it finds (ModelEnvironment), composed with the distribution of groups (C04); arithmetic of ranks modulo devices (ProofsEnvironment). (PropEnvironment.v)

* `C118_work_partial`: (full statement: however a run is started, each heliostat group is worked on by one process if there are no more processes than groups, and processes on the same node use different GPUs as long as there are enough). Processes that found each other share the groups without overlap or omission; ...
* `C118_devices_partial`: ... processes that want CUDA get the device of their rank, and these are different on a node whose ranks are consecutive.
* `C118_isolated_refuted`: A process whose rendezvous fails carries on alone without an error: each of them works on all groups, as rank zero.
* `C118_devices_refuted`: If ranks are dealt to the nodes in turn and the number of nodes is a multiple of the number of GPUs, all processes of a node use the same GPU, even if a GPU was requested by its index.

### C119 Every configured heliostat is loaded — partial

Composition of ModelScenario's generator and loader; the positive part partitions the loaded groups, the refutation shows that dictionaries keep the last value of a key and that the loader does not read the number of groups (ProofsDuplicates). (PropDuplicates.v)

* `C119_all_loaded_partial`: (full statement: the loaded scenario has each configured heliostat once, or the configuration is rejected). It has if all heliostats have different names, which [valid] contains.
* `C119_lost_refuted`: A second heliostat of the same name silently replaces the first: whatever the first one is and wherever it stands, the scenario is loaded as if it had not been configured.
* `C119_count_refuted`: The lost heliostat still counts for the number of groups in the file: if it was the only one of its type, the file announces more groups than are loaded.

### C120 Samples without a usable gradient do no harm — partial

Numbers that may be not finite, reductions as weights, Adam for one parameter (ModelGradients); absorption through sums and induction over epochs (ProofsGradients). (PropGradients.v)

* `C120_finite_partial`: (full statement: a sample whose gradient is not finite has no influence on the training, and all other samples have the influence they would have without it). If all samples of a heliostat have finite derivatives, the step of the reconstruction from alignments uses their mean, and that of the reconstruction from fluxes the derivatives of the median samples, whatever the samples of other heliostats are.
* `C120_alignment_refuted`: In the reconstruction from alignments one such sample takes the influence of all samples of its heliostat: the step is the one of a zero gradient, whatever the other derivatives are.
* `C120_flux_refuted`: In the reconstruction from fluxes one such sample in one epoch on one rank makes the parameter unusable for good, even if it is not the median.

### C121 Results do not depend on where the scene lies — proved

Whole-sample tracing with blocking (ModelTrace, ModelBlocking, ModelLBVH) and the iterative alignment (ModelKinematics); invariance of every step under a common shift (ProofsTranslation, ProofsTranslationTrace): Morton codes, hierarchy, slab tests, traversal, densities, intersections, and the orientation as a shift times the rest of the chain. (PropTranslation.v)

* `C121_traced`: If the surfaces, the target areas and the mirrors that block rays are all moved by the same vector, tracing gives the same result in all pixels and fractions, or fails in the same way, with and without blocking ...
* `C121_aligned`: ... and if heliostats and aim points are moved by the same vector, aligning gives the same motor positions, and orientations that take every point of a surface to a place moved by the vector and every normal to the same normal.

### C122 Flux is proportional to irradiance and reflectivity — proved

Whole-sample tracing (ModelTrace): the intensity is followed through intersections, blocking, extinction and splatting (ProofsProportional). (PropProportional.v)

* `C122_flux`: Multiplying what each ray carries, or the reflectivity of the mirrors, by a positive factor multiplies the flux in every pixel by it and changes no fraction, for every scene, with and without blocking; if tracing fails, it fails in the same way ...
* `C122_irradiance`: ... and what a ray carries is proportional to the irradiance.

### C123 The learning rate limits how far a training moves — proved

Steps of Adam and of the scheduler for one entry of the parameters (ModelLearning); invariant that the squared first moment is at most 112 times the second, preserved for every momentum between 0.8 and 0.9 (ProofsLearning). (PropLearning.v)

* `C123_epoch`: With every scheduler and after every history of gradients and losses, no gradient moves an entry of the parameters in an epoch by more than eleven times the learning rate of that epoch ...
* `C123_first`: ... and the first epoch moves it against the gradient by the learning rate, whatever the size of the gradient is, as long as it is large compared to 1e-8. ...
* `C123_exponential`: ... With the exponential scheduler the whole optimization stays near its start, however many epochs it has.
* `C123_momentum`: The cyclic scheduler lowers the momentum of the optimizer by up to 0.1 in proportion to how far it has raised the learning rate.

### C124 A heliostat aligned to an aim point delivers its power there — proved

Composition of the models of the group, the kinematics and the ray tracer (SpecDelivery): the error of the alignment bounds how far every ray is off at the plane, the focal spot is the weighted mean of the hits (ProofsDelivery). (PropDelivery.v, PropRayTracer.v)

* `C124_delivered`: Activate heliostats of a group, align them with their incident directions and aim points, and trace the aligned surfaces without blocking. For every active heliostat that is flat, faces a large enough planar target area and can turn to the normals that take the sun to its aim point, the image holds the power of all its rays, reduced only by extinction, reflectivity and the angle at which the rays meet the area, and the focal spot read off the image belongs to a point of the area that is no farther from the aim point than [spot_radius] says: the accuracy of the alignment and the spread of the sun times the distance, and the size of the mirror.
* `C124_whole_call`: The same delivery with whole calls of the ray tracer, whatever the number of ranks and the batch size: one rank returns the image of the aligned heliostat at its position, with its power at the aim point.

### C125 Each row of a trace is its own heliostat's image on its own target area — proved

Model of a whole call of trace_rays on one rank (ModelRayTracer): mask check, batches of the sampler, reads by index and by mask, target areas by number, writes by mask. The theorem of C66 about the batch loop, instantiated with the trace of one sample, gives the rows (ProofsRayTracer). (PropRayTracer.v)

* `C125_rows`: Tracing without blocking, on any number of ranks and with any batch size: every rank returns one row for each active sample, exactly one rank writes the row of a sample, and it is the image of the sample's own surface under its own incident direction and distortions on the target area with its own number. Active heliostats have the same number of samples.
* `C125_no_result`: With or without blocking, a call that meets the number of no target area, or that is made with another mask than the heliostats were activated with, returns no result.

### C126 The weight of a violated constraint grows — partial

Induction over the epochs for the models of the constraints (ModelOptimization): a clamped running sum is the largest sum over a suffix of the history (ProofsWeights). Refutation for the intercept factors by a history of any length in which one heliostat loses what another one gains. (PropWeights.v)

* `C126_weights_partial`: (full statement: while a constraint stays violated, its weight in the loss grows by at least a fixed amount in every epoch). Aim points: after any history the weight of the total flux is the penalty factor times the largest sum, over the last epochs, of the share of the flux that is missing; that of the flux density is the same for the share by which the brightest pixel is above the bound; that of the intercept factors is the same for the mean over all heliostats of the shares lost. The terms of an epoch use the weights from before it.
* `C126_grows_partial`: Hence a total flux that stays short by a share of at least [delta], and a brightest pixel that stays too bright by at least that share, is weighted more from epoch to epoch without bound.
* `C126_intercepts_refuted`: The full statement fails for the intercept factors: a heliostat may lose half of its factor for good, and if another one gains as much, the weight of the constraint is zero after any number of epochs, with any penalty factors.
* `C126_surfaces`: Surfaces: the weight of a heliostat is the penalty factor times the sum of its violations in all epochs so far, and the term of an epoch uses the sum from before it. A weight therefore never falls.

### C127 A fit uses every k-th measurement of its facet and starts flat over the measured extent — proved

Unfolding of the fit of all facets to the fits of single facets, with the closed form of cutting and striding, and the evaluation of flat nets of C90 (ProofsFitStart). (PropFitStart.v)

* `C127_measurements`: Whatever the optimizer does, every facet of a fitted surface is the fit to every [stride]-th of its own measurements, cut to the number of the facet with the fewest. ...
* `C127_start`: ... A fit starts from the flat surface around the origin with a regular grid of control points over the extent of the measurements: at every measurement it has height zero and an upward normal, lies in the rectangle of the measured extent, and measurements farther east or north are compared with points farther east or north. A fit with a maximum of zero epochs is one step of the optimizer from there, and a fit takes only one step if the mean squared distance of the measured points from these points of the flat surface (or of the measured normals from its normals) is within the tolerance.

### C128 Ranks that share a group train its surfaces with their mean gradient — proved

Induction over the epochs of the model of the training of control points with Adam (ModelOptimization, ProofsGroupTraining). (PropGroupTraining.v)

* `C128_means`: The control points after any number of epochs depend on the gradients of the ranks through their means only ...
* `C128_same_work`: ... so that ranks that compute the same gradients train the surface one rank trains, however many they are, and their order does not matter; ...
* `C128_order`
* `C128_first_epoch`: ... and the first epoch moves every entry that is not locked by the learning rate against the mean gradient, as long as that is large compared to 1e-8.

### C129 The fit of a facet does not depend on the facets fitted before — partial

ModelFitting threads the memory of the plateau scheduler through the facets, with a fresh optimizer state and the initial learning rate for each; the successful runs are shown to be runs of fitted_surface (ModelSurfaceGenerator). Induction over epochs and facets; the refutation follows the two runs of one facet epoch by epoch. (PropFitting.v)

* `C129_first_partial`: (full statement: the fit of a facet only depends on the measurements of this facet, not on the facets or heliostats fitted before with the same optimizer and scheduler). The first facet is fitted as if it was the only one, ...
* `C129_unscheduled_partial`: ... without a scheduler all facets are, for every optimizer, ...
* `C129_generated_partial`: ... and a surface generated with a shared scheduler is one of the fitted surfaces that C91, C92 and C127 are about.
* `C129_independent_refuted`: The scheduler remembers the best loss of the facets before. Take any facet whose loss falls in every epoch by more than the threshold when it is fitted alone, so that its learning rate is never reduced, and any optimizer whose steps depend on the learning rate. Fitted a second time after itself, the facet has not reached the remembered loss when the patience is over, its learning rate is reduced, and the same measurements give other control points.

### C130 The reconstruction of a heliostat only depends on its own measurements — partial

ModelHeliostatTraining instantiates the loop of ModelEpochs with steps of Adam (ModelOptimization) and of the schedulers (ModelSchedulers) on the parameters of all heliostats; losses and gradients of a heliostat are arbitrary functions of its own parameters. Induction over epochs. (PropHeliostatTraining.v)

* `C130_own_measurements_partial`: (full statement: the parameters found for a heliostat only depend on its own measurements and initial parameters, not on the other heliostats that are reconstructed together with it). With exponential and cyclic learning rates they are the same in all reconstructions with the same number of heliostats and epochs, whatever the other heliostats and their measurements are and wherever the heliostat stands in the group; so is the reported loss.
* `C130_number_refuted`: With another number of heliostats they are different: already the first epoch gives every parameter with a gradient another value, because the gradient is divided by the number of heliostats and the optimizer adds 1e-8 to its size.
* `C130_stopping_refuted`: The other heliostats also end the training: tolerance and early stopping look at the mean loss. A heliostat that would be trained on is left as it is after one epoch if the loss of another is small enough.

### C131 Heliostats without measurements keep their parameters — proved

Same model and train_control_points (ModelOptimization): both moments of Adam stay zero without gradient, by induction over epochs. (PropHeliostatTraining.v)

* `C131_kinematics`: A heliostat without measurements keeps its parameters exactly, however long the others of its group are trained, for every scheduler and all losses; ...
* `C131_surfaces`: ... and so do all control points the losses of all ranks do not depend on.

### C132 An interrupted scenario generation is not mistaken for a complete scenario — partial

ModelInterrupted lists the datasets in the order in which generate_scenario writes them and defines the file after any number of them. Writing all of them is generate_scenario. The files after the last dataset of a heliostat agree with generated files of smaller configurations up to the number of groups, which the loader does not read. (PropInterrupted.v)

* `C132_nothing_missing`: (full statement: a scenario file that was left behind by a generation that did not come to its end is not loaded as a scenario). False once the first heliostat has been written: the loader takes the heliostats it finds, and parts that were not written come from the prototype. The stored number of groups reveals it only if a group is missing.
* `C132_no_heliostat_partial`
* `C132_heliostats_missing_refuted`
* `C132_parts_missing_refuted`

### C133 The order of listing does not matter for blocking — partial

Whole-sample tracing with blocking (ModelTrace, ModelBlocking, ModelLBVH). ProofsOrder: sorted codes without repetition do not depend on the listing, so the hierarchy has the same child arrays and relabelled leaves, and traversal finds the relabelled mirrors; the mask is a sum over the mirrors found. Rows of a batch as a map over samples. ProofsOrderRefuted: twelve mirrors, three in one cell, of which only one is reached from the root. (PropOrder.v)

* `C133_samples`: (full statement: tracing a batch with blocking gives every sample the same bitmap and factors in whatever order the samples and the heliostats of the scenario are listed). The order of the samples never matters. The order of the heliostats does not matter if no two mirrors have the same Morton code, whatever sorting [torch.sort] does among equal keys. Missing: with three mirrors in one cell the statement is false, since which of them is tested at all depends on their order; two mirrors in one cell are not covered.
* `C133_mirrors_partial`
* `C133_mirrors_refuted`: Whatever way of sorting is used, there are mirrors of which three share a cell and a ray that is not blocked at all in one order of the mirrors and is blocked to at least three quarters in another.

### C134 A mirrored scene gives a mirrored image — partial

Whole-sample tracing (ModelTrace). ProofsMirrored: reflection, scattering and both intersections commute with the exchange of east and west, the intersection's column is width - 1 - column, and splatting off the edges is symmetric. ProofsMirroredBatch lifts it to batches without blocking and shows what is lost on the edge. (PropMirrored.v)

* `C134_mirrored_partial`: (full statement: if east and west are exchanged in a scene, left and right are exchanged in its images, and all fractions stay the same). It holds without blocking for all batches of samples with planar areas, and with cylindrical areas whose opening lies on the northern side, if no ray that carries power ends exactly on the left or right edge.
* `C134_blocked_partial`: The same holds for one sample, whatever part of its rays is blocked.
* `C134_edge_refuted`: A ray that ends exactly on the left edge of the image is counted, but in the mirrored scene, where it ends on the right edge, it is lost: if all rays end on the left edge, the image holds all their power and the mirrored one nothing, though the intercepted fraction is the same.

### C135 Turning a scene about the vertical does not change the images — partial

Same model. Half a turn keeps the plane's bitmap axes, so the column is reversed; a quarter turn of an upright area collapses the east coordinate; the cylinder's opening is measured from the turned normal with atan2, which leaves the interval. (PropMirrored.v)

* `C135_half_turn_partial`: (full statement: turning a scene about the vertical does not change its images). Half a turn of a scene with a planar area keeps the fractions and the power in every row, if no ray that carries power ends exactly on the left or right edge; but the image is exchanged left and right: it is drawn as seen from the north, even if the area faces south.
* `C135_quarter_turn_refuted`: After a quarter turn of an upright area that faces north or south, the whole image is in the middle columns, wherever the rays end.
* `C135_cylinder_refuted`: After half a turn of a cylindrical area that opens to the north by less than half a circle, all rays that carried power carry none.

### C136 The shape of the sun spreads all reflected rays equally — partial

scatter_ray and rotate_distortion as modelled for C89. The cosine of the deviation is a polynomial in the direction and the sines and cosines of the angles; terms odd in an angle cancel in the mean over equally likely draws. (PropSunShape.v)

* `C136_north_partial`: (full statement: the shape of the sun spreads all reflected rays equally: the angle between a reflected ray and the scattered ray depends on the drawn angles only, and not on the direction of the reflected ray). For all rays that go exactly north or south the cosine of this angle is the product of the cosines of the drawn angles.
* `C136_mean_partial`: For all other directions the mean of the cosines over the equally likely draws is given by the northern component of the ray.
* `C136_single_refuted`: The angle drawn for the east axis alone moves a ray as far as a ray to the north only if the ray has no eastern component, and the angle drawn for the up axis only if it has no vertical component.
* `C136_unmoved_refuted`: Rays to the east or west are not moved at all by the first, and vertical rays not at all by the second.
* `C136_mean_refuted`: On average over equally likely draws, the sun is the narrower the less a ray goes north or south.

### C137 A study's test data are kept out of its training data — partial

The split and the limits as functions of a shuffled order of indices (any permutation); permutation lemmas about picking by index. (PropDataSelection.v)

* `C137_data_sets_partial`: (full statement: the data mapping of a heliostat is split into a training and a testing set that have no measurement in common; the testing set holds the given fraction of the measurements; every calibration file keeps its image; and each task uses at most as many measurements as its own limit says). Proved: for every order the random generator picks, the sets are built, hold only selected measurements, each with its own image and not more often than it was selected, and the testing set has the fraction, rounded down. Refuted: the training set is the whole selection, so that every measurement of the testing set is trained on; and the limit of the surface task has no effect beyond that of the kinematics task.
* `C137_found_usable_partial`: What the selection finds is usable.
* `C137_leak_refuted`
* `C137_surface_limit_refuted`

### C138 The measurements closest to a date are selected — partial

Metadata rows, existing files and any sorting by distance; the loop with its limit is the list of the first complete rows of the sorted table. (PropDataSelection.v)

* `C138_closest_partial`: (full statement: for every heliostat that is not excluded, and among the named ones if any are named, the selection lists at most the given number of measurements, the ones closest to the given date whose three files exist, closest first; heliostats without such a measurement are left out; and if heliostats are named, only measurements of the given day are used). Proved for limits of at least one, except the last part, which is refuted: the day is never compared, so that a named heliostat is listed with measurements of other days. A limit of zero is refuted too: one measurement is listed.
* `C138_names_partial`
* `C138_day_refuted`
* `C138_zero_refuted`

### C139 The list of viable heliostats for the reconstruction study — partial

The loop over the sorted directories with its counter; equal to a filter cut at the maximum, for a maximum of at least one. (PropDataSelection.v)

* `C139_viable_partial`: (full statement: the list of viable heliostats for the reconstruction study holds the first heliostats by name, at most the given maximum, that are not excluded and have at least the given number of usable calibration files, each with exactly that many files, the first by name). Proved for a maximum of at least one; refuted for a maximum of zero: one heliostat is listed.
* `C139_zero_refuted`

### C140 Studies do not overwrite each other — partial

Directories as tables from names to contents; file names with decimal numbers are parsed by the pattern and related to the digits they are made of. A run is a list of the states after each write; invariants over that list. (PropResults.v)

* `C140_number_partial`: (full statement: a new study takes a number that no study has, and neither it nor another study started at any time changes a file of an earlier one). Proved: the number is the smallest that no results file stands for, whatever the files are called; wherever the study is stopped, every file that was in the results directory is still there with its content; and a study started after another one wrote its first file takes another number. Refuted: data for STRAL of the same number are replaced; and two studies that look for a number before either writes take the same one, and then the second computes nothing and reports its results for what the first reconstructed.
* `C140_kept_partial`
* `C140_next_partial`
* `C140_stral_refuted`
* `C140_concurrent_refuted`

### C141 A stopped study goes on where it stopped — partial

As C140; a stopped run is a prefix of the list of states, a second start is a run from its last state. (PropResults.v)

* `C141_resumed_partial`: (full statement: a study that was stopped and is started again goes on where it stopped: reconstructions that were finished are taken from their files, those that were not are computed, from the study's own data, and the results are those of a study that was not stopped). Refuted: the results file is written before any reconstruction, so that a second start takes another number and computes everything again; and intermediate results that are there for the number are taken whatever data they came from. Proved: if the results file of the stopped study is removed before the second start, the number is the same, exactly the missing reconstructions are computed, and the reconstructions, the aim points and the data for STRAL end up as in a study that was not stopped; the losses of the reconstructions taken from files are missing.
* `C141_restart_refuted`
* `C141_stale_refuted`

### C142 Evaluation data belong to the measurement they stand beside — partial

Model: the loop over the activation mask in ModelEvaluation; the parser and the ray tracer are those of C60 and C125.  Proof: induction over the names of the group shows that a slice holds the rows of its owner; composed with C60 for files and C125 for rows. (PropEvaluation.v)

* `C142_measured_partial`: (full statement: the evaluation data of a heliostat hold, for each of its calibration measurements, the measured image and the image that is traced for that measurement, on whatever number of ranks the script runs). Proved: each heliostat with calibration files gets exactly its own measured images and target areas, in the order of its files, beside the rows that the ray tracer returned for it, and a heliostat without samples gets no entry; on one rank those rows are the traced images of its own samples. Refuted: if a group is evaluated by two or more ranks, every sample of every heliostat is an image on one of the ranks only, and uninitialised memory in the data of all others.
* `C142_without_samples_partial`
* `C142_one_rank_partial`: The row of a sample stands in the entry of its heliostat behind those of the earlier samples of the heliostat.
* `C142_ranks_refuted`

### C143 Predicted fluxes are stored under their own heliostat — partial

Model: generate_flux_images in ModelEvaluation with the calibration parser of C60; tracing one heliostat is an argument.  Proof: the rows come in the order of the group, the names in the order of the list; both directions by comparing the two orders. (PropEvaluation.v)

* `C143_group_order_partial`: (full statement: the flux predictions stored under the name of a heliostat are those of that heliostat, and so is its surface). Proved: if the heliostats are listed in the order of the heliostat group of the scenario, each name gets the image that is traced for its own heliostat and measurement. Refuted: in any other order some name gets the image of another heliostat; the surface that is stored under the j-th name is always that of the j-th heliostat of the group; and a heliostat outside the first group makes the script fail.
* `C143_other_order_refuted`
* `C143_surface_refuted`
* `C143_outside_group_refuted`

### C144 Undoing the canting of a facet restores it — partial

Model: the inverse transform in ModelInverseCanting against perform_canting of C32.  Proof: dot products of the unit vectors of both frames. (PropInverseCanting.v)

* `C144_perpendicular_partial`: (full statement: undoing the canting and translation of a facet gives back the points and normals of the facet as they were before, for all canting vectors that span a facet). Proved: for perpendicular canting vectors; for all others the east and up coordinates, and with them the stored angle of the normals, are right. Refuted: if the canting vectors are not perpendicular, the north coordinate of every point east or west of the middle of the facet is wrong, by its east coordinate times the cosine of the angle between the vectors.
* `C144_all_partial`
* `C144_skew_refuted`

### C145 Exported STRAL files hold the heliostat they are named after — partial

Model: the bytes written in ModelStralWriter, as a file of the format of C93.  Proof: the written bytes are those of SpecStral, so C93 applies; files by induction over the field; power coefficients by summation. (PropStralWriter.v)

* `C145_read_back_partial`: (full statement: the STRAL file that is written for a heliostat holds the facets of that heliostat, so that reading it gives back their translations, cantings, points and normals, and the power coefficients of its points add up to its mirror area). Proved: the first part, and for heliostats of four equal facets the second up to a margin of one centimetre on each side length. Refuted: the second for a heliostat of a single facet: the coefficients always add up to more than four times its area.
* `C145_power_partial`
* `C145_power_refuted`

### C146 The stored run information belongs to the study — partial

Model: the lines of a study and the reader of the log in ModelRuntimes.  Proof: the search finds the decimal that was printed (digits are read back), other lines contain none of the keywords; earlier lines are cut off at the last start. (PropRuntimes.v)

* `C146_run_id_partial`: (full statement: the run information stored with the results of a study holds the number and the number of heliostats of that study and its runtimes). Proved: whatever the log held before, and for all settings that do not contain the words searched for, the number and the number of heliostats of the latest study are read. Refuted: the list of runtimes is empty for every study, because the log is searched for a function that does not exist; and if another study starts in the meantime, its number is read and the number of heliostats is missing.
* `C146_runtimes_refuted`
* `C146_concurrent_refuted`

### C147 Tracking runtimes does not interfere and shows where a run broke off — proved

Model: trees of tracked calls in ModelRuntimes, exceptions as missing results.  Proof: induction over the tree with an arbitrary stack of unfinished functions. (PropRuntimes.v)

* `C147_same_result`: Tracking does not change what a function returns; reading the log from the top shows exactly the functions that were running when an exception ended the run, and none if the run ended normally; and the finish lines are those of the functions that returned, with their durations, in the order in which they returned.
* `C147_failure_shown`
* `C147_durations`

### C148 Reconstruction results are stored under their own heliostat — partial

Model: the loops over groups in ModelPaintResults, with the losses of ModelReconstruction.  Proof: lookups in nested dictionaries by induction over names and groups; composed with C69 for what a loss is. (PropPaintResults.v)

* `C148_first_group_partial`: (full statement: the results of the kinematics reconstruction hold under the name of every heliostat its position and, for both ways of finding focal spots, the loss reported for it). Proved: all positions are those of their heliostats, and the losses of all heliostats of the first group are their own; a loss is the one of C69, a reduction over the training samples of the heliostat. Refuted: every heliostat of another group gets the loss of a different heliostat, for positions that the first group has too the loss of the heliostat at the same position of the first group.
* `C148_other_groups_refuted`

### C149 Surfaces reconstructed in batches are trained exactly once — proved

Model: slices of the data in ModelSurfaceBatches, each trained as in C64 and C131.  Proof: the slices concatenate to the data; a batch leaves unlisted heliostats alone (C131), so by induction only the own batch matters. (PropSurfaceBatches.v)

* `C149_once`: If the surfaces of a field are reconstructed in batches, for all batch sizes, data and training histories: the batches contain the data in its order, none is empty or too large, every heliostat with data is in exactly one of them, it enters that batch with the control points it had at the beginning, it leaves the loop with those it has after that batch, and heliostats without data keep their control points.
* `C149_zero`

### C150 A mirror in the way of a ray blocks it — partial

Model: morton codes, hierarchy, filter and mask of ModelLBVH and ModelBlocking, composed as in the ray tracer.  Proof: C21's exact filter and C72's lower bound give the blocking; the refutation composes the unreachable second side of an unbalanced root (C19, C21) with the mask of the mirrors found. (PropObstruction.v)

* `C150_in_the_way_partial`: (full statement: a ray that crosses the inside of another heliostat's mirror on its way to the target is reported as blocked, however many heliostats the field has and wherever they stand). Proved: this holds for every field whose hierarchy reaches each mirror once, and for every field of at most five heliostats of which no three share a grid cell; the reported value is then at least a bound that depends only on how far inside the crossing is. Refuted: whenever the mirrors of a field split at the root into two sides whose sizes the halving search misses, no mirror of the second side ever blocks, wherever the rays go. [nudged]: the ray with 1e-12 added to its direction, which the filter uses, crosses inside the mirror as well.
* `C150_few_mirrors_partial`
* `C150_overlooked_refuted`: Mirrors on the second side of a root the halving search misses block nothing: the values are those of a field without them.
* `C150_never_blocked_refuted`: So rays that stay clear of the first side are never blocked.

### C151 Scenarios are fitted to the latest deflectometry measurement — proved

Model: file names as strings, the glob pattern and sorting by characters in ModelDeflectometry.  Proof: numbers padded to equal width compare as texts like as numbers, by induction over the digits; the last of a sorted list is its largest. (PropDeflectometry.v)

* `C151_latest`: The file chosen among dated measurements is the latest one.
* `C151_none`: No file is chosen exactly if there is none to choose.
* `C151_field_study`: The fitted scenario of the field study has the heliostats with measurements, in the given order, each with its latest one.
* `C151_flux_study`: The flux prediction study has all heliostats with their latest measurements, or fails because one of them has none.
* `C151_other_files`: The directory must hold nothing else the pattern fits: a file named AA39-filled_old.h5 would be chosen before every measurement.

### C152 Trained surfaces face the front — partial

Model: ModelNurbs, with the epochs of ModelLearning for the coordinates of the control points.  Proof: the slopes of a spline are bounded by the steps between its coefficients times the slope of the spline with coefficients 0, 1, 2, ...; this factor is common to all coordinates and cancels in the height of the normal.  Composed with C45 and the reach of a training (C123). (PropUpright.v)

* `C152_upright_partial`: (full statement: a surface whose control points start as a grid in the plane of the facet faces the front after every training: all its normals point up). Proved: the normals point up whenever neighbouring control points are further apart along their own direction than askew, whatever their heights are; so they do if every control point stays within a quarter of the spacing of its place in the grid; so they do after every number of epochs if the learning rate, which the exponential scheduler lets decay, is small compared to the spacing. Refuted: a learning rate above half the spacing can turn the surface over in the first epoch.
* `C152_near_grid_partial`
* `C152_training_partial`: [history i j k]: the gradients and losses component [k] of control point [i], [j] sees.
* `C152_turned_over_refuted`: Control points in the reverse order turn the surface over, ...
* `C152_first_epoch_refuted`: ... which one epoch can do with every learning rate above half the spacing.

### C153 A control point shapes the surface only around itself — proved

Model: ModelNurbs.  Proof: a basis function and its slope vanish outside its knots and the function is positive between them (induction on the degree); two nets that differ in one control point differ in one term of the textbook sum (C45).  The weights sum to one, which bounds all displacements by the Cauchy-Schwarz inequality. (PropLocal.v)

* `C153_local`: [n_u c - p] is the number of spans that the parameters between 0 and 1 are divided into.
* `C153_share`: The points move along with the control point, by the same share whatever the surface is; strictly inside the neighbourhood the share is positive.
* `C153_never_further`: No point of the surface moves further than the control points.

### C154 A misaligned mirror misses by at most twice its error — proved

Model: reflection and planar intersection of ModelIntersections, orientation matrices of ModelKinematics.  Proof: the Gram determinant of the incident direction and the two normals gives the angle between the reflected rays exactly; a rotation by a small angle moves a direction by at most that angle times its length, and rotations keep lengths, so errors along the chain add up; two hits on a plane differ by a double cross product. (PropMisaligned.v)

* `C154_twice`: A mirror normal off by an angle turns the reflected ray by at most twice the angle, and by exactly twice the angle if the incident ray lies in the plane of the two normals.
* `C154_rays`
* `C154_normals`: Errors of the joint angles and of the four tilt angles add up at worst; the translations do not matter for normals.
* `C154_spot`: On the target the hit moves by at most the distance [t'] times the change of the direction, plus the shift of the origin, both stretched by the slant of the ray.
* `C154_pixels`: ... and in the bitmap by as much, measured in pixels.
* `C154_joints`: All in one for a point [x] of the mirror with the normal [v]: joints off by [d1] and [d2] move the hit of its ray by at most the turn of the ray times its length plus the displacement of the mirror, which the lever arms limit.

### C155 Losses never brighten a pixel — partial

Model: ModelTrace, ModelSplatting and ModelBlocking.  Proof: each pixel is written as a sum of ray intensities with non-negative weights that depend only on the hit positions; intensities fall with each loss, so the sums compare term by term. The rows of a batch are cut out of the blocked values as in C87. The refutation traces a sample through the fields of C150. For appended mirrors: with a hierarchy that reaches each mirror once exactly the met mirrors are found (C19), so the mirrors found in the smaller field are among those found in the larger one, and the soft mask grows with the mirrors applied. (PropDimmed.v)

* `C155_dimmed_partial`: (full statement: losses only ever dim: with blocking, with further mirrors in the field, with more atmospheric extinction or with less reflectivity no pixel of any flux image gets brighter and no ray gets lost or found on the target). Proved: this holds pixel by pixel for blocking switched on instead of off, for more extinction and for less reflectivity, in any combination, for every batch of samples and every field; and for further mirrors if the hierarchy of the larger field reaches each mirror once. Refuted: with further mirrors, in general, an image can get more than three times as bright.
* `C155_further_mirrors_refuted`: A ray that one mirror blocks arrives undiminished after four mirrors have been added, although one of these is in its way as well.
* `C155_further_mirrors_partial`: Mirrors appended to a field only dim its images if the hierarchy of the larger field reaches each mirror once, which C19 gives for at most five mirrors of which no three share a grid cell, for example.

### C156 Focal spots move no further than their rays — proved

Model: ModelSplatting, ModelBitmap, ModelIntersections, ModelCoordinates and ModelKinematics.  Proof: splatting keeps first moments, so the centre of mass is a weighted mean of hit positions (C77). The difference of two weighted means is split into moved positions and changed weights, the latter taken relative to the second mean. The bounds of C154 on hits and directions are put into this. (PropSteady.v)

* `C156_pixels`: If rays inside the image move by at most [de] and [du] pixels, the centre of mass of the image moves by at most as much, plus the share of the power that has changed times the size of the image.
* `C156_rays`: On a target area, in metres: if the hits move by at most [delta] and the directions by at most [eta], the focal spot moves by at most [delta], plus [eta] times the size of the area over the mean cosine of the angle of incidence.
* `C156_joints`: For a whole mirror, whose rays travel at most [far] and arrive with a cosine of at least [slant]: joints off by [d1] and [d2] move its focal spot by at most [moved], from the displacement of the mirror, plus twice the joint errors times the distance and the size of the area, over [slant].

## Axioms per theorem (output of `Print Assumptions`)

All are axioms of the standard library: F = `Coq.Reals.ClassicalDedekindReals.sig_forall_dec`, N = `Coq.Reals.ClassicalDedekindReals.sig_not_dec`, E = `Coq.Logic.FunctionalExtensionality.functional_extensionality_dep`, C = `Coq.Logic.Classical_Prop.classic`. "none" means "Closed under the global context". (The checker also lists the opaque constants of `RbaseSymbolsImpl`, `RinvImpl` and ssreflect's `Under_rel`: these are opaque module fields of the standard library, with bodies in the kernel, not axioms our theorems add.)

* **F**: `C30_translation_batch`, `C54_directions`, `C54_points`, `C59_scenario_file`, `C60_without_unique_names`, `C63_target_dimensions`, `C64_locked_gradients`, `C84_nested_refuted`, `C132_nothing_missing`

* **FE**: `C09_fraction_admissible`, `C10_early_stopping`, `C11_aim_point_loop`, `C11_early_stop_exact`, `C11_reconstruction_history_refuted`, `C11_reconstruction_loop_partial`, `C12_splatting_conserves_power`, `C13_single_ray_placement`, `C13_splatting_pixel_values`, `C14_area_power_partial`, `C14_border_rays_refuted`, `C15_bitmaps_per_target`, `C17_morton_codes`, `C19_hierarchy_complete_refuted`, `C20_depth_partial`, `C20_termination_refuted`, `C21_boxes_tight`, `C21_filter_complete_refuted`, `C21_filter_exact_partial`, `C21_five_mirrors`, `C21_unbalanced_root_refuted`, `C22_box_test_exact`, `C22_box_test_monotone`, `C26_hit_position`, `C26_miss`, `C26_single_column_accepts_all`, `C27_front_hits_forward_partial`, `C27_no_hit_behind_refuted`, `C29_law_of_reflection`, `C30_translation`, `C42_knot_vector`, `C43_agree_partial`, `C43_end_refuted`, `C43_general_end_partial`, `C43_general_partial`, `C43_span_partial`, `C44_cox_de_boor`, `C44_derivative`, `C44_support`, `C45_weights`, `C48_pixel_loss`, `C48_vector_loss`, `C49_scale_refuted`, `C51_ideal_surface`, `C51_relative`, `C51_shift`, `C51_smoothness`, `C52_center_of_mass`, `C53_padding`, `C53_plateau_width`, `C53_plateau_width_odd`, `C53_trapezoid`, `C55_normalized_points`, `C57_half_pixel_partial`, `C57_shrunk_refuted`, `C57_slanted_refuted`, `C63_aim_points`, `C63_flux_density`, `C63_surfaces`, `C65_ray_fractions`, `C68_epochs_of_a_rank_partial`, `C68_first_rank_leaves_refuted`, `C68_ranks_leave_together_partial`, `C68_ranks_leave_together_refuted`, `C69_nested_refuted`, `C69_reported_losses_partial`, `C70_ray_power`, `C76_crop_bounds`, `C76_crop_identity`, `C76_crop_points`, `C77_center_of_splatted_rays`, `C77_focal_spot`, `C84_total_flux_partial`, `C85_distributed_refuted`, `C85_factors_partial`, `C96_planar_partial`, `C96_turned_refuted`, `C101_results_of_stored_motors`, `C102_losses_of_stored_parameters_refuted`, `C102_one_step_behind_partial`, `C103_last_epoch_refuted`, `C103_test_losses_partial`, `C104_kullback_leibler_partial`, `C104_other_losses_refuted`, `C105_mixed_partial`, `C105_nested_partial`, `C105_one_group_partial`, `C105_one_rank_partial`, `C105_own_gradients_refuted`, `C105_sizes_refuted`, `C105_uneven_refuted`, `C116_cyclic_partial`, `C116_exponential_partial`, `C116_fits_partial`, `C116_initial_refuted`, `C116_plateau_partial`, `C116_reduced_partial`, `C116_reductions_partial`, `C117_plateau_refuted`, `C117_same_parameters_partial`, `C126_grows_partial`, `C126_intercepts_refuted`, `C126_surfaces`, `C126_weights_partial`, `C129_first_partial`, `C129_independent_refuted`, `C129_unscheduled_partial`, `C137_data_sets_partial`, `C137_leak_refuted`, `C137_surface_limit_refuted`, `C148_first_group_partial`, `C148_other_groups_refuted`, `C156_pixels`

* **FNE**: `C07_default_index_refuted`, `C07_foreign_entries_refuted`, `C07_index_mapping_rejects_partial`, `C23_degenerate_not_a_number`, `C24_unmet_primitives_partial`, `C26_bounds`, `C28_front_side`, `C30_additive`, `C30_axes`, `C30_distortion`, `C30_rigid`, `C31_directions_partial`, `C31_north_refuted`, `C32_canting`, `C39_bisector`, `C43_evaluation_end_refuted`, `C45_affine`, `C45_corner`, `C45_flat`, `C45_half_spaces`, `C45_textbook`, `C46_normals`, `C47_all_facets`, `C47_homogeneous`, `C47_placed_when_flat`, `C47_rigid`, `C48_cosine_loss`, `C56_batches`, `C56_direction`, `C56_unit`, `C56_whole_turns`, `C60_incident_direction`, `C62_motor_limits`, `C62_motor_limits_of_group`, `C62_overshoot_below_one_step`, `C62_start`, `C64_border_keeps_planar_position`, `C70_collected_power`, `C70_counted`, `C70_four_facets_partial`, `C70_mixed_sizes_refuted`, `C70_single_facet_refuted`, `C73_corner_selection`, `C73_rectangle`, `C78_antimeridian_refuted`, `C78_local_offsets`, `C89_number_of_rays`, `C90_ideal_defined`, `C91_fitted_placed_partial`, `C91_flat_refuted`, `C92_maximum_refuted`, `C92_steps_partial`, `C94_diagonal`, `C94_keywords`, `C94_losses_partial`, `C94_metric`, `C94_resolution_refuted`, `C94_zero`, `C95_cylinders_partial`, `C95_leaning_refuted`, `C95_wide_refuted`, `C97_order_refuted`, `C97_tower_partial`, `C97_types_refuted`, `C99_measured_partial`, `C99_mirror_refuted`, `C100_fitted_refuted`, `C100_grid_refuted`, `C100_unchanged_partial`, `C120_alignment_refuted`, `C120_finite_partial`, `C120_flux_refuted`, `C122_irradiance`, `C123_epoch`, `C123_exponential`, `C123_first`, `C123_momentum`, `C127_measurements`, `C128_first_epoch`, `C128_means`, `C128_order`, `C128_same_work`, `C129_generated_partial`, `C130_number_refuted`, `C130_own_measurements_partial`, `C130_stopping_refuted`, `C131_kinematics`, `C131_surfaces`, `C136_mean_partial`, `C136_mean_refuted`, `C136_north_partial`, `C136_single_refuted`, `C136_unmoved_refuted`, `C144_perpendicular_partial`, `C145_power_partial`, `C145_power_refuted`, `C145_read_back_partial`, `C149_once`, `C150_never_blocked_refuted`, `C150_overlooked_refuted`, `C152_first_epoch_refuted`, `C152_near_grid_partial`, `C152_training_partial`, `C152_turned_over_refuted`, `C152_upright_partial`, `C153_local`, `C153_never_further`, `C153_share`, `C154_pixels`, `C154_rays`, `C154_spot`, `C156_rays`

* **FNEC**: `C23_monotone`, `C23_soft_blocking_fraction`, `C24_blocking_before_target_refuted`, `C25_only_own_mirror_partial`, `C25_own_mirror_applied_refuted`, `C25_own_mirror_excluded_refuted`, `C25_own_mirror_negligible_partial`, `C28_any_opening_partial`, `C28_hit_geometry_partial`, `C28_north_opening_partial`, `C28_opening_angle_refuted`, `C28_wide_opening_refuted`, `C33_directions_only`, `C33_rotation_between`, `C33_rotation_vector`, `C34_angle_roundtrip`, `C34_angle_roundtrip_any_start`, `C34_motor_roundtrip`, `C35_defined`, `C35_monotone`, `C35_physical`, `C35_start`, `C35_strictly_monotone`, `C35_stroke_limits`, `C35_values_kept`, `C36_alignment_rigid`, `C36_chain`, `C36_mirror_normal`, `C36_orientation_rigid`, `C36_surfaces_moved`, `C37_inverse_reaches`, `C37_reachable`, `C38_all_solutions`, `C38_reported`, `C38_selection`, `C39_aligned_reflects`, `C39_translations`, `C40_defined`, `C40_no_translations_partial`, `C40_rounds`, `C40_single_iteration_refuted`, `C40_stored_motors_partial`, `C40_stored_motors_refuted`, `C41_align_twice_compounds`, `C41_align_twice_refuted`, `C41_other_mask`, `C41_reactivated_partial`, `C48_angle_loss`, `C48_kl_empty_truth_refuted`, `C48_kl_loss_partial`, `C48_kl_scale`, `C57_cylinder_partial`, `C66_blocking_refuted`, `C66_same_mirrors_partial`, `C66_shared_refuted`, `C66_unblocked_rows_partial`, `C67_own_actuators_refuted`, `C67_prototypes_and_groups_partial`, `C72_blocked_if_inside`, `C72_free_if_behind`, `C72_free_if_outside`, `C74_initial_orientation_refuted`, `C74_motors_refuted`, `C75_batch_partial`, `C75_batch_refuted`, `C75_rounds_partial`, `C79_every_file_loads_refuted`, `C79_facet_order_refuted`, `C79_facets_out_of_order_refuted`, `C79_round_trip_partial`, `C80_number_of_groups`, `C81_degrees_partial`, `C81_mixed_degrees_refuted`, `C81_own_degrees_refuted`, `C87_all_targets`, `C87_sample_power`, `C87_tracing_succeeds`, `C88_flat_mirror_focal_spot`, `C89_scattered_rays`, `C90_ideal_facets`, `C91_points_partial`, `C109_new_tracer_partial`, `C109_points_refuted`, `C109_rays_refuted`, `C109_set_rays_refuted`, `C109_single_ray_refuted`, `C109_unchanged_partial`, `C111_ideal_partial`, `C111_stored_refuted`, `C112_corners`, `C112_fraction`, `C112_points`, `C112_samples`, `C113_grid`, `C113_margin`, `C113_spans`, `C114_intensities`, `C114_weights`, `C119_all_loaded_partial`, `C119_count_refuted`, `C119_lost_refuted`, `C121_aligned`, `C121_traced`, `C122_flux`, `C124_delivered`, `C124_whole_call`, `C125_no_result`, `C125_rows`, `C127_start`, `C132_heliostats_missing_refuted`, `C132_no_heliostat_partial`, `C132_parts_missing_refuted`, `C133_mirrors_partial`, `C133_mirrors_refuted`, `C133_samples`, `C134_blocked_partial`, `C134_edge_refuted`, `C134_mirrored_partial`, `C135_cylinder_refuted`, `C135_half_turn_partial`, `C135_quarter_turn_refuted`, `C142_one_rank_partial`, `C142_ranks_refuted`, `C144_all_partial`, `C144_skew_refuted`, `C150_few_mirrors_partial`, `C150_in_the_way_partial`, `C154_joints`, `C154_normals`, `C154_twice`, `C155_dimmed_partial`, `C155_further_mirrors_partial`, `C155_further_mirrors_refuted`, `C156_joints`

* **none**: `C01_sampler_exact_partition`, `C01_tracer_exact_partition`, `C02_heliostat_locality_and_balance`, `C03_uneven_masks_partial`, `C03_uneven_masks_refuted`, `C04_groups_distribution`, `C05_nested_ranks_complete`, `C05_nested_run_traces_everything_once`, `C05_nested_subgroups_consistent`, `C06_index_mapping_faithful`, `C08_activation_alignment_partial`, `C08_activation_alignment_refuted`, `C08_activation_succeeds`, `C08_empty_activation_refuted`, `C09_split_partition`, `C16_expand_bits`, `C18_longest_common_prefix`, `C18_unique`, `C19_five_mirrors_partial`, `C19_hierarchy_complete_partial`, `C19_power_of_two_clusters_partial`, `C19_unbalanced_root_refuted`, `C20_construction_terminates`, `C25_first_group_partial`, `C25_own_mirror_skipped_refuted`, `C34_ideal`, `C43_shape_refuted`, `C50_nothing_dropped`, `C50_samples_per_heliostat`, `C58_centers_of_target_areas`, `C58_target_names_and_indices`, `C59_nested_configuration`, `C60_paired`, `C61_limit_partial`, `C61_zero_refuted`, `C66_batched_tracing_partial`, `C69_alignment_partial`, `C71_blocking_surfaces`, `C71_repeated_heliostat_refuted`, `C82_first_files_partial`, `C82_mapping_partial`, `C82_zero_refuted`, `C83_identifiers_refuted`, `C83_mixed_partial`, `C83_only_one_kind_refuted`, `C83_read_identifiers_refuted`, `C83_read_one_kind`, `C83_read_one_kind_refuted`, `C83_read_partial`, `C83_read_surfaces`, `C86_alignment_refuted`, `C86_same_parameters_partial`, `C93_round_trip`, `C93_truncated_partial`, `C93_truncated_refuted`, `C98_deflectometry_file_partial`, `C98_deflectometry_partial`, `C98_deflectometry_refuted`, `C98_facets`, `C106_one_rank_partial`, `C106_stale_mirrors_refuted`, `C106_unchanged_partial`, `C107_reproducible`, `C107_shape`, `C108_same_seed_partial`, `C108_seeds_refuted`, `C110_own_originals`, `C115_kinematics_partial`, `C115_shared_refuted`, `C115_silent_refuted`, `C115_surfaces_partial`, `C118_devices_partial`, `C118_devices_refuted`, `C118_isolated_refuted`, `C118_work_partial`, `C137_found_usable_partial`, `C138_closest_partial`, `C138_day_refuted`, `C138_names_partial`, `C138_zero_refuted`, `C139_viable_partial`, `C139_zero_refuted`, `C140_concurrent_refuted`, `C140_kept_partial`, `C140_next_partial`, `C140_number_partial`, `C140_stral_refuted`, `C141_restart_refuted`, `C141_resumed_partial`, `C141_stale_refuted`, `C142_measured_partial`, `C142_without_samples_partial`, `C143_group_order_partial`, `C143_other_order_refuted`, `C143_outside_group_refuted`, `C143_surface_refuted`, `C146_concurrent_refuted`, `C146_run_id_partial`, `C146_runtimes_refuted`, `C147_durations`, `C147_failure_shown`, `C147_same_result`, `C149_zero`, `C151_field_study`, `C151_flux_study`, `C151_latest`, `C151_none`, `C151_other_files`

## Which code is modelled

Generated from the citations in `Model*.v`: per file, the functions cited by a definition of the model and the model files citing them. Simplifications are stated in the comments of the definitions.

* `artist/field/actuators.py`
  * `Actuators.__init__` — ModelField
  * `Actuators.motor_positions_to_angles`, `Actuators.angles_to_motor_positions` — ModelActuators
  * not modelled: `Actuators.forward`
* `artist/field/actuators_ideal.py`
  * `IdealActuators.motor_positions_to_angles`, `IdealActuators.angles_to_motor_positions` — ModelActuators
  * not modelled: `IdealActuators.__init__`
* `artist/field/actuators_linear.py`
  * `LinearActuators._physics_informed_parameters`, `LinearActuators._motor_positions_to_absolute_angles`, `LinearActuators.motor_positions_to_angles`, `LinearActuators.angles_to_motor_positions` — ModelActuators
  * not modelled: `LinearActuators.__init__`
* `artist/field/heliostat_field.py`
  * `HeliostatField.from_hdf5` — ModelScenario, ModelSurfaceUpdate
  * `HeliostatField.update_surfaces` — ModelFloats, ModelSurfaceUpdate
  * not modelled: `HeliostatField.__init__`
* `artist/field/heliostat_group.py`
  * `HeliostatGroup.__init__` — ModelField
  * `HeliostatGroup.align_surfaces_with_incident_ray_directions`, `HeliostatGroup.align_surfaces_with_motor_positions` — ModelKinematics
  * `HeliostatGroup.activate_heliostats` — ModelField, ModelKinematics, ModelReconstruction, ModelRegularization
* `artist/field/heliostat_group_rigid_body.py`
  * `HeliostatGroupRigidBody.align_surfaces_with_incident_ray_directions`, `HeliostatGroupRigidBody.align_surfaces_with_motor_positions` — ModelKinematics
  * not modelled: `HeliostatGroupRigidBody.__init__`
* `artist/field/kinematics.py`
  * `Kinematics.incident_ray_directions_to_orientations`, `Kinematics.motor_positions_to_orientations` — ModelKinematics
  * not modelled: `Kinematics.__init__`, `Kinematics.forward`
* `artist/field/kinematics_rigid_body.py`
  * `RigidBody.__init__` — ModelField, ModelKinematics
  * `RigidBody._compute_orientations_from_motor_positions`, `RigidBody._compute_motor_positions_from_normal`, `RigidBody.motor_positions_to_orientations`, `RigidBody.incident_ray_directions_to_orientations` — ModelKinematics
* `artist/field/solar_tower.py`
  * `SolarTower.__init__`, `SolarTower.get_centers_of_target_areas` — ModelField
  * `SolarTower.from_hdf5` — ModelScenario, ModelSurfaceUpdate
* `artist/field/surface.py`
  * `Surface.get_surface_points_and_normals` — ModelNurbs
  * not modelled: `Surface.__init__`
* `artist/field/tower_target_areas.py`
  * `TowerTargetAreas.from_hdf5` — ModelScenario, ModelSurfaceUpdate
  * not modelled: `TowerTargetAreas.__init__`
* `artist/field/tower_target_areas_cylindrical.py`
  * `TowerTargetAreasCylindrical.from_hdf5` — ModelScenario, ModelSurfaceUpdate
  * not modelled: `TowerTargetAreasCylindrical.__init__`
* `artist/field/tower_target_areas_planar.py`
  * `TowerTargetAreasPlanar.from_hdf5` — ModelScenario, ModelSurfaceUpdate
  * not modelled: `TowerTargetAreasPlanar.__init__`
* `artist/flux/bitmap.py`
  * `get_center_of_mass`, `trapezoid_distribution`, `crop_flux_distributions_around_center` — ModelBitmap
* `artist/geometry/coordinates.py`
  * `convert_3d_points_to_4d_format`, `convert_3d_directions_to_4d_format`, `normalize_points`, `azimuth_elevation_to_enu`, `convert_wgs84_coordinates_to_local_enu` — ModelCoordinates
  * `bitmap_coordinates_to_target_coordinates` — ModelCoordinates, ModelFocalSpots
* `artist/geometry/rotations.py`
  * `decompose_rotations`, `rotation_angle_and_axis` — ModelTransforms
* `artist/geometry/transforms.py`
  * `rotate_distortions`, `rotate_e`, `rotate_n`, `rotate_u`, `translate_enu`, `perform_canting` — ModelTransforms
* `artist/io/calibration_parser.py`
  * `CalibrationDataParser.parse_data_for_reconstruction`, `CalibrationDataParser.load_flux_from_png` — ModelCalibration
  * not modelled: `CalibrationDataParser.__init__`
* `artist/io/h5_scenario_parser.py`
  * `surface_config`, `kinematics_deviations`, `rigid_body_deviations`, `actuator_parameters`, `linear_actuators`, `ideal_actuators` — ModelScenario
* `artist/io/paint_calibration_parser.py`
  * `PaintCalibrationDataParser.parse_data_for_reconstruction`, `PaintCalibrationDataParser._parse_calibration_data` — ModelCalibration
  * not modelled: `PaintCalibrationDataParser.__init__`
* `artist/io/paint_scenario_parser.py`
  * `extract_paint_tower_measurements`, `extract_paint_heliostat_properties`, `extract_paint_deflectometry_data`, `_ideal_surface_generator`, `extract_paint_heliostats_ideal_surface`, `extract_paint_heliostats_fitted_surface`, `corner_points_to_plane` — ModelPaint
  * `_fitted_surface_generator` — ModelFitting, ModelPaint
  * `_process_heliostats_from_paths`, `extract_paint_heliostats_mixed_surface` — ModelCalibration, ModelPaint
  * `build_heliostat_data_mapping` — ModelCalibration
* `artist/io/stral_scenario_parser.py`
  * `extract_stral_deflectometry_data` — ModelStral
* `artist/nurbs/surfaces.py`
  * `NURBSSurfaces.calculate_uniform_knot_vectors`, `NURBSSurfaces.basis_functions_and_derivatives`, `NURBSSurfaces._batched_gather_control_points`, `NURBSSurfaces.calculate_surface_points_and_normals` — ModelNurbs
  * `NURBSSurfaces.find_spans` — ModelFloats, ModelNurbs
  * not modelled: `NURBSSurfaces.__init__`, `NURBSSurfaces.forward`
* `artist/nurbs/utils.py`
  * `create_nurbs_evaluation_grid` — ModelFloats, ModelNurbs
  * `create_planar_nurbs_control_points` — ModelNurbs, ModelSurfaceGenerator
* `artist/optim/aim_point_optimizer.py`
  * `AimPointOptimizer._initialize_group_parameters` — ModelCollectives, ModelOptimization
  * `AimPointOptimizer._setup_optimizer_scheduler_early_stopping` — ModelSchedulers
  * `AimPointOptimizer._get_target_plane_dimensions`, `AimPointOptimizer._align_all_groups`, `AimPointOptimizer._compute_kl_constraints` — ModelOptimization
  * `AimPointOptimizer._trace_and_accumulate_flux` — ModelOptimization, ModelSun
  * `AimPointOptimizer._synchronize_distributed_gradients`, `AimPointOptimizer._broadcast_motor_positions` — ModelCollectives
  * `AimPointOptimizer.optimize` — ModelEpochs, ModelFitting, ModelLearning, ModelOptimization
  * not modelled: `AimPointOptimizer.__init__`
* `artist/optim/kinematics_reconstructor.py`
  * `KinematicsReconstructor._validate` — ModelValidation
  * `KinematicsReconstructor._initialize_reconstruction_bookkeeping`, `KinematicsReconstructor._synchronize_reconstruction_across_ranks` — ModelReconstruction
  * `KinematicsReconstructor._setup_optimizer_scheduler_early_stopping` — ModelSchedulers
  * `KinematicsReconstructor._compute_measured_normals` — ModelFocalSpots
  * `KinematicsReconstructor._compute_alignment_loss` — ModelGradients, ModelHeliostatTraining, ModelReconstruction
  * `KinematicsReconstructor._compute_raytracing_loss` — ModelGradients, ModelReconstruction, ModelSun
  * `KinematicsReconstructor._synchronize_gradients_nested_ddp` — ModelSchedulers, ModelTraining
  * `KinematicsReconstructor._reconstruct_kinematics_alignment_driven` — ModelEpochs, ModelGradients, ModelLearning, ModelReconstruction
  * `KinematicsReconstructor._reconstruct_kinematics_flux_driven` — ModelGradients, ModelReconstruction, ModelSchedulers, ModelTraining
  * not modelled: `KinematicsReconstructor.__init__`, `KinematicsReconstructor.reconstruct_kinematics`, `KinematicsReconstructor._parse_group_calibration_data`
* `artist/optim/loss.py`
  * `Loss.__call__`, `VectorLoss.__call__`, `FocalSpotLoss.__call__`, `PixelLoss.__call__`, `KLDivergenceLoss.__call__`, `AngleLoss.__call__`, `CosineSimilarityLoss.__call__` — ModelFocalSpots, ModelLosses
  * `reduce_loss_per_sample` — ModelLosses
  * not modelled: `Loss.__init__`, `VectorLoss.__init__`, `FocalSpotLoss.__init__`, `PixelLoss.__init__`, `KLDivergenceLoss.__init__`, `AngleLoss.__init__`, `CosineSimilarityLoss.__init__`
* `artist/optim/regularizers.py`
  * `Regularizer.__call__`, `SmoothnessRegularizer.__call__`, `IdealSurfaceRegularizer.__call__` — ModelFocalSpots, ModelLosses
  * `SmoothnessRegularizer.__init__`, `IdealSurfaceRegularizer.__init__` — ModelLosses
  * not modelled: `Regularizer.__init__`
* `artist/optim/surface_reconstructor.py`
  * `SurfaceReconstructor._validate` — ModelSun, ModelValidation
  * `SurfaceReconstructor._initialize_reconstruction_bookkeeping`, `SurfaceReconstructor._synchronize_reconstruction_across_ranks` — ModelReconstruction
  * `SurfaceReconstructor._create_evaluation_grid_and_reference_points` — ModelRegularization, ModelSurfaceBatches
  * `SurfaceReconstructor._setup_optimizer_scheduler_early_stopping` — ModelSchedulers, ModelSurfaceBatches
  * `SurfaceReconstructor._predict_flux` — ModelReconstruction, ModelSurfaceBatches
  * `SurfaceReconstructor._compute_flux_integral_constraint`, `SurfaceReconstructor.lock_control_points_on_outer_edges` — ModelOptimization
  * `SurfaceReconstructor._compute_regularization_terms` — ModelOptimization, ModelSurfaceBatches
  * `SurfaceReconstructor._synchronize_and_lock_gradients` — ModelOptimization, ModelSchedulers, ModelTraining
  * `SurfaceReconstructor.reconstruct_surfaces` — ModelDistributed, ModelEnvironment, ModelEpochs, ModelLearning
  * not modelled: `SurfaceReconstructor.__init__`, `SurfaceReconstructor._parse_group_calibration_data`
* `artist/optim/training.py`
  * `exponential`, `reduce_on_plateau` — ModelSchedulers
  * `cyclic` — ModelLearning, ModelSchedulers
  * `EarlyStopping.__init__` — ModelTraining
  * `EarlyStopping.step` — ModelFitting, ModelLearning, ModelSchedulers, ModelSurfaceGenerator
  * `train_test_split` — ModelField, ModelFloats, ModelValidation
* `artist/raytracing/blocking.py`
  * `create_blocking_primitives_rectangle`, `soft_ray_blocking_mask` — ModelBlocking
  * `create_blocking_primitives_rectangles_by_index` — ModelBlocking, ModelFloats
  * `expand_bits`, `morton_codes`, `longest_common_prefix`, `build_linear_bounding_volume_hierarchies`, `ray_aabb_intersect`, `compute_lbvh_max_depth`, `lbvh_filter_blocking_planes` — ModelLBVH
* `artist/raytracing/geometry.py`
  * `reflect`, `line_plane_intersections`, `line_cylinder_intersections` — ModelIntersections
* `artist/raytracing/heliostat_ray_tracer.py`
  * `HeliostatRayTracer.__init__` — ModelBlocking, ModelCollectives, ModelDistributed, ModelSplatting
  * `HeliostatRayTracer.trace_rays` — ModelBlocking, ModelOptimization, ModelRayTracer, ModelSplatting
  * `HeliostatRayTracer.scatter_rays` — ModelTrace
  * `HeliostatRayTracer.get_bitmaps_per_target` — ModelSplatting
  * `HeliostatRayTracer.bilinear_splatting` — ModelFloats, ModelSplatting
  * not modelled: `HeliostatRayTracer.get_sampler_indices`
* `artist/raytracing/sampling.py`
  * `DistortionsDataset.__init__`, `DistortionsDataset.__len__`, `DistortionsDataset.__getitem__` — ModelSun
  * `RestrictedDistributedSampler.__init__`, `RestrictedDistributedSampler.__iter__` — ModelDistributed
* `artist/scenario/h5_scenario_generator.py`
  * `H5ScenarioGenerator.__init__`, `H5ScenarioGenerator._get_number_of_heliostat_groups`, `H5ScenarioGenerator._check_equal_facet_numbers` — ModelScenario
  * `H5ScenarioGenerator._flatten_dict`, `H5ScenarioGenerator._flatten_dict_gen` — ModelHdf5
  * `H5ScenarioGenerator._include_parameters` — ModelHdf5, ModelInterrupted
  * `H5ScenarioGenerator.generate_scenario` — ModelInterrupted, ModelScenario
* `artist/scenario/scenario.py`
  * `Scenario.get_number_of_heliostat_groups_from_hdf5`, `Scenario.load_scenario_from_hdf5` — ModelScenario
  * `Scenario.index_mapping` — ModelDirections, ModelField
  * `Scenario.set_number_of_rays` — ModelSun
  * not modelled: `Scenario.__init__`, `Scenario.__repr__`
* `artist/scenario/surface_generator.py`
  * `SurfaceGenerator.fit_nurbs`, `SurfaceGenerator.generate_fitted_surface_config` — ModelFitting, ModelSurfaceGenerator
  * `SurfaceGenerator.generate_ideal_surface_config` — ModelSurfaceGenerator
  * not modelled: `SurfaceGenerator.__init__`
* `artist/scene/light_source.py`
  * `LightSource.from_hdf5` — ModelScenario, ModelSurfaceUpdate
  * `LightSource.get_distortions` — ModelSun
  * not modelled: `LightSource.__init__`
* `artist/scene/light_source_array.py`
  * `LightSourceArray.from_hdf5` — ModelScenario, ModelSurfaceUpdate
  * not modelled: `LightSourceArray.__init__`
* `artist/scene/rays.py`
  * not modelled: `Rays.__init__`
* `artist/scene/sun.py`
  * `Sun.__init__`, `Sun.get_distortions` — ModelSun
  * `Sun.from_hdf5` — ModelScenario, ModelSurfaceUpdate
* `artist/util/__init__.py`
  * `track_runtime` — ModelRuntimes
  * not modelled: `set_logger_config`, `set_runtime_logger`
* `artist/util/config.py`
  * `TargetAreaPlanarConfig.__init__`, `TargetAreaPlanarConfig.create_target_area_dict`, `TargetAreaCylindricalConfig.__init__`, `TargetAreaCylindricalConfig.create_target_area_dict`, `LightSourceConfig.__init__`, `LightSourceConfig.create_light_source_dict`, `FacetConfig.__init__`, `FacetConfig.create_facet_dict`, `KinematicsDeviations.__init__`, `KinematicsDeviations.create_kinematics_deviations_dict`, `KinematicsConfig.__init__`, `KinematicsConfig.create_kinematics_dict`, `ActuatorParameters.__init__`, `ActuatorParameters.create_actuator_parameters_dict`, `ActuatorConfig.__init__`, `ActuatorConfig.create_actuator_dict`, `PrototypeConfig.__init__` — ModelScenario
  * `PrototypeConfig.create_prototype_dict`, `HeliostatConfig.__init__`, `HeliostatConfig.create_heliostat_config_dict` — ModelPaint, ModelScenario
  * not modelled: `PowerPlantConfig.__init__`, `PowerPlantConfig.create_power_plant_dict`, `TargetAreaPlanarListConfig.__init__`, `TargetAreaPlanarListConfig.create_target_area_list_dict`, `TargetAreaCylindricalListConfig.__init__`, `TargetAreaCylindricalListConfig.create_target_area_list_dict`, `LightSourceListConfig.__init__`, `LightSourceListConfig.create_light_source_list_dict`, `SurfaceConfig.__init__`, `SurfaceConfig.create_surface_dict`, `SurfacePrototypeConfig.__init__`, `KinematicsPrototypeConfig.__init__`, `ActuatorListConfig.__init__`, `ActuatorListConfig.create_actuator_list_dict`, `ActuatorPrototypeConfig.__init__`, `HeliostatListConfig.__init__`, `HeliostatListConfig.create_heliostat_list_dict`
* `artist/util/env.py`
  * `initialize_ddp_environment`, `get_device` — ModelEnvironment
  * `create_subgroups_for_nested_ddp` — ModelDistributed
  * `setup_distributed_environment`, `distribute_groups_among_ranks` — ModelDistributed, ModelEnvironment

## Not modelled, and why

* Logging and runtime tracking; the rendezvous of processes (`init_process_group` is an argument of ModelEnvironment).
* Constructors that only store their arguments (`__init__` of configuration, loss and field classes), `__repr__`, `forward`
  methods that delegate or raise `NotImplementedError`.
* Where gradients come from: automatic differentiation is not modelled. The training loops take the gradients or the step of the
  optimizer as an argument; what follows from the documented step of Adam and of the schedulers is in ModelLearning, ModelGradients
  and ModelSchedulers (C116, C117, C120, C123).
* Plotting, tutorials and `tests`; of `examples`, only the selection of calibration data (ModelDataSelection, C137–C139) and the files of
  the field optimization study (ModelResults, C140, C141), the collection of evaluation data and flux predictions (ModelEvaluation, C142, C143), undoing the
  canting of facets (ModelInverseCanting, C144), the export to STRAL (ModelStralWriter, C145), the runtime log (ModelRuntimes, C146), the stored results of the kinematics reconstruction (ModelPaintResults, C148), the loop over batches of surfaces (ModelSurfaceBatches, C149) and the choice of deflectometry files (ModelDeflectometry, C151) are modelled, the rest calls the library or plots.
* Rounding, except in C112–C114. All other theorems about numeric code hold of exact real arithmetic.

## Further observations (read in the code, no theorem)

* `max_num_iterations = 0` in `align_surfaces_with_incident_ray_directions` ends in an `UnboundLocalError` (C40_defined says it fails).
* A mask of the wrong length raises `AssertionError` where the documentation promises `ValueError`.
* Degree 0 gives a knot vector of ones only.
* `train_test_split` on a single sample with a positive test fraction can leave no training sample.
* `log_step = 0` with `max_epoch = 0` divides by zero; `window_size = 0` in early stopping raises `IndexError`.
* `Sun.get_distortions` resets the global random generator.
* `LightSourceArray.from_hdf5` catches every `KeyError`, hiding those of the light source itself.

## Testing against wrong programs

`seeded/LOG.jsonl` records each edit of a model definition in a scratch copy (a realistic bug), the claim it breaks, the
theorems and lemmas that no longer proved, and the theorems tightened afterwards. An edit whose claim's theorem still proved
was a reason to tighten, e.g. C72_free_if_behind was added because losing the sign of a safe denominator broke no theorem.

How to read the log: a theorem counts as failed when it depends on a proof that no longer checks after the edit (lemmas that broke
were admitted in the scratch copy so that the build could go on, and `Print Assumptions` told which theorems rest on them). That
shows that the proof script does not survive the edit; it does not by itself show that the statement became false, since a script
can also break for incidental reasons. The other direction is the reliable one: an edit after which everything still checks
is one the theorems do not notice. `outcome` tells these apart from edits that broke only worked examples and refutations, which
say nothing about all inputs. Edits that first survived are kept as their own lines, before the run with the tightened theorem. In
some lines the property number in `claim_broken` was a guess made before the run; `theorems_failed` is what happened.
