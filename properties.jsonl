{"id": "C01", "title": "Distributed sampling traces every sample exactly once", "statement": "When the same ray-tracing job is run on every rank of a heliostat-group process group and every active heliostat has the same number of samples, the sample indices the ranks process are pairwise disjoint and together are exactly 0..number_of_samples-1; no sample is traced twice or dropped.", "quantifier": "all world sizes, all rank numbers, all numbers of active heliostats and of samples per heliostat", "why_tests_cant": "Tests run a handful of (world size, heliostat count) pairs; the partition must hold for every pair, including more ranks than heliostats and non-divisible counts.", "anchors": ["artist/raytracing/sampling.py:RestrictedDistributedSampler.__init__", "artist/raytracing/sampling.py:RestrictedDistributedSampler.__iter__"]}
{"id": "C02", "title": "All samples of a heliostat stay on one rank and ranks are balanced", "statement": "For equal sample counts the samples of one heliostat are all processed by the same rank, in increasing order, and the number of heliostats handled by any two working ranks differs by at most one; ranks beyond the number of active heliostats get no work.", "quantifier": "all world sizes, ranks, heliostat counts and samples per heliostat", "why_tests_cant": "Balance and locality are statements about all pairs of ranks for all sizes.", "anchors": ["artist/raytracing/sampling.py:RestrictedDistributedSampler.__iter__"]}
{"id": "C03", "title": "Unequal sample counts are either traced completely or rejected", "statement": "For any activation mask the sampler of a ray tracer covers all activated samples (or the tracer refuses the mask).", "quantifier": "all activation masks, world sizes and ranks", "why_tests_cant": "The defect needs masks whose entries differ; the documentation only warns about this for the reconstructors.", "anchors": ["artist/raytracing/sampling.py:RestrictedDistributedSampler.__iter__", "artist/raytracing/heliostat_ray_tracer.py:HeliostatRayTracer.__init__"]}
{"id": "C04", "title": "Heliostat groups are spread over all ranks without loss", "statement": "Distributing heliostat groups among ranks gives every group to at least one rank and every listed group is a real group; with at most as many ranks as groups each group is processed by exactly one rank and the load of two ranks differs by at most one; with more ranks than groups every rank processes exactly one group and the number of ranks per group differs by at most one; nested mode is reported exactly when ranks outnumber groups.", "quantifier": "all world sizes >= 1 and all numbers of groups >= 1", "why_tests_cant": "A round-robin off-by-one shows up only for particular size pairs.", "anchors": ["artist/util/env.py:distribute_groups_among_ranks"]}
{"id": "C05", "title": "Nested process subgroups number their members consistently", "statement": "In nested mode each rank belongs to exactly one subgroup, all ranks of a subgroup agree on its members and size, and their ranks within the subgroup are exactly 0..size-1.", "quantifier": "all world sizes, group counts and ranks", "why_tests_cant": "Holds across all ranks of all distributed runs; unit tests run one process.", "anchors": ["artist/util/env.py:create_subgroups_for_nested_ddp", "artist/util/env.py:setup_distributed_environment"]}
{"id": "C06", "title": "The heliostat-target-light-source mapping is followed faithfully", "statement": "For a mapping given as a list of (heliostat, target, direction) entries, the k-th active sample of a group returned by the index mapping is one of the entries for that heliostat, with its own target and its own direction, in the order of the list; every entry for a heliostat of the group appears exactly once and entries for other groups or unknown heliostats do not appear.", "quantifier": "all mappings (any length, repeated heliostats, unknown names), all groups and all name lists without duplicates", "why_tests_cant": "Mismatched ordering between mask, targets and directions is silent and depends on the permutation of the input list.", "anchors": ["artist/scenario/scenario.py:Scenario.index_mapping", "artist/field/heliostat_group.py:HeliostatGroup.activate_heliostats"]}
{"id": "C07", "title": "The index mapping rejects invalid requests", "statement": "A mapping with an unknown target, with a direction whose fourth component is not zero or whose norm is not one, or a default target index outside the list of target areas is rejected with an error; a mapping without these defects is accepted.", "quantifier": "all mappings and all default target indices, including negative ones", "why_tests_cant": "Every malformed request must be rejected, tests check some.", "anchors": ["artist/scenario/scenario.py:Scenario.index_mapping"]}
{"id": "C08", "title": "Activating heliostats keeps all per-heliostat data aligned", "statement": "After activating heliostats with a mask of repetition counts, entry k of every active tensor (positions, surface points, normals, control points, cantings, translations, kinematic and actuator parameters, motor positions) belongs to the same heliostat, heliostat i occurs mask[i] times, in heliostat order, and no inactive heliostat occurs; activating again replaces all active data.", "quantifier": "all masks, all groups, all attribute contents, all histories of activations", "why_tests_cant": "Alignment between a dozen tensors for all masks is universal; a test fixes one mask.", "anchors": ["artist/field/heliostat_group.py:HeliostatGroup.activate_heliostats"]}
{"id": "C09", "title": "Train/test split is a partition without leakage", "statement": "When every active heliostat has the same number s >= 2 of samples and the test fraction is below one, the train and test index sets are disjoint, cover all samples, give every heliostat the same positive number of train and of test samples, and the train/test activation masks repeat each heliostat so that the selected data and the activated heliostats line up sample by sample.", "quantifier": "all masks with equal positive counts, all test fractions in [0,1)", "why_tests_cant": "Leakage depends on arithmetic of counts and fractions and on the order of repeated heliostats.", "anchors": ["artist/optim/training.py:train_test_split"]}
{"id": "C10", "title": "Early stopping stops exactly on sustained lack of improvement", "statement": "The stop decision after a history of losses is positive exactly when the last `patience` steps each saw a full window whose first-to-last improvement (absolute or relative) does not exceed the threshold; in particular it never fires before window_size+patience-1 steps and any sufficient improvement restarts the count.", "quantifier": "all loss histories of any length, all window sizes >= 1, patiences >= 1 and thresholds", "why_tests_cant": "It is a property of unbounded histories.", "anchors": ["artist/optim/training.py:EarlyStopping.step"]}
{"id": "C11", "title": "Optimization loops terminate within the epoch budget", "statement": "Each optimization loop runs at most max_epoch+1 epochs whatever the losses are, stops after the first epoch whose loss is at or below the tolerance, and its loss history contains the losses of the executed epochs in order.", "quantifier": "all loss sequences, tolerances, epoch budgets and early-stopping decisions", "why_tests_cant": "Termination and history contents are over all loss trajectories.", "anchors": ["artist/optim/kinematics_reconstructor.py:KinematicsReconstructor._reconstruct_kinematics_flux_driven", "artist/optim/surface_reconstructor.py:SurfaceReconstructor.reconstruct_surfaces", "artist/optim/aim_point_optimizer.py:AimPointOptimizer.optimize"]}
{"id": "C12", "title": "Splatting conserves ray power", "statement": "The pixel sum of a bitmap equals the sum of the intensities of the rays hitting inside the pixel grid; rays outside contribute nothing and no pixel is negative if no ray intensity is negative.", "quantifier": "all numbers of rays, all intensities, all hit positions with non-negative bitmap coordinates (ray intersection produces no others), all resolutions", "why_tests_cant": "Energy conservation is an exact identity over all ray sets; tests compare images.", "anchors": ["artist/raytracing/heliostat_ray_tracer.py:HeliostatRayTracer.bilinear_splatting"]}
{"id": "C13", "title": "Splatting places power at the hit position", "statement": "A ray inside the grid deposits power only in the (at most) four pixels around its hit position, each non-negative share at most the ray's intensity, and the power-weighted mean pixel position equals the hit position; rows are returned top-down.", "quantifier": "all hit positions with non-negative bitmap coordinates (ray intersection produces no others), intensities and resolutions", "why_tests_cant": "Sub-pixel placement is a continuous property.", "anchors": ["artist/raytracing/heliostat_ray_tracer.py:HeliostatRayTracer.bilinear_splatting"]}
{"id": "C14", "title": "A ray hitting anywhere inside the target area contributes its power", "statement": "Every ray that hits inside the closed target area (including its border) contributes its full intensity to the flux bitmap.", "quantifier": "all rays and target areas", "why_tests_cant": "Border cases have measure zero and are missed by sampled tests.", "anchors": ["artist/raytracing/geometry.py:line_plane_intersections", "artist/raytracing/heliostat_ray_tracer.py:HeliostatRayTracer.bilinear_splatting"]}
{"id": "C15", "title": "Bitmaps per target add up to bitmaps per heliostat", "statement": "Combining heliostat bitmaps per target gives, at each target and pixel, the sum over exactly the heliostats aimed at that target; the sum over all targets equals the sum over all heliostats, and untouched targets are zero.", "quantifier": "all numbers of heliostats and targets, all assignments, all bitmaps", "why_tests_cant": "Sum over all assignments.", "anchors": ["artist/raytracing/heliostat_ray_tracer.py:HeliostatRayTracer.get_bitmaps_per_target"]}
{"id": "C16", "title": "Bit expansion spreads ten bits and rejects other values", "statement": "Expanding an integer in 0..1023 puts bit i of the input at bit 3i of the output and nowhere else; any other integer is rejected.", "quantifier": "all integers", "why_tests_cant": "Bit masks can be wrong for a few values only.", "anchors": ["artist/raytracing/blocking.py:expand_bits"]}
{"id": "C17", "title": "Morton codes are injective on grid cells and fit in 30 bits", "statement": "Two primitives get the same Morton code exactly when their centroids fall in the same cell of the quantized grid, and the code interleaves the three cell coordinates (n above e above u).", "quantifier": "all centroids", "why_tests_cant": "Universal over all cells.", "anchors": ["artist/raytracing/blocking.py:morton_codes", "artist/raytracing/blocking.py:expand_bits"]}
{"id": "C18", "title": "Longest common prefix is computed correctly", "statement": "For two valid positions the prefix length equals the number of leading bits (of 30) in which the two codes agree, 30 when they are equal, and -1 when the second position is out of range.", "quantifier": "all 30-bit code lists and positions", "why_tests_cant": "The binary search on leading zeros can fail on boundary bit positions.", "anchors": ["artist/raytracing/blocking.py:longest_common_prefix"]}
{"id": "C19", "title": "The bounding volume hierarchy contains every primitive", "statement": "For every list of blocking primitives the constructed hierarchy is a binary tree whose root reaches every primitive exactly once.", "quantifier": "all numbers of primitives and all sorted Morton code lists (with and without duplicates)", "why_tests_cant": "The construction is index arithmetic that goes wrong only for particular counts and code patterns.", "anchors": ["artist/raytracing/blocking.py:build_linear_bounding_volume_hierarchies"]}
{"id": "C20", "title": "Building and measuring the hierarchy terminates", "statement": "Construction of the hierarchy and computation of its depth terminate for every set of primitives.", "quantifier": "all sets of primitives, including coinciding centroids", "why_tests_cant": "Non-termination needs specific duplicates.", "anchors": ["artist/raytracing/blocking.py:build_linear_bounding_volume_hierarchies", "artist/raytracing/blocking.py:compute_lbvh_max_depth"]}
{"id": "C21", "title": "Hierarchy filtering never drops a potential blocker", "statement": "For a well-formed hierarchy, filtering returns exactly the primitives whose own bounding box is hit (within the target distance) by some ray that the primitive's heliostat did not emit; the traversal never overflows its stack, whose size is the measured depth.", "quantifier": "all well-formed hierarchies, all ray sets and owners", "why_tests_cant": "Completeness of a pruned traversal over all trees and rays.", "anchors": ["artist/raytracing/blocking.py:lbvh_filter_blocking_planes", "artist/raytracing/blocking.py:compute_lbvh_max_depth", "artist/raytracing/blocking.py:ray_aabb_intersect"]}
{"id": "C22", "title": "The box test is exact", "statement": "The ray-box test accepts a box exactly when some point of the (epsilon-shifted) ray at positive parameter not beyond the target lies inside the box; a box containing a hit box is also accepted.", "quantifier": "all rays and boxes", "why_tests_cant": "Geometric statement over all reals.", "anchors": ["artist/raytracing/blocking.py:ray_aabb_intersect", "artist/raytracing/blocking.py:lbvh_filter_blocking_planes"]}
{"id": "C23", "title": "Soft blocking is a fraction and adding blockers never unblocks", "statement": "The soft blocking value of a ray is in [0,1), is 0 exactly when no primitive is considered, and is monotone when more primitives are considered.", "quantifier": "all rays and all finite sets of primitives whose spans are not parallel", "why_tests_cant": "Monotonicity over all sets.", "anchors": ["artist/raytracing/blocking.py:soft_ray_blocking_mask"]}
{"id": "C24", "title": "Blocking only happens in front of the target", "statement": "A primitive behind the target (farther from the ray origin than the hit on the target) does not reduce the flux of the ray.", "quantifier": "all rays, primitives and targets", "why_tests_cant": "Needs a primitive behind the target in line with a ray.", "anchors": ["artist/raytracing/blocking.py:soft_ray_blocking_mask", "artist/raytracing/blocking.py:lbvh_filter_blocking_planes"]}
{"id": "C25", "title": "A heliostat's own mirror is excluded from blocking its rays", "statement": "The primitive skipped for a ray during filtering is the one of the heliostat that emitted the ray.", "quantifier": "all groups, activation masks and batches", "why_tests_cant": "Goes wrong only with repeated heliostats or several groups.", "anchors": ["artist/raytracing/heliostat_ray_tracer.py:HeliostatRayTracer.trace_rays", "artist/raytracing/blocking.py:lbvh_filter_blocking_planes"]}
{"id": "C26", "title": "Ray-plane intersection is geometrically right", "statement": "For a ray facing the plane, the computed hit lies on the target plane and on the ray; the reported pixel coordinates lie in [0,W-1]x[0,H-1] for valid hits and are the affine image of the hit position (east mirrored, up preserved); invalid rays get zero intensity; the intensity of a valid ray is the cosine-weighted magnitude and never exceeds the magnitude for unit vectors.", "quantifier": "all rays, planes and sizes, and all resolutions of at least two pixels per axis (a single column accepts every ray at the right height: C26_single_column_accepts_all)", "why_tests_cant": "Continuous statement.", "anchors": ["artist/raytracing/geometry.py:line_plane_intersections"]}
{"id": "C27", "title": "Rays do not hit targets behind them", "statement": "A ray pointing away from a target area does not deposit flux on it.", "quantifier": "all rays and planar target areas", "why_tests_cant": "Needs a backward geometry that tests do not contain.", "anchors": ["artist/raytracing/geometry.py:line_plane_intersections"]}
{"id": "C28", "title": "Ray-cylinder intersection is geometrically right", "statement": "A reported hit lies on the ray at positive distance, at cylinder radius from the axis, within the height; and within the opening angle measured from the cylinder's normal.", "quantifier": "all rays and cylinders with orthonormal axis and normal", "why_tests_cant": "Continuous statement with frames and branch cuts.", "anchors": ["artist/raytracing/geometry.py:line_cylinder_intersections"]}
{"id": "C29", "title": "Reflection obeys the law of reflection", "statement": "Reflecting a direction at a unit normal preserves its length and tangential part, negates its normal part, and reflecting twice gives the original direction.", "quantifier": "all directions and unit normals", "why_tests_cant": "Algebraic identity over all vectors.", "anchors": ["artist/raytracing/geometry.py:reflect"]}
{"id": "C30", "title": "Rotation and translation matrices are rigid motions", "statement": "The rotations about the east, north and up axes and the ray-distortion rotation are orthogonal with determinant one, preserve lengths, compose additively for one axis and leave the homogeneous component unchanged; translations shift points and leave directions unchanged.", "quantifier": "all angles and vectors", "why_tests_cant": "Algebraic identities.", "anchors": ["artist/geometry/transforms.py:rotate_e", "artist/geometry/transforms.py:rotate_n", "artist/geometry/transforms.py:rotate_u", "artist/geometry/transforms.py:rotate_distortions", "artist/geometry/transforms.py:translate_enu"]}
{"id": "C31", "title": "All axis rotations turn in the documented direction", "statement": "A positive angle rotates counterclockwise (right-handed) about the east, north and up axes.", "quantifier": "all angles", "why_tests_cant": "Sign convention for all angles; tests encode the present output.", "anchors": ["artist/geometry/transforms.py:rotate_e", "artist/geometry/transforms.py:rotate_n", "artist/geometry/transforms.py:rotate_u"]}
{"id": "C32", "title": "Canting is a rigid rotation with exact inverse", "statement": "Canting with linearly independent canting vectors maps the east axis to the normalized first canting vector, keeps up perpendicular to both canting vectors, preserves distances, and undoing canting restores the data.", "quantifier": "all non-degenerate canting vectors, all data", "why_tests_cant": "Continuous statement.", "anchors": ["artist/geometry/transforms.py:perform_canting"]}
{"id": "C33", "title": "The rotation between two orientations maps one to the other", "statement": "The axis and angle returned for two orientations describe a rotation that carries the first orientation to the second: exactly, including parallel and antiparallel orientations, and up to 2e-6 for orientations that are within 1e-6 of parallel or antiparallel; the axis is a unit vector and the angle in [0,pi]. The lengths of the orientations do not matter.", "quantifier": "all pairs of unit orientations", "why_tests_cant": "Degenerate cases are measure zero.", "anchors": ["artist/geometry/rotations.py:rotation_angle_and_axis", "artist/geometry/rotations.py:decompose_rotations"]}
{"id": "C34", "title": "Linear actuator conversions are inverse to each other", "statement": "Within the physically reachable stroke and angle range, converting motor positions to angles and back gives the same motor positions, and converting angles to motor positions and back gives the same angles.", "quantifier": "all physical parameters, both turning directions, all positions and angles in range", "why_tests_cant": "Continuous statement with clamps.", "anchors": ["artist/field/actuators_linear.py:LinearActuators.motor_positions_to_angles", "artist/field/actuators_linear.py:LinearActuators.angles_to_motor_positions"]}
{"id": "C35", "title": "Linear actuators are monotone and always defined", "statement": "For every raw parameter value the physical parameters are positive, the stroke limits are ordered, every square root and arccosine argument is in its domain, the angle is a monotone function of the motor position and the resulting angle change stays within pi.", "quantifier": "all raw parameters (also negative ones reached during optimization) and all motor positions", "why_tests_cant": "All reals, including values only reached during training.", "anchors": ["artist/field/actuators_linear.py:LinearActuators._physics_informed_parameters", "artist/field/actuators_linear.py:LinearActuators._motor_positions_to_absolute_angles"]}
{"id": "C36", "title": "Orientation matrices are rigid motions", "statement": "For all motor positions and deviations the computed heliostat orientation is a rigid motion: distances of surface points and angles of normals are preserved and points stay homogeneous points.", "quantifier": "all deviations, positions and motor positions", "why_tests_cant": "Continuous statement.", "anchors": ["artist/field/kinematics_rigid_body.py:RigidBody._compute_orientations_from_motor_positions", "artist/field/heliostat_group_rigid_body.py:HeliostatGroupRigidBody.align_surfaces_with_motor_positions"]}
{"id": "C37", "title": "Inverse kinematics reaches the requested normal", "statement": "The joint angles computed for a requested normal make the forward kinematics produce that normal, up to the documented epsilon, whenever the normal is reachable.", "quantifier": "all tilts and all reachable unit normals", "why_tests_cant": "Continuous statement with two solution branches.", "anchors": ["artist/field/kinematics_rigid_body.py:RigidBody._compute_motor_positions_from_normal"]}
{"id": "C38", "title": "Motor limits are respected by solution selection", "statement": "If at least one of the two inverse-kinematics solutions is within the motor limits, the returned motor positions are within the limits.", "quantifier": "all heliostats, limits and solutions", "why_tests_cant": "Selection logic over all cases.", "anchors": ["artist/field/kinematics_rigid_body.py:RigidBody._compute_motor_positions_from_normal"]}
{"id": "C39", "title": "An aligned mirror reflects the sun onto the aim point", "statement": "The normal requested by the alignment is the bisector: reflecting the incident direction at it gives exactly the direction from the concentrator to the aim point.", "quantifier": "all unit incident directions and aim points not in line with it", "why_tests_cant": "Continuous statement.", "anchors": ["artist/field/kinematics_rigid_body.py:RigidBody.incident_ray_directions_to_orientations", "artist/raytracing/geometry.py:reflect"]}
{"id": "C40", "title": "Stored motor positions match the returned orientation", "statement": "After aligning to incident ray directions the stored active motor positions are those whose forward kinematics is the returned orientation.", "quantifier": "all heliostats, directions, iteration counts and thresholds", "why_tests_cant": "Depends on whether the loop stopped early.", "anchors": ["artist/field/kinematics_rigid_body.py:RigidBody.incident_ray_directions_to_orientations"]}
{"id": "C41", "title": "Aligning is idempotent per activation", "statement": "Aligning an activated group a second time gives the same surfaces as aligning once.", "quantifier": "all groups and alignments", "why_tests_cant": "History property.", "anchors": ["artist/field/heliostat_group_rigid_body.py:HeliostatGroupRigidBody.align_surfaces_with_motor_positions", "artist/field/heliostat_group_rigid_body.py:HeliostatGroupRigidBody.align_surfaces_with_incident_ray_directions"]}
{"id": "C42", "title": "Knot vectors are clamped and non-decreasing", "statement": "The knot vector built for n control points of degree p has n+p+1 knots, starts with p+1 zeros, ends with p+1 ones and never decreases.", "quantifier": "all degrees p >= 1 and control point counts n > p", "why_tests_cant": "All sizes.", "anchors": ["artist/nurbs/surfaces.py:NURBSSurfaces.calculate_uniform_knot_vectors"]}
{"id": "C43", "title": "The knot span contains the parameter", "statement": "For each evaluation parameter in [0,1) the span returned is in p..n-1 and the parameter lies between the knot of that index and the next; the uniform shortcut agrees with the general search; the last parameter 1 is assigned the last non-empty span.", "quantifier": "all degrees, control point counts and parameters", "why_tests_cant": "Boundary parameters on knots.", "anchors": ["artist/nurbs/surfaces.py:NURBSSurfaces.find_spans"]}
{"id": "C44", "title": "Basis functions are a partition of unity", "statement": "For every parameter inside its span the basis functions are non-negative and sum to one, their first derivatives sum to zero, and they equal the Cox-de Boor B-spline basis.", "quantifier": "all degrees, knot vectors and parameters", "why_tests_cant": "All degrees and knots.", "anchors": ["artist/nurbs/surfaces.py:NURBSSurfaces.basis_functions_and_derivatives"]}
{"id": "C45", "title": "Surface points stay in the hull of the control points and move with them", "statement": "Every surface point is a convex combination of control points with weights independent of the control points: it lies within every half-space containing the control points, translating or linearly mapping control points does the same to the surface, and flat control nets give flat surfaces with constant height.", "quantifier": "all control nets, degrees and parameters", "why_tests_cant": "All nets.", "anchors": ["artist/nurbs/surfaces.py:NURBSSurfaces.calculate_surface_points_and_normals"]}
{"id": "C46", "title": "Surface normals are unit and perpendicular to the surface", "statement": "Wherever the two tangents are linearly independent the surface normal has length one and is perpendicular to both partial derivatives of the surface.", "quantifier": "all control nets, degrees and parameters", "why_tests_cant": "All nets.", "anchors": ["artist/nurbs/surfaces.py:NURBSSurfaces.calculate_surface_points_and_normals"]}
{"id": "C47", "title": "Facet placement keeps homogeneous coordinates valid", "statement": "After canting and translation, surface points keep homogeneous coordinate one and normals zero whenever the translation is a direction, so that the later alignment treats them as points and directions; facets are moved rigidly.", "quantifier": "all facets, cantings and translations", "why_tests_cant": "Depends on a convention over all inputs.", "anchors": ["artist/nurbs/surfaces.py:NURBSSurfaces.calculate_surface_points_and_normals", "artist/scenario/surface_generator.py:SurfaceGenerator.generate_ideal_surface_config"]}
{"id": "C48", "title": "Losses are zero for perfect predictions and never negative", "statement": "Vector, pixel, angle, cosine and Kullback-Leibler losses are non-negative for all admissible inputs and zero when prediction equals ground truth; the vector and pixel losses are zero only then; the KL loss does not depend on the scale of the inputs (up to its epsilon).", "quantifier": "all predictions and ground truths of all sizes", "why_tests_cant": "Inequalities over all real vectors (Gibbs' inequality).", "anchors": ["artist/optim/loss.py:VectorLoss", "artist/optim/loss.py:PixelLoss", "artist/optim/loss.py:KLDivergenceLoss", "artist/optim/loss.py:AngleLoss", "artist/optim/loss.py:CosineSimilarityLoss"]}
{"id": "C49", "title": "The pixel loss does not depend on the absolute flux level", "statement": "Scaling prediction and ground truth by the same positive factor leaves the pixel loss unchanged, as documented.", "quantifier": "all bitmaps and factors", "why_tests_cant": "Scaling law.", "anchors": ["artist/optim/loss.py:PixelLoss"]}
{"id": "C50", "title": "Per-heliostat reduction uses exactly the heliostat's own samples", "statement": "Reducing per-sample losses gives one value per heliostat computed from exactly its consecutive samples; nothing is dropped when the sample count divides the number of losses.", "quantifier": "all numbers of heliostats and samples", "why_tests_cant": "All sizes.", "anchors": ["artist/optim/loss.py:reduce_loss_per_sample"]}
{"id": "C51", "title": "Regularizers measure deformation only", "statement": "The smoothness regularizer is non-negative, zero exactly when every facet is a shifted copy of its original, and unchanged when the current net is shifted or when the same net is added to current and original; the ideal-surface regularizer is non-negative and zero exactly when the control points agree.", "quantifier": "all control nets", "why_tests_cant": "All nets and sizes.", "anchors": ["artist/optim/regularizers.py:SmoothnessRegularizer", "artist/optim/regularizers.py:IdealSurfaceRegularizer"]}
{"id": "C52", "title": "The center of mass lies inside the bitmap", "statement": "For non-negative flux the computed center lies within the coordinate range of the bitmap; for positive total flux it is the power-weighted mean up to the epsilon in the normalization.", "quantifier": "all non-negative bitmaps of all sizes", "why_tests_cant": "All bitmaps.", "anchors": ["artist/flux/bitmap.py:get_center_of_mass"]}
{"id": "C53", "title": "The trapezoid window is a symmetric window", "statement": "The trapezoid distribution has values in [0,1], is symmetric, is one on the plateau, falls linearly on the slopes and is zero outside; its length is the number of indices requested.", "quantifier": "all lengths, slope and plateau widths", "why_tests_cant": "All parameters.", "anchors": ["artist/flux/bitmap.py:trapezoid_distribution"]}
{"id": "C54", "title": "Homogeneous conversions append exactly one component", "statement": "Converting 3D points (directions) appends a one (zero), keeps the three coordinates, and rejects tensors whose last dimension is not three.", "quantifier": "all shapes and values", "why_tests_cant": "All shapes.", "anchors": ["artist/geometry/coordinates.py:convert_3d_points_to_4d_format", "artist/geometry/coordinates.py:convert_3d_directions_to_4d_format"]}
{"id": "C55", "title": "Normalized parameters lie strictly inside the unit interval", "statement": "Normalizing points yields values strictly between zero and one and preserves their order, so that the result are admissible NURBS parameters.", "quantifier": "all non-empty point sets", "why_tests_cant": "All sets.", "anchors": ["artist/geometry/coordinates.py:normalize_points"]}
{"id": "C56", "title": "Sun angles give unit directions", "statement": "The east-north-up vector for an azimuth and elevation is a unit vector with the elevation's sine as height, and degrees and radians agree.", "quantifier": "all azimuths and elevations", "why_tests_cant": "All reals.", "anchors": ["artist/geometry/coordinates.py:azimuth_elevation_to_enu"]}
{"id": "C57", "title": "Pixel coordinates and target coordinates are consistent", "statement": "The target position computed for the pixel coordinates of a hit is the hit position.", "quantifier": "all planar hits and resolutions", "why_tests_cant": "Half-pixel conventions are invisible in image comparisons.", "anchors": ["artist/geometry/coordinates.py:bitmap_coordinates_to_target_coordinates", "artist/raytracing/geometry.py:line_plane_intersections"]}
{"id": "C58", "title": "Target names and indices identify the same target area", "statement": "For distinct target names, looking up a name's index and then the area of that index gives the area with that name, planar areas first; centers returned for indices are those of the same areas.", "quantifier": "all lists of planar and cylindrical target areas and all index lists", "why_tests_cant": "All lists.", "anchors": ["artist/field/solar_tower.py:SolarTower.__init__", "artist/field/solar_tower.py:SolarTower.get_centers_of_target_areas"]}
{"id": "C59", "title": "Scenario files store every configured parameter", "statement": "Every parameter of a nested configuration is stored in the scenario file under its own path with its own value and nothing else is stored, provided keys are non-empty, do not contain the separator and are unique per level.", "quantifier": "all nested configurations", "why_tests_cant": "All tree shapes.", "anchors": ["artist/scenario/h5_scenario_generator.py:H5ScenarioGenerator._flatten_dict", "artist/scenario/h5_scenario_generator.py:H5ScenarioGenerator._include_parameters"]}
{"id": "C60", "title": "Measured fluxes and calibration data stay paired", "statement": "When every heliostat occurs once in the data mapping and has as many images as property files, the i-th measured flux and the i-th calibration record belong to the same heliostat and measurement, and agree with the returned activation mask.", "quantifier": "all mappings, name lists and sample limits", "why_tests_cant": "Depends on the order of names versus mapping and on limits.", "anchors": ["artist/io/calibration_parser.py:CalibrationDataParser.load_flux_from_png", "artist/io/paint_calibration_parser.py:PaintCalibrationDataParser._parse_calibration_data"]}
{"id": "C61", "title": "A sample limit is respected", "statement": "With a sample limit of k, no more than k samples per heliostat are loaded, for every k >= 0.", "quantifier": "all limits and file lists", "why_tests_cant": "The limit zero.", "anchors": ["artist/io/calibration_parser.py:CalibrationDataParser.load_flux_from_png", "artist/io/paint_calibration_parser.py:PaintCalibrationDataParser._parse_calibration_data"]}
{"id": "C62", "title": "Optimized aim points keep motors within their limits", "statement": "Motor positions proposed by the aim point optimization stay within the motor limits whenever the initial positions keep a margin of at least one step, whatever the optimizer does.", "quantifier": "all parameter values, limits and initial positions", "why_tests_cant": "All real parameters.", "anchors": ["artist/optim/aim_point_optimizer.py:AimPointOptimizer._initialize_group_parameters", "artist/optim/aim_point_optimizer.py:AimPointOptimizer._align_all_groups"]}
{"id": "C63", "title": "Augmented-Lagrangian terms only penalize", "statement": "Over every history of epochs the multipliers and all constraint terms are non-negative and a term vanishes when its constraint is satisfied, so the total loss is never below the flux loss.", "quantifier": "all histories of fluxes, intercept factors and penalty parameters >= 0", "why_tests_cant": "Property over histories.", "anchors": ["artist/optim/aim_point_optimizer.py:AimPointOptimizer._compute_kl_constraints", "artist/optim/surface_reconstructor.py:SurfaceReconstructor._compute_flux_integral_constraint"]}
{"id": "C64", "title": "Edge control points keep their planar position", "statement": "Locking outer edges zeroes exactly the planar gradient components of control points on the border and leaves every other component unchanged.", "quantifier": "all gradient tensors of all sizes", "why_tests_cant": "All sizes and border positions.", "anchors": ["artist/optim/surface_reconstructor.py:SurfaceReconstructor.lock_control_points_on_outer_edges"]}
{"id": "C65", "title": "Ray fractions are consistent", "statement": "Intercept, on-target and blocking fractions are in [0,1], and the intercept fraction never exceeds the on-target fraction.", "quantifier": "all rays, blockers and attenuation factors", "why_tests_cant": "All ray sets.", "anchors": ["artist/raytracing/heliostat_ray_tracer.py:HeliostatRayTracer.trace_rays"]}
{"id": "C66", "title": "Batched tracing is independent of the batch size", "statement": "The result rows of a trace belong to the active samples in order, whatever the batch size and number of ranks, and each processed sample's row is written exactly once.", "quantifier": "all batch sizes, world sizes, masks with equal counts", "why_tests_cant": "All batch sizes.", "anchors": ["artist/raytracing/heliostat_ray_tracer.py:HeliostatRayTracer.trace_rays"]}
{"id": "C67", "title": "Prototype parameters are used exactly when individual ones are missing", "statement": "When a scenario is loaded, each heliostat gets its own surface, kinematics and actuators if the file has them and the prototype's otherwise, grouped by kinematics and actuator type, each heliostat in exactly one group, order preserved.", "quantifier": "all scenario files", "why_tests_cant": "All combinations over all heliostats.", "anchors": ["artist/field/heliostat_field.py:HeliostatField.from_hdf5"]}
{"id": "C68", "title": "Ranks sharing a heliostat group leave the optimization loop together", "statement": "When several ranks work on one heliostat group, all of them execute the same number of epochs, so that every collective gradient reduction is issued by all ranks of the group and no run blocks.", "quantifier": "all local loss sequences of all ranks, tolerances, epoch budgets and early-stopping configurations", "why_tests_cant": "A deadlock shows up only for particular loss trajectories and schedules.", "anchors": ["artist/optim/kinematics_reconstructor.py:KinematicsReconstructor._reconstruct_kinematics_flux_driven", "artist/optim/surface_reconstructor.py:SurfaceReconstructor.reconstruct_surfaces"]}
{"id": "C69", "title": "Reported final losses belong to their heliostats", "statement": "After a reconstruction, entry i of the returned per-heliostat losses is the final loss of heliostat i of the field when heliostat i was trained, on whichever rank that happened, and infinity for every heliostat that was not.", "quantifier": "all fields, groupings, activation masks, ranks and sample partitions", "why_tests_cant": "All index arithmetic over groups and ranks.", "anchors": ["artist/optim/kinematics_reconstructor.py:KinematicsReconstructor._reconstruct_kinematics_flux_driven", "artist/optim/surface_reconstructor.py:SurfaceReconstructor.reconstruct_surfaces"]}
{"id": "C70", "title": "The traced power is the collected power", "statement": "If an irradiance is given, the magnitudes of all rays of one heliostat add up to irradiance times heliostat area, whatever the numbers of surface points and of rays per point.", "quantifier": "all irradiances, areas, numbers of points and rays >= 1", "why_tests_cant": "Identity over all discretizations.", "anchors": ["artist/raytracing/heliostat_ray_tracer.py:HeliostatRayTracer.__init__"]}
{"id": "C71", "title": "Blocking mirrors are placed as currently aligned", "statement": "The mirrors that a tracer uses for blocking are, for every heliostat of the whole field, the aligned surface if the heliostat is active and the horizontal surface at its position otherwise; this also holds when a heliostat is used several times, as the activation mask allows.", "quantifier": "all fields of heliostat groups and all activation masks", "why_tests_cant": "Depends on the activation pattern of every group.", "anchors": ["artist/raytracing/heliostat_ray_tracer.py:HeliostatRayTracer.__init__"]}
{"id": "C72", "title": "Soft blocking approximates geometric blocking", "statement": "A ray passing through a blocking rectangle with a margin is blocked up to a quantified remainder, and a ray passing all rectangles with a margin (or having them behind) is not blocked up to a quantified remainder.", "quantifier": "all rays, sets of rectangles and margins", "why_tests_cant": "Continuous statement over all geometries.", "anchors": ["artist/raytracing/blocking.py:soft_ray_blocking_mask"]}
{"id": "C73", "title": "Both ways of choosing mirror corners agree", "statement": "For a mirror of four facets with a regular grid of points, choosing the corners by their fixed index and by distance to the bounding rectangle gives the same four outermost points, in the order lower left, upper left, upper right, lower right.", "quantifier": "all facet resolutions and regular grids", "why_tests_cant": "Resolution and geometry are unbounded.", "anchors": ["artist/raytracing/blocking.py:create_blocking_primitives_rectangle", "artist/raytracing/blocking.py:create_blocking_primitives_rectangles_by_index"]}
{"id": "C74", "title": "Configured initial orientation is honoured", "statement": "The initial orientation configured for a heliostat influences its kinematics: two heliostats that differ only in it are not aligned identically.", "quantifier": "all kinematics, initial orientations, motor positions and alignment requests", "why_tests_cant": "A test with one standard orientation cannot tell an honoured setting from an ignored one.", "anchors": ["artist/field/kinematics_rigid_body.py:RigidBody.__init__", "artist/field/kinematics_rigid_body.py:RigidBody.incident_ray_directions_to_orientations"]}
{"id": "C75", "title": "Alignment of one heliostat does not depend on the others", "statement": "Aligning a group gives every heliostat the orientation and motor positions it gets when it is aligned alone.", "quantifier": "all groups, requests, iteration counts and thresholds", "why_tests_cant": "The common stopping test couples all rows of a batch; only particular combinations of heliostats show it.", "anchors": ["artist/field/kinematics_rigid_body.py:RigidBody.incident_ray_directions_to_orientations"]}
{"id": "C76", "title": "Cropping never creates flux", "statement": "Cropping a flux image around its centre gives values between zero and the largest value of the image; every pixel of the crop shows the flux, linearly interpolated, at the point that lies from the centre of mass as the pixel lies from the middle of the image, scaled by the size of the crop relative to the target; so a crop of the size of the target around a centred flux is the flux itself.", "quantifier": "all non-negative bitmaps, target sizes and crop sizes", "why_tests_cant": "Interpolation at arbitrary positions and image sizes; tests check a few images.", "anchors": ["artist/flux/bitmap.py:crop_flux_distributions_around_center"]}
{"id": "C77", "title": "Focal spots of traced rays", "statement": "The centre of mass of the bitmap produced from rays is the power-weighted mean of their bitmap coordinates (up to the epsilon in the normalization), so that the focal spot computed from a bitmap belongs to the rays that produced it.", "quantifier": "all lists of rays inside the bitmap and all resolutions", "why_tests_cant": "Composition of tracing, splatting, flipping and averaging over arbitrary rays; sign or axis mistakes cancel in symmetric test cases.", "anchors": ["artist/raytracing/heliostat_ray_tracer.py:HeliostatRayTracer.bilinear_splatting", "artist/flux/bitmap.py:get_center_of_mass", "artist/geometry/coordinates.py:bitmap_coordinates_to_target_coordinates"]}
{"id": "C78", "title": "WGS84 offsets point the right way and have the right size", "statement": "Converting WGS84 coordinates gives the altitude difference as height, a positive north (east) offset exactly for positions north (east) of the reference, and offsets equal to the angle differences times a radius of curvature of the ellipsoid.", "quantifier": "all latitudes other than the poles, all longitudes, altitudes and references", "why_tests_cant": "Range of positions on the globe; tests check two sites.", "anchors": ["artist/geometry/coordinates.py:convert_wgs84_coordinates_to_local_enu"]}
{"id": "C79", "title": "Generating and loading a scenario gives back the configuration", "statement": "Loading the file generated from a configuration yields the configured power plant position, target areas, light sources and heliostats: every heliostat has its configured position, facets, kinematics and actuator parameters, missing optional deviations and actuator parameters are zero, and no other heliostat is loaded. Every configuration for which a file is generated can be loaded.", "quantifier": "all scenario configurations: any number of target areas, light sources, heliostats, facets, any optional parts missing", "why_tests_cant": "All combinations of optional parts over all sizes.", "anchors": ["artist/scenario/h5_scenario_generator.py:H5ScenarioGenerator.generate_scenario", "artist/scenario/scenario.py:Scenario.load_scenario_from_hdf5", "artist/io/h5_scenario_parser.py", "artist/util/config.py"]}
{"id": "C80", "title": "The stored number of heliostat groups is the number of groups loaded", "statement": "The number of heliostat groups that is read from a scenario file to plan the distribution over ranks equals the number of groups of the loaded heliostat field.", "quantifier": "all scenario configurations", "why_tests_cant": "Two independent computations of the same number over all mixtures of individual and prototype parts.", "anchors": ["artist/scenario/h5_scenario_generator.py:H5ScenarioGenerator._get_number_of_heliostat_groups", "artist/scenario/scenario.py:Scenario.get_number_of_heliostat_groups_from_hdf5", "artist/field/heliostat_field.py:HeliostatField.from_hdf5"]}
{"id": "C81", "title": "Surfaces are evaluated with their own degrees", "statement": "The NURBS degrees of a heliostat group are the degrees configured for every facet of every heliostat in that group.", "quantifier": "all scenario configurations", "why_tests_cant": "All mixtures of degrees over heliostats and groups.", "anchors": ["artist/field/heliostat_field.py:HeliostatField.from_hdf5"]}
{"id": "C82", "title": "Data mappings list matching files only", "statement": "The heliostat data mapping built from a directory lists every heliostat at most once, with equally many property files and images, each image belonging to the property file at the same place, and with at most the requested number of measurements, for every requested number; they are the first ones of the directory that have an image.", "quantifier": "all directories, heliostat names and requested numbers of measurements", "why_tests_cant": "All directory contents, including files without images and missing heliostats.", "anchors": ["artist/io/paint_scenario_parser.py:build_heliostat_data_mapping"]}
{"id": "C83", "title": "Mixed surfaces configure every heliostat once", "statement": "Extracting heliostats with mixed surfaces yields one configuration per given heliostat, with the measured surface where a measurement is given and the ideal surface otherwise, and with distinct identifiers, for every mixture.", "quantifier": "all lists of heliostats, any of them with or without a measured surface", "why_tests_cant": "All mixtures, including those of one kind only.", "anchors": ["artist/io/paint_scenario_parser.py:extract_paint_heliostats_mixed_surface"]}
{"id": "C84", "title": "Aim point optimization sees the flux of the whole field", "statement": "During aim point optimization the flux that is compared to the desired distribution is, on every rank, the sum of the bitmaps of all heliostats of all groups on the chosen target area.", "quantifier": "all group sizes, targets, world sizes and ranks", "why_tests_cant": "All group sizes and rank layouts.", "anchors": ["artist/optim/aim_point_optimizer.py:AimPointOptimizer._trace_and_accumulate_flux"]}
{"id": "C85", "title": "Ray fractions are reported per heliostat", "statement": "The intercept factors used and returned by the aim point optimization hold, at the position of each heliostat in the field, the factor of that heliostat.", "quantifier": "all group sizes, heliostats, world sizes and ranks", "why_tests_cant": "All group sizes and rank layouts.", "anchors": ["artist/optim/aim_point_optimizer.py:AimPointOptimizer._trace_and_accumulate_flux"]}
{"id": "C86", "title": "All ranks end with the trained parameters", "statement": "After a distributed reconstruction every rank holds, for every heliostat group, the parameters trained by a rank that worked on that group.", "quantifier": "all world sizes, numbers of groups, ranks and training results", "why_tests_cant": "All rank layouts.", "anchors": ["artist/optim/kinematics_reconstructor.py:KinematicsReconstructor._synchronize_reconstruction_across_ranks", "artist/optim/surface_reconstructor.py:SurfaceReconstructor._synchronize_reconstruction_across_ranks", "artist/optim/kinematics_reconstructor.py:KinematicsReconstructor._reconstruct_kinematics_alignment_driven"]}
{"id": "C87", "title": "Tracing never creates power", "statement": "The flux image of every traced sample is non-negative and holds at most the power carried by its rays after extinction and reflection losses, and the images of all target areas together hold at most the power of all samples, with or without blocking and for planar and cylindrical targets.", "quantifier": "all scenes, samples, distortions, target areas, resolutions of at least two pixels per axis, blocking primitives with independent spans and tie breaks in the sort", "why_tests_cant": "Energy conservation must hold for every ray set; a test sees a few scenes and tolerates deviations.", "anchors": ["artist/raytracing/heliostat_ray_tracer.py:HeliostatRayTracer.trace_rays", "artist/raytracing/heliostat_ray_tracer.py:HeliostatRayTracer.bilinear_splatting", "artist/raytracing/heliostat_ray_tracer.py:HeliostatRayTracer.get_bitmaps_per_target"]}
{"id": "C88", "title": "An aligned flat mirror focuses on its aim point", "statement": "A flat mirror aligned for its mean surface point, traced without sun shape and blocking, produces a bitmap whose centre of mass, converted to target coordinates, is the aim point, up to the pixel shrink and the epsilon of the centre of mass; the bitmap holds all power.", "quantifier": "all sun positions, mirrors, aim points and planar targets such that all rays hit the area", "why_tests_cant": "Ties alignment, tracing, splatting and centre of mass together for all geometries; sign or axis slips cancel in symmetric test scenes.", "anchors": ["artist/raytracing/heliostat_ray_tracer.py:HeliostatRayTracer.trace_rays", "artist/flux/bitmap.py:get_center_of_mass", "artist/geometry/coordinates.py:bitmap_coordinates_to_target_coordinates", "artist/scene/rays.py:Rays"]}
{"id": "C89", "title": "Scattered rays stay unit length and close to the reflected direction", "statement": "Every scattered ray has unit length and deviates from the mirror reflection at its surface point by at most the sum of the two angles drawn for it; there is exactly one ray for each ray number and surface point.", "quantifier": "all distortions, surfaces and sun directions", "why_tests_cant": "All angles and directions.", "anchors": ["artist/raytracing/heliostat_ray_tracer.py:HeliostatRayTracer.scatter_rays", "artist/geometry/transforms.py:rotate_distortions"]}
{"id": "C90", "title": "Ideal facets are the rectangles given by their canting vectors", "statement": "The surface of an ideal heliostat consists, for every facet, of a strictly increasing grid of points inside the flat rectangle centred at the facet's translation with the canting vectors as half sides, and every surface normal is the upper unit normal of that rectangle.", "quantifier": "all numbers of control points, degrees, evaluation points, orthogonal canting vectors and translations", "why_tests_cant": "Control point generation, spline evaluation and facet placement must compose for every discretization and orientation.", "anchors": ["artist/scenario/surface_generator.py:SurfaceGenerator.generate_ideal_surface_config", "artist/nurbs/utils.py:create_planar_nurbs_control_points", "artist/field/surface.py:Surface.get_surface_points_and_normals"]}
{"id": "C91", "title": "A fitted facet is placed at its translation", "statement": "The surface loaded from a fitted surface configuration is the fitted facet moved once by its translation.", "quantifier": "all fitted control points, translations and canting vectors", "why_tests_cant": "Depends on special values of the fit that no measured data set shows.", "anchors": ["artist/scenario/surface_generator.py:SurfaceGenerator.generate_fitted_surface_config", "artist/field/surface.py:Surface.get_surface_points_and_normals"]}
{"id": "C92", "title": "A surface fit performs at most the maximum number of epochs", "statement": "A surface fit performs at most the given maximum number of optimizer steps and stops earlier only if the loss is within the tolerance.", "quantifier": "all losses, optimizers, tolerances and maxima", "why_tests_cant": "All loss histories.", "anchors": ["artist/scenario/surface_generator.py:SurfaceGenerator.fit_nurbs"]}
{"id": "C93", "title": "STRAL files are read back exactly and truncated ones rejected", "statement": "Reading a STRAL deflectometry file returns exactly the facet translations, canting vectors, points and normals that were written, and a file that breaks off anywhere is rejected.", "quantifier": "all surfaces (numbers of facets and points, all values) and all lengths at which the file may break off", "why_tests_cant": "A test reads one intact file; there are as many crash points as bytes, and unset memory often looks like plausible data.", "anchors": ["artist/io/stral_scenario_parser.py:extract_stral_deflectometry_data"]}
{"id": "C94", "title": "The focal spot loss is the distance of the focal spots", "statement": "The focal spot loss of each sample is the distance in space between the focal spots of prediction and ground truth on the sample's target area: never negative, zero exactly if the centres of mass agree, symmetric, with the triangle inequality; missing keyword arguments are refused.", "quantifier": "all towers, target area indices and non-negative bitmaps", "why_tests_cant": "Tests compare three numbers on one planar and one cylindrical area with bitmaps of one resolution.", "anchors": ["artist/optim/loss.py:FocalSpotLoss.__call__", "artist/geometry/coordinates.py:bitmap_coordinates_to_target_coordinates"]}
{"id": "C95", "title": "Cylindrical target areas are reconstructed from their corners", "statement": "Centre, axis and height of a cylindrical target area computed from the four corners, the radius, the opening angle and the normal in the tower file are those of the cylinder the corners lie on.", "quantifier": "all cylinders (centre, axis, normal, radius, height, opening angle)", "why_tests_cant": "Tests compare with numbers computed by the same formulas for one receiver.", "anchors": ["artist/io/paint_scenario_parser.py:extract_paint_tower_measurements"]}
{"id": "C96", "title": "Planar target areas contain their points", "statement": "The extent of a planar target area computed from its corners is such that exactly the points of the rectangle spanned by the corners count as hits.", "quantifier": "all rectangles and all points of their planes", "why_tests_cant": "Needs every orientation of the area; the areas in the test data all face north.", "anchors": ["artist/io/paint_scenario_parser.py:corner_points_to_plane", "artist/io/paint_scenario_parser.py:extract_paint_tower_measurements", "artist/raytracing/geometry.py:line_plane_intersections"]}
{"id": "C97", "title": "Every target area of a tower file is read", "statement": "Reading a tower file gives the position of the power plant and every target area listed, whatever the order of the members of the file.", "quantifier": "all tower files", "why_tests_cant": "Tests read one file in which the power plant comes first and only two types occur.", "anchors": ["artist/io/paint_scenario_parser.py:extract_paint_tower_measurements"]}
{"id": "C98", "title": "Heliostat and deflectometry files are read completely", "statement": "All facets, points and normals in PAINT heliostat and deflectometry files are returned in order and nothing else is returned as data; inconsistent counts are reported.", "quantifier": "all files, with any numbers of facets, points and normals", "why_tests_cant": "Test files are consistent, and unset memory may hold plausible values.", "anchors": ["artist/io/paint_scenario_parser.py:extract_paint_heliostat_properties", "artist/io/paint_scenario_parser.py:extract_paint_deflectometry_data"]}
{"id": "C99", "title": "Measured normals reflect the sun to the measured focal spots", "statement": "The normals the kinematics reconstruction compares with are, for every sample, the unit normals with which the heliostat of this sample reflects the incident rays of this sample to its measured focal spot.", "quantifier": "all positions, masks, focal spots and incident directions", "why_tests_cant": "Tests run whole reconstructions and compare final parameters.", "anchors": ["artist/optim/kinematics_reconstructor.py:KinematicsReconstructor._compute_measured_normals"]}
{"id": "C100", "title": "Updating surfaces without new control points changes nothing", "statement": "Updating the surfaces of the field from control points that were not changed leaves all surface points and normals as they were after loading.", "quantifier": "all heliostats, degrees, control points, cantings, translations and numbers of surface points", "why_tests_cant": "Tests update only surfaces of reconstructed groups with square grids.", "anchors": ["artist/field/heliostat_field.py:HeliostatField.update_surfaces", "artist/field/surface.py:Surface.get_surface_points_and_normals"]}
{"id": "C101", "title": "Aim point results belong to the stored motor positions", "statement": "The loss, the fractions of rays and the history returned by an aim point optimization are those of the motor positions it leaves in the scenario: the last epoch traced with exactly these positions, and all executed epochs are in the history.", "quantifier": "all numbers of epochs, stopping configurations, losses, initial positions and optimizer behaviours", "why_tests_cant": "Tests compare final loss values of two scenarios with stored results.", "anchors": ["artist/optim/aim_point_optimizer.py:AimPointOptimizer.optimize"]}
{"id": "C102", "title": "Reconstruction losses belong to the stored parameters", "statement": "The losses per heliostat returned by a reconstruction are the losses of the parameters left in the scenario.", "quantifier": "all numbers of epochs, stopping configurations, losses and optimizer behaviours", "why_tests_cant": "Tests compare the returned losses and the parameters with stored values, not with each other.", "anchors": ["artist/optim/kinematics_reconstructor.py:KinematicsReconstructor.reconstruct_kinematics", "artist/optim/surface_reconstructor.py:SurfaceReconstructor.reconstruct_surfaces"]}
{"id": "C103", "title": "Reported test losses belong to the stored parameters", "statement": "The test losses returned by a reconstruction are the losses on the test data of the parameters left in the scenario.", "quantifier": "all numbers of epochs, logging intervals, stopping configurations and optimizer behaviours", "why_tests_cant": "It depends on the remainder of the number of epochs by the logging interval and on when the run is stopped.", "anchors": ["artist/optim/kinematics_reconstructor.py:KinematicsReconstructor.reconstruct_kinematics", "artist/optim/surface_reconstructor.py:SurfaceReconstructor.reconstruct_surfaces"]}
{"id": "C104", "title": "Aim points can be optimized with every loss", "statement": "An aim point optimization runs to its end for every loss definition a user may pass.", "quantifier": "all loss definitions, configurations and scenarios", "why_tests_cant": "Tests use the losses they are written for; nothing shows that others work.", "anchors": ["artist/optim/aim_point_optimizer.py:AimPointOptimizer.optimize"]}
{"id": "C105", "title": "Gradients of different heliostat groups are kept apart", "statement": "In a distributed aim point optimization the motor positions of a heliostat group are changed with the gradient of this group, averaged over the ranks that work on it; gradients of other groups have no influence.", "quantifier": "all numbers of ranks and groups, group sizes and gradients", "why_tests_cant": "It depends on the order of collective operations on all ranks; tests run on one rank.", "anchors": ["artist/optim/aim_point_optimizer.py:AimPointOptimizer._synchronize_distributed_gradients"]}
{"id": "C106", "title": "Blocking uses the current alignment of all heliostats", "statement": "In every epoch of an aim point optimization, on every rank, rays are blocked by the mirrors of all heliostats as they are aligned in this epoch.", "quantifier": "all numbers of ranks and groups and all motor positions", "why_tests_cant": "Tests run on one rank.", "anchors": ["artist/optim/aim_point_optimizer.py:AimPointOptimizer._align_all_groups", "artist/raytracing/heliostat_ray_tracer.py:HeliostatRayTracer.__init__"]}
{"id": "C107", "title": "Tracing is reproducible", "statement": "Two ray tracers created with the same scenario, the same active heliostats, the same process layout and the same random seed produce the same per-heliostat results when tracing, no matter which random numbers were drawn before in the process.", "quantifier": "all suns, numbers of points and rays, masks of active heliostats, process layouts, batch sizes, seeds, prior generator states", "why_tests_cant": "tests run the tracer from few generator states", "anchors": ["artist/scene/sun.py:Sun.get_distortions", "artist/raytracing/sampling.py:DistortionsDataset", "artist/raytracing/heliostat_ray_tracer.py:HeliostatRayTracer.__init__"]}
{"id": "C108", "title": "Distributing the work does not change traced results", "statement": "The results a process computes for its heliostats during an optimization are the results a single process would compute for the same heliostats: using more processes only divides the work.", "quantifier": "all groups, numbers of processes, ranks and random generators", "why_tests_cant": "tests cannot run every distributed layout and rarely compare layouts with each other", "anchors": ["artist/raytracing/heliostat_ray_tracer.py:HeliostatRayTracer", "artist/optim/surface_reconstructor.py:SurfaceReconstructor._predict_flux", "artist/optim/aim_point_optimizer.py:AimPointOptimizer._trace_and_accumulate_flux"]}
{"id": "C109", "title": "A tracer follows changes of the numbers of rays and points", "statement": "After changing the number of rays of the scenario or the number of surface points, tracing with an existing ray tracer either uses the new numbers or is rejected; the traced power never changes silently.", "quantifier": "all numbers of rays and points before and after the change and all samples", "why_tests_cant": "tests set the numbers once, before creating the tracer", "anchors": ["artist/scenario/scenario.py:Scenario.set_number_of_rays", "artist/raytracing/heliostat_ray_tracer.py:HeliostatRayTracer.trace_rays", "artist/optim/surface_reconstructor.py:SurfaceReconstructor"]}
{"id": "C110", "title": "Regularizers compare each heliostat with itself", "statement": "During surface reconstruction the regularizers compare the present control points of each heliostat with the control points the same heliostat had before; every heliostat with samples is regularized by exactly one process of its group and no other heliostat is.", "quantifier": "all groups in which the trained heliostats have equally many samples, all test splits and all numbers of processes", "why_tests_cant": "tests use one or two heliostats and one process, where every indexing mistake picks the right row", "anchors": ["artist/optim/surface_reconstructor.py:SurfaceReconstructor._compute_regularization_terms", "artist/optim/surface_reconstructor.py:SurfaceReconstructor._create_evaluation_grid_and_reference_points", "artist/optim/surface_reconstructor.py:SurfaceReconstructor._predict_flux"]}
{"id": "C111", "title": "A changed number of control points describes the loaded surface", "statement": "After loading a scenario with a changed number of control points per facet, the surface points and normals of every heliostat are those of its (new) control points.", "quantifier": "all stored surfaces, new numbers of control points and numbers of surface points", "why_tests_cant": "tests only check shapes of the loaded control points", "anchors": ["artist/field/heliostat_field.py:HeliostatField.from_hdf5", "artist/nurbs/utils.py:create_planar_nurbs_control_points"]}
{"id": "C112", "title": "Counts and indices computed in floating point are exact", "statement": "The number of samples per heliostat, the number of surface points per facet after a surface update and the corner indices of mirrors, which the code computes through floating point divisions and square roots, are the exact integers; a test fraction below one always leaves training samples.", "quantifier": "all numbers of samples, heliostats, points and facets below about 2^48, all fractions representable in double precision", "why_tests_cant": "rounding errors show for few of very many numbers; tests try a handful", "anchors": ["artist/optim/training.py:train_test_split", "artist/field/heliostat_field.py:HeliostatField.update_surfaces", "artist/raytracing/blocking.py:create_blocking_primitives_rectangles_by_index"]}
{"id": "C113", "title": "Evaluation grids have knot spans in single precision", "statement": "In single precision every point of a surface evaluation grid lies in a knot span of the surface, for every number of points, number of control points and degree, so evaluating surfaces on grids never addresses control points out of range.", "quantifier": "all numbers of evaluation points and control points up to 2^24, all degrees, all single precision parameters below one", "why_tests_cant": "rounding to the end of the parameter range happens for few combinations; tests try a handful", "anchors": ["artist/nurbs/utils.py:create_nurbs_evaluation_grid", "artist/nurbs/surfaces.py:NURBSSurfaces.find_spans"]}
{"id": "C114", "title": "Splatting in single precision keeps intensities", "statement": "In single precision a ray contributes non-negative intensities to its four pixels, and together they are the intensity of the ray up to one part in two million.", "quantifier": "all single precision bitmap coordinates below 2^23 and all non-negative intensities", "why_tests_cant": "tests compare a few images with tolerances", "anchors": ["artist/raytracing/heliostat_ray_tracer.py:HeliostatRayTracer.bilinear_splatting"]}
{"id": "C115", "title": "Test losses come from the held-out samples of their own heliostat", "statement": "When a kinematics or surface reconstruction validates a group, the test loss of a heliostat is the reduction of the losses of exactly its held-out samples, each predicted from its own inputs (motor positions or aim point, sun direction, target) and compared with its own measured flux, on every rank and however heliostat groups are distributed among ranks.", "quantifier": "all activation masks, all test fractions, all predictions and measurements, all distributions of groups among ranks", "why_tests_cant": "A test runs one distribution with one mask; mixing up rows, or comparing with another heliostat's measurement, still returns plausible losses.", "anchors": ["artist/optim/kinematics_reconstructor.py: KinematicsReconstructor._validate", "artist/optim/surface_reconstructor.py: SurfaceReconstructor._validate", "artist/optim/training.py: train_test_split"]}
{"id": "C116", "title": "The learning rate follows the configured schedule", "statement": "An optimization that is given an initial learning rate and the parameters of a scheduler starts with that learning rate and changes it as configured: the exponential scheduler multiplies it by the factor once per epoch; the plateau scheduler only reduces it, never below the lower bound, and only after more epochs than the patience without improvement; the cyclic scheduler moves it up and down linearly between its bounds.", "quantifier": "all scheduler parameters, initial learning rates and sequences of losses of any length", "why_tests_cant": "a schedule depends on the whole history of losses; tests run a few epochs with one configuration and look at the final losses only", "anchors": ["artist/optim/training.py:exponential", "artist/optim/training.py:cyclic", "artist/optim/training.py:reduce_on_plateau", "artist/optim/kinematics_reconstructor.py:KinematicsReconstructor._reconstruct_kinematics_flux_driven", "artist/optim/surface_reconstructor.py:SurfaceReconstructor.reconstruct_surfaces"]}
{"id": "C117", "title": "Ranks sharing a heliostat group keep identical parameters", "statement": "Ranks that work on the same heliostat group and average their gradients hold the same parameters after every epoch, so that it does not matter which of them contributes the result of the group.", "quantifier": "all optimizers, gradients, losses, learning rate schedules, numbers of ranks and epochs", "why_tests_cant": "tests run in one process; whether ranks drift apart depends on losses that differ between ranks over many epochs", "anchors": ["artist/optim/kinematics_reconstructor.py:KinematicsReconstructor._reconstruct_kinematics_flux_driven", "artist/optim/surface_reconstructor.py:SurfaceReconstructor.reconstruct_surfaces", "artist/optim/training.py:reduce_on_plateau"]}
{"id": "C118", "title": "Processes of a distributed run share the work and the devices", "statement": "However a run is started, each heliostat group is worked on by one process if there are no more processes than groups, and processes on the same node use different GPUs as long as there are enough of them.", "quantifier": "all numbers of processes, nodes, GPUs and groups, requested devices, and outcomes of the rendezvous of the processes", "why_tests_cant": "tests start one process without a launcher; failed rendezvous and the numbering of processes by a launcher do not occur in them", "anchors": ["artist/util/env.py:initialize_ddp_environment", "artist/util/env.py:setup_distributed_environment", "artist/util/env.py:get_device"]}
{"id": "C119", "title": "Every configured heliostat is loaded", "statement": "The scenario loaded from a generated file has each heliostat of the configuration exactly once, or the configuration is rejected, and the number of heliostat groups in the file is the number of groups loaded.", "quantifier": "all configurations, including ones in which heliostats have equal names", "why_tests_cant": "tests configure heliostats with different names; what a second heliostat of the same name does depends on the whole path through dictionaries, file and loader", "anchors": ["artist/util/config.py:HeliostatListConfig.create_heliostat_list_dict", "artist/scenario/h5_scenario_generator.py:H5ScenarioGenerator.generate_scenario", "artist/scenario/scenario.py:Scenario.load_scenario_from_hdf5"]}
{"id": "C120", "title": "Samples without a usable gradient do no harm", "statement": "A calibration sample whose gradient is infinite or not a number has no influence on the reconstruction of the kinematics, and all other samples have the influence they would have without it.", "quantifier": "all numbers of samples, heliostats and ranks, all derivatives of the samples, all epochs", "why_tests_cant": "tests use calibration data with finite gradients; what one bad sample does to a parameter has to be followed through reductions, ranks and the state of the optimizer", "anchors": ["artist/optim/kinematics_reconstructor.py:KinematicsReconstructor._reconstruct_kinematics_alignment_driven", "artist/optim/kinematics_reconstructor.py:KinematicsReconstructor._reconstruct_kinematics_flux_driven", "artist/optim/kinematics_reconstructor.py:KinematicsReconstructor._compute_alignment_loss"]}
{"id": "C121", "title": "Results do not depend on where the scene lies", "statement": "If heliostats, target areas, aim points and blocking mirrors are all moved by the same vector, then, apart from rounding, aligning gives the same motor positions and orientations moved by that vector, and ray tracing gives the same bitmaps and the same fractions for every sample, with and without blocking.", "quantifier": "all scenes, samples, rays, blocking mirrors, kinematics parameters and vectors", "why_tests_cant": "tests use scenes at one place; an absolute coordinate anywhere in the kinematics, the intersection, the bounding boxes or the hierarchy would only show for scenes elsewhere", "anchors": ["artist/raytracing/heliostat_ray_tracer.py:HeliostatRayTracer.trace_rays", "artist/raytracing/blocking.py:lbvh_filter_blocking_planes", "artist/raytracing/blocking.py:soft_ray_blocking_mask", "artist/field/kinematics_rigid_body.py:RigidBody.incident_ray_directions_to_orientations"]}
{"id": "C122", "title": "Flux is proportional to irradiance and reflectivity", "statement": "Multiplying the direct normal irradiance or the reflectivity of the mirrors by a positive factor multiplies the flux in every pixel of every bitmap by that factor and leaves the intercept factors, on-target fractions and blocking fractions unchanged, with and without blocking.", "quantifier": "all scenes, samples, irradiances, reflectivities, extinction factors and positive factors", "why_tests_cant": "tests trace with one irradiance; whether the intensity enters anywhere other than as a factor has to be shown for every scene", "anchors": ["artist/raytracing/heliostat_ray_tracer.py:HeliostatRayTracer.__init__", "artist/raytracing/heliostat_ray_tracer.py:HeliostatRayTracer.trace_rays", "artist/raytracing/heliostat_ray_tracer.py:HeliostatRayTracer.bilinear_splatting"]}
{"id": "C123", "title": "The learning rate limits how far a training moves", "statement": "Whatever the gradients and losses are, no epoch of an optimization moves an entry of its parameters by more than eleven times the learning rate of that epoch; the first epoch moves it by the learning rate against the sign of its gradient; with an exponentially decreasing learning rate the parameters stay within a fixed distance of their start, however many epochs are run.", "quantifier": "all schedulers with valid parameters, all learning rates, all gradients and losses, all numbers of epochs", "why_tests_cant": "the moments of the optimizer depend on all earlier gradients; tests run a few epochs with the gradients of one scenario", "anchors": ["artist/optim/kinematics_reconstructor.py:KinematicsReconstructor._setup_optimizer_scheduler_early_stopping", "artist/optim/surface_reconstructor.py:SurfaceReconstructor._setup_optimizer_scheduler_early_stopping", "artist/optim/aim_point_optimizer.py:AimPointOptimizer.optimize", "artist/optim/training.py:cyclic"]}
{"id": "C124", "title": "A heliostat aligned to an aim point delivers its power there", "statement": "After activating heliostats of a group, aligning them with the sun and their aim points and tracing the aligned surfaces without blocking, the image of a flat heliostat before a large enough planar target area holds the power of all its rays, reduced only by extinction, reflectivity and the angle at which the rays meet the area; the focal spot read off the image is that of a point whose distance from the aim point is bounded by the accuracy of the alignment, the spread of the sun and the size of the mirror.", "quantifier": "all groups, masks, incident directions, aim points, kinematics that can turn to the required normals, flat surfaces, planar target areas that contain the bounded spot, bitmap resolutions, irradiances and sun shapes of bounded spread", "why_tests_cant": "activation, iterative alignment, ray tracing, splatting and the centre of mass are tested separately with golden values; that together they put the power at the aim point depends on every position, orientation, sun and target", "anchors": ["artist/field/heliostat_group.py:HeliostatGroup.activate_heliostats", "artist/field/heliostat_group.py:HeliostatGroup.align_surfaces_with_incident_ray_directions", "artist/field/kinematics_rigid_body.py:RigidBody.incident_ray_directions_to_orientations", "artist/raytracing/heliostat_ray_tracer.py:HeliostatRayTracer.trace_rays", "artist/flux/bitmap.py:get_center_of_mass"]}
{"id": "C125", "title": "Each row of a trace is its own heliostat's image on its own target area", "statement": "A call of trace_rays without blocking, on any number of ranks and with any batch size, returns one row per active sample on every rank. Exactly one rank writes the row of a sample, and that row is the image of the sample's own aligned surface under its own incident direction and its own distortions on the target area whose number was given for it, with planar areas numbered before cylindrical ones. A call that uses a target number that does not exist, or another mask than the one the heliostats were activated with, returns no result.", "quantifier": "all groups with equally often active heliostats, target areas, target numbers, incident directions, distortions, numbers of ranks and batch sizes", "why_tests_cant": "A test traces a few heliostats with one target area; the pairing of surfaces, directions, distortions and target areas must hold for every split into ranks and batches.", "anchors": ["artist/raytracing/heliostat_ray_tracer.py:HeliostatRayTracer.trace_rays", "artist/raytracing/heliostat_ray_tracer.py:HeliostatRayTracer.get_sampler_indices", "artist/raytracing/sampling.py:RestrictedDistributedSampler", "artist/raytracing/geometry.py:line_plane_intersections"]}
{"id": "C126", "title": "The weight of a violated constraint grows", "statement": "In an aim point optimization, and in a surface reconstruction, a constraint that stays violated is weighted more in every epoch, by at least the penalty factor times its violation; the term added to the loss is the weight times the violation plus half the penalty factor times its square. This holds for the loss of total flux, for the intercept factors of the heliostats, for the largest flux density and for the flux of every heliostat whose surface is reconstructed.", "quantifier": "all penalty factors and all histories of fluxes, intercept factors and flux integrals over any number of epochs", "why_tests_cant": "A test runs a few epochs of one optimization; the growth of the weights has to hold for every history, and depends on how violations of several heliostats and pixels are combined.", "anchors": ["artist/optim/aim_point_optimizer.py:AimPointOptimizer._compute_kl_constraints", "artist/optim/surface_reconstructor.py:SurfaceReconstructor._compute_flux_integral_constraint", "artist/optim/surface_reconstructor.py:SurfaceReconstructor.reconstruct_surfaces"]}
{"id": "C127", "title": "A fit uses every k-th measurement of its facet and starts flat over the measured extent", "statement": "Every facet of a fitted surface is the fit to every k-th of its own measured points and normals, cut to the number of the facet with the fewest. The fit starts from a flat surface around the origin that has a regular grid of control points over the extent of the used points; measurements farther east or north are compared with points of that surface that are farther east or north.", "quantifier": "all measurements with points in both directions, step sizes, numbers of control points and degrees, and all optimizers", "why_tests_cant": "A test fits one measured heliostat with one step size; which measurements enter and how they are assigned to points of the surface must hold for all sizes and orders of measurements.", "anchors": ["artist/scenario/surface_generator.py:SurfaceGenerator.fit_nurbs", "artist/scenario/surface_generator.py:SurfaceGenerator.generate_fitted_surface_config"]}
{"id": "C128", "title": "Ranks that share a group train its surfaces with their mean gradient", "statement": "When several ranks reconstruct the surfaces of one group, the control points after any number of epochs depend on the gradients of the ranks through their mean only: ranks with equal gradients train what a single rank trains, their order does not matter, and the first epoch moves every control point that is not locked by the learning rate against the mean gradient.", "quantifier": "all numbers of ranks, gradients, learning rates and numbers of epochs", "why_tests_cant": "A test has one or two processes and a few epochs; the claim is about all histories of gradients and all numbers of ranks.", "anchors": ["artist/optim/surface_reconstructor.py:SurfaceReconstructor._synchronize_and_lock_gradients", "artist/optim/surface_reconstructor.py:SurfaceReconstructor.lock_control_points_on_outer_edges"]}
{"id": "C129", "title": "The fit of a facet does not depend on the facets fitted before", "statement": "When a fitted surface is generated, the control points of every facet are those a fit to the measurements of this facet alone would give, although all facets (and all heliostats of a scenario) share one optimizer and one scheduler.", "quantifier": "all measurements, losses, optimizers, schedulers, tolerances, numbers of epochs and numbers of facets", "why_tests_cant": "The result of a facet depends on what the scheduler remembers of all earlier losses; tests compare one stored surface with one recorded result.", "anchors": ["artist/scenario/surface_generator.py:SurfaceGenerator.generate_fitted_surface_config", "artist/scenario/surface_generator.py:SurfaceGenerator.fit_nurbs"]}
{"id": "C130", "title": "The reconstruction of a heliostat only depends on its own measurements", "statement": "The kinematic parameters and the loss a reconstruction finds for a heliostat do not depend on which other heliostats are reconstructed with it or on their measurements.", "quantifier": "all groups, measurements, losses, gradients, learning rate schedules and numbers of epochs", "why_tests_cant": "It compares all possible companions of a heliostat over any number of epochs; a test can only compare two reconstructions.", "anchors": ["artist/optim/kinematics_reconstructor.py:KinematicsReconstructor.reconstruct_kinematics", "artist/optim/training.py:EarlyStopping"]}
{"id": "C131", "title": "Heliostats without measurements keep their parameters", "statement": "A reconstruction leaves the kinematic parameters and control points of all heliostats without measurements exactly as they were, however long the other heliostats of their group are trained.", "quantifier": "all groups, activation masks, losses, gradients, schedules and numbers of epochs", "why_tests_cant": "The optimizer steps over the parameters of the whole group in every epoch; that nothing moves must hold after any number of steps.", "anchors": ["artist/optim/kinematics_reconstructor.py:KinematicsReconstructor.reconstruct_kinematics", "artist/optim/surface_reconstructor.py:SurfaceReconstructor.reconstruct_surfaces"]}
{"id": "C132", "title": "An interrupted scenario generation is not mistaken for a complete scenario", "statement": "A scenario file that was left behind when the generation did not come to its end is never loaded as a scenario: loading it fails, and no heliostat is silently missing or silently built from prototype parts it does not have.", "quantifier": "all configurations and all points between two written datasets at which the generation ends", "why_tests_cant": "The file grows dataset by dataset and the generation can end after any of them, with any configuration; a test would have to interrupt every write of every configuration.", "anchors": ["artist/scenario/h5_scenario_generator.py:H5ScenarioGenerator.generate_scenario", "artist/scenario/h5_scenario_generator.py:H5ScenarioGenerator._include_parameters", "artist/scenario/scenario.py:Scenario.load_scenario_from_hdf5"]}
{"id": "C133", "title": "The order of listing does not matter for blocking", "statement": "Tracing a batch with blocking gives every sample the same bitmap and the same factors in whatever order the samples of the batch and the heliostats of the scenario are listed.", "quantifier": "all batches of samples, all lists of blocking mirrors and all their reorderings, all ways of sorting equal keys", "why_tests_cant": "The spatial hierarchy is built from sorted codes, and both the sort order and the numbering of the mirrors change with the listing; the claim compares whole runs over all permutations, and the order only matters in arrangements that no test scenario contains.", "anchors": ["artist/raytracing/blocking.py: compute_morton_codes, build_linear_bounding_volume_hierarchies, lbvh_filter_blocking_planes, soft_ray_blocking_mask", "artist/raytracing/heliostat_ray_tracer.py: HeliostatRayTracer.trace_rays"]}
{"id": "C134", "title": "A mirrored scene gives a mirrored image", "statement": "If east and west are exchanged in a scene (heliostat surfaces, sun direction, target area and the horizontal ray distortions), left and right are exchanged in the images of its samples, and the intercept, on-target and blocking fractions stay the same.", "quantifier": "all samples, surfaces, distortions, planar and cylindrical target areas, image sizes and blocked fractions", "why_tests_cant": "The claim relates two whole runs for every scene; a test compares a few symmetric scenes, and the power lost on one edge only shows for rays that end exactly on it.", "anchors": ["artist/raytracing/heliostat_ray_tracer.py: HeliostatRayTracer.trace_rays, scatter_rays, bilinear_splatting", "artist/raytracing/geometry.py: line_plane_intersections, line_cylinder_intersections"]}
{"id": "C135", "title": "Turning a scene about the vertical does not change the images", "statement": "If the whole scene (heliostat surfaces, sun direction and target area) is turned about the vertical, the images of its samples do not change.", "quantifier": "all samples, surfaces, distortions, planar and cylindrical target areas, image sizes and blocked fractions", "why_tests_cant": "The claim relates two whole runs for every scene and every orientation of the area; the test scenarios only contain areas that face north.", "anchors": ["artist/raytracing/heliostat_ray_tracer.py: HeliostatRayTracer.trace_rays, scatter_rays, bilinear_splatting", "artist/raytracing/geometry.py: line_plane_intersections, line_cylinder_intersections"]}
{"id": "C136", "title": "The shape of the sun spreads all reflected rays equally", "statement": "The angle between a reflected ray and the scattered ray depends on the angles drawn from the light source only, and not on the direction in which the ray was reflected, so that heliostats east, west and north of the tower see the same sun.", "quantifier": "all directions of reflected rays and all drawn angles", "why_tests_cant": "The scattering turns rays about fixed axes, and tests scatter rays in a few directions only; the claim compares all pairs of directions.", "anchors": ["artist/raytracing/heliostat_ray_tracer.py: HeliostatRayTracer.scatter_rays", "artist/geometry/transforms.py: rotate_distortions", "artist/scene/sun.py: Sun.get_distortions"]}
{"id": "C137", "title": "A study's test data are kept out of its training data", "statement": "When the selected measurements of a heliostat are split for the field optimization study, the training and the testing set have no measurement in common, the testing set holds the given fraction of the measurements rounded down, every calibration file keeps its own image, and each task uses at most as many measurements as its own limit.", "quantifier": "for every selection of heliostats and measurements, every limit and fraction between zero and one, and every order that the random generator picks", "why_tests_cant": "A test fixes the seed and a few files; whether the sets overlap must hold for every shuffle and every number of measurements, and the scripts under examples/ have no tests.", "anchors": ["examples/field_optimizations/generate_viable_heliostats_list.py:split_single_heliostat_all_tasks", "examples/field_optimizations/generate_viable_heliostats_list.py:create_heliostat_data_mappings"]}
{"id": "C138", "title": "The measurements closest to a date are selected", "statement": "The selection of calibration data lists, for every heliostat that is not excluded and, if heliostats are named, is one of them, at most the given number of measurements: those closest to the given date whose calibration file and both images exist, closest first; heliostats with no such measurement are not listed, the names are in order; and if heliostats are named only measurements of the given day are used.", "quantifier": "for every metadata table, every set of files, every date, limit and list of names, and every sorting that orders rows of equal distance in any way", "why_tests_cant": "The result depends on which files exist and on ties between dates; a test checks a few tables.", "anchors": ["examples/field_optimizations/generate_viable_heliostats_list.py:find_calibration_data"]}
{"id": "C139", "title": "The list of viable heliostats for the reconstruction study", "statement": "The list holds the first heliostats by name, at most the given maximum, that are not excluded and have at least the given number of calibration files with centroids of both methods and an image; each is listed with exactly that many files, the first by name.", "quantifier": "for every data directory, every minimum and maximum, and every list of excluded heliostats", "why_tests_cant": "The loop stops in the middle of the directory; that neither a heliostat is missed nor one too many is listed must hold for every directory.", "anchors": ["examples/paint_plots/reconstruction_generate_viable_heliostats_list.py:find_viable_heliostats"]}
{"id": "C140", "title": "Studies do not overwrite each other", "statement": "A new field optimization study takes a number that no results file stands for, and neither it nor another study started at any time changes a file of an earlier one.", "quantifier": "for every content of the results directory, every name of a file in it, every point at which a study is stopped, and every pair of studies that run one after the other or at the same time", "why_tests_cant": "Which files exist and when another study looks at them is outside a test's control; numbers without bound and interleavings are not enumerable.", "anchors": ["examples/field_optimizations/generate_results.py:get_incremented_path_number", "examples/field_optimizations/generate_results.py:main", "examples/field_optimizations/generate_results.py:full_field_optimizations", "examples/field_optimizations/generate_results.py:save_heliostat_model"]}
{"id": "C141", "title": "A stopped study goes on where it stopped", "statement": "A field optimization study that was stopped and is started again takes the reconstructions that were finished from their files, computes the others from its own data, and ends with the results of a study that was not stopped.", "quantifier": "for every point at which the study is stopped, every content of the directories before, and every data of the study", "why_tests_cant": "Crash points and the files left by earlier runs are not enumerable by tests, and a run takes hours.", "anchors": ["examples/field_optimizations/generate_results.py:full_field_optimizations", "examples/field_optimizations/generate_results.py:main", "examples/field_optimizations/generate_results.py:get_incremented_path_number"]}
{"id": "C142", "title": "Evaluation data belong to the measurement they stand beside", "statement": "The data collected to evaluate a reconstruction hold, for every heliostat and each of its calibration measurements, the measured image of that measurement, its target area and the image that is traced for it, however many ranks evaluate a heliostat group, and no entry for heliostats without measurements.", "quantifier": "all heliostat groups, activation masks, calibration mappings, sample limits, numbers of ranks and batch sizes", "why_tests_cant": "The slices depend on the counts of all heliostats before, and rows are written by different ranks; tests run on one rank with few measurements.", "anchors": ["examples/field_optimizations/generate_results.py: kinematics_evaluation, surface_evaluation, create_deflectometry_fluxes", "artist/raytracing/heliostat_ray_tracer.py: HeliostatRayTracer.trace_rays", "artist/io/paint_calibration_parser.py: PaintCalibrationDataParser.parse_data_for_reconstruction"]}
{"id": "C143", "title": "Predicted fluxes are stored under their own heliostat", "statement": "When flux images are predicted for a list of heliostats, the image and the surface stored under a name are those of the heliostat with that name, in whatever order the heliostats are listed.", "quantifier": "all scenarios, orders and selections of heliostats, and earlier contents of the results file", "why_tests_cant": "The order of the names in a configuration file and in a scenario agree in the shipped example; a test with another order is one of arbitrarily many.", "anchors": ["examples/paint_plots/flux_prediction_raytracing.py: generate_flux_images, align_and_trace_rays"]}
{"id": "C144", "title": "Undoing the canting of a facet restores it", "statement": "Undoing the canting and translation of a facet gives back the points and normals that the facet had before it was canted, for all canting vectors that span a facet.", "quantifier": "all canting vectors, translations, points and normals", "why_tests_cant": "The vectors are continuous; examples with perpendicular canting vectors cannot show what happens for others.", "anchors": ["examples/paint_plots/flux_prediction_raytracing.py: perform_inverse_canting_and_translation", "artist/geometry/transforms.py: perform_canting"]}
{"id": "C145", "title": "Exported STRAL files hold the heliostat they are named after", "statement": "The STRAL file exported for a heliostat holds the facets of that heliostat: reading it gives back their translations, canting vectors, points and normals, and the power coefficients of its points add up to its mirror area.", "quantifier": "all fields, numbers of groups, heliostats, facets and points, and all values of single precision", "why_tests_cant": "The round trip ranges over all byte strings that can be written and the sum over all sizes; a test writes one file.", "anchors": ["examples/field_optimizations/generate_stral_inputs.py: save_binp_from_artist_data", "examples/field_optimizations/generate_results.py: save_heliostat_model", "artist/io/stral_scenario_parser.py: extract_stral_deflectometry_data"]}
{"id": "C146", "title": "The stored run information belongs to the study", "statement": "The run information stored with the results of a study holds the number and the number of heliostats of that study and its runtimes, whatever earlier studies wrote to the log.", "quantifier": "all earlier logs, all numbers of studies and heliostats, all settings and durations, all moments at which another study starts", "why_tests_cant": "A test would need the log of a whole study; that the searched function name exists nowhere and that logs are shared between studies only shows when all logs are considered.", "anchors": ["examples/field_optimizations/generate_results.py:parse_runtimes", "examples/field_optimizations/generate_results.py:main", "artist/util/__init__.py:track_runtime"]}
{"id": "C147", "title": "Tracking runtimes does not interfere and shows where a run broke off", "statement": "A tracked function returns what the function itself returns, raises when it raises, and the log shows exactly which tracked functions were running when an exception ended the run, and the durations of all functions that returned, in their order.", "quantifier": "all trees of calls of tracked functions, all results, all points at which an exception is raised", "why_tests_cant": "Tests try one function that returns; nesting and exceptions at every possible point cannot be enumerated.", "anchors": ["artist/util/__init__.py:track_runtime"]}
{"id": "C148", "title": "Reconstruction results are stored under their own heliostat", "statement": "The results of the kinematics reconstruction hold under the name of every heliostat its position and, for both ways of finding focal spots, the loss that was reported for this heliostat.", "quantifier": "all fields with any number of heliostat groups of any sizes, all measurements, losses and numbers of ranks up to the number of groups", "why_tests_cant": "The tests use one group; that indices are counted per group only shows with several groups of arbitrary sizes.", "anchors": ["examples/paint_plots/reconstruction_generate_results.py: generate_reconstruction_results", "artist/optim/kinematics_reconstructor.py: KinematicsReconstructor.reconstruct_kinematics"]}
{"id": "C149", "title": "Surfaces reconstructed in batches are trained exactly once", "statement": "If the surfaces of a field are reconstructed in batches of heliostats, every heliostat with data is trained in exactly one batch, starting from its initial control points, no other batch changes it, and heliostats without data keep their surfaces.", "quantifier": "all batch sizes, numbers of heliostats, data, training histories and initial control points", "why_tests_cant": "The loop over batches runs for hours in a study; that optimizers of other batches leave a heliostat alone must hold for every history of gradients and learning rates.", "anchors": ["examples/field_optimizations/generate_results.py: full_field_optimizations", "artist/optim/surface_reconstructor.py: SurfaceReconstructor.reconstruct_surfaces"]}
{"id": "C150", "title": "A mirror in the way of a ray blocks it", "statement": "A ray that crosses the inside of another heliostat's mirror on its way to the target is reported as blocked when ray blocking is enabled, however many heliostats the field has and wherever they stand, with a value bounded below by how far inside the mirror the crossing lies.", "quantifier": "all fields of heliostats, batches of rays, sorting implementations and crossings", "why_tests_cant": "Whether a blocking mirror is considered depends on a tree built from all mirrors of the field; tests use one small field, the loss appears only for certain arrangements.", "anchors": ["artist/raytracing/heliostat_ray_tracer.py: HeliostatRayTracer.trace_rays", "artist/raytracing/blocking.py: lbvh_filter_blocking_planes, build_linear_bounding_volume_hierarchies, soft_ray_blocking_mask"]}
{"id": "C151", "title": "Scenarios are fitted to the latest deflectometry measurement", "statement": "If a heliostat's deflectometry directory holds measurements named by their time as in the PAINT database, the scenario generation of both studies fits the heliostat to the latest of them; the field study leaves out exactly the heliostats without measurements and keeps the order of the others, the flux prediction study fails exactly if some heliostat has none.", "quantifier": "all heliostat names, directories, times of measurements and lists of heliostats", "why_tests_cant": "The latest file is found by sorting names as text; that this is the order of time must hold for every pair of times, tests use one file.", "anchors": ["examples/field_optimizations/generate_scenarios.py: find_latest_deflectometry_file", "examples/paint_plots/flux_prediction_scenario.py: find_latest_deflectometry_file"]}
{"id": "C152", "title": "Trained surfaces face the front", "statement": "A surface whose control points start as a grid in the plane of its facet faces the front after every training: at every evaluation point its normal points up from the plane of the facet, so that it reflects on its front side.", "quantifier": "all numbers of control points, degrees, evaluation points, heights of control points, histories of gradients and learning rates", "why_tests_cant": "Normals come from a spline over all control points and the control points from any number of training steps; a test evaluates one surface after a few epochs.", "anchors": ["artist/nurbs/surfaces.py: NURBSSurfaces.calculate_surface_points_and_normals", "artist/optim/surface_reconstructor.py: SurfaceReconstructor.reconstruct_surfaces", "artist/nurbs/utils.py: create_planar_nurbs_control_points"]}
{"id": "C153", "title": "A control point shapes the surface only around itself", "statement": "Changing one control point of a surface leaves all surface points and normals unchanged at parameters outside the degree plus one spans that belong to the control point. Inside, every surface point moves along with the control point, by a share between 0 and 1 that depends on the parameters only and is positive. If all control points move, no surface point moves further than the control points do.", "quantifier": "all surfaces with any numbers of control points and degrees, all control points and displacements, all parameters between 0 and 1", "why_tests_cant": "Tests evaluate given surfaces; that a reconstruction cannot disturb the mirror elsewhere must hold for every net, control point and parameter.", "anchors": ["artist/nurbs/surfaces.py:NURBSSurfaces.calculate_surface_points_and_normals", "artist/nurbs/surfaces.py:NURBSSurfaces.basis_functions_and_derivatives"]}
{"id": "C154", "title": "A misaligned mirror misses by at most twice its error", "statement": "If the normal of a mirror is off by an angle, the reflected rays are turned by at most twice that angle, and by exactly twice the angle if the incident ray lies in the plane of the two normals. Errors of the two joint angles and of the four tilt angles of the kinematics add up at worst to the error of the normals. On a planar target area the hit moves by no more than the distance times the change of the ray direction, plus the shift of the origin, both stretched by the slant of the ray, and in the bitmap by as much in pixels.", "quantifier": "all incident rays, normals, kinematics parameters, motor positions, planar target areas and bitmap resolutions", "why_tests_cant": "Tests compare images of a few alignments; a bound for the effect of an error must hold for every alignment, error and target.", "anchors": ["artist/raytracing/geometry.py:reflect", "artist/raytracing/geometry.py:line_plane_intersections", "artist/field/kinematics_rigid_body.py:RigidBody.motor_positions_to_orientations"]}
{"id": "C155", "title": "Losses never brighten a pixel", "statement": "When the same samples are traced with blocking instead of without, with more atmospheric extinction, with less reflectivity or with further mirrors in the field, no pixel of any flux image gets brighter, the share of rays that reach the target area stays the same, and the share that delivers flux does not grow.", "quantifier": "every batch of samples, target area, field of mirrors, resolution, extinction, reflectivity and pair of runs that differ in losses only", "why_tests_cant": "Tests look at totals of a few images; a comparison pixel by pixel has to hold for every scene, hit position and combination of losses, and further mirrors change the hierarchy in ways a test scene does not show.", "anchors": ["artist/raytracing/heliostat_ray_tracer.py:HeliostatRayTracer.trace_rays", "artist/raytracing/heliostat_ray_tracer.py:HeliostatRayTracer.bilinear_splatting", "artist/raytracing/blocking.py:soft_ray_blocking_mask", "artist/raytracing/blocking.py:lbvh_filter_blocking_planes"]}
{"id": "C156", "title": "Focal spots move no further than their rays", "statement": "If the rays of an image stay on the target area and each moves by at most some distance, keeping its power, the focal spot measured in the image moves by at most this distance. Changes of the powers move it further by at most the changed share of the power times the size of the area. For a whole mirror, errors of the joint angles therefore move the focal spot by at most the displacement of the mirror, stretched by the slant of the rays, plus twice the joint errors times the sum of the distance and the size of the area, over the cosine of the angle of incidence.", "quantifier": "all images, sets of rays, powers, planar target areas, kinematics parameters, motor positions and mirrors whose rays arrive on the area", "why_tests_cant": "The bound has to hold for every set of rays and every error; tests compare a few focal spots with stored values.", "anchors": ["artist/flux/bitmap.py:get_center_of_mass", "artist/raytracing/heliostat_ray_tracer.py:HeliostatRayTracer.bilinear_splatting", "artist/raytracing/geometry.py:line_plane_intersections", "artist/geometry/coordinates.py:bitmap_coordinates_to_target_coordinates", "artist/field/kinematics_rigid_body.py:RigidBody.motor_positions_to_orientations"]}
