{
 "claims": [
  {
   "property": "C01",
   "status": "proved",
   "theorems": [
    "C01_sampler_exact_partition",
    "C01_tracer_exact_partition"
   ],
   "note": "With [per] samples for each of [active] heliostats, the ranks' samples are a partition of all sample indices; in particular two ranks never share a sample. The same through the activation mask the ray tracer is given: every active heliostat has the same number of samples."
  },
  {
   "property": "C02",
   "status": "proved",
   "theorems": [
    "C02_heliostat_locality_and_balance"
   ],
   "note": "Samples of one heliostat [h] are [h*per .. h*per+per-1]; they are all on one rank, each rank's list is increasing, the load of working ranks differs by at most one heliostat and ranks beyond the number of active heliostats are idle."
  },
  {
   "property": "C03",
   "status": "partial",
   "theorems": [
    "C03_uneven_masks_refuted",
    "C03_uneven_masks_partial"
   ],
   "note": "Fails of the code as modelled: for every mask the samples of all ranks are an exact partition of all activated samples. Refuted: masks [1;2] on one rank lose a sample. Proved: What holds for every mask: exactly the last [sum mod active] samples are lost, so that the trace is complete if and only if the number of active heliostats divides the number of samples."
  },
  {
   "property": "C04",
   "status": "proved",
   "theorems": [
    "C04_groups_distribution"
   ],
   "note": "Proved as stated."
  },
  {
   "property": "C05",
   "status": "proved",
   "theorems": [
    "C05_nested_subgroups_consistent",
    "C05_nested_ranks_complete",
    "C05_nested_run_traces_everything_once"
   ],
   "note": "The ranks within the subgroup are exactly [0..size-1]: every number below the size is taken. Composition of C04 and C05 with C01: in a nested run, every sample of a group is traced by exactly one of the ranks working on that group."
  },
  {
   "property": "C06",
   "status": "proved",
   "theorems": [
    "C06_index_mapping_faithful"
   ],
   "note": "[rows] are the samples in activation order (heliostat [i] repeated [mask_i] times): their targets and directions are the returned ones, for each heliostat of the group they are its entries of the mapping in order, and there are no others."
  },
  {
   "property": "C07",
   "status": "partial",
   "theorems": [
    "C07_default_index_refuted",
    "C07_foreign_entries_refuted",
    "C07_index_mapping_rejects_partial"
   ],
   "note": "Fails of the code as modelled: every malformed request is rejected with an error. A negative default target index is accepted, so the full statement is false. Entries for heliostats of other groups are not checked either. Proved: What holds: the exact acceptance conditions. Missing relative to C07: negative default indices and entries naming heliostats outside the group."
  },
  {
   "property": "C08",
   "status": "partial",
   "theorems": [
    "C08_activation_alignment_refuted",
    "C08_empty_activation_refuted",
    "C08_activation_alignment_partial",
    "C08_activation_succeeds"
   ],
   "note": "Fails of the code as modelled: after any history of activations, every active tensor is the selection of the base rows by one common owner list given by the last mask. In every group and every history: after an activation that selects no heliostat, a later activation that selects some leaves the optimizable actuator parameters empty. Proved: What holds for all histories: all tensors except the optimizable actuator parameters are aligned; the optimizable ones are aligned too if no earlier activation was empty. Also: Activation with a mask of the right length never fails."
  },
  {
   "property": "C09",
   "status": "proved",
   "theorems": [
    "C09_split_partition",
    "C09_fraction_admissible"
   ],
   "note": "[test_of_count n] is [int(n * test_fraction)]. [int(n * f)] for a real fraction [f] in [0,1) is an admissible test count."
  },
  {
   "property": "C10",
   "status": "proved",
   "theorems": [
    "C10_early_stopping"
   ],
   "note": "After any history of losses the stop decision is taken exactly when each of the last [patience] prefixes of the history fills a window without sufficient improvement, hence never before [window_size + patience - 1] steps."
  },
  {
   "property": "C11",
   "status": "partial",
   "theorems": [
    "C11_aim_point_loop",
    "C11_reconstruction_history_refuted",
    "C11_reconstruction_loop_partial",
    "C11_early_stop_exact"
   ],
   "note": "Fails of the code as modelled: for the reconstructors: the full statement about the history is false, the loss of the epoch that triggers early stopping is not recorded. Proved: Everything else holds, and only that one loss is missing. Also: for the aim point optimizer: it finishes after between one and [max_epoch + 1] epochs, no earlier epoch's loss was at or below the tolerance, it ends for one of the three reasons, and the history holds the losses of all executed epochs in order. The loop stops early exactly in the first epoch in which the C10 condition holds."
  },
  {
   "property": "C12",
   "status": "proved",
   "theorems": [
    "C12_splatting_conserves_power"
   ],
   "note": "Splatting any list of rays (with the non-negative bitmap coordinates the intersection code produces) never fails, the pixel sum is the total intensity of the rays inside the grid, and pixels are non-negative if intensities are."
  },
  {
   "property": "C13",
   "status": "proved",
   "theorems": [
    "C13_splatting_pixel_values",
    "C13_single_ray_placement"
   ],
   "note": "The pixel values are given by the bilinear hat weights of the rays inside the grid; pixel [r] rows above the bottom is row [height-1-r] of the returned image (rows are top-down). A single ray inside the grid: only adjacent pixels, shares between zero and the intensity, mean position equal to the hit position."
  },
  {
   "property": "C14",
   "status": "partial",
   "theorems": [
    "C14_border_rays_refuted",
    "C14_area_power_partial"
   ],
   "note": "Fails of the code as modelled: The full claim is false: a ray on the west or the upper border of the area is lost, whatever the area and the resolution. Proved: What holds: rays hitting the area without those two borders contribute exactly their power."
  },
  {
   "property": "C15",
   "status": "proved",
   "theorems": [
    "C15_bitmaps_per_target"
   ],
   "note": "Each target's bitmap is the sum over exactly the heliostats aimed at it, all targets together hold what all heliostats hold, and untouched targets are zero."
  },
  {
   "property": "C16",
   "status": "proved",
   "theorems": [
    "C16_expand_bits"
   ],
   "note": "Bit expansion: bit [k] of an integer in 0..1023 goes to bit [3k], all other bits are zero; any other integer is rejected."
  },
  {
   "property": "C17",
   "status": "proved",
   "theorems": [
    "C17_morton_codes"
   ],
   "note": "Morton codes of any non-empty set of centroids fit in 30 bits, interleave the cell coordinates and are equal exactly for centroids in the same cell."
  },
  {
   "property": "C18",
   "status": "proved",
   "theorems": [
    "C18_longest_common_prefix",
    "C18_unique"
   ],
   "note": "Prefix length of two positions of a code list. The specification determines the length."
  },
  {
   "property": "C19",
   "status": "partial",
   "theorems": [
    "C19_hierarchy_complete_refuted",
    "C19_unbalanced_root_refuted",
    "C19_hierarchy_complete_partial",
    "C19_power_of_two_clusters_partial",
    "C19_five_mirrors_partial"
   ],
   "note": "Fails of the code as modelled: The full claim is false: for seven mirrors with different, sorted Morton codes the root does not reach every leaf. (The split search starts at half the range and halves with rounding down, so it cannot land on every position.) The same for every set of codes: if the numbers of codes that continue with 0 and with 1 after the bits common to all codes cannot be found by halving, the root does not reach every leaf, for example for three and three codes. Proved: What holds: no code three times, and halving finds every split. This includes all code lists whose clusters have 2^k or 2^k+1 members ... ... and every set of at most five mirrors."
  },
  {
   "property": "C20",
   "status": "partial",
   "theorems": [
    "C20_termination_refuted",
    "C20_construction_terminates",
    "C20_depth_partial"
   ],
   "note": "Fails of the code as modelled: The full claim is false: with three centroids in one cell the depth computation runs forever, for every amount of fuel. Proved: The depth computation ends after at most [2n-1] steps if the children form a tree, and the result is the number of levels. Also: Construction itself always ends ([node_fuel] is never used up), whatever the codes and their order."
  },
  {
   "property": "C21",
   "status": "partial",
   "theorems": [
    "C21_filter_exact_partial",
    "C21_filter_complete_refuted",
    "C21_unbalanced_root_refuted",
    "C21_five_mirrors",
    "C21_boxes_tight"
   ],
   "note": "Fails of the code as modelled: Without the assumption on the hierarchy it is false: a mirror in the way is dropped. In general: if halving cannot find the split at the root, no mirror whose code continues with 1 is ever returned, whatever the rays. Proved: In a well-formed hierarchy the filter returns exactly the primitives whose own box is met by a ray of another heliostat; the traversal stays within its stack of the measured depth (an overflow would be a [FilterError]). Also: For at most five mirrors with no three in one cell no assumption on the hierarchy is needed. The boxes of a well-formed hierarchy are tight."
  },
  {
   "property": "C22",
   "status": "proved",
   "theorems": [
    "C22_box_test_exact",
    "C22_box_test_monotone"
   ],
   "note": "The box test accepts exactly the boxes met by the ray; for target distances above 1e-6 that is: some point of the ray with parameter in (1e-6, target distance] is inside the box. Larger boxes stay accepted."
  },
  {
   "property": "C23",
   "status": "proved",
   "theorems": [
    "C23_soft_blocking_fraction",
    "C23_monotone",
    "C23_degenerate_not_a_number"
   ],
   "note": "Considering more primitives strictly increases the value; the order does not matter. Without the assumption the value may be undefined: a primitive shrunk to a point gives NaN for every ray."
  },
  {
   "property": "C24",
   "status": "partial",
   "theorems": [
    "C24_blocking_before_target_refuted",
    "C24_unmet_primitives_partial"
   ],
   "note": "Fails of the code as modelled: The full claim is false: the mask ignores the distance of the target, so a mirror lying wholly behind the target of a ray takes at least three quarters of its power as soon as another ray of the batch meets it. Proved: What holds: the values depend only on primitives whose box some ray of another heliostat in the batch meets before its own target."
  },
  {
   "property": "C25",
   "status": "partial",
   "theorems": [
    "C25_own_mirror_skipped_refuted",
    "C25_own_mirror_excluded_refuted",
    "C25_own_mirror_applied_refuted",
    "C25_first_group_partial",
    "C25_own_mirror_negligible_partial",
    "C25_only_own_mirror_partial"
   ],
   "note": "Fails of the code as modelled: The full claim is false in two ways. First, in all but the first group the skipped primitive belongs to a heliostat of another group (the position of the group in the field is not added). Second, the primitives found for the batch are applied to all its rays, so the own mirror of a ray is used against it when another ray meets that mirror. In general: in every field whose hierarchy reaches each mirror once, the own mirror of a ray is applied to it as soon as a ray of another heliostat in the batch meets that mirror, and takes away at least what it would take away on its own. Proved: What holds: in the first group, without repeated heliostats, the skipped primitive is the own one. And the own mirror, where it is applied, takes at most 1e-13 from rays starting in its plane. A mirror does not block its own rays: if the rays of a batch meet the boxes of no other mirrors than that of their own heliostat, tracing with blocking gives what tracing without blocking gives."
  },
  {
   "property": "C26",
   "status": "proved",
   "theorems": [
    "C26_hit_position",
    "C26_miss",
    "C26_bounds",
    "C26_single_column_accepts_all"
   ],
   "note": "With a single column every ray facing the plane at the height of the area counts as a hit, however far away."
  },
  {
   "property": "C27",
   "status": "partial",
   "theorems": [
    "C27_no_hit_behind_refuted",
    "C27_front_hits_forward_partial"
   ],
   "note": "Fails of the code as modelled: The full claim is false: whenever the area lies behind the origin of a ray, which never comes to it, the ray deposits the same power as if the area was in front. Proved: What holds: a ray starting in front of the plane hits only forwards, and a ray leaving the front deposits nothing."
  },
  {
   "property": "C28",
   "status": "partial",
   "theorems": [
    "C28_hit_geometry_partial",
    "C28_front_side",
    "C28_opening_angle_refuted",
    "C28_wide_opening_refuted",
    "C28_any_opening_partial",
    "C28_north_opening_partial"
   ],
   "note": "Fails of the code as modelled: The opening angle is measured wrongly unless the normal points north. With the normal at [psi] on a map, counted from the east, no ray is ever counted on the centre line of a cylinder turned away from north by more than half its opening. Even facing north, the part of a cylinder more than a quarter turn to one side of its normal is never hit. Proved:  What holds for every direction of the normal: the accepted sector has the right size but is turned by the angle between the normal and north. What holds: for a normal pointing north and at most half a turn, exactly the opening angle is accepted and the column is linear in the angle. Also: Of the two sides of the cylinder, a ray from outside takes the one where it enters."
  },
  {
   "property": "C29",
   "status": "proved",
   "theorems": [
    "C29_law_of_reflection"
   ],
   "note": "Proved as stated."
  },
  {
   "property": "C30",
   "status": "proved",
   "theorems": [
    "C30_rigid",
    "C30_axes",
    "C30_additive",
    "C30_distortion",
    "C30_translation",
    "C30_translation_batch"
   ],
   "note": "Each axis stays where it is. A distortion tilts a ray first about the up axis, then about the east axis. Batches of distortions and translations: one matrix per entry, and a rejection of differing lengths."
  },
  {
   "property": "C31",
   "status": "partial",
   "theorems": [
    "C31_north_refuted",
    "C31_directions_partial"
   ],
   "note": "Fails of the code as modelled: The full claim is false: the rotation about the north axis turns clockwise. Proved: What holds: east and up turn counterclockwise, north turns by the opposite angle."
  },
  {
   "property": "C32",
   "status": "proved",
   "theorems": [
    "C32_canting"
   ],
   "note": "Canting vectors that are not (nearly) parallel."
  },
  {
   "property": "C33",
   "status": "proved",
   "theorems": [
    "C33_rotation_between",
    "C33_directions_only",
    "C33_rotation_vector"
   ],
   "note": "Lengths do not matter. The rotation vector: its length is the angle, its direction the axis."
  },
  {
   "property": "C34",
   "status": "proved",
   "theorems": [
    "C34_motor_roundtrip",
    "C34_angle_roundtrip",
    "C34_angle_roundtrip_any_start",
    "C34_ideal"
   ],
   "note": "motor positions to angles and back. angles to motor positions and back: the joint angle is the initial one plus the turn from the triangle's angle [f0] at motor position zero to its angle [f] at stroke [s]. Also when the initial stroke is out of reach: then it counts as the nearest reachable one."
  },
  {
   "property": "C35",
   "status": "proved",
   "theorems": [
    "C35_physical",
    "C35_values_kept",
    "C35_defined",
    "C35_monotone",
    "C35_strictly_monotone",
    "C35_start",
    "C35_stroke_limits"
   ],
   "note": "for all raw parameters. Ordinary values are kept up to the margin, and no value gets smaller. Both conversions give a number, never NaN, for all inputs."
  },
  {
   "property": "C36",
   "status": "proved",
   "theorems": [
    "C36_orientation_rigid",
    "C36_alignment_rigid",
    "C36_surfaces_moved",
    "C36_mirror_normal",
    "C36_chain"
   ],
   "note": "the orientation for any motor positions is a rigid motion, so are those of the alignment with rays, ... ... and aligning moves exactly the surface points and normals of heliostat [i] with its own orientation. The surface, described lying flat, ends up facing where the kinematics points the mirror. Where every point of the surface goes: through the chain of shifts and turns of the mount."
  },
  {
   "property": "C37",
   "status": "proved",
   "theorems": [
    "C37_inverse_reaches",
    "C37_reachable"
   ],
   "note": "for a reachable normal the motor positions stand for joint angles that point the mirror at it, up to the epsilons of the code; the error is smaller by orders of magnitude away from the first axis. Which normals are reachable: those far enough from the first axis for the tilt between the axes."
  },
  {
   "property": "C38",
   "status": "proved",
   "theorems": [
    "C38_selection",
    "C38_all_solutions",
    "C38_reported"
   ],
   "note": "the first solution within the limits is taken; the rows outside the limits are those reported. The two solutions considered are all there are: any joint angles that point the mirror at the normal agree in the second angle (its side and, up to the epsilon, its sine) with one of them, which points there too."
  },
  {
   "property": "C39",
   "status": "proved",
   "theorems": [
    "C39_bisector",
    "C39_aligned_reflects",
    "C39_translations"
   ],
   "note": "the requested normal is the bisector, ... ... and without translation deviations the aligned mirror sends the incident ray to the aim point. With translation deviations the concentrator moves on an arm about the first joint. The mirror then sends the ray to the aim point up to the angle under which the aim point sees the arm."
  },
  {
   "property": "C40",
   "status": "partial",
   "theorems": [
    "C40_stored_motors_refuted",
    "C40_single_iteration_refuted",
    "C40_stored_motors_partial",
    "C40_rounds",
    "C40_no_translations_partial",
    "C40_defined"
   ],
   "note": "Fails of the code as modelled: fails: with one iteration the orientation belongs to the motor positions before the only step. In general: with one iteration the orientations are those of motor positions zero, whatever the incident rays and the aim points are. Proved: In general: either the pairs agree, or the iterations ran out and the motor positions are one step ahead. They agree for every heliostat without translation deviations once there are two iterations. Also: The number of rounds: the first one after which the misalignment of no heliostat of the batch has changed by more than the tolerance, or all of them. Without iterations the call fails; with some it does not."
  },
  {
   "property": "C41",
   "status": "partial",
   "theorems": [
    "C41_align_twice_refuted",
    "C41_align_twice_compounds",
    "C41_reactivated_partial",
    "C41_other_mask"
   ],
   "note": "Fails of the code as modelled: fails: the second alignment moves the surfaces again. Proved: Activating in between restores the property: whatever happened before, activating and aligning gives the same group as on a fresh one. Also: Aligning with another mask than the activated one is refused."
  },
  {
   "property": "C42",
   "status": "proved",
   "theorems": [
    "C42_knot_vector"
   ],
   "note": "Proved as stated."
  },
  {
   "property": "C43",
   "status": "partial",
   "theorems": [
    "C43_span_partial",
    "C43_agree_partial",
    "C43_general_partial",
    "C43_general_end_partial",
    "C43_end_refuted",
    "C43_evaluation_end_refuted",
    "C43_shape_refuted"
   ],
   "note": "Fails of the code as modelled: The uniform shortcut does not handle the end of the range; no surface can be evaluated there. The general search works for several facets or surfaces only when its shapes happen to be broadcastable. Proved: The general search, for any non-decreasing or other knots."
  },
  {
   "property": "C44",
   "status": "proved",
   "theorems": [
    "C44_cox_de_boor",
    "C44_derivative",
    "C44_support"
   ],
   "note": "The derivatives are the derivatives: on the span the value with index [k] is differentiable. All other basis functions vanish."
  },
  {
   "property": "C45",
   "status": "proved",
   "theorems": [
    "C45_textbook",
    "C45_weights",
    "C45_half_spaces",
    "C45_affine",
    "C45_flat",
    "C45_corner"
   ],
   "note": "the surface point and normal of the textbook, and its consequences."
  },
  {
   "property": "C46",
   "status": "proved",
   "theorems": [
    "C46_normals"
   ],
   "note": "Proved as stated."
  },
  {
   "property": "C47",
   "status": "proved",
   "theorems": [
    "C47_rigid",
    "C47_homogeneous",
    "C47_all_facets",
    "C47_placed_when_flat"
   ],
   "note": "All facets of a heliostat: every evaluation point is inside the valid range, so nothing is NaN. Facets are placed when all heights are zero, and otherwise taken as placed already."
  },
  {
   "property": "C48",
   "status": "partial",
   "theorems": [
    "C48_vector_loss",
    "C48_pixel_loss",
    "C48_kl_loss_partial",
    "C48_kl_scale",
    "C48_kl_empty_truth_refuted",
    "C48_angle_loss",
    "C48_cosine_loss"
   ],
   "note": "Fails of the code as modelled: With a ground truth without any flux the loss of every prediction with flux is negative. Proved: The Kullback-Leibler loss compares shares; its value is the divergence of the shares, each raised by the epsilon. Also: "
  },
  {
   "property": "C49",
   "status": "partial",
   "theorems": [
    "C49_scale_refuted"
   ],
   "note": "Fails of the code as modelled: Scaling prediction and ground truth scales the pixel loss by the same factor, so it does depend on the flux level."
  },
  {
   "property": "C50",
   "status": "proved",
   "theorems": [
    "C50_samples_per_heliostat",
    "C50_nothing_dropped"
   ],
   "note": "Proved as stated."
  },
  {
   "property": "C51",
   "status": "proved",
   "theorems": [
    "C51_smoothness",
    "C51_ideal_surface",
    "C51_relative",
    "C51_shift"
   ],
   "note": "Proved as stated."
  },
  {
   "property": "C52",
   "status": "proved",
   "theorems": [
    "C52_center_of_mass"
   ],
   "note": "Inside the bitmap; the power-weighted mean up to the share of the epsilon; the first pixel for an empty flux."
  },
  {
   "property": "C53",
   "status": "proved",
   "theorems": [
    "C53_trapezoid",
    "C53_plateau_width",
    "C53_plateau_width_odd",
    "C53_padding"
   ],
   "note": "If total width and plateau width have the same parity, exactly the requested number of indices is one ... ... otherwise one more."
  },
  {
   "property": "C54",
   "status": "proved",
   "theorems": [
    "C54_points",
    "C54_directions"
   ],
   "note": "Proved as stated."
  },
  {
   "property": "C55",
   "status": "proved",
   "theorems": [
    "C55_normalized_points"
   ],
   "note": "Proved as stated."
  },
  {
   "property": "C56",
   "status": "proved",
   "theorems": [
    "C56_direction",
    "C56_unit",
    "C56_whole_turns",
    "C56_batches"
   ],
   "note": "The direction has the elevation's sine as height and length one (more generally the slant range); azimuth 0 is south and 90 degrees east of it; whole turns do not matter."
  },
  {
   "property": "C57",
   "status": "partial",
   "theorems": [
    "C57_shrunk_refuted",
    "C57_slanted_refuted",
    "C57_half_pixel_partial",
    "C57_cylinder_partial"
   ],
   "note": "Fails of the code as modelled: The full claim is false. The position computed for the pixel coordinates of a hit is the hit pulled towards the centre of the area by the factors 1 - 1/width and 1 - 1/height, with the centre's north coordinate. On an area that does not face north or south the error does not get smaller with the pixels: the north coordinate is wrong by the slope of the area times the distance from its centre, whatever the resolution. Proved: What holds: at most half a pixel of error on areas facing north or south, and none exactly at the centre. The same shrinking on a cylinder facing north, in angle and height."
  },
  {
   "property": "C58",
   "status": "proved",
   "theorems": [
    "C58_target_names_and_indices",
    "C58_centers_of_target_areas"
   ],
   "note": "[types] are the lists of names of the planar and the cylindrical target areas."
  },
  {
   "property": "C59",
   "status": "proved",
   "theorems": [
    "C59_nested_configuration",
    "C59_scenario_file"
   ],
   "note": "a nested dictionary written under a new name is found in the file, path by path, and nothing else changes. A whole scenario file: besides the number of groups, it holds exactly the configured parameters."
  },
  {
   "property": "C60",
   "status": "proved",
   "theorems": [
    "C60_paired",
    "C60_without_unique_names",
    "C60_incident_direction"
   ],
   "note": "fluxes, measurements and mask are those of one list of samples, in which the name, the property file and the image belong together. The first hypothesis is needed. A heliostat listed twice: only its last images are loaded, but the properties of both entries. Incident rays come from the sun: the direction of every measurement is opposite to the sun's position."
  },
  {
   "property": "C61",
   "status": "partial",
   "theorems": [
    "C61_limit_partial",
    "C61_zero_refuted"
   ],
   "note": "Fails of the code as modelled: The limit zero means no limit, for all data. Proved: With a positive limit they do."
  },
  {
   "property": "C62",
   "status": "proved",
   "theorems": [
    "C62_motor_limits",
    "C62_motor_limits_of_group",
    "C62_overshoot_below_one_step",
    "C62_start"
   ],
   "note": "The parameters are arbitrary: whatever the optimizer does. Without a margin the limits can be exceeded, but by less than one step. The optimization starts from the aligned motor positions."
  },
  {
   "property": "C63",
   "status": "proved",
   "theorems": [
    "C63_aim_points",
    "C63_flux_density",
    "C63_target_dimensions",
    "C63_surfaces"
   ],
   "note": "aim points. All heliostats have an intercept factor, the flux has at least one pixel. [d0] is the first epoch. The bound on a pixel is the configured bound on the flux density. surfaces: [n] trained heliostats."
  },
  {
   "property": "C64",
   "status": "proved",
   "theorems": [
    "C64_locked_gradients",
    "C64_border_keeps_planar_position"
   ],
   "note": "Over every training history the border of a facet keeps its planar position."
  },
  {
   "property": "C65",
   "status": "proved",
   "theorems": [
    "C65_ray_fractions"
   ],
   "note": "[rays] are the angle-reduced intensity (never negative, see C26) and the blocked share of every ray. The last part describes the exact-arithmetic effect of soft blocking: as long as no ray is blocked completely the intercept fraction does not see blocking at all."
  },
  {
   "property": "C66",
   "status": "partial",
   "theorems": [
    "C66_blocking_refuted",
    "C66_shared_refuted",
    "C66_same_mirrors_partial",
    "C66_unblocked_rows_partial",
    "C66_batched_tracing_partial"
   ],
   "note": "Fails of the code as modelled: With blocking the full claim is false: the flux of a sample is 1 when it is traced in a batch of its own and at most 1/4 when it shares the batch with a certain other sample (same scene, same mirrors). This is so in every field whose hierarchy reaches each mirror once: as soon as a ray of another sample meets a mirror that the rays of a sample are not tested against (its own mirror, or one that none of them meets), every lit pixel of this sample is darker in the shared batch than when it is traced alone. Proved: With blocking, in such a field, the row of a sample is what the sample gives when traced alone if the rays of the other samples meet only mirrors of others that its own rays meet too. Without blocking every row is what its sample gives when traced alone. Whatever the batch size and the number of ranks, exactly one rank writes the result row of a sample, it is the row computed from this sample's own distortions and state, and all other ranks leave the row unwritten. All active heliostats have the same number of samples."
  },
  {
   "property": "C67",
   "status": "partial",
   "theorems": [
    "C67_prototypes_and_groups_partial",
    "C67_own_actuators_refuted"
   ],
   "note": "Fails of the code as modelled: Every other valid configuration is written but cannot be loaded: a heliostat with actuators of its own and the prototype's kinematics needs a heliostat with kinematics of its own before it. Proved: own parts first, the prototype's otherwise ([expected], via [facets_of], [kinematics_of] and [actuators_of]); one group for every pair of kinematics and actuator types that occurs; alphabetical order of heliostats kept in every group."
  },
  {
   "property": "C68",
   "status": "partial",
   "theorems": [
    "C68_ranks_leave_together_refuted",
    "C68_first_rank_leaves_refuted",
    "C68_epochs_of_a_rank_partial",
    "C68_ranks_leave_together_partial"
   ],
   "note": "Fails of the code as modelled: all ranks execute the same number of epochs. False: each rank decides with its own loss. More generally: whenever some rank meets the tolerance in an epoch up to which another rank neither met it nor used up its patience, the first one leaves the loop before the second one. Proved: The exact number of epochs of every rank: it leaves after the first epoch that meets the tolerance or ends the patience, and after the last epoch if there is none. So the ranks leave together exactly when these epochs agree. They do if all ranks see the same losses, or if neither tolerance nor early stopping can end the loop. Missing: runs in which some rank reaches the tolerance or stops early."
  },
  {
   "property": "C69",
   "status": "partial",
   "theorems": [
    "C69_reported_losses_partial",
    "C69_nested_refuted",
    "C69_alignment_partial"
   ],
   "note": "Fails of the code as modelled: With more ranks than groups a reconstruction of groups with at least two trained heliostats fails. Proved: (full statement: for all activation masks and all world sizes). Proved for masks in which all heliostats with data have the same number of samples, and at most as many ranks as groups. The loss of a sample compares the prediction and the measurement of the same training sample of the same heliostat. The reconstruction from alignments does not combine the results: a rank reports the losses of its own groups and infinity for all others, trained or not."
  },
  {
   "property": "C70",
   "status": "partial",
   "theorems": [
    "C70_collected_power",
    "C70_counted",
    "C70_four_facets_partial",
    "C70_single_facet_refuted",
    "C70_mixed_sizes_refuted",
    "C70_ray_power"
   ],
   "note": "Fails of the code as modelled: ... and therefore more than four times the area of a heliostat with a single facet, ... ... and the same for heliostats of different size in one group: whatever the other facets and heliostats are, all get the area of the first facet of the first heliostat, so that a heliostat with other facets gets different power in a group of its own. Proved: ... which is the area covered by 2 x 2 uncanted facets 2 cm apart, like the first facet of the first heliostat ... Also: Rays carry irradiance times the computed area ... Without irradiance the rays carry one unit each, whatever the field looks like, so that fluxes count rays. With a given irradiance the rays of one heliostat carry irradiance times area in total."
  },
  {
   "property": "C71",
   "status": "partial",
   "theorems": [
    "C71_blocking_surfaces",
    "C71_repeated_heliostat_refuted"
   ],
   "note": "Fails of the code as modelled: The documented use of a heliostat more than once makes the construction of the tracer fail, whatever else the field contains. Also: "
  },
  {
   "property": "C72",
   "status": "proved",
   "theorems": [
    "C72_blocked_if_inside",
    "C72_free_if_outside",
    "C72_free_if_behind"
   ],
   "note": "A ray through a primitive, at least [m] (in units of the spans) away from its edges and at least [offset + m] from the ray's start, is blocked ... ... and a ray that passes every primitive with a margin is not. Primitives behind the start of the ray never block, also when the ray is almost parallel to them."
  },
  {
   "property": "C73",
   "status": "proved",
   "theorems": [
    "C73_corner_selection",
    "C73_rectangle"
   ],
   "note": " The blocking rectangle is exactly what its four corners span, and its normal is perpendicular to it."
  },
  {
   "property": "C74",
   "status": "partial",
   "theorems": [
    "C74_initial_orientation_refuted",
    "C74_motors_refuted"
   ],
   "note": "Fails of the code as modelled: fails: the configured initial orientation is never used."
  },
  {
   "property": "C75",
   "status": "partial",
   "theorems": [
    "C75_batch_refuted",
    "C75_batch_partial",
    "C75_rounds_partial"
   ],
   "note": "Fails of the code as modelled: fails: a heliostat aligned together with another one can get another orientation than alone. Proved: A heliostat without translation deviations gets the same as alone. Any heliostat takes at least as many rounds in a batch as alone. It gets the same as alone if the whole batch has settled by then, and it goes on past the round at which it would have stopped alone only because another heliostat of the batch has not settled."
  },
  {
   "property": "C76",
   "status": "proved",
   "theorems": [
    "C76_crop_bounds",
    "C76_crop_points",
    "C76_crop_identity"
   ],
   "note": " Pixel [(u, e)] of a crop shows the interpolated flux at the point that lies as far from the center, measured in the crop, as the pixel lies from the middle of the image; the center is that of the flux together with a weight of [1e-8] in the middle of the image."
  },
  {
   "property": "C77",
   "status": "proved",
   "theorems": [
    "C77_center_of_splatted_rays",
    "C77_focal_spot"
   ],
   "note": "Tracing, splatting, centre of mass and conversion together: the focal spot of rays hitting an area is their power-weighted mean hit position, pulled towards the centre as in C57 (and by the share of the epsilon towards the east and upper border)."
  },
  {
   "property": "C78",
   "status": "partial",
   "theorems": [
    "C78_local_offsets",
    "C78_antimeridian_refuted"
   ],
   "note": "Fails of the code as modelled: Longitudes are not wrapped: neighbours across the antimeridian are placed more than half the globe apart."
  },
  {
   "property": "C79",
   "status": "partial",
   "theorems": [
    "C79_round_trip_partial",
    "C79_every_file_loads_refuted",
    "C79_facet_order_refuted",
    "C79_facets_out_of_order_refuted"
   ],
   "note": "Fails of the code as modelled: Without planar or without cylindrical target areas the file is written but cannot be loaded, whatever else is configured. Facets come back in the alphabetical order of their keys, not in the configured order. ... and so for every heliostat with two facets whose names are not in alphabetical order, as facet_2 and facet_10 of ten or more numbered facets. Proved: a valid configuration is written, and loading the file gives back what was configured."
  },
  {
   "property": "C80",
   "status": "proved",
   "theorems": [
    "C80_number_of_groups"
   ],
   "note": "the number of groups stored in the file, used to plan the ranks before loading, is that of the loaded field."
  },
  {
   "property": "C81",
   "status": "partial",
   "theorems": [
    "C81_degrees_partial",
    "C81_own_degrees_refuted",
    "C81_mixed_degrees_refuted"
   ],
   "note": "Fails of the code as modelled: With different degrees some facet is evaluated with those of another one. The same for every power plant in which two facets differ in their degrees: all groups get the degrees of one facet. Proved: if all facets of the power plant have the same degrees, every group uses them."
  },
  {
   "property": "C82",
   "status": "partial",
   "theorems": [
    "C82_mapping_partial",
    "C82_first_files_partial",
    "C82_zero_refuted"
   ],
   "note": "Fails of the code as modelled: Asking for no measurements returns all of them: every heliostat with a measured image comes back with all of its measurements. Proved: the data mapping built from a directory. As many as wanted: the first [wanted] property files that have an image, in the order of the listing."
  },
  {
   "property": "C83",
   "status": "partial",
   "theorems": [
    "C83_mixed_partial",
    "C83_only_one_kind_refuted",
    "C83_identifiers_refuted",
    "C83_read_surfaces",
    "C83_read_one_kind",
    "C83_read_partial",
    "C83_read_one_kind_refuted",
    "C83_read_identifiers_refuted"
   ],
   "note": "Fails of the code as modelled: With measured surfaces only, or ideal surfaces only, nothing is returned. Identifiers are given twice, in every field with heliostats of both kinds. ... but never if all heliostats are of the same kind, ... ... and the ids of a mixed list are never unique. Proved: heliostats with measured and with ideal surfaces. Reading succeeds if there is a heliostat of each kind and every file can be read ... Also: , with unreadable files. If a mixed list of heliostats is read, every path gives exactly one heliostat with its own name and properties, a fitted surface exactly if it has a deflectometry file; the prototype has an ideal surface. Lists of one kind keep the order of the paths and number the heliostats."
  },
  {
   "property": "C84",
   "status": "partial",
   "theorems": [
    "C84_total_flux_partial",
    "C84_nested_refuted"
   ],
   "note": "Fails of the code as modelled: With more ranks than groups the optimization fails on every rank. Proved: With at most as many ranks as groups, the flux seen by every rank is the flux of all heliostats."
  },
  {
   "property": "C85",
   "status": "partial",
   "theorems": [
    "C85_factors_partial",
    "C85_distributed_refuted"
   ],
   "note": "Fails of the code as modelled: In a distributed run a rank reports zero for all heliostats of the groups of other ranks. Proved: In a single process the reported factors belong to their heliostats."
  },
  {
   "property": "C86",
   "status": "partial",
   "theorems": [
    "C86_same_parameters_partial",
    "C86_alignment_refuted"
   ],
   "note": "Fails of the code as modelled: The reconstruction from alignments has no broadcast: in every run with at least two ranks and two groups there are, for each group, ranks that keep its initial parameters. Proved: After a distributed reconstruction from fluxes or of surfaces every rank holds, for every group, the parameters of one rank that trained the group."
  },
  {
   "property": "C87",
   "status": "proved",
   "theorems": [
    "C87_sample_power",
    "C87_all_targets",
    "C87_tracing_succeeds"
   ],
   "note": "The flux image of every sample is non-negative and holds at most the power its rays carry after extinction and reflection losses, with or without blocking, whatever the distortions and the target. The images of all target areas together hold at most the power of all samples. Without blocking tracing of proper samples always succeeds."
  },
  {
   "property": "C88",
   "status": "proved",
   "theorems": [
    "C88_flat_mirror_focal_spot"
   ],
   "note": "A flat mirror whose normal is the one requested by the alignment for the mean of its surface points, without sun shape and blocking: the focal spot found in its bitmap is the aim point, up to the shrinking of C57 and the share of the epsilon of the centre of mass; and the bitmap holds all power."
  },
  {
   "property": "C89",
   "status": "proved",
   "theorems": [
    "C89_scattered_rays",
    "C89_number_of_rays"
   ],
   "note": "Rays of a sample have unit length and deviate from the reflected direction at their surface point by at most the sum of the two angles drawn for them. There is one ray for each ray number and surface point."
  },
  {
   "property": "C90",
   "status": "proved",
   "theorems": [
    "C90_ideal_facets",
    "C90_ideal_defined"
   ],
   "note": "The surface of an ideal heliostat: every facet is the flat rectangle around its translation whose half sides are its canting vectors; its points form a grid inside the rectangle, strictly increasing in both directions, and all its normals are the upper normal of the rectangle. One canting and one translation for each facet suffice."
  },
  {
   "property": "C91",
   "status": "partial",
   "theorems": [
    "C91_fitted_placed_partial",
    "C91_points_partial",
    "C91_flat_refuted"
   ],
   "note": "Fails of the code as modelled: For exactly flat measurements of a facet without canting the full claim fails: the initial control points already fit, so the optimizer keeps them (their loss, and with it the gradient, is zero); all stored heights are zero, and loading therefore translates the already translated facet a second time. Proved: A fitted facet is stored moved to its translation, and evaluates to the fit moved by it, if any height of any facet is not zero. A fit of points is stored as it was learned, without a translation: facets without canting evaluate to it even if they are flat."
  },
  {
   "property": "C92",
   "status": "partial",
   "theorems": [
    "C92_steps_partial",
    "C92_maximum_refuted"
   ],
   "note": "Fails of the code as modelled: The maximum itself is exceeded, for every maximum. Proved: It takes at most one step more than the maximum, whatever the optimizer does, and if it takes fewer, the last loss it saw was within the tolerance."
  },
  {
   "property": "C93",
   "status": "partial",
   "theorems": [
    "C93_round_trip",
    "C93_truncated_partial",
    "C93_truncated_refuted"
   ],
   "note": "Fails of the code as modelled: Every surface has a truncated file that is accepted, with unset memory as measurements. Proved: A file that breaks off anywhere is rejected, unless it breaks off between two points of the last facet: then the points and normals that are missing are returned unset. Also: A complete file is read back exactly, whatever follows it."
  },
  {
   "property": "C94",
   "status": "partial",
   "theorems": [
    "C94_losses_partial",
    "C94_zero",
    "C94_metric",
    "C94_diagonal",
    "C94_keywords",
    "C94_resolution_refuted"
   ],
   "note": "Fails of the code as modelled: The full claim fails if the ground truth has another resolution than the prediction, which is not checked: its centre of mass is converted with the resolution of the prediction. The same uniform flux on a finer bitmap is reported as far away (with twice as many columns by at least a third of the width). Proved: For bitmaps of equal resolution every sample's loss is the distance of its two focal spots on its own area ... Also: ... never negative, zero exactly for equal centres of mass, ... ... symmetric and fulfilling the triangle inequality, ... ... and on a planar area less than its diagonal."
  },
  {
   "property": "C95",
   "status": "partial",
   "theorems": [
    "C95_cylinders_partial",
    "C95_wide_refuted",
    "C95_leaning_refuted"
   ],
   "note": "Fails of the code as modelled: The centre of an area opening further is on the wrong side of the corners, ... ... and the axis of an area that leans sideways is wrong. Proved: A cylindrical target area opening at most half way whose corners are in the tower file is reconstructed exactly, if it does not lean sideways; either side may be called left."
  },
  {
   "property": "C96",
   "status": "partial",
   "theorems": [
    "C96_planar_partial",
    "C96_turned_refuted"
   ],
   "note": "Fails of the code as modelled: The area of a rectangle whose sides also run east, as those of a tilted area turned away from north, lacks one of its corners. Proved: The points of a rectangular target area with horizontal upper edge that faces exactly north or south, tilted or not, are exactly those within the area computed from its corners."
  },
  {
   "property": "C97",
   "status": "partial",
   "theorems": [
    "C97_tower_partial",
    "C97_order_refuted",
    "C97_types_refuted"
   ],
   "note": "Fails of the code as modelled: A file in which the power plant does not come first is never read, although the order of keys has no meaning in JSON. Areas of any other type are dropped without notice. Proved: A tower file that starts with the power plant and lists complete planar and cylindrical areas gives exactly these areas, in order."
  },
  {
   "property": "C98",
   "status": "partial",
   "theorems": [
    "C98_facets",
    "C98_deflectometry_partial",
    "C98_deflectometry_file_partial",
    "C98_deflectometry_refuted"
   ],
   "note": "Fails of the code as modelled: ... but if normals are missing, unset memory is returned as normals. Proved: Deflectometry data with as many normals as points are read unchanged; additional normals are rejected, ... ... and the facets of the file are returned in order, ... Also: As many facets are read as the heliostat file says; it must list that many, and further ones are ignored."
  },
  {
   "property": "C99",
   "status": "partial",
   "theorems": [
    "C99_measured_partial",
    "C99_mirror_refuted"
   ],
   "note": "Fails of the code as modelled: The full claim, for the mirror where it is, fails: a mirror whose centre is not at the heliostat's position (translation deviations, as in the default kinematics) and not on the line to the focal spot misses the focal spot with the normal computed for it. Proved: Every sample gets the unit normal that, at the position of the heliostat it belongs to, reflects its rays to its measured focal spot, on the side of the sun."
  },
  {
   "property": "C100",
   "status": "partial",
   "theorems": [
    "C100_unchanged_partial",
    "C100_fitted_refuted",
    "C100_grid_refuted"
   ],
   "note": "Fails of the code as modelled: The full claim fails for every heliostat with any non-zero height, as all fitted ones: loading such a surface takes its facets where the control points are, but the update cants and translates them (again). A facet without canting is moved by its translation. It also fails for different numbers of points in the two directions: the number of points changes unless the product is a square. Proved: For flat control points and as many points in both directions, an update without a change of the control points keeps all surface points and normals."
  },
  {
   "property": "C101",
   "status": "proved",
   "theorems": [
    "C101_results_of_stored_motors"
   ],
   "note": "The optimization with a Kullback-Leibler loss ends after at least one and at most [max_epoch + 1] epochs. The motor positions it leaves in the scenario are those of the last executed epoch; the loss and the fractions of rays it returns are the loss and the fractions of exactly these motor positions, and the history has the losses of all executed epochs in order."
  },
  {
   "property": "C102",
   "status": "partial",
   "theorems": [
    "C102_losses_of_stored_parameters_refuted",
    "C102_one_step_behind_partial"
   ],
   "note": "Fails of the code as modelled: Whenever a step changes the losses, it fails: the losses are those before the last step."
  },
  {
   "property": "C103",
   "status": "partial",
   "theorems": [
    "C103_test_losses_partial",
    "C103_last_epoch_refuted"
   ],
   "note": "Fails of the code as modelled: The loop has [max_epoch + 1] epochs, but the epoch validated as the last one is the one before: a run through all epochs reports a test loss that misses the last step, unless [log_step] divides [max_epoch]. Proved: It holds if the run was stopped early or the last executed epoch was logged, or if the run has exactly [max_epoch] epochs; in any case the test loss is that of the parameters at most [log_interval - 1] steps earlier."
  },
  {
   "property": "C104",
   "status": "partial",
   "theorems": [
    "C104_other_losses_refuted",
    "C104_kullback_leibler_partial"
   ],
   "note": "Fails of the code as modelled: With a loss other than the Kullback-Leibler loss the first epoch raises an exception."
  },
  {
   "property": "C105",
   "status": "partial",
   "theorems": [
    "C105_own_gradients_refuted",
    "C105_mixed_partial",
    "C105_nested_partial",
    "C105_sizes_refuted",
    "C105_uneven_refuted",
    "C105_one_group_partial",
    "C105_one_rank_partial"
   ],
   "note": "Fails of the code as modelled: With at least two ranks and a multiple of groups, it depends on the gradients of other groups: the ranks add the gradients of their k-th groups, which are different groups. Groups with different numbers of heliostats in the same place of two ranks, or ranks with different numbers of groups, make the synchronization fail. Proved: What the ranks get instead. The statement holds for a single group, and for a single rank."
  },
  {
   "property": "C106",
   "status": "partial",
   "theorems": [
    "C106_one_rank_partial",
    "C106_unchanged_partial",
    "C106_stale_mirrors_refuted"
   ],
   "note": "Fails of the code as modelled: With two or more ranks and groups there is, for every rank, a group whose motor positions may change as they like: the rank goes on with the mirrors as they were at the start. Proved: It holds for a single rank. With any number of ranks it holds as long as the mirrors of the groups of other ranks have not moved since the start."
  },
  {
   "property": "C107",
   "status": "proved",
   "theorems": [
    "C107_reproducible",
    "C107_shape"
   ],
   "note": "With the same seed, the same rows are traced whatever random numbers were drawn before, ... ... and the distortions give one pair of angles for every sample, ray and surface point."
  },
  {
   "property": "C108",
   "status": "partial",
   "theorems": [
    "C108_same_seed_partial",
    "C108_seeds_refuted"
   ],
   "note": "Fails of the code as modelled: The optimizers use the rank as seed: if the distortions of two seeds give different results, ranks sharing a group trace other results than a single process. Proved: With one seed for all ranks, as in a ray tracer a user creates, every sample is traced by exactly one rank, with the result a single process has. Active heliostats have the same number of samples."
  },
  {
   "property": "C109",
   "status": "partial",
   "theorems": [
    "C109_unchanged_partial",
    "C109_rays_refuted",
    "C109_points_refuted",
    "C109_single_ray_refuted",
    "C109_set_rays_refuted",
    "C109_new_tracer_partial"
   ],
   "note": "Fails of the code as modelled: Another number of rays or surface points is an error, ... ... except that a tracer created for a single ray counts this ray as often as there are rays now: the power is multiplied. In terms of the scenario: once its number of rays has been set, a tracer created before fails, unless the number is the old one or the tracer has a single ray, and one created afterwards traces its samples with the new number of rays. Proved: With unchanged numbers it traces its samples."
  },
  {
   "property": "C110",
   "status": "proved",
   "theorems": [
    "C110_own_originals"
   ],
   "note": "for every group and every number of processes of the group, the regularizers on a process compare the present control points of heliostats with the control points the same heliostats had before the reconstruction; every heliostat with samples is regularized on exactly one process, once, and no heliostat without samples is."
  },
  {
   "property": "C111",
   "status": "partial",
   "theorems": [
    "C111_ideal_partial",
    "C111_stored_refuted"
   ],
   "note": "Fails of the code as modelled: In general the surface points are still those of the stored control points, while the control points of the group are new and flat: wherever a stored facet leaves its rectangle, the surface point is not the one of the control points. Proved: The stored surface is an ideal one: then the surface points after loading with another number of control points, and the points of the new control points, are points of the same rectangles with the same normals (not always the same points of them)."
  },
  {
   "property": "C112",
   "status": "proved",
   "theorems": [
    "C112_samples",
    "C112_fraction",
    "C112_points",
    "C112_corners"
   ],
   "note": "The number of samples per heliostat is the integer quotient, ... ... a fraction below one never takes all samples for testing, ... ... the number of surface points per facet and direction is the integer square root of the quotient, ... ... and the corner indices of a mirror with four facets of [n] times [n] points are the ones of the model of C72 and C73."
  },
  {
   "property": "C113",
   "status": "proved",
   "theorems": [
    "C113_spans",
    "C113_grid",
    "C113_margin"
   ],
   "note": "Every single precision number from zero up to but excluding one has a knot span of the surface, ... ... so the points of every evaluation grid have one, for every number of points and control points and every degree. The margin of the grid matters: 1e-9 instead of 1e-7 would round to one, which has no span."
  },
  {
   "property": "C114",
   "status": "proved",
   "theorems": [
    "C114_weights",
    "C114_intensities"
   ],
   "note": "In single precision, the weights of a ray are between zero and one; from the second pixel on they add up to exactly one in both directions. No pixel loses intensity to a ray, and the four pixels of a ray share its intensity up to one part in two million."
  },
  {
   "property": "C115",
   "status": "partial",
   "theorems": [
    "C115_kinematics_partial",
    "C115_surfaces_partial",
    "C115_shared_refuted",
    "C115_silent_refuted"
   ],
   "note": "Fails of the code as modelled: Where ranks share a group with at least two heliostats, the validation of surfaces fails with two or more held-out samples per heliostat, ... ... and with one held-out sample it can compare a heliostat with the measurement of another one: here rank 1 of two ranks returns a loss for heliostat 0 that depends on uninitialised memory and on the measurement of heliostat 1, for all predictions and measurements. Proved: The kinematics reconstruction does this on every rank, whatever the distribution; proved for masks in which all heliostats with data have the same number of samples. The surface reconstruction does so where a group is handled by one rank."
  },
  {
   "property": "C116",
   "status": "partial",
   "theorems": [
    "C116_reductions_partial",
    "C116_reduced_partial",
    "C116_fits_partial",
    "C116_exponential_partial",
    "C116_plateau_partial",
    "C116_cyclic_partial",
    "C116_initial_refuted"
   ],
   "note": "Fails of the code as modelled: The cyclic scheduler ignores the configured initial learning rate: the first epoch uses the lower bound, whatever was configured. Proved: A reduction of the plateau scheduler is one by the configured factor, but not below the lower bound, and two reductions are more epochs apart than cooldown and patience together. It does not wait longer either: if that many losses and one more do not improve on any loss before, the rate is reduced (unless the reduction is smaller than 1e-8). A plateau scheduler given to the fit of a facet gives the same learning rates as in the reconstructions, so that all of the above holds for fits too. The exponential scheduler multiplies it by the factor after every epoch, ... ... the plateau scheduler only reduces it, never below the lower bound (or the initial rate, if that is lower), and only if as many losses as the patience and one more did not improve on some earlier loss by the relative threshold, ... ... and the cyclic scheduler moves it up and down between its bounds."
  },
  {
   "property": "C117",
   "status": "partial",
   "theorems": [
    "C117_same_parameters_partial",
    "C117_plateau_refuted"
   ],
   "note": "Fails of the code as modelled: The plateau scheduler of a rank only sees the losses of this rank: for every configuration that reduces the rate at all, there are losses with which two ranks have different parameters after as many epochs as the patience and three more. Proved: With exponential and cyclic learning rates they have the same parameters, learning rates and optimizer states, for every optimizer, all gradients and all losses."
  },
  {
   "property": "C118",
   "status": "partial",
   "theorems": [
    "C118_work_partial",
    "C118_devices_partial",
    "C118_isolated_refuted",
    "C118_devices_refuted"
   ],
   "note": "Fails of the code as modelled: A process whose rendezvous fails carries on alone without an error: each of them works on all groups, as rank zero. If ranks are dealt to the nodes in turn and the number of nodes is a multiple of the number of GPUs, all processes of a node use the same GPU, even if a GPU was requested by its index. Proved: Processes that found each other share the groups without overlap or omission; ... ... processes that want CUDA get the device of their rank, and these are different on a node whose ranks are consecutive."
  },
  {
   "property": "C119",
   "status": "partial",
   "theorems": [
    "C119_all_loaded_partial",
    "C119_lost_refuted",
    "C119_count_refuted"
   ],
   "note": "Fails of the code as modelled: A second heliostat of the same name silently replaces the first: whatever the first one is and wherever it stands, the scenario is loaded as if it had not been configured. The lost heliostat still counts for the number of groups in the file: if it was the only one of its type, the file announces more groups than are loaded. Proved: It has if all heliostats have different names, which [valid] contains."
  },
  {
   "property": "C120",
   "status": "partial",
   "theorems": [
    "C120_finite_partial",
    "C120_alignment_refuted",
    "C120_flux_refuted"
   ],
   "note": "Fails of the code as modelled: In the reconstruction from alignments one such sample takes the influence of all samples of its heliostat: the step is the one of a zero gradient, whatever the other derivatives are. In the reconstruction from fluxes one such sample in one epoch on one rank makes the parameter unusable for good, even if it is not the median. Proved: If all samples of a heliostat have finite derivatives, the step of the reconstruction from alignments uses their mean, and that of the reconstruction from fluxes the derivatives of the median samples, whatever the samples of other heliostats are."
  },
  {
   "property": "C121",
   "status": "proved",
   "theorems": [
    "C121_traced",
    "C121_aligned"
   ],
   "note": "If the surfaces, the target areas and the mirrors that block rays are all moved by the same vector, tracing gives the same result in all pixels and fractions, or fails in the same way, with and without blocking ... ... and if heliostats and aim points are moved by the same vector, aligning gives the same motor positions, and orientations that take every point of a surface to a place moved by the vector and every normal to the same normal."
  },
  {
   "property": "C122",
   "status": "proved",
   "theorems": [
    "C122_flux",
    "C122_irradiance"
   ],
   "note": "Multiplying what each ray carries, or the reflectivity of the mirrors, by a positive factor multiplies the flux in every pixel by it and changes no fraction, for every scene, with and without blocking; if tracing fails, it fails in the same way ... ... and what a ray carries is proportional to the irradiance."
  },
  {
   "property": "C123",
   "status": "proved",
   "theorems": [
    "C123_epoch",
    "C123_first",
    "C123_exponential",
    "C123_momentum"
   ],
   "note": "With every scheduler and after every history of gradients and losses, no gradient moves an entry of the parameters in an epoch by more than eleven times the learning rate of that epoch ... ... and the first epoch moves it against the gradient by the learning rate, whatever the size of the gradient is, as long as it is large compared to 1e-8. ... ... With the exponential scheduler the whole optimization stays near its start, however many epochs it has. The cyclic scheduler lowers the momentum of the optimizer by up to 0.1 in proportion to how far it has raised the learning rate."
  },
  {
   "property": "C124",
   "status": "proved",
   "theorems": [
    "C124_delivered",
    "C124_whole_call"
   ],
   "note": "Activate heliostats of a group, align them with their incident directions and aim points, and trace the aligned surfaces without blocking. For every active heliostat that is flat, faces a large enough planar target area and can turn to the normals that take the sun to its aim point, the image holds the power of all its rays, reduced only by extinction, reflectivity and the angle at which the rays meet the area, and the focal spot read off the image belongs to a point of the area that is no farther from the aim point than [spot_radius] says: the accuracy of the alignment and the spread of the sun times the distance, and the size of the mirror. The same delivery with whole calls of the ray tracer, whatever the number of ranks and the batch size: one rank returns the image of the aligned heliostat at its position, with its power at the aim point."
  },
  {
   "property": "C125",
   "status": "proved",
   "theorems": [
    "C125_rows",
    "C125_no_result"
   ],
   "note": "Tracing without blocking, on any number of ranks and with any batch size: every rank returns one row for each active sample, exactly one rank writes the row of a sample, and it is the image of the sample's own surface under its own incident direction and distortions on the target area with its own number. Active heliostats have the same number of samples. With or without blocking, a call that meets the number of no target area, or that is made with another mask than the heliostats were activated with, returns no result."
  },
  {
   "property": "C126",
   "status": "partial",
   "theorems": [
    "C126_weights_partial",
    "C126_grows_partial",
    "C126_intercepts_refuted",
    "C126_surfaces"
   ],
   "note": "Fails of the code as modelled: The full statement fails for the intercept factors: a heliostat may lose half of its factor for good, and if another one gains as much, the weight of the constraint is zero after any number of epochs, with any penalty factors. Proved: Aim points: after any history the weight of the total flux is the penalty factor times the largest sum, over the last epochs, of the share of the flux that is missing; that of the flux density is the same for the share by which the brightest pixel is above the bound; that of the intercept factors is the same for the mean over all heliostats of the shares lost. The terms of an epoch use the weights from before it. Hence a total flux that stays short by a share of at least [delta], and a brightest pixel that stays too bright by at least that share, is weighted more from epoch to epoch without bound. Also: Surfaces: the weight of a heliostat is the penalty factor times the sum of its violations in all epochs so far, and the term of an epoch uses the sum from before it. A weight therefore never falls."
  },
  {
   "property": "C127",
   "status": "proved",
   "theorems": [
    "C127_measurements",
    "C127_start"
   ],
   "note": "Whatever the optimizer does, every facet of a fitted surface is the fit to every [stride]-th of its own measurements, cut to the number of the facet with the fewest. ... ... A fit starts from the flat surface around the origin with a regular grid of control points over the extent of the measurements: at every measurement it has height zero and an upward normal, lies in the rectangle of the measured extent, and measurements farther east or north are compared with points farther east or north. A fit with a maximum of zero epochs is one step of the optimizer from there, and a fit takes only one step if the mean squared distance of the measured points from these points of the flat surface (or of the measured normals from its normals) is within the tolerance."
  },
  {
   "property": "C128",
   "status": "proved",
   "theorems": [
    "C128_means",
    "C128_same_work",
    "C128_order",
    "C128_first_epoch"
   ],
   "note": "The control points after any number of epochs depend on the gradients of the ranks through their means only ... ... so that ranks that compute the same gradients train the surface one rank trains, however many they are, and their order does not matter; ... ... and the first epoch moves every entry that is not locked by the learning rate against the mean gradient, as long as that is large compared to 1e-8."
  },
  {
   "property": "C129",
   "status": "partial",
   "theorems": [
    "C129_first_partial",
    "C129_unscheduled_partial",
    "C129_generated_partial",
    "C129_independent_refuted"
   ],
   "note": "Fails of the code as modelled: The scheduler remembers the best loss of the facets before. Take any facet whose loss falls in every epoch by more than the threshold when it is fitted alone, so that its learning rate is never reduced, and any optimizer whose steps depend on the learning rate. Fitted a second time after itself, the facet has not reached the remembered loss when the patience is over, its learning rate is reduced, and the same measurements give other control points. Proved: The first facet is fitted as if it was the only one, ... ... without a scheduler all facets are, for every optimizer, ... ... and a surface generated with a shared scheduler is one of the fitted surfaces that C91, C92 and C127 are about."
  },
  {
   "property": "C130",
   "status": "partial",
   "theorems": [
    "C130_own_measurements_partial",
    "C130_number_refuted",
    "C130_stopping_refuted"
   ],
   "note": "Fails of the code as modelled: With another number of heliostats they are different: already the first epoch gives every parameter with a gradient another value, because the gradient is divided by the number of heliostats and the optimizer adds 1e-8 to its size. The other heliostats also end the training: tolerance and early stopping look at the mean loss. A heliostat that would be trained on is left as it is after one epoch if the loss of another is small enough. Proved: With exponential and cyclic learning rates they are the same in all reconstructions with the same number of heliostats and epochs, whatever the other heliostats and their measurements are and wherever the heliostat stands in the group; so is the reported loss."
  },
  {
   "property": "C131",
   "status": "proved",
   "theorems": [
    "C131_kinematics",
    "C131_surfaces"
   ],
   "note": "A heliostat without measurements keeps its parameters exactly, however long the others of its group are trained, for every scheduler and all losses; ... ... and so do all control points the losses of all ranks do not depend on."
  },
  {
   "property": "C132",
   "status": "partial",
   "theorems": [
    "C132_nothing_missing",
    "C132_no_heliostat_partial",
    "C132_heliostats_missing_refuted",
    "C132_parts_missing_refuted"
   ],
   "note": "False once the first heliostat has been written: the loader takes the heliostats it finds, and parts that were not written come from the prototype. The stored number of groups reveals it only if a group is missing."
  },
  {
   "property": "C133",
   "status": "partial",
   "theorems": [
    "C133_samples",
    "C133_mirrors_partial",
    "C133_mirrors_refuted"
   ],
   "note": "Fails of the code as modelled: Whatever way of sorting is used, there are mirrors of which three share a cell and a ray that is not blocked at all in one order of the mirrors and is blocked to at least three quarters in another. Also: The order of the samples never matters. The order of the heliostats does not matter if no two mirrors have the same Morton code, whatever sorting [torch.sort] does among equal keys. Missing: with three mirrors in one cell the statement is false, since which of them is tested at all depends on their order; two mirrors in one cell are not covered."
  },
  {
   "property": "C134",
   "status": "partial",
   "theorems": [
    "C134_mirrored_partial",
    "C134_blocked_partial",
    "C134_edge_refuted"
   ],
   "note": "Fails of the code as modelled: A ray that ends exactly on the left edge of the image is counted, but in the mirrored scene, where it ends on the right edge, it is lost: if all rays end on the left edge, the image holds all their power and the mirrored one nothing, though the intercepted fraction is the same. Proved: It holds without blocking for all batches of samples with planar areas, and with cylindrical areas whose opening lies on the northern side, if no ray that carries power ends exactly on the left or right edge. The same holds for one sample, whatever part of its rays is blocked."
  },
  {
   "property": "C135",
   "status": "partial",
   "theorems": [
    "C135_half_turn_partial",
    "C135_quarter_turn_refuted",
    "C135_cylinder_refuted"
   ],
   "note": "Fails of the code as modelled: After a quarter turn of an upright area that faces north or south, the whole image is in the middle columns, wherever the rays end. After half a turn of a cylindrical area that opens to the north by less than half a circle, all rays that carried power carry none. Proved: Half a turn of a scene with a planar area keeps the fractions and the power in every row, if no ray that carries power ends exactly on the left or right edge; but the image is exchanged left and right: it is drawn as seen from the north, even if the area faces south."
  },
  {
   "property": "C136",
   "status": "partial",
   "theorems": [
    "C136_north_partial",
    "C136_mean_partial",
    "C136_single_refuted",
    "C136_unmoved_refuted",
    "C136_mean_refuted"
   ],
   "note": "Fails of the code as modelled: The angle drawn for the east axis alone moves a ray as far as a ray to the north only if the ray has no eastern component, and the angle drawn for the up axis only if it has no vertical component. Rays to the east or west are not moved at all by the first, and vertical rays not at all by the second. On average over equally likely draws, the sun is the narrower the less a ray goes north or south. Proved: For all rays that go exactly north or south the cosine of this angle is the product of the cosines of the drawn angles. For all other directions the mean of the cosines over the equally likely draws is given by the northern component of the ray."
  },
  {
   "property": "C137",
   "status": "partial",
   "theorems": [
    "C137_data_sets_partial",
    "C137_found_usable_partial",
    "C137_leak_refuted",
    "C137_surface_limit_refuted"
   ],
   "note": "Proved: for every order the random generator picks, the sets are built, hold only selected measurements, each with its own image and not more often than it was selected, and the testing set has the fraction, rounded down. Refuted: the training set is the whole selection, so that every measurement of the testing set is trained on; and the limit of the surface task has no effect beyond that of the kinematics task. What the selection finds is usable."
  },
  {
   "property": "C138",
   "status": "partial",
   "theorems": [
    "C138_closest_partial",
    "C138_names_partial",
    "C138_day_refuted",
    "C138_zero_refuted"
   ],
   "note": "Proved for limits of at least one, except the last part, which is refuted: the day is never compared, so that a named heliostat is listed with measurements of other days. A limit of zero is refuted too: one measurement is listed."
  },
  {
   "property": "C139",
   "status": "partial",
   "theorems": [
    "C139_viable_partial",
    "C139_zero_refuted"
   ],
   "note": "Proved for a maximum of at least one; refuted for a maximum of zero: one heliostat is listed."
  },
  {
   "property": "C140",
   "status": "partial",
   "theorems": [
    "C140_number_partial",
    "C140_kept_partial",
    "C140_next_partial",
    "C140_stral_refuted",
    "C140_concurrent_refuted"
   ],
   "note": "Proved: the number is the smallest that no results file stands for, whatever the files are called; wherever the study is stopped, every file that was in the results directory is still there with its content; and a study started after another one wrote its first file takes another number. Refuted: data for STRAL of the same number are replaced; and two studies that look for a number before either writes take the same one, and then the second computes nothing and reports its results for what the first reconstructed."
  },
  {
   "property": "C141",
   "status": "partial",
   "theorems": [
    "C141_resumed_partial",
    "C141_restart_refuted",
    "C141_stale_refuted"
   ],
   "note": "Refuted: the results file is written before any reconstruction, so that a second start takes another number and computes everything again; and intermediate results that are there for the number are taken whatever data they came from. Proved: if the results file of the stopped study is removed before the second start, the number is the same, exactly the missing reconstructions are computed, and the reconstructions, the aim points and the data for STRAL end up as in a study that was not stopped; the losses of the reconstructions taken from files are missing."
  },
  {
   "property": "C142",
   "status": "partial",
   "theorems": [
    "C142_measured_partial",
    "C142_without_samples_partial",
    "C142_one_rank_partial",
    "C142_ranks_refuted"
   ],
   "note": "Proved: each heliostat with calibration files gets exactly its own measured images and target areas, in the order of its files, beside the rows that the ray tracer returned for it, and a heliostat without samples gets no entry; on one rank those rows are the traced images of its own samples. Refuted: if a group is evaluated by two or more ranks, every sample of every heliostat is an image on one of the ranks only, and uninitialised memory in the data of all others. The row of a sample stands in the entry of its heliostat behind those of the earlier samples of the heliostat."
  },
  {
   "property": "C143",
   "status": "partial",
   "theorems": [
    "C143_group_order_partial",
    "C143_other_order_refuted",
    "C143_surface_refuted",
    "C143_outside_group_refuted"
   ],
   "note": "Proved: if the heliostats are listed in the order of the heliostat group of the scenario, each name gets the image that is traced for its own heliostat and measurement. Refuted: in any other order some name gets the image of another heliostat; the surface that is stored under the j-th name is always that of the j-th heliostat of the group; and a heliostat outside the first group makes the script fail."
  },
  {
   "property": "C144",
   "status": "partial",
   "theorems": [
    "C144_perpendicular_partial",
    "C144_all_partial",
    "C144_skew_refuted"
   ],
   "note": "Proved: for perpendicular canting vectors; for all others the east and up coordinates, and with them the stored angle of the normals, are right. Refuted: if the canting vectors are not perpendicular, the north coordinate of every point east or west of the middle of the facet is wrong, by its east coordinate times the cosine of the angle between the vectors."
  },
  {
   "property": "C145",
   "status": "partial",
   "theorems": [
    "C145_read_back_partial",
    "C145_power_partial",
    "C145_power_refuted"
   ],
   "note": "Proved: the first part, and for heliostats of four equal facets the second up to a margin of one centimetre on each side length. Refuted: the second for a heliostat of a single facet: the coefficients always add up to more than four times its area."
  },
  {
   "property": "C146",
   "status": "partial",
   "theorems": [
    "C146_run_id_partial",
    "C146_runtimes_refuted",
    "C146_concurrent_refuted"
   ],
   "note": "Proved: whatever the log held before, and for all settings that do not contain the words searched for, the number and the number of heliostats of the latest study are read. Refuted: the list of runtimes is empty for every study, because the log is searched for a function that does not exist; and if another study starts in the meantime, its number is read and the number of heliostats is missing."
  },
  {
   "property": "C147",
   "status": "proved",
   "theorems": [
    "C147_same_result",
    "C147_failure_shown",
    "C147_durations"
   ],
   "note": "Tracking does not change what a function returns; reading the log from the top shows exactly the functions that were running when an exception ended the run, and none if the run ended normally; and the finish lines are those of the functions that returned, with their durations, in the order in which they returned."
  },
  {
   "property": "C148",
   "status": "partial",
   "theorems": [
    "C148_first_group_partial",
    "C148_other_groups_refuted"
   ],
   "note": "Proved: all positions are those of their heliostats, and the losses of all heliostats of the first group are their own; a loss is the one of C69, a reduction over the training samples of the heliostat. Refuted: every heliostat of another group gets the loss of a different heliostat, for positions that the first group has too the loss of the heliostat at the same position of the first group."
  },
  {
   "property": "C149",
   "status": "proved",
   "theorems": [
    "C149_once",
    "C149_zero"
   ],
   "note": "If the surfaces of a field are reconstructed in batches, for all batch sizes, data and training histories: the batches contain the data in its order, none is empty or too large, every heliostat with data is in exactly one of them, it enters that batch with the control points it had at the beginning, it leaves the loop with those it has after that batch, and heliostats without data keep their control points."
  },
  {
   "property": "C150",
   "status": "partial",
   "theorems": [
    "C150_in_the_way_partial",
    "C150_few_mirrors_partial",
    "C150_overlooked_refuted",
    "C150_never_blocked_refuted"
   ],
   "note": "Fails of the code as modelled: Mirrors on the second side of a root the halving search misses block nothing: the values are those of a field without them. So rays that stay clear of the first side are never blocked. Proved: this holds for every field whose hierarchy reaches each mirror once, and for every field of at most five heliostats of which no three share a grid cell; the reported value is then at least a bound that depends only on how far inside the crossing is. Refuted: whenever the mirrors of a field split at the root into two sides whose sizes the halving search misses, no mirror of the second side ever blocks, wherever the rays go. [nudged]: the ray with 1e-12 added to its direction, which the filter uses, crosses inside the mirror as well."
  },
  {
   "property": "C151",
   "status": "proved",
   "theorems": [
    "C151_latest",
    "C151_none",
    "C151_field_study",
    "C151_flux_study",
    "C151_other_files"
   ],
   "note": "The file chosen among dated measurements is the latest one. No file is chosen exactly if there is none to choose. The fitted scenario of the field study has the heliostats with measurements, in the given order, each with its latest one. The flux prediction study has all heliostats with their latest measurements, or fails because one of them has none. The directory must hold nothing else the pattern fits: a file named AA39-filled_old.h5 would be chosen before every measurement."
  },
  {
   "property": "C152",
   "status": "partial",
   "theorems": [
    "C152_upright_partial",
    "C152_near_grid_partial",
    "C152_training_partial",
    "C152_turned_over_refuted",
    "C152_first_epoch_refuted"
   ],
   "note": "Fails of the code as modelled: Control points in the reverse order turn the surface over, ... ... which one epoch can do with every learning rate above half the spacing. Proved: the normals point up whenever neighbouring control points are further apart along their own direction than askew, whatever their heights are; so they do if every control point stays within a quarter of the spacing of its place in the grid; so they do after every number of epochs if the learning rate, which the exponential scheduler lets decay, is small compared to the spacing. Refuted: a learning rate above half the spacing can turn the surface over in the first epoch. [history i j k]: the gradients and losses component [k] of control point [i], [j] sees."
  },
  {
   "property": "C153",
   "status": "proved",
   "theorems": [
    "C153_local",
    "C153_share",
    "C153_never_further"
   ],
   "note": "[n_u c - p] is the number of spans that the parameters between 0 and 1 are divided into. The points move along with the control point, by the same share whatever the surface is; strictly inside the neighbourhood the share is positive. No point of the surface moves further than the control points."
  },
  {
   "property": "C154",
   "status": "proved",
   "theorems": [
    "C154_twice",
    "C154_rays",
    "C154_normals",
    "C154_spot",
    "C154_pixels",
    "C154_joints"
   ],
   "note": "A mirror normal off by an angle turns the reflected ray by at most twice the angle, and by exactly twice the angle if the incident ray lies in the plane of the two normals. Errors of the joint angles and of the four tilt angles add up at worst; the translations do not matter for normals. On the target the hit moves by at most the distance [t'] times the change of the direction, plus the shift of the origin, both stretched by the slant of the ray. ... and in the bitmap by as much, measured in pixels. All in one for a point [x] of the mirror with the normal [v]: joints off by [d1] and [d2] move the hit of its ray by at most the turn of the ray times its length plus the displacement of the mirror, which the lever arms limit."
  },
  {
   "property": "C155",
   "status": "partial",
   "theorems": [
    "C155_dimmed_partial",
    "C155_further_mirrors_refuted",
    "C155_further_mirrors_partial"
   ],
   "note": "Fails of the code as modelled: A ray that one mirror blocks arrives undiminished after four mirrors have been added, although one of these is in its way as well. Proved: this holds pixel by pixel for blocking switched on instead of off, for more extinction and for less reflectivity, in any combination, for every batch of samples and every field; and for further mirrors if the hierarchy of the larger field reaches each mirror once. Refuted: with further mirrors, in general, an image can get more than three times as bright. Mirrors appended to a field only dim its images if the hierarchy of the larger field reaches each mirror once, which C19 gives for at most five mirrors of which no three share a grid cell, for example."
  },
  {
   "property": "C156",
   "status": "proved",
   "theorems": [
    "C156_pixels",
    "C156_rays",
    "C156_joints"
   ],
   "note": "If rays inside the image move by at most [de] and [du] pixels, the centre of mass of the image moves by at most as much, plus the share of the power that has changed times the size of the image. On a target area, in metres: if the hits move by at most [delta] and the directions by at most [eta], the focal spot moves by at most [delta], plus [eta] times the size of the area over the mean cosine of the angle of incidence. For a whole mirror, whose rays travel at most [far] and arrive with a cosine of at least [slant]: joints off by [d1] and [d2] move its focal spot by at most [moved], from the displacement of the mirror, plus twice the joint errors times the distance and the size of the area, over [slant]."
  }
 ]
}