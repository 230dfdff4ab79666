{
 "claims": [
  {
   "property": "C01",
   "status": "proved",
   "theorems": [
    "C01_grains_are_connected_regions",
    "C01_label_values",
    "C01_label_constant_on_region"
   ],
   "note": "Proved for maps at least 2x2 and any boundary images, phase image and minimum size."
  },
  {
   "property": "C02",
   "status": "proved",
   "theorems": [
    "C02_grain_list_matches_labels",
    "C02_grain_numbers_in_raster_order"
   ],
   "note": "Proved, including NoDup, completeness and raster order of numbering."
  },
  {
   "property": "C03",
   "status": "partial",
   "theorems": [
    "C03_flood_fill_safe",
    "C03_thin_maps_refuted"
   ],
   "note": "Proved for maps at least 2 pixels in each direction; refuted for one-pixel-wide maps (every run reads outside the arrays)."
  },
  {
   "property": "C04",
   "status": "partial",
   "theorems": [
    "C04_marked_boundaries",
    "C04_tolerance_monotone",
    "C04_regions_refine_partial",
    "C04_regions_refine_refuted"
   ],
   "note": "Marked boundaries are characterised exactly and shown monotone in the tolerance. Refinement of regions is proved when the higher tolerance leaves a boundary in x and in y, and refuted otherwise: with no boundary left the rebuilt boundary image marks every pixel."
  },
  {
   "property": "C05",
   "status": "partial",
   "theorems": [
    "C05_points_exact",
    "C05_image_roundtrip_partial",
    "C05_empty_image_refuted",
    "C05_single_crystal_refuted"
   ],
   "note": "Points are exact. The rebuilt image is exact for a non-empty point set and refuted for an empty one (image[()] = True marks the whole array), with the end-to-end effect on single crystal maps."
  },
  {
   "property": "C06",
   "status": "partial",
   "theorems": [
    "C06_find_grains_outcome_partial",
    "C06_find_grains_refuted"
   ],
   "note": "Exact trichotomy proved; the full claim (always returns) is refuted: no indexed pixel gives ValueError, all grains below the minimum size gives IndexError."
  },
  {
   "property": "C07",
   "status": "proved",
   "theorems": [
    "C07_regions",
    "C07_boundary_pixels",
    "C07_label_values",
    "C07_grain_list_matches_labels",
    "C07_outcome"
   ],
   "note": "Proved in full, including which region takes a boundary pixel (first region in raster order among its left/upper neighbours) and sizes counting taken boundary pixels. The buffer slices handed to successive grains are disjoint views; the model holds them as separate lists."
  },
  {
   "property": "C08",
   "status": "proved",
   "theorems": [
    "C08_renumbering",
    "C08_grains_and_links",
    "C08_outcome"
   ],
   "note": "Proved for any warped label image; the image warp itself (skimage) is outside the model."
  },
  {
   "property": "C09",
   "status": "partial",
   "theorems": [
    "C09_network",
    "C09_edge_iff_grains_adjacent",
    "C09_rim_contacts_refuted"
   ],
   "note": "Edges are characterised exactly for every iteration order; the plain reading 'grains that touch' is refuted because contacts on the rim of the map are skipped."
  },
  {
   "property": "C10",
   "status": "proved",
   "theorems": [
    "C10_segment_history",
    "C10_bad_kind_refused",
    "C10_points_once",
    "C10_from_segments"
   ],
   "note": ""
  },
  {
   "property": "C11",
   "status": "proved",
   "theorems": [
    "C11_history_refines_map",
    "C11_read_stored",
    "C11_read_absent",
    "C11_read_last_write"
   ],
   "note": "Histories of add/assign on stores without derivatives refine a key/attribute map; reads of stored and absent keys; last write wins."
  },
  {
   "property": "C12",
   "status": "partial",
   "theorems": [
    "C12_listed_readable_partial",
    "C12_first_derivative_partial",
    "C12_later_derivative_refuted",
    "C12_same_value"
   ],
   "note": "Proved for stored keys and keys handed on by first derivatives along a chain; refuted for a key only a later derivative contributes (KeyError)."
  },
  {
   "property": "C13",
   "status": "proved",
   "theorems": [
    "C13_first_read_runs_and_saves",
    "C13_unsaved_not_stored",
    "C13_later_reads_reuse",
    "C13_computed_once",
    "C13_none_recomputed"
   ],
   "note": "First read runs the generator once and saves every output not marked save=False; later reads reuse; None or unsaved outputs are recomputed. Generators are modelled as functions of the run counter that do not touch the stores."
  },
  {
   "property": "C14",
   "status": "partial",
   "theorems": [
    "C14_listing_terminates",
    "C14_no_trace_partial",
    "C14_complete_without_filters_partial",
    "C14_guard_leak_refuted",
    "C14_filtered_chain_refuted",
    "C14_read_diverges_refuted"
   ],
   "note": "Termination for every finite graph, soundness, guard reset without self links, completeness for direct sources and, without filters, for all reachable stores. Refuted: guard leak on a self link, filtered chains miss keys, reading derived data may recurse for ever."
  },
  {
   "property": "C15",
   "status": "partial",
   "theorems": [
    "C15_update_reads",
    "C15_other_unchanged_partial",
    "C15_self_priority_refuted",
    "C15_items_shared_refuted"
   ],
   "note": "Read law proved for both priorities; b unchanged refuted for priority self, and items stay shared under both."
  },
  {
   "property": "C16",
   "status": "partial",
   "theorems": [
    "C16_stored_or_default",
    "C16_derived_or_default_partial",
    "C16_unknown_refuted"
   ],
   "note": "Proved for stored items and items of a store with derivatives; an unknown item of a store without derivatives raises UnboundLocalError (refuted)."
  },
  {
   "property": "C17",
   "status": "partial",
   "theorems": [
    "C17_all_new_succeeds_partial",
    "C17_all_or_nothing_refuted"
   ],
   "note": "Refuted: the keys before the existing one stay added. Success case proved."
  },
  {
   "property": "C18",
   "status": "proved",
   "theorems": [
    "C18_rotation_matrix",
    "C18_sign_and_conjugate",
    "C18_matrix_injective"
   ],
   "note": "Proved over the reals, plus: the matrix determines the unit quaternion up to sign."
  },
  {
   "property": "C19",
   "status": "proved",
   "theorems": [
    "C19_product_composes",
    "C19_product_group"
   ],
   "note": "Proved over the reals; group laws hold up to quaternion sign because the constructor moves results to the northern hemisphere."
  },
  {
   "property": "C20",
   "status": "partial",
   "theorems": [
    "C20_transform_vector_partial",
    "C20_transform_is_rotation_partial",
    "C20_transform_vector_refuted"
   ],
   "note": "Proved for northern objects (all objects not built with allow_southern). Refuted for southern objects: conjugate flips the sign, so the rotated vector comes out reversed."
  },
  {
   "property": "C21",
   "status": "proved",
   "theorems": [
    "C21_northern",
    "C21_operations_northern",
    "C21_normalise"
   ],
   "note": "Proved over the reals."
  },
  {
   "property": "C22",
   "status": "proved",
   "theorems": [
    "C22_from_euler",
    "C22_quat_round_trip",
    "C22_angles_round_trip"
   ],
   "note": "Proved over the reals in both directions (angles to quaternion and back for Phi strictly between 0 and pi)."
  },
  {
   "property": "C23",
   "status": "proved",
   "theorems": [
    "C23_axis_angle"
   ],
   "note": "Proved over the reals for non-zero axes."
  },
  {
   "property": "C24",
   "status": "proved",
   "theorems": [
    "C24_cubic",
    "C24_hexagonal",
    "C24_other"
   ],
   "note": "Proved by exact computation in Z[sqrt 2]/2 and Z[sqrt 3]/2, transferred to the reals."
  },
  {
   "property": "C25",
   "status": "proved",
   "theorems": [
    "C25_maximum",
    "C25_range_and_zero",
    "C25_symmetric",
    "C25_invariant",
    "C25_frame_indifferent",
    "C25_triangle",
    "C25_returned_equivalent",
    "C25_returned_equivalent_unassigned"
   ],
   "note": "Proved over the reals, plus the triangle inequality of the misorientation angle and totality of the returned equivalent for the two crystal symmetries."
  },
  {
   "property": "C26",
   "status": "proved",
   "theorems": [
    "C26_create_many",
    "C26_multiply_many",
    "C26_calc_sym_eqvs",
    "C26_calcMisOri"
   ],
   "note": "Proved over the reals, including calcMisOri."
  },
  {
   "property": "C27",
   "status": "partial",
   "theorems": [
    "C27_average_is_running_sum",
    "C27_average_unit",
    "C27_average_of_copies",
    "C27_representation_independent_partial",
    "C27_sign_dependence_refuted",
    "C27_average_far_from_inputs_refuted"
   ],
   "note": "Unit result, copies, and exact characterisation as a running sum proved; representation independence only where the nearest equivalent is unique. Refuted in general: sign of a half-turn quaternion, and two close orientations with a far-away average."
  },
  {
   "property": "C28",
   "status": "partial",
   "theorems": [
    "C28_cubic_image",
    "C28_cubic_partial",
    "C28_cubic_axis",
    "C28_cubic_refuted",
    "C28_cubic_equiv",
    "C28_cubic_each",
    "C28_hex_image",
    "C28_hex_partial",
    "C28_hex_any",
    "C28_hex_refuted",
    "C28_hex_equiv",
    "C28_errors",
    "C28_colours",
    "C28_corners",
    "C28_edges",
    "C28_cubic_colours_partial",
    "C28_cubic_colours_refuted",
    "C28_hex_red",
    "C28_hex_colours"
   ],
   "note": "In real arithmetic. Cubic: the unique image in the triangle is reported unless the direction is along a cube axis; then a direction at 90 degrees to the corner is reported (C28_cubic_refuted) and the colour is orange (1,2/3,0) instead of red (C28_cubic_colours_refuted). Hexagonal: exact if no orientation of the array has the direction along c; with one such orientation the azimuth range is widened by 1e-8 for all, so a direction depends on the other orientations (C28_hex_refuted), within 1e-8 (C28_hex_any). Colours: always in range with maximum 1. A wrong triangle name ends in UnboundLocalError (C28_errors)."
  },
  {
   "property": "C29",
   "status": "partial",
   "theorems": [
    "C29_equal",
    "C29_symmetric",
    "C29_transitive",
    "C29_reflexive_partial",
    "C29_reflexive_refuted",
    "C29_hash",
    "C29_setitem",
    "C29_set_partial",
    "C29_set_refuted"
   ],
   "note": "Symmetry, transitivity, hash consistency and lookup in sets proved for all floats incl. infinities and signed zeros; reflexivity holds exactly without nan components (refuted with nan); a quaternion changed in place after being put in a set is not found."
  },
  {
   "property": "C30",
   "status": "partial",
   "theorems": [
    "C30_axis_partial",
    "C30_axis_refuted"
   ],
   "note": "Proved for different orientations; for equal orientations the code divides 0 by 0 (nan) instead of returning zero."
  },
  {
   "property": "C31",
   "status": "partial",
   "theorems": [
    "C31_plane_round_trip",
    "C31_plane_round_trip_back",
    "C31_direction_round_trip_partial",
    "C31_direction_round_trip_back_partial",
    "C31_direction_real_partial",
    "C31_scalar_product_partial",
    "C31_int8_wrap_refuted",
    "C31_rounded_refuted"
   ],
   "note": "Planes: all integer and real indices. Directions: exact for integers within 127 and for reals not all near integers. Outside that the int8 cast wraps (C31_int8_wrap_refuted) and near-integers are rounded (C31_rounded_refuted)."
  },
  {
   "property": "C32",
   "status": "partial",
   "theorems": [
    "C32_dual",
    "C32_cell_dual_partial",
    "C32_cell_tsl_partial",
    "C32_cell_hkl_partial",
    "C32_hkl_lengths_refuted",
    "C32_small_cell_refuted",
    "C32_unknown_convention"
   ],
   "note": "Duality for every right-handed matrix and every admissible cell without entries below 1e-10. Lengths and angles: TSL always; HKL for cells with a=b and right angles; refuted for HKL with a<>b and for cells below the 1e-10 threshold."
  },
  {
   "property": "C33",
   "status": "partial",
   "theorems": [
    "C33_reduced_form_exists",
    "C33_reduce_partial",
    "C33_reduce_idempotent_partial",
    "C33_zero_rejected",
    "C33_int8_wrap_refuted",
    "C33_positive",
    "C33_positive_same_iff",
    "C33_canonical_partial"
   ],
   "note": "Reduction proved when the reduced indices fit int8; wraps otherwise (refuted). Sign rule proved for all integers."
  },
  {
   "property": "C34",
   "status": "partial",
   "theorems": [
    "C34_cubic_vectors",
    "C34_hexagonal_vectors",
    "C34_cubic_files_partial",
    "C34_hexagonal_files",
    "C34_cubic_bcc_refuted"
   ],
   "note": "All shipped files but cubic_bcc.txt; cubic_bcc.txt refuted."
  },
  {
   "property": "C35",
   "status": "proved",
   "theorems": [
    "C35_partition",
    "C35_total",
    "C35_constructed",
    "C35_family_partition"
   ],
   "note": "Grouping by plane in full; also grouping by family."
  },
  {
   "property": "C36",
   "status": "proved",
   "theorems": [
    "C36_equal_iff",
    "C36_equivalence_and_hash",
    "C36_hashable"
   ],
   "note": ""
  },
  {
   "property": "C37",
   "status": "partial",
   "theorems": [
    "C37_cubic_family_partial",
    "C37_hexagonal_family_partial",
    "C37_unreduced_refuted"
   ],
   "note": "Cubic: indices within 127 (int8). Hexagonal: indices within 42, known conventions, self-membership for coprime indices; refuted for unreduced indices."
  },
  {
   "property": "C38",
   "status": "partial",
   "theorems": [
    "C38_range",
    "C38_sign",
    "C38_layout",
    "C38_bcc_file_refuted"
   ],
   "note": "Holds for systems with orthogonal unit vectors; the shipped BCC list violates the premise and the bound (refuted)."
  },
  {
   "property": "C39",
   "status": "proved",
   "theorems": [
    "C39_laue",
    "C39_rejected",
    "C39_file",
    "C39_constructed"
   ],
   "note": ""
  },
  {
   "property": "C40",
   "status": "partial",
   "theorems": [
    "C40_scatter_collect",
    "C40_collect_scatter",
    "C40_map_data_partial",
    "C40_background_partial",
    "C40_order",
    "C40_length_checked",
    "C40_background_refuted",
    "C40_ids"
   ],
   "note": "Scatter/collect and order independence for all disjoint grains; every list of ids, repeated or counted from the end, is characterised (C40_ids), and one id that is not on the map fails. Not kept in general: a non-integer background with integer data is truncated (C40_background_refuted)."
  },
  {
   "property": "C41",
   "status": "partial",
   "theorems": [
    "C41_box",
    "C41_image_partial",
    "C41_outline_partial",
    "C41_coarse_partial",
    "C41_outline_nan_refuted",
    "C41_vector_refuted",
    "C41_coarse_int_refuted",
    "C41_empty"
   ],
   "note": "Box, image, outline, coarse image proved for scalar float data. Refuted: default nan background of the outline, vector map data, integer data in the coarse image."
  },
  {
   "property": "C42",
   "status": "proved",
   "theorems": [
    "C42_nearest",
    "C42_batching_irrelevant",
    "C42_no_trials"
   ],
   "note": ""
  },
  {
   "property": "C43",
   "status": "partial",
   "theorems": [
    "C43_average_partial",
    "C43_outside_irrelevant",
    "C43_nan",
    "C43_single_id_refuted",
    "C43_ids"
   ],
   "note": "Proved for -1 and every list of ids, repeated or counted from the end (C43_ids). A single integer id is a TypeError (C43_single_id_refuted)."
  },
  {
   "property": "C44",
   "status": "partial",
   "theorems": [
    "C44_tuple_partial",
    "C44_norm_partial",
    "C44_rejects_partial",
    "C44_validate",
    "C44_ipf_refuted"
   ],
   "note": "Refuted for names starting with ipf: IndexError / KeyError instead of ValueError."
  },
  {
   "property": "C45",
   "status": "partial",
   "theorems": [
    "C45_click_partial",
    "C45_no_background",
    "C45_off_map",
    "C45_half_pixel_refuted"
   ],
   "note": "Clicks in the half of a drawn pixel above its integer coordinate select the right grain; the other half selects the previous pixel (C45_half_pixel_refuted)."
  },
  {
   "property": "C46",
   "status": "partial",
   "theorems": [
    "C46_shape",
    "C46_crop_partial",
    "C46_pattern",
    "C46_unchecked_refuted"
   ],
   "note": "C46_shape holds for every history of set_crop. Cropped values (C46_crop_partial) need crops that fit: set_crop accepts negative and too large distances, and then shape and data disagree (C46_unchecked_refuted)."
  },
  {
   "property": "C47",
   "status": "proved",
   "theorems": [
    "C47_material_points",
    "C47_not_updated"
   ],
   "note": "Every history of calls with update_homog_points; calls without it leave the points alone. Homologous points with two coordinates."
  },
  {
   "property": "C48",
   "status": "proved",
   "theorems": [
    "C48_linear",
    "C48_translation",
    "C48_local",
    "C48_rigid_rotation",
    "C48_symmetric",
    "C48_frame_indifferent",
    "C48_max_shear",
    "C48_too_small"
   ],
   "note": "Over the reals. Any spacing but zero; maps of fewer than two rows or columns are a ValueError (C48_too_small)."
  },
  {
   "property": "C49",
   "status": "partial",
   "theorems": [
    "C49_hides",
    "C49_other_size",
    "C49_no_mask",
    "C49_independent",
    "C49_dilation",
    "C49_shape_checked",
    "C49_read_partial",
    "C49_recrop_refuted"
   ],
   "note": "Mask of the shape of the cropped map; the stored mask does not follow a later crop (C49_recrop_refuted)."
  },
  {
   "property": "C50",
   "status": "partial",
   "theorems": [
    "C50_linked_partial",
    "C50_others_unchanged",
    "C50_unlinked",
    "C50_both_senses_refuted",
    "C50_self_link",
    "C50_piecewise_refuted"
   ],
   "note": "Estimation and inversion of transforms are parameters (skimage). Linking also in the other sense makes both lookups fail for good (C50_both_senses_refuted); the documented 'piecewiseAffine' is rejected on use (C50_piecewise_refuted); polynomial transforms are estimated in both senses, so are not inverse."
  },
  {
   "property": "C51",
   "status": "partial",
   "theorems": [
    "C51_replace_partial",
    "C51_move",
    "C51_move_all",
    "C51_bad_index",
    "C51_bad_sequence_partial",
    "C51_accepted_refuted"
   ],
   "note": "Wrong-length tuples are accepted, -1 with a new point erases all points, no argument erases the point (C51_accepted_refuted)."
  },
  {
   "property": "C52",
   "status": "partial",
   "theorems": [
    "C52_value",
    "C52_zero_iff",
    "C52_bounds",
    "C52_at_least_mean",
    "C52_local_and_invariant",
    "C52_too_small",
    "C52_not_the_mean_refuted"
   ],
   "note": "The value is twice the arccosine of the mean of half-angle cosines (vertical pair and horizontal pair averaged with equal weight), not the mean angle: refuted by a 2x2 map; it is at least the mean and within the range of the neighbours. Symmetry is ignored. Maps with a side under 2 raise IndexError."
  },
  {
   "property": "C53",
   "status": "partial",
   "theorems": [
    "C53_uniform_zero",
    "C53_value_partial",
    "C53_edge",
    "C53_x_gradient_refuted"
   ],
   "note": "Refuted: line 513 assigns betaderx to betadery, so the gradient along x plays no part; a map varying along x only has zero density. The value actually computed is given exactly. The floor masks never apply."
  },
  {
   "property": "C54",
   "status": "partial",
   "theorems": [
    "C54_scalars_partial",
    "C54_orientation_partial",
    "C54_history_refuted",
    "C54_no_band_slope_refuted"
   ],
   "note": "Scalars are turned by 180 degrees and restored by a second turn; orientations are turned in place of pixels order when already computed. Refuted: result depends on whether orientations were generated before; without band_slope (all but Oxford files) a KeyError follows after half the data was turned."
  },
  {
   "property": "C55",
   "status": "partial",
   "theorems": [
    "C55_unit_northern",
    "C55_edges_kept",
    "C55_local",
    "C55_value",
    "C55_uniform",
    "C55_zero_tolerance_refuted",
    "C55_small_map_refuted",
    "C55_returns",
    "C55_sign_refuted"
   ],
   "note": "Value, edges, locality, uniform regions and unit results are proved in full for tolerances in (0, 360]. Refuted: quaternion signs are ignored, so a pixel can get an orientation further from all its inputs than the tolerance; tolerance 0 gives nan everywhere; maps with a side under 5 end in UnboundLocalError after storing."
  },
  {
   "property": "C56",
   "status": "partial",
   "theorems": [
    "C56_make_link",
    "C56_links_invariant",
    "C56_clicks_refuted",
    "C56_one_to_one_refuted",
    "C56_reference"
   ],
   "note": "Links never repeat, have one grain per map and need a full selection; reference orientations come from the last link. Refuted: two links may share a grain; clicking a linking plot raises AttributeError (plot.callingMap), so no selection can be made that way."
  },
  {
   "property": "C57",
   "status": "partial",
   "theorems": [
    "C57_round_trip_partial",
    "C57_can_save",
    "C57_orientation",
    "C57_one_file",
    "C57_existing",
    "C57_type",
    "C57_missing",
    "C57_no_phases_refuted",
    "C57_tab_name_refuted",
    "C57_slip_systems_refuted",
    "C57_slip_systems_had",
    "C57_step_refuted",
    "C57_row_refused",
    "C57_no_step"
   ],
   "note": "Proved for maps whose phase names contain no tab, CR/LF or surrounding white space and with at least one phase: the file written by save loads back with the same shape, step rounded to 4 decimals, phases, band contrast and Euler angles rounded to 3 decimals in degrees (orientation within 0.0015 degree). Refuted in general: a map with no phases or a tab in a phase name cannot be read back, slip systems and space group specific data are lost, and a small step is written as 0. Band slope, MAD and EDX columns beyond those written are not modelled."
  },
  {
   "property": "C58",
   "status": "proved",
   "theorems": [
    "C58_lines_before_marker",
    "C58_kept_unique"
   ],
   "note": "Files are lists of lines without line feeds; process functions may keep state and fail."
  },
  {
   "property": "C59",
   "status": "partial",
   "theorems": [
    "C59_known_fields_partial",
    "C59_unknown_last",
    "C59_header",
    "C59_windows",
    "C59_unknown_drops",
    "C59_unknown_refuted",
    "C59_no_count",
    "C59_no_field"
   ],
   "note": "Proved for headers with distinct known field ids (optionally one unknown 4-byte field at the end), record bytes of the declared widths and the fields the loader needs. Refuted in general: an unknown field id removes all later fields from the layout, so the file is refused or read out of step. EDX maps of the result are not modelled; field bytes are not interpreted as numbers."
  },
  {
   "property": "C60",
   "status": "partial",
   "theorems": [
    "C60_values_partial",
    "C60_every_key",
    "C60_ends",
    "C60_equals_refuted",
    "C60_no_section"
   ],
   "note": "Proved for headers whose entries have no '=' inside the value and no white space at the line ends. Refuted in general: an entry with '=' in its value is dropped. Reading always ends."
  },
  {
   "property": "C61",
   "status": "partial",
   "theorems": [
    "C61_pyvale",
    "C61_pyvale_own_pixel_partial",
    "C61_pyvale_raster",
    "C61_pyvale_type",
    "C61_pyvale_column_order_refuted",
    "C61_pyvale_order_refuted",
    "C61_pyvale_off_grid_refuted",
    "C61_openpiv_text_partial",
    "C61_openpiv_text_raster",
    "C61_openpiv_binary_partial",
    "C61_openpiv_binary_raster",
    "C61_openpiv_text_refuted",
    "C61_openpiv_binary_refuted",
    "C61_openpiv_text_origin_refuted",
    "C61_davis",
    "C61_davis_header",
    "C61_davis_raster"
   ],
   "note": "PyVale: each pixel shows the last row of its cell or 0; own coordinates if all rows lie on a grid of the found step; complete rasters in row order load. Refuted: column order is refused, some row orders load with a wrong step, off-grid rows are shown elsewhere. OpenPIV: measurements keep their coordinates, rasters decreasing in y come out increasing; refuted for rasters already increasing, which come out decreasing, and for grids not starting half a step from the origin. Davis: order of the file is kept, rasters load."
  },
  {
   "property": "C62",
   "status": "partial",
   "theorems": [
    "C62_check_iff",
    "C62_check_error",
    "C62_grid_partial",
    "C62_wrong_binning",
    "C62_wrong_shape",
    "C62_not_grid_refuted",
    "C62_ebsd_type",
    "C62_ebsd_suffix",
    "C62_dic_type",
    "C62_dic_other",
    "C62_dic_default"
   ],
   "note": "Loader choice is characterised completely. check_data is characterised exactly and agrees with the metadata for regular grids of at least two rows and columns; refuted: one row or column is refused, and some data that are no grid are accepted."
  },
  {
   "property": "C63",
   "status": "partial",
   "theorems": [
    "C63_numbers",
    "C63_planes",
    "C63_first_grouping",
    "C63_bundles_partial",
    "C63_regroup_refuted",
    "C63_mean_refuted",
    "C63_axis_refuted",
    "C63_others",
    "C63_kept",
    "C63_removed",
    "C63_cleared"
   ],
   "note": "Numbering, completeness and plane lists hold in every history; the nearest-group rule and mean angles for lines grouped for the first time. Regrouping invariance and mean angles after later events hold if nothing was removed and lines form separate bundles; refuted in general (stale group ids are kept when regrouping), and for lines either side of 0/180 degrees."
  },
  {
   "property": "C64",
   "status": "partial",
   "theorems": [
    "C64_value",
    "C64_load",
    "C64_history_partial",
    "C64_number",
    "C64_determined",
    "C64_numpy2_refuted",
    "C64_nan_refuted",
    "C64_twice_refuted"
   ],
   "note": "Proved for every history of events with numpy 1, and with numpy 2 when no line joined a group and no ratio was calculated: the file loads without error into an inspector without lines, and restores ends, angle, group of every line and number, angle, planes, deviations and ratio of every group. False in general: with numpy 2 group numbers and ratios are written as np.int64(...) and are rejected on loading (C64_numpy2_refuted), a nan ratio is rejected (C64_nan_refuted), and loading appends to lines already present (C64_twice_refuted)."
  },
  {
   "property": "C65",
   "status": "partial",
   "theorems": [
    "C65_angle",
    "C65_range",
    "C65_swap_partial",
    "C65_vertical_refuted",
    "C65_correction_refuted"
   ],
   "note": "Angle and ends for every line; independent of direction unless parallel to the y axis, where it is 0 or 180 by direction (refuted); correction can take it out of [0,180] (refuted)."
  },
  {
   "property": "C66",
   "status": "partial",
   "theorems": [
    "C66_least_squares_partial",
    "C66_recorded",
    "C66_edge_refuted",
    "C66_correction_refuted",
    "C66_slip_ratio"
   ],
   "note": "Least squares slope, exactness, definedness and sampling direction in every history without correction angle when samples are on the map; at the left and upper edges samples wrap round (refuted); with a correction angle the wrong row of the sampling table is used (refuted). Slip ratio of a system fully proved."
  },
  {
   "property": "C67",
   "status": "proved",
   "theorems": [
    "C67_polar",
    "C67_stereo",
    "C67_lambert",
    "C67_angles",
    "C67_increasing",
    "C67_injective",
    "C67_equal_area",
    "C67_equal_angle",
    "C67_circles",
    "C67_arguments"
   ],
   "note": "Over the reals; tan at exactly 180 degrees is undefined here (a large float in the code)."
  },
  {
   "property": "C68",
   "status": "partial",
   "theorems": [
    "C68_list_changed",
    "C68_lists",
    "C68_partial",
    "C68_default_repeats",
    "C68_refuted"
   ],
   "note": "Refuted as stated: each call inserts 'white' in front of the caller's list, so a second call with it draws different colours. Proved: exactly how every list changes over every session, lists not passed stay unchanged, and calls without a list repeat exactly."
  },
  {
   "property": "C69",
   "status": "proved",
   "theorems": [
    "C69_transparent",
    "C69_texts",
    "C69_ends_only_if",
    "C69_messages",
    "C69_other"
   ],
   "note": "Every generator that ends: same value or exception, each state resumed once, messages as specified; conversely a call that ends under the decorator ends by itself. Infinite floats are not modelled."
  },
  {
   "property": "C70",
   "status": "partial",
   "theorems": [
    "C70_perpendicular",
    "C70_nan",
    "C70_opposite_normal",
    "C70_vertical_ambiguous_refuted"
   ],
   "note": "Perpendicularity, inclination and the nan case are proved for all unit normals; n and -n give the same line, except that a vertical trace is reported as 0 or pi depending on the sign (shown by witness)."
  },
  {
   "property": "C71",
   "status": "partial",
   "theorems": [
    "C71_grod",
    "C71_identical",
    "C71_list",
    "C71_average_refuted"
   ],
   "note": "Angle and axis proved for stored and average references. The axis is nan for points equivalent to the reference. Refuted: mis_ori_list and average_mis_ori hold half-angle cosines, 1 for a grain without misorientation."
  },
  {
   "property": "C72",
   "status": "proved",
   "theorems": [
    "C72_grain_phase"
   ],
   "note": "Proved."
  },
  {
   "property": "C73",
   "status": "partial",
   "theorems": [
    "C73_link_modal_partial",
    "C73_background_link",
    "C73_link_refuted"
   ],
   "note": "Proved when the modal EBSD label is positive; refuted when background is modal (negative list index links an unrelated grain)."
  },
  {
   "property": "C74",
   "status": "proved",
   "theorems": [
    "C74_lines_are_pixel_edges",
    "C74_return_shapes"
   ],
   "note": ""
  },
  {
   "property": "C75",
   "status": "partial",
   "theorems": [
    "C75_distinct_and_coloured_partial",
    "C75_bcc_110only_colours_refuted",
    "C75_bcc_refuted"
   ],
   "note": "FCC and hexagonal lists; refuted for cubic_bcc and cubic_bcc_110only."
  },
  {
   "property": "C76",
   "status": "proved",
   "theorems": [
    "C76_one_derivative_per_function"
   ],
   "note": ""
  },
  {
   "property": "C77",
   "status": "proved",
   "theorems": [
    "C77_highlighted"
   ],
   "note": ""
  },
  {
   "property": "C78",
   "status": "proved",
   "theorems": [
    "C78_centre"
   ],
   "note": ""
  },
  {
   "property": "C79",
   "status": "proved",
   "theorems": [
    "C79_warp_lines"
   ],
   "note": "The transform is any function of the plane."
  },
  {
   "property": "C80",
   "status": "partial",
   "theorems": [
    "C80_same_position",
    "C80_slice_partial",
    "C80_negative_crop_refuted"
   ],
   "note": "C80_same_position: exact positions, every invertible affine transform. The slice agrees when the crop starts and ends inside (C80_slice_partial); otherwise numpy's negative index loses the points (C80_negative_crop_refuted). skeletonize and remove_small_objects are not modelled."
  },
  {
   "property": "C81",
   "status": "proved",
   "theorems": [
    "C81_saved_point"
   ],
   "note": "Real positions, positive binning."
  },
  {
   "property": "C82",
   "status": "partial",
   "theorems": [
    "C82_greatest_partial",
    "C82_directions_ignored_refuted",
    "C82_total"
   ],
   "note": "Proved except when directions are given without planes: they are then ignored (refuted)."
  },
  {
   "property": "C83",
   "status": "partial",
   "theorems": [
    "C83_value",
    "C83_symmetric",
    "C83_other_structure_refuted"
   ],
   "note": "Cubic and hexagonal in full; for any other structure name a 180 degree misorientation ends in UnboundLocalError (refuted)."
  },
  {
   "property": "C84",
   "status": "partial",
   "theorems": [
    "C84_value",
    "C84_refuted"
   ],
   "note": "Colouring by phase proved for supported structures and indices in range. Refuted: the unsupported structure exception is built but not raised, so it is coloured with the previous phase's ranges or ends in UnboundLocalError; index -1 colours non-indexed pixels; values exceed 1."
  },
  {
   "property": "C85",
   "status": "partial",
   "theorems": [
    "C85_table_partial",
    "C85_table_refuted"
   ],
   "note": "Rows, grain ids, groups and Schmid factors proved; Euler angles are those of the selected grain, so wrong for others (refuted)."
  },
  {
   "property": "C86",
   "status": "partial",
   "theorems": [
    "C86_shown_partial",
    "C86_moves",
    "C86_beyond_refuted"
   ],
   "note": "Proved as long as no request went beyond the map; refuted after one that did."
  },
  {
   "property": "C87",
   "status": "partial",
   "theorems": [
    "C87_names",
    "C87_bad_default_refuted",
    "C87_line",
    "C87_line_drawn",
    "C87_symmetric_partial",
    "C87_symmetric_refuted",
    "C87_points_partial",
    "C87_points_refuted"
   ],
   "note": "Choice of projection, points of a line and two-colour markers proved. False: a symmetric copy of a line with one end turned to the upper half is another line (C87_symmetric_refuted; C87_symmetric_partial gives the exact condition); one marker colour always raises, and two colours always raise through plot_ipf (C87_points_refuted); a bad package default breaks pole figures with an explicit projection (C87_bad_default_refuted)."
  },
  {
   "property": "C89",
   "status": "partial",
   "theorems": [
    "C89_arrows",
    "C89_top_partial",
    "C89_top_refuted"
   ],
   "note": "Directions and colours proved for all lists. top_only holds for angles in [-90, 180) degrees and fails for angles in (-180, -90)."
  },
  {
   "property": "C88",
   "status": "partial",
   "theorems": [
    "C88_shown",
    "C88_colours_partial",
    "C88_colours_refuted",
    "C88_covered_hidden",
    "C88_layers",
    "C88_points",
    "C88_failed",
    "C88_neighbours",
    "C88_neighbour_colours_partial",
    "C88_neighbour_colours_refuted"
   ],
   "note": "Proved: which colour every pixel shows for any number of grains and colours, which is the colour asked for when there are no more colours than grains and some background is left (C88_colours_partial); layer bookkeeping over all call sequences; failed calls change nothing; the neighbour sets. Refuted: with more colours than grains the colours are spread (one grain and three colours shows the third); chosen grains covering the whole map leave the first one unseen; a grain with no second neighbours gets wrong neighbour colours."
  },
  {
   "property": "C90",
   "status": "partial",
   "theorems": [
    "C90_types",
    "C90_none_refuted",
    "C90_hist_partial",
    "C90_bins_refuted",
    "C90_range_refuted",
    "C90_errors",
    "C90_once",
    "C90_area",
    "C90_create"
   ],
   "note": "Proved for ranges low to high, bins >= 2 and positive ranges on logarithmic axes. Refuted: one bin fewer than asked for is drawn, the documented default range raises TypeError, the documented axes type 'None' is rejected."
  },
  {
   "property": "C91",
   "status": "partial",
   "theorems": [
    "C91_load_partial",
    "C91_readable",
    "C91_numpy_refuted",
    "C91_numpy_error",
    "C91_fit_partial",
    "C91_fit_refuted",
    "C91_name_refuted",
    "C91_255_refuted",
    "C91_order",
    "C91_grid",
    "C91_symmetry",
    "C91_dimensions",
    "C91_missing",
    "C91_no_step"
   ],
   "note": "Proved for numpy before 1.23: good files load as described. With numpy 1.23 or later no .ang file loads, because eight columns are asked for seven fields (C91_numpy_refuted); with older numpy the fit factor of the map is the detector signal column (C91_fit_refuted). Only the first word of a phase name is kept; phase number 255 becomes 0. Phase numbers are those of the file plus one. float32 rounding not modelled."
  },
  {
   "property": "C92",
   "status": "partial",
   "theorems": [
    "C92_load",
    "C92_errors",
    "C92_contrast_refuted"
   ],
   "note": "Accepted dictionaries are characterised exactly; refuted: the shape of the band contrast is not checked (C92_contrast_refuted)."
  },
  {
   "property": "C93",
   "status": "partial",
   "theorems": [
    "C93_pick_partial",
    "C93_shown",
    "C93_grow",
    "C93_idle",
    "C93_pixel_partial",
    "C93_pixel_refuted",
    "C93_array_refuted",
    "C93_unknown_key"
   ],
   "note": "Proved for every history of events; refuted: lower half of a pixel selects the neighbour, array points lose the selection. _partial: pixel under the pointer only in the upper half."
  },
  {
   "property": "C94",
   "status": "partial",
   "theorems": [
    "C94_owner",
    "C94_new_in_increment",
    "C94_new_alone",
    "C94_assert",
    "C94_iter",
    "C94_next",
    "C94_ended",
    "C94_failed_refuted"
   ],
   "note": "Ownership, registration and iteration proved for every reachable registry; refuted: a map whose loading failed stays registered."
  },
  {
   "property": "C95",
   "status": "partial",
   "theorems": [
    "C95_cubic_partial",
    "C95_hexagonal_partial",
    "C95_refused",
    "C95_wide_refuted",
    "C95_miller_direction_refuted"
   ],
   "note": "Refuted for indices beyond eight bits and for hexagonal three-index directions; exact characterisation proved within 127 (cubic) and 42 (hexagonal), where no eight-bit value overflows."
  },
  {
   "property": "C96",
   "status": "partial",
   "theorems": [
    "C96_readable_partial",
    "C96_slip_system_partial",
    "C96_two_digits_refuted",
    "C96_refused"
   ],
   "note": "Refuted for two digits; proved for indices from -9 to 9. The texts themselves (digits, bars, brackets) are fixed only by the example C96_readable_partial_met, not by a theorem: a wrong closing bracket is not noticed by the theorems."
  },
  {
   "property": "C97",
   "status": "partial",
   "theorems": [
    "C97_cubic_partial",
    "C97_hexagonal_partial",
    "C97_plain",
    "C97_given",
    "C97_south_refuted"
   ],
   "note": "Refuted for southern directions; proved for all others."
  },
  {
   "property": "C98",
   "status": "partial",
   "theorems": [
    "C98_deviation",
    "C98_traces",
    "C98_table",
    "C98_recalculated",
    "C98_stale_refuted",
    "C98_failures_refuted",
    "C98_foreign_traces_refuted",
    "C98_rdr",
    "C98_table_refuted"
   ],
   "note": "proved for histories in which no reference is set from outside; refuted (stale or mixed values, foreign slip systems, failed calculations) otherwise"
  },
  {
   "property": "C99",
   "status": "partial",
   "theorems": [
    "C99_linked",
    "C99_others",
    "C99_no_master_refuted",
    "C99_grod_refuted"
   ],
   "note": "proved when the master's reference exists; refuted for missing references and GROD data"
  },
  {
   "property": "C100",
   "status": "partial",
   "theorems": [
    "C100_map",
    "C100_agrees",
    "C100_component_refuted"
   ],
   "note": "Proved for components 0..3. A component outside 0..3 is shown as component 0 while a grain's own plot refuses it (C100_component_refuted)."
  },
  {
   "property": "C101",
   "status": "partial",
   "theorems": [
    "C101_colour",
    "C101_colour_exists",
    "C101_euler",
    "C101_not_indexed_refuted",
    "C101_integers_refuted"
   ],
   "note": "Proved for cubic phases, and for hexagonal ones when no pixel of the phase has the direction along its c axis (the window is widened for all then, see C28). Integer backgrounds cut every colour to integers; phase -1 colours pixels that are not indexed."
  },
  {
   "property": "C102",
   "status": "partial",
   "theorems": [
    "C102_map_partial",
    "C102_given_partial",
    "C102_refused",
    "C102_single_id_refuted",
    "C102_ipf_partial",
    "C102_no_reference",
    "C102_other_phase_refuted"
   ],
   "note": "Maps: proved for real values and for all grains or a list of them. Figures: proved for a cubic primary phase. A single grain number is refused although documented; grains of another phase are shown with the symmetry of the primary phase."
  },
  {
   "property": "C103",
   "status": "partial",
   "theorems": [
    "C103_label",
    "C103_no_label",
    "C103_distinct_partial",
    "C103_scale",
    "C103_given",
    "C103_refuted"
   ],
   "note": "Content, scale and caller arguments proved; different labels proved for component numbers with one digit. Components counted from the end have another label, components with two digits can share one."
  },
  {
   "property": "C104",
   "status": "partial",
   "theorems": [
    "C104_component",
    "C104_euler",
    "C104_ipf_partial",
    "C104_points_refuted",
    "C104_no_image"
   ],
   "note": "All components of map data and Euler colours are proved in full. IPF colours of hexagonal grains agree only if no pixel of the phase has the direction along its c axis (then the other pixels of the array decide, see C28). The grain's own point list is laid out the other way round and its picture is wrong (C104_points_refuted)."
  },
  {
   "property": "C105",
   "status": "partial",
   "theorems": [
    "C105_shape_partial",
    "C105_pattern",
    "C105_mask_refused",
    "C105_data_partial",
    "C105_boundaries_partial",
    "C105_grains_partial",
    "C105_corr_refuted",
    "C105_corr_partial",
    "C105_relink_refuted",
    "C105_relink_grains_refuted",
    "C105_stale_refuted",
    "C105_failed_crop_refuted"
   ],
   "note": "The pattern claim holds for every history. The shape claim needs homologous points that are pairs (otherwise a failing set_crop keeps the crop and not the shape); masks need an unchanged crop afterwards; boundaries need all links to one map (after re-linking they are the first map's, moved with the second's frame); grains need an unchanged crop, link and point list since first read (they are kept otherwise); refused correlation values are kept. Finding grains and warping are parameters."
  },
  {
   "property": "C106",
   "status": "partial",
   "theorems": [
    "C106_samples",
    "C106_point",
    "C106_value",
    "C106_row",
    "C106_reverse",
    "C106_hidden_refuted",
    "C106_drag_partial",
    "C106_outside_refuted"
   ],
   "note": "The curve is proved in full for images of one number per pixel (skimage's profile_line modelled: width 1, linear, mode nearest). The start is the last press on the plot, which is not the start of the drag when that was outside the plot (C106_outside_refuted), and values hidden by the mask are drawn (C106_hidden_refuted)."
  },
  {
   "property": "C107",
   "status": "partial",
   "theorems": [
    "C107_percentile",
    "C107_order",
    "C107_refused",
    "C107_table",
    "C107_unknown"
   ],
   "note": "The layout of the printed numbers (width, four decimals) and the rows printed before a failure are not modelled; a masked array is taken as its values. Partial because C107_percentile and C107_order take the list of values without nan from the model's own function; that it leaves out exactly the nan is shown only by the example C107_percentile_met, not by a theorem."
  },
  {
   "property": "C108",
   "status": "partial",
   "theorems": [
    "C108_reads",
    "C108_failed_partial",
    "C108_loaded",
    "C108_current_partial",
    "C108_refresh",
    "C108_rotate_refuted",
    "C108_direct_refuted",
    "C108_half_refuted",
    "C108_filter_refuted",
    "C108_nye",
    "C108_tolerance_refuted",
    "C108_turned",
    "C108_values"
   ],
   "note": "Stored boundaries, grains, KAM, GND and network are not recalculated: rotate_data leaves the grains of the map before turning (C108_rotate_refuted), a new tolerance leaves old grains (C108_tolerance_refuted), find_grains called directly replaces the list but not the label image (C108_direct_refuted). rotate_data without band contrast or slope fails with the Euler angles already turned (C108_half_refuted); filter_data on a map smaller than 5 x 5 fails after changing the orientations (C108_filter_refuted). Reading the Nye tensor also replaces the GND shown (C108_nye). The theorems say exactly when all is current."
  },
  {
   "property": "C109",
   "status": "partial",
   "theorems": [
    "C109_network_partial",
    "C109_dic_refuted",
    "C109_gap_refuted"
   ],
   "note": "On a DIC map the call always raises AttributeError: no code sets the attribute boundaries (C109_dic_refuted). With that attribute set from outside, the statement holds if every label is a grain's, -1 or -2 (C109_network_partial); pixels of no grain, labelled 0, are taken for the last grain of the list (C109_gap_refuted)."
  },
  {
   "property": "C110",
   "status": "partial",
   "theorems": [
    "C110_new_partial",
    "C110_empty_partial",
    "C110_clear",
    "C110_axes_refuted",
    "C110_interactive_refuted",
    "C110_given_refuted",
    "C110_bars_refuted",
    "C110_boundary_map_refuted",
    "C110_impossible",
    "C110_grain_partial"
   ],
   "note": "Proved for new plots on axes given with their figure or on new axes, and for empty plots that are passed in: exactly the images asked for, in order, on these axes only, with the colour bar of the data. Refuted: axes given without their figure are drawn on before the call fails with AttributeError, and an interactive plot ignores them; a plot passed in that already has an image keeps describing its first image in the colour bar and draws boundaries and scale of the map it was made for; a second colour bar makes the first survive clear; the boundary map is white although black is meant (boundaryColour is not a parameter that is read)."
  },
  {
   "property": "C111",
   "status": "partial",
   "theorems": [
    "C111_window_partial",
    "C111_drawn",
    "C111_anew_partial",
    "C111_error_refuted",
    "C111_arrows_refuted",
    "C111_saved_refuted",
    "C111_missing_refuted",
    "C111_ratio_refuted"
   ],
   "note": "Proved for every history in which the id asked for last is on the map: the window is about the edited grain, the lists are its lines and groups but for ratios, every line has an arrow and no other arrow is there but at most one drawn with the mouse; after a drawing anew each line has exactly one arrow and ratios are listed. Refuted: opening the inspector, and every event that draws, ends in a TypeError because add_slip_bands is called without its required data (the window stays usable); saving adds the arrows of all lines again; the ratio of a group is not listed when calculated; after a second press the line saved is not the arrow shown; after an id that the map does not have, the old grain stays shown, a second arrow joins the one drawn before, and clearing empties the picture but not the list."
  },
  {
   "property": "C112",
   "status": "partial",
   "theorems": [
    "C112_cubic",
    "C112_hexagonal",
    "C112_similar",
    "C112_symmetric",
    "C112_closed",
    "C112_sides",
    "C112_lattice_partial",
    "C112_convention_refuted",
    "C112_ratio_refuted",
    "C112_unknown"
   ],
   "note": "Faces, similarity, closedness and symmetry are proved for both shipped cells. Refuted: the 30 degree turn of hexagonal cells is a flag that defaults to the OI axes whatever convention is configured (with the wrong one no corner is a lattice point), and the cell always has c/a = 1.633, not the phase's ratio. Axis limits, view direction and style are not modelled."
  },
  {
   "property": "C113",
   "status": "partial",
   "theorems": [
    "C113_corners",
    "C113_region",
    "C113_frame_partial",
    "C113_cubic_partial",
    "C113_cubic_refuted",
    "C113_hexagonal_partial",
    "C113_hexagonal_axis",
    "C113_tsl_refuted",
    "C113_convention_refuted",
    "C113_other",
    "C113_ratio_refuted",
    "C113_given",
    "C113_bar_refuted"
   ],
   "note": "Proved for cubic crystals and for hexagonal ones with y along a2 (hkl/oi axes): corners, region, frame, points. Refuted: cube-axis directions fall outside the frame, tsl axes turn the frame by 30 degrees, unknown triangle names, fixed c/a, and the colour bar of a reused plot. Number types and rounding are not modelled."
  },
  {
   "property": "C114",
   "status": "partial",
   "theorems": [
    "C114_table",
    "C114_labels",
    "C114_named",
    "C114_fit_partial",
    "C114_count_refuted",
    "C114_recorded",
    "C114_factors_refuted",
    "C114_foreign_refuted",
    "C114_below_refuted"
   ],
   "note": "Proved: recording, table, points, labels (for grains whose Schmid factors were calculated for the phase's own systems, in any history without a reference set from outside) and the fit (histories without correction angle, samples on the map). Refuted: without Schmid factors the window fails although the ratio does not need them; factors calculated for other systems are shown beside the phase's own names, or fail with an IndexError; the n shown counts rows and not points; with the shipped bcc systems part of the table is below the window."
  },
  {
   "property": "C115",
   "status": "partial",
   "theorems": [
    "C115_magnitude",
    "C115_scale",
    "C115_angles",
    "C115_upright_refuted",
    "C115_defaults",
    "C115_uniform",
    "C115_none_refuted",
    "C115_unstrained_refuted"
   ],
   "note": "Proved for all maps and all transforms and peak finders that meet the conditions in SlipBand_Spec (rays are sums, proportional and not negative; peaks are relative to the range, interior, and none on a flat profile): only magnitudes count (C115_magnitude), any factor (C115_scale), whole degrees (C115_angles), flat profile for equal strain in any shape of grain that is wide enough (C115_uniform). Fails as stated: bands at 0 and 179 degrees are never found (C115_angles, C115_upright_refuted), a flat profile is an IndexError rather than no bands (C115_none_refuted), and unstrained pixels count as outside the grain (C115_unstrained_refuted). The transform and the peak finder are not modelled, real arithmetic is exact."
  },
  {
   "property": "C116",
   "status": "partial",
   "theorems": [
    "C116_calculated",
    "C116_shown_partial",
    "C116_failed",
    "C116_ratios_partial",
    "C116_ratios_refuted",
    "C116_then_ratios",
    "C116_refused"
   ],
   "note": "Proved for every map and history: what is calculated (C116_calculated), what is shown if directions are given only with planes (C116_shown_partial, see C82 for the rest), and that after a failure nothing is shown although the grains before the failing one have new factors and those after it old ones (C116_failed). Ratios are right for grains with a reference (C116_ratios_partial, C116_then_ratios) but are an AttributeError for the first grain without one, unlike factors (C116_ratios_refuted). Pixels in no grain show 0.5, the greatest factor there can be."
  },
  {
   "property": "C117",
   "status": "partial",
   "theorems": [
    "C117_legend_partial",
    "C117_distinct",
    "C117_given_refuted",
    "C117_no_phases_refuted",
    "C117_boundaries",
    "C117_numbers",
    "C117_number_refuted",
    "C117_grain_map_refuted"
   ],
   "note": "Proved for new plots; refuted for a plot that was given (legend of the first image), without phases (TypeError after drawing), for numbers of grains around others, and for the map of grains (one more than the id). matplotlib's norm and colour table are modelled as (v - min) / (max - min) over the table."
  },
  {
   "property": "C118",
   "status": "partial",
   "theorems": [
    "C118_strain_partial",
    "C118_turned_refuted",
    "C118_correlation",
    "C118_correlation_refuted",
    "C118_scale",
    "C118_small"
   ],
   "note": "Proved from the rows of the file to the strains on the map for the grids each software writes; refuted for OpenPIV files with y increasing (C118_turned_refuted: derivatives along y negated) and for correlation values of a wrong size, which stay on the map although the call fails. Real arithmetic."
  },
  {
   "property": "C119",
   "status": "partial",
   "theorems": [
    "C119_selected",
    "C119_highlighted",
    "C119_neighbours",
    "C119_displayed",
    "C119_windows",
    "C119_origin",
    "C119_one_mark_partial",
    "C119_window_refuted",
    "C119_windows_refuted",
    "C119_marks_refuted"
   ],
   "note": "Proved for all histories by induction. Fails (refutations): the window shows another grain than the selected one after a click in a plot that displays nothing, and is left empty when the grain cannot be drawn; while drawing fails after the picture each click opens another window, without bound; with two plots for the origin the other keeps the old mark. Which pixel a click means is C45 (cut, not rounded)."
  },
  {
   "property": "C120",
   "status": "partial",
   "theorems": [
    "C120_tolerance_refuted",
    "C120_primary_refuted",
    "C120_loads",
    "C120_saving",
    "C120_no_band_contrast",
    "C120_grains_partial",
    "C120_savable",
    "C120_again"
   ],
   "note": "Proved for maps whose primary phase is the first and for tolerances no misorientation of neighbours comes within 0.003 degrees of (C120_grains_partial); at every tolerance for the second and later round trips (C120_again). Refuted otherwise: angles are written with three decimals, so a boundary at 10.0004 degrees is lost at tolerance 10 (C120_tolerance_refuted); the primary phase is not written, so the symmetry used can change (C120_primary_refuted). Orientations of nans are not modelled."
  },
  {
   "property": "C121",
   "status": "partial",
   "theorems": [
    "C121_place",
    "C121_found",
    "C121_crops",
    "C121_least_squares",
    "C121_default_refuted",
    "C121_rim_refuted"
   ],
   "note": "Proved when set_crop is told to update the homologous points. With the default update_homog_points=False the grains move against the data: C121_default_refuted. A pixel taken to less than half a pixel beyond the centres of the outer EBSD pixels is in no grain, although the nearest pixel is in one: C121_rim_refuted. skimage's estimate is a parameter with the properties 'exact' and 'shifts'; C121_least_squares shows that a least squares fit has both."
  },
  {
   "property": "C122",
   "status": "partial",
   "theorems": [
    "C122_described",
    "C122_euler",
    "C122_turned",
    "C122_turned_boundaries",
    "C122_read",
    "C122_read_refuted"
   ],
   "note": "C122_described and C122_euler: equal outcome for equivalent orientations in other axes. C122_turned and C122_turned_boundaries: a map turned before its orientations are read. C122_read and C122_read_refuted: once orientations were read, rotate_data moves Euler angles, phases and band contrast but not the orientations, so grains of a map of one phase stay where they were. Maps of one row or column only are left out of the turned part, as are negative tolerances."
  },
  {
   "property": "C123",
   "status": "partial",
   "theorems": [
    "C123_new",
    "C123_values",
    "C123_unchanged",
    "C123_setitem",
    "C123_fresh",
    "C123_raises",
    "C123_northern",
    "C123_northern_refuted",
    "C123_normalise_refuted",
    "C123_extract",
    "C123_extract_refuted"
   ],
   "note": "Proved for all histories. Refuted: a set component can leave the northern hemisphere; normalise returns nothing though documented to return the quaternion; extract_quat_comps raises AttributeError for every non-empty list of sequences of four components, which its documentation allows. Infinite components and four-argument calls with arrays are not modelled."
  },
  {
   "property": "C124",
   "status": "partial",
   "theorems": [
    "C124_warp",
    "C124_flood",
    "C124_points",
    "C124_apart_refuted",
    "C124_ref",
    "C124_direct_refuted",
    "C124_labels_refuted"
   ],
   "note": "Proved while the EBSD grains are not found anew. After that the DIC grains keep the old objects, and no call on either side is seen by the other: C124_apart_refuted. EBSD grains found by calling find_grains directly leave the labels as they were, so a DIC grain may get the phase of a grain elsewhere: C124_labels_refuted. DIC grains found by calling find_grains on a new map are thrown away at the next access: C124_direct_refuted. The reference orientation is None until something calculates it (C124_ref). EBSD grains without a phase are not modelled."
  },
  {
   "property": "C125",
   "status": "partial",
   "theorems": [
    "C125_any",
    "C125_place",
    "C125_no_grain",
    "C125_outcome",
    "C125_small_refuted"
   ],
   "note": "C125_any holds for every transform; C125_place for invertible affine maps after any updating crops; C125_outcome says exactly when it succeeds; C125_small_refuted: one DIC grain without EBSD pixel in it makes the whole call fail with TypeError. Partial also because a modal label that is not positive links from the end of the list (C73)."
  },
  {
   "property": "C126",
   "status": "partial",
   "theorems": [
    "C126_number",
    "C126_pixel",
    "C126_grains",
    "C126_scalar",
    "C126_constants",
    "C126_above_one_refuted",
    "C126_uniform_refuted"
   ],
   "note": "Proved for double precision arithmetic (Flocq's IEEE 754 numbers), with np.arccos and the order of sums left open. Refuted: mis_ori stays at most one (C126_above_one_refuted), equal orientations are never cut apart (C126_uniform_refuted, tolerance 0)."
  },
  {
   "property": "C127",
   "status": "partial",
   "theorems": [
    "C127_orientation",
    "C127_angle",
    "C127_grains",
    "C127_uniform_refuted"
   ],
   "note": "Refuted: neighbours with identical Euler angles need not be in one grain at very small tolerances (C127_uniform_refuted). Proved: accuracy of orientations and misorientations, and equality of boundaries and grains with exact arithmetic half a degree from the tolerance."
  },
  {
   "property": "C128",
   "status": "partial",
   "theorems": [
    "C128_load",
    "C128_extension",
    "C128_default",
    "C128_point_refuted",
    "C128_text_refuted",
    "C128_missing",
    "C128_refused",
    "C128_required",
    "C128_values",
    "C128_grains"
   ],
   "note": "Proved for headers whose numbers are plain decimals and whose record fields are all known (unknown ones: C59). Refuted: the documentation of Map asks for the path excluding the extension, but a name with a point loses what follows it (data/map_0.5um loads data/map_0.cpr or fails), and text files are not found without extension."
  },
  {
   "property": "C129",
   "status": "partial",
   "theorems": [
    "C129_accurate",
    "C129_shift",
    "C129_missing",
    "C129_missing_refuted",
    "C129_small",
    "C129_huge_refuted"
   ],
   "note": "Proved for displacements in double precision with gradients up to 2^200; without a bound on them the shear can be nan (C129_huge_refuted). Refuted: a pixel without displacement has no strain (C129_missing_refuted: inside the map it keeps one, its four neighbours lose theirs)."
  },
  {
   "property": "C130",
   "status": "partial",
   "theorems": [
    "C130_kam",
    "C130_angle",
    "C130_axis",
    "C130_uniform_refuted",
    "C130_axis_refuted"
   ],
   "note": "KAM, angles and axes in IEEE double precision (Flocq) against the real number model. Refuted: a uniform map can get KAM above zero everywhere (C130_uniform_refuted); the axis of a point close to its reference can be nan in every component although it is well defined, because the scalar part is not cut at one before arccos and the root (C130_axis_refuted)."
  },
  {
   "property": "C131",
   "status": "proved",
   "theorems": [
    "C131_normalise",
    "C131_normalise_refuted",
    "C131_average",
    "C131_northern",
    "C131_near",
    "C131_grod",
    "C131_kept",
    "C131_average_refuted"
   ],
   "note": "C131_normalise, C131_average, C131_near and C131_grod prove the statement with its conditions. They are needed. C131_normalise_refuted: beyond the range squares under- or overflow, so (2^-600,0,0,0) normalises to infinity and nan and (2^600,0,0,0) to zero. C131_average_refuted: two points that are the same half turn written with both signs have a nan average and all their angles and axes are nan."
  },
  {
   "property": "C132",
   "status": "proved",
   "theorems": [
    "C132_factor",
    "C132_half",
    "C132_half_refuted",
    "C132_cubic",
    "C132_grain",
    "C132_loaded",
    "C132_nan"
   ],
   "note": "Proved for double precision arithmetic (Flocq's IEEE 754 numbers), with the order of sums left open. Refuted: no factor exceeds one half exactly (C132_half_refuted). Slip vectors of hexagonal crystals are covered by C132_factor and C132_half once they are of length one and at a right angle up to 2^-41, which is proved for cubic Miller indices only."
  },
  {
   "property": "C133",
   "status": "partial",
   "theorems": [
    "C133_trace",
    "C133_inclination",
    "C133_inclination_refuted",
    "C133_parallel_refuted",
    "C133_nan",
    "C133_grain",
    "C133_loaded",
    "C133_groups"
   ],
   "note": "Hypotheses: length one up to 2^-41 (met by averages, C131, and by cubic slip planes, C132_cubic), scalar part not negative. The full claim (a number for every plane; no angle where there is no trace) is refuted for planes parallel to the screen; the trace angle is proved a number otherwise."
  },
  {
   "property": "C134",
   "status": "partial",
   "theorems": [
    "C134_ratio",
    "C134_all",
    "C134_loaded",
    "C134_horizontal_refuted",
    "C134_nan"
   ],
   "note": "Error bound, one ratio per system, nan and the missing reference proved. That a horizontal direction is told apart is false of the code: by rounding a number may be given where no ratio exists (C134_horizontal_refuted)."
  },
  {
   "property": "C135",
   "status": "proved",
   "theorems": [
    "C135_matrix",
    "C135_rotation",
    "C135_transform",
    "C135_opposite",
    "C135_inverse",
    "C135_nan",
    "C135_identity",
    "C135_above_refuted"
   ],
   "note": "Proved for double precision arithmetic (Flocq's IEEE 754 numbers); x**2 is any function within one unit in the last place, even, exact at 0 and 1 (good_square, met by one multiplication). That entries do not exceed one is false (C135_above_refuted), as the statement says."
  },
  {
   "property": "C136",
   "status": "partial",
   "theorems": [
    "C136_distortion",
    "C136_uniform",
    "C136_gnd",
    "C136_uniform_gnd",
    "C136_nan",
    "C136_equivalents",
    "C136_uniform_refuted"
   ],
   "note": "For one pixel and the equivalent of its neighbour that was chosen; the choice by np.argmax is left open (every equivalent it may choose meets the hypothesis: C136_equivalents), and pixels of the last row and column (zero) are as in C53. Zero for a uniform map is refuted (C136_uniform_refuted), as the statement says. That only the gradient along y is used is C53."
  }
 ]
}
