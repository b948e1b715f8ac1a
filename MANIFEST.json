{
 "claims": [
  {
   "property": "C01",
   "status": "proved",
   "theorems": [
    "C01_ground_tiling",
    "C01_ordered_shadows_tiling",
    "C01_sliver_refuted"
   ],
   "note": "Proved for all valid arrays when the inter-row shaded length is not strictly between 0 and the 1e-8 tolerance; C01_sliver_refuted shows that this hypothesis is needed (the code's ground is then slightly longer than 200)."
  },
  {
   "property": "C02",
   "status": "proved",
   "theorems": [
    "C02_cutting"
   ],
   "note": "Zero-length pieces are points at the clipped cut point; non-zero pieces are inside the element."
  },
  {
   "property": "C03",
   "status": "proved",
   "theorems": [
    "C03_left_right"
   ],
   "note": "For surfaces of non-zero length; every surface is on exactly one side."
  },
  {
   "property": "C04",
   "status": "proved",
   "theorems": [
    "C04_flag_iff_overlap"
   ],
   "note": "Outside the sliver case; sun not exactly in the plane of the rows."
  },
  {
   "property": "C05",
   "status": "proved",
   "theorems": [
    "C05_shade_is_geometric",
    "C05_shaded_lengths"
   ],
   "note": "Pointwise: a point of a sun-facing surface is hidden by another row iff the surface is flagged shaded. Flat rows (rotation exactly 0) are in C06."
  },
  {
   "property": "C06",
   "status": "proved",
   "theorems": [
    "C06_side_partition",
    "C06_lengths"
   ],
   "note": "Flat rows: no shade, as the code does."
  },
  {
   "property": "C07",
   "status": "proved",
   "theorems": [
    "C07_outer_rows"
   ],
   "note": "C05_shade_is_geometric covers the outer rows too."
  },
  {
   "property": "C08",
   "status": "proved",
   "theorems": [
    "C08_indexing"
   ],
   "note": ""
  },
  {
   "property": "C09",
   "status": "proved",
   "theorems": [
    "C09_row_ends",
    "C09_highest_lowest"
   ],
   "note": ""
  },
  {
   "property": "C10",
   "status": "proved",
   "theorems": [
    "C10_rotation",
    "C10_turns_and_flip"
   ],
   "note": ""
  },
  {
   "property": "C11",
   "status": "proved",
   "theorems": [
    "C11_sun_projection"
   ],
   "note": ""
  },
  {
   "property": "C12",
   "status": "proved",
   "theorems": [
    "C12_reciprocity"
   ],
   "note": "Exact, for any array (no geometric hypothesis)."
  },
  {
   "property": "C13",
   "status": "proved",
   "theorems": [
    "C13_closure"
   ],
   "note": "Exact, for any array."
  },
  {
   "property": "C14",
   "status": "proved",
   "theorems": [
    "C14_fractions"
   ],
   "note": "Rows above ground, no shading sliver, flat rows not overlapping (gcr <= 1)."
  },
  {
   "property": "C15",
   "status": "proved",
   "theorems": [
    "C15_visibility",
    "C15_rows",
    "C15_ground",
    "C15_row_ground"
   ],
   "note": "looks_at is stated with the published rows, sides and cut-point lists."
  },
  {
   "property": "C16",
   "status": "proved",
   "theorems": [
    "C16_additive_obstructed",
    "C16_additive_free"
   ],
   "note": "Obstructed case unconditional; unobstructed case (the code takes an absolute value) for ground on one side of the line of the surface."
  },
  {
   "property": "C17",
   "status": "proved",
   "theorems": [
    "C17_shadows_and_rows",
    "C17_ground_gap",
    "C17_ground",
    "C17_lowest_segment_refuted",
    "C17_edge_row",
    "C17_surface"
   ],
   "note": "Equality where the visible ground ends inside the modelled ground; exact gap otherwise; C17_lowest_segment_refuted shows the two modes differ for the segment at the lower edge. Needs no surface with a positive length below the tolerance."
  },
  {
   "property": "C18",
   "status": "proved",
   "theorems": [
    "C18_closed_set",
    "C18_defined",
    "C18_surfaces",
    "C18_surfaces_defined"
   ],
   "note": "For any value returned; C18_defined says when a value is returned (an edge row whose cut point is off the ground has an infinite ground line)."
  },
  {
   "property": "C19",
   "status": "proved",
   "theorems": [
    "C19_radiosity_balance"
   ],
   "note": "For any engine and any inputs accepted by fit; the reflectivities must be non-zero (the code divides by them). The view factors are those of the published geometry (C12-C16)."
  },
  {
   "property": "C20",
   "status": "proved",
   "theorems": [
    "C20_unique_solution",
    "C20_run_succeeds",
    "C20_only_solution"
   ],
   "note": "Reflectivities strictly between 0 and 1, physical view factors (C13, C14); C20_run_succeeds: the run itself does not fail, C20_only_solution: what it publishes is that solution. The sun may be below the horizon (the geometry then is that of the opposite sun, C92)."
  },
  {
   "property": "C21",
   "status": "proved",
   "theorems": [
    "C21_bounds",
    "C21_monotone"
   ],
   "note": "Includes the limit of finite-bounce reflections; C21_monotone compares two runs on the same geometry."
  },
  {
   "property": "C22",
   "status": "proved",
   "theorems": [
    "C22_components"
   ],
   "note": "Both irradiance models; the beam-like and horizon components are those published by the model."
  },
  {
   "property": "C23",
   "status": "proved",
   "theorems": [
    "C23_absorbed",
    "C23_bounds"
   ],
   "note": "Fast mode has no absorbed values. The hypotheses albedo, reflectivities not zero are the ones under which the system exists (C20)."
  },
  {
   "property": "C24",
   "status": "proved",
   "theorems": [
    "C24_no_aoi",
    "C24_with_aoi",
    "C24_refuted"
   ],
   "note": "Finding: build_ts_vf_aoi_matrix writes into self.vf_matrix, so that with AOI methods the published view factors are lost (C24_refuted gives the witness, C24_with_aoi the general fact)."
  },
  {
   "property": "C25",
   "status": "proved",
   "theorems": [
    "C25_fast_qinc",
    "C25_succeeds",
    "C25_out_of_range",
    "C25_nothing_else",
    "C25_monotone"
   ],
   "note": "For any history of runs after a fit. C25_monotone needs a surface longer than the tolerance and defined view factors (see C18)."
  },
  {
   "property": "C26",
   "status": "proved",
   "theorems": [
    "C26_last_fit",
    "C26_failures",
    "C26_last_run",
    "C26_twice",
    "C26_stale_matrices"
   ],
   "note": "Any history of fits and runs, then a fit or a run. C26_stale_matrices: a fit or a fast run does not reset the published matrices (finding)."
  },
  {
   "property": "C27",
   "status": "proved",
   "theorems": [
    "C27_independent",
    "C27_alone",
    "C27_success"
   ],
   "note": "Any sequence of full and fast mode runs after the fit; two batches agreeing at one timestep each, whatever their companions (C27_independent), one timestep alone (C27_alone), success of the batch (C27_success). The condition on slivers is only needed for the full mode."
  },
  {
   "property": "C28",
   "status": "proved",
   "theorems": [
    "C28_parallel",
    "C28_processes",
    "C28_scalars_refused"
   ],
   "note": "For every report made of columns calculated timestep by timestep from averages over sides of PV rows (the example builder is one), any number of processes (empty chunks included) and any completion order: the parallel run returns a report exactly when the serial run does, and the same one. In full mode, no surface may be a sliver (0 < length < 1e-8) as in C27."
  },
  {
   "property": "C29",
   "status": "proved",
   "theorems": [
    "C29_scalars",
    "C29_albedo"
   ],
   "note": "Equality of the results of engine_fit for both ways of giving the inputs."
  },
  {
   "property": "C30",
   "status": "proved",
   "theorems": [
    "C30_direct",
    "C30_bounds",
    "C30_one_side"
   ],
   "note": "For every successful fit; bounds for a sun above the horizon (zenith <= 90), which is where the code has no guard of its own on the ground."
  },
  {
   "property": "C31",
   "status": "proved",
   "theorems": [
    "C31_shaded_fraction",
    "C31_fraction"
   ],
   "note": "Both beam-like components, on rows and ground, through let_through = spacing + (1 - spacing) * transparency."
  },
  {
   "property": "C32",
   "status": "proved",
   "theorems": [
    "C32_uniform_disk",
    "C32_continuous",
    "C32_circumsolar_pct",
    "C32_no_neighbour_refuted"
   ],
   "note": "Domain 0..100 %; outside, the code returns 0 below 0 and 100 above 100 (C32_circumsolar_pct)."
  },
  {
   "property": "C33",
   "status": "proved",
   "theorems": [
    "C33_gaussian",
    "C33_models",
    "C33_density"
   ],
   "note": "erf is an external function (scipy), known through the hypotheses of the theorem."
  },
  {
   "property": "C34",
   "status": "proved",
   "theorems": [
    "C34_band",
    "C34_back",
    "C34_front_ground"
   ],
   "note": "The percentage and the neighbour that is viewed; fronts are never shaded and the ground gets no horizon light."
  },
  {
   "property": "C35",
   "status": "proved",
   "theorems": [
    "C35_terminates",
    "C35_depth",
    "C35_flip",
    "C35_values"
   ],
   "note": "The recursion of the luminance function goes one level deep at most, for any pvlib functions."
  },
  {
   "property": "C36",
   "status": "proved",
   "theorems": [
    "C36_collections",
    "C36_ground",
    "C36_additive",
    "C36_all_surfaces_needed"
   ],
   "note": "For a positive total length; C36_all_surfaces_needed: a missing parameter on a surface is an error, not a partial average."
  },
  {
   "property": "C37",
   "status": "proved",
   "theorems": [
    "C37_precedence",
    "C37_engine",
    "C37_used",
    "C37_twice",
    "C37_default_refuted"
   ],
   "note": "C37_default_refuted: the default reflectivity cannot be reached through with_rho_initialization, which raises AttributeError without AOI methods."
  },
  {
   "property": "C38",
   "status": "proved",
   "theorems": [
    "C38_sections",
    "C38_rho"
   ],
   "note": "Total over the sections, and diffuse reflectivity, for any number of sections at least one."
  },
  {
   "property": "C39",
   "status": "proved",
   "theorems": [
    "C39_angle",
    "C39_range",
    "C39_sandia",
    "C39_symmetric",
    "C39_wedge",
    "C39_monotone",
    "C39_accuracy"
   ],
   "note": "Angle for any two non-zero vectors; the wedge formula is characterised exactly as the sum over the sections it meets (both boundary sections counted whole), its accuracy is bounded by one section at each end."
  },
  {
   "property": "C40",
   "status": "proved",
   "theorems": [
    "C40_contains",
    "C40_difference",
    "C40_pieces_oriented",
    "C40_covering_refuted",
    "C40_away",
    "C40_degenerate"
   ],
   "note": "C40_covering_refuted: when the second segment covers the first beyond the tolerance on both ends, utils.difference returns the first instead of nothing (finding); that case is excluded from C40_difference."
  },
  {
   "property": "C41",
   "status": "proved",
   "theorems": [
    "C41_projection",
    "C41_parallel",
    "C41_degenerate",
    "C41_short_segment_refuted"
   ],
   "note": "C41_short_segment_refuted: a segment shorter than 1e-6 is reported as parallel to everything perpendicular to it (finding)."
  },
  {
   "property": "C42",
   "status": "proved",
   "theorems": [
    "C42_cut",
    "C42_no_cut",
    "C42_end_or_outside",
    "C42_segment",
    "C42_fully_shaded_refuted",
    "C42_side",
    "C42_cache_refuted"
   ],
   "note": "C42_fully_shaded_refuted, C42_cache_refuted: a fully shaded PVSegment cannot be cut, and all_surfaces is not refreshed after a cut (findings)."
  },
  {
   "property": "C43",
   "status": "proved",
   "theorems": [
    "C43_mixed",
    "C43_uniform",
    "C43_segment"
   ],
   "note": ""
  },
  {
   "property": "C44",
   "status": "proved",
   "theorems": [
    "C44_merge",
    "C44_array",
    "C44_pending_lost_refuted"
   ],
   "note": "C44_merge: any list of elements; C44_array: ground of a fitted array. C44_pending_lost_refuted: a shadow of one metre is lost (finding)."
  },
  {
   "property": "C45",
   "status": "proved",
   "theorems": [
    "C45_first_timestep",
    "C45_element",
    "C45_index_ignored_refuted"
   ],
   "note": "True at timestep 0 and for elements. C45_index_ignored_refuted: the methods of the ground ignore the index (finding)."
  },
  {
   "property": "C46",
   "status": "proved",
   "theorems": [
    "C46_last_update",
    "C46_untouched",
    "C46_ground_in_sync",
    "C46_other_surfaces",
    "C46_array"
   ],
   "note": "For any history of updates, on any part; also for the copies of the parameters kept on ground elements."
  },
  {
   "property": "C47",
   "status": "proved",
   "theorems": [
    "C47_hybrid_front",
    "C47_ground",
    "C47_isotropic_front_refuted",
    "C47_back_zero"
   ],
   "note": "Hybrid model on the fronts, both models on the ground (GHI absent or consistent with DNI and DHI); C47_isotropic_front_refuted: with the isotropic model the light transmitted by the modules is missing from the shaded front total; backs publish 0."
  },
  {
   "property": "C48",
   "status": "proved",
   "theorems": [
    "C48_mirror"
   ],
   "note": "Rows, shaded lengths, shadows before clipping to the ground, cut points, overlap flag."
  },
  {
   "property": "C49",
   "status": "proved",
   "theorems": [
    "C49_row_to_ground",
    "C49_row_to_row"
   ],
   "note": "Row-ground and row-row entries; ground-to-row entries follow by C12."
  },
  {
   "property": "C50",
   "status": "proved",
   "theorems": [
    "C50_fit_succeeds"
   ],
   "note": "For every raw input; the pvlib and AOI functions cannot fail in the model (they are total)."
  },
  {
   "property": "C52",
   "status": "proved",
   "theorems": [
    "C52_absorbed_sources"
   ],
   "note": "The horizon fraction is evaluated at the tilt, and the beam fraction at |90 - angle from the normal|, as in the code."
  },
  {
   "property": "C51",
   "status": "proved",
   "theorems": [
    "C51_ground",
    "C51_rows",
    "C51_sky",
    "C51_short",
    "C51_ground_rows",
    "C51_absorbed",
    "C51_black"
   ],
   "note": "Entries characterised by angles measured independently of the model; the sky entry assumes an opening longer than the tolerance."
  },
  {
   "property": "C53",
   "status": "proved",
   "theorems": [
    "C53_circumsolar",
    "C53_horizon",
    "C53_sky",
    "C53_total"
   ],
   "note": "pvlib is arbitrary. Finding: the circumsolar light of the backs is multiplied by cos 85/cos zenith for a zenith between 85 and 90 degrees."
  },
  {
   "property": "C54",
   "status": "proved",
   "theorems": [
    "C54_report",
    "C54_one_row",
    "C54_fast_mode_refuted",
    "C54_merge_keys"
   ],
   "note": "C54_fast_mode_refuted: the builder never succeeds in fast mode, contrary to its documentation; C54_one_row: IndexError with one row."
  },
  {
   "property": "C55",
   "status": "proved",
   "theorems": [
    "C55_side",
    "C55_contiguous",
    "C55_degenerate"
   ],
   "note": ""
  },
  {
   "property": "C56",
   "status": "proved",
   "theorems": [
    "C56_row",
    "C56_normal_given",
    "C56_highest_lowest",
    "C56_flat_refuted"
   ],
   "note": "C56_flat_refuted: for a flat row the highest and lowest points are the same extremity (finding)."
  },
  {
   "property": "C57",
   "status": "proved",
   "theorems": [
    "C57_merge",
    "C57_single",
    "C57_descending_refuted"
   ],
   "note": "C57_descending_refuted: on a descending line the merged surface leaves the line (finding)."
  },
  {
   "property": "C58",
   "status": "proved",
   "theorems": [
    "C58_ground",
    "C58_flat",
    "C58_modes"
   ],
   "note": "Hypotheses as in C01 and C03, and no ground surface with a length in ]0, tolerance]."
  },
  {
   "property": "C59",
   "status": "proved",
   "theorems": [
    "C59_row",
    "C59_indices"
   ],
   "note": "No hypothesis on the inputs of the fit."
  },
  {
   "property": "C60",
   "status": "proved",
   "theorems": [
    "C60_side",
    "C60_ground",
    "C60_merged_refuted"
   ],
   "note": "C60_merged_refuted: a merged surface reports the value of its right part (finding)."
  },
  {
   "property": "C61",
   "status": "proved",
   "theorems": [
    "C61_energy",
    "C61_published",
    "C61_no_gain"
   ],
   "note": ""
  },
  {
   "property": "C62",
   "status": "proved",
   "theorems": [
    "C62_exchange"
   ],
   "note": ""
  },
  {
   "property": "C65",
   "status": "proved",
   "theorems": [
    "C65_given",
    "C65_average",
    "C65_no_value"
   ],
   "note": ""
  },
  {
   "property": "C66",
   "status": "proved",
   "theorems": [
    "C66_separated",
    "C66_setters",
    "C66_direction_refuted",
    "C66_added_refuted",
    "C66_direction",
    "C66_straight",
    "C66_direction_merged_refuted"
   ],
   "note": "The _refuted theorems show what the setters and add_pvsurface do not check."
  },
  {
   "property": "C67",
   "status": "proved",
   "theorems": [
    "C67_shadow",
    "C67_missed",
    "C67_parts",
    "C67_inside",
    "C67_total",
    "C67_touch",
    "C67_again_refuted",
    "C67_neighbour_refuted",
    "C67_stale_refuted",
    "C67_untouched",
    "C67_touched",
    "C67_side"
   ],
   "note": "GEOS set operations modelled on one straight line; the _refuted theorems are findings (second cast, neighbour, cached list)."
  },
  {
   "property": "C63",
   "status": "proved",
   "theorems": [
    "C63_scalars",
    "C63_cut",
    "C63_segments",
    "C63_missing"
   ],
   "note": ""
  },
  {
   "property": "C64",
   "status": "proved",
   "theorems": [
    "C64_surfaces",
    "C64_element",
    "C64_indices",
    "C64_row_indices",
    "C64_arrays",
    "C64_segment",
    "C64_ground_element"
   ],
   "note": ""
  },
  {
   "property": "C68",
   "status": "proved",
   "theorems": [
    "C68_surface",
    "C68_sides",
    "C68_row",
    "C68_labels",
    "C68_array",
    "C68_array_labels"
   ],
   "note": ""
  },
  {
   "property": "C69",
   "status": "proved",
   "theorems": [
    "C69_shadow",
    "C69_lit",
    "C69_ground_surfaces"
   ],
   "note": ""
  },
  {
   "property": "C70",
   "status": "proved",
   "theorems": [
    "C70_sunlight",
    "C70_opaque",
    "C70_transparent_gain"
   ],
   "note": "C70_transparent_gain is a finding: light is gained when modules let light through."
  },
  {
   "property": "C71",
   "status": "proved",
   "theorems": [
    "C71_reflectivity",
    "C71_albedo"
   ],
   "note": ""
  },
  {
   "property": "C72",
   "status": "proved",
   "theorems": [
    "C72_fast",
    "C72_superposition",
    "C72_scaling"
   ],
   "note": ""
  },
  {
   "property": "C73",
   "status": "proved",
   "theorems": [
    "C73_at_most",
    "C73_at_least",
    "C73_refuted"
   ],
   "note": "Two bounds around 1 - rho; C73_refuted is a finding: with one section and no losses the factors add up to at least 2."
  },
  {
   "property": "C74",
   "status": "proved",
   "theorems": [
    "C74_no_north",
    "C74_report"
   ],
   "note": "For every pvlib whose functions use azimuths only relative to each other (no_north); equality of whole engine states."
  },
  {
   "property": "C75",
   "status": "proved",
   "theorems": [
    "C75_edge",
    "C75_between",
    "C75_gap",
    "C75_off_ground",
    "C75_higher"
   ],
   "note": "Closed forms at timesteps without slivers (surfaces shorter than the tolerance); the part below the horizon counted as sky is DESIGN.md section 6, item 25."
  },
  {
   "property": "C76",
   "status": "proved",
   "theorems": [
    "C76_run",
    "C76_defaults",
    "C76_marked",
    "C76_unused"
   ],
   "note": "The marks are written and never read (C76_unused): DESIGN.md section 6, item 26."
  },
  {
   "property": "C77",
   "status": "proved",
   "theorems": [
    "C77_distance",
    "C77_view_factor",
    "C77_usual",
    "C77_reciprocity",
    "C77_sky"
   ],
   "note": "Doubles are Flocq's binary64 with rounding to nearest even. Covers the view factors without obstruction and the sky column; the obstructed ground formula depends on arctan2, which IEEE 754 does not specify, and is only proved in real numbers."
  },
  {
   "property": "C78",
   "status": "proved",
   "theorems": [
    "C78_one_bounce",
    "C78_difference",
    "C78_bounds"
   ],
   "note": "Needs the ground seen from the surface to end inside the modelled ground (always false for the surface touching the lower edge of the row, see C17)."
  },
  {
   "property": "C79",
   "status": "proved",
   "theorems": [
    "C79_isolated",
    "C79_method",
    "C79_side",
    "C79_defaults",
    "C79_length",
    "C79_cut",
    "C79_shared_refuted",
    "C79_list_refuted",
    "C79_stale_refuted"
   ],
   "note": "Holds for segments made by from_linestring_coords (as all those of the library are); for other ways to make them see the refuted theorems and DESIGN.md section 6, items 29 and 30. The cached list of all_surfaces is C42/C67."
  },
  {
   "property": "C80",
   "status": "proved",
   "theorems": [
    "C80_residual",
    "C80_perturbed",
    "C80_bounces"
   ],
   "note": "Perturbations of the balance are any real vectors; that the perturbed balance has a solution is a hypothesis (the vector is given). Rounding of numpy's inverse itself is not modelled: C80_residual bounds the error of whatever it returns by its residual."
  },
  {
   "property": "C81",
   "status": "proved",
   "theorems": [
    "C81_between",
    "C81_limit",
    "C81_rho",
    "C81_ground",
    "C81_rows",
    "C81_sky"
   ],
   "note": "Integrals are those of Coquelicot (RInt), which adds no axiom. The exact factor is that of the centroid of the surface, as in the code; the difference between the centroid and the whole width of a surface is not bounded here."
  },
  {
   "property": "C82",
   "status": "proved",
   "theorems": [
    "C82_moved",
    "C82_selected",
    "C82_error",
    "C82_double"
   ],
   "note": "Rounding to doubles is that of Flocq (no axiom added). The overlap flags are inputs here; NaN ends follow the convention of Num.v."
  },
  {
   "property": "C83",
   "status": "proved",
   "theorems": [
    "C83_surfaces",
    "C83_segments",
    "C83_cut_free",
    "C83_runs",
    "C83_sources",
    "C83_isotropic"
   ],
   "note": "The sum is over the back (fast mode computes nothing else); surfaces shorter than 1e-8 m are excluded because fast mode gives them no factors. qinc of the hybrid model also has horizon light, which depends on the centroid of each segment and is not claimed."
  },
  {
   "property": "C84",
   "status": "proved",
   "theorems": [
    "C84_side_ground",
    "C84_sides",
    "C84_cut_free",
    "C84_runs"
   ],
   "note": "View factors and the isotropic component only: qinc of full mode also has reflections, which depend on the cut because each surface has one radiosity. Slivers (surfaces shorter than 1e-8 m) are excluded because the code gives them no factors. Reflectivities are nonzero as in C20."
  },
  {
   "property": "C85",
   "status": "proved",
   "theorems": [
    "C85_textbook",
    "C85_unique"
   ],
   "note": "Both surfaces longer than DISTANCE_TOLERANCE: the code gives shorter ones no factors. The column of the sky is not included, since the sky is the rest by construction (C13); see C86 for the sides of the rows."
  },
  {
   "property": "C86",
   "status": "proved",
   "theorems": [
    "C86_sky",
    "C86_exact"
   ],
   "note": "Sides of rows only: from a point of the ground the sky is seen between the rows in several intervals of directions, which the definition of sky_from_point (one interval) does not describe."
  },
  {
   "property": "C87",
   "status": "proved",
   "theorems": [
    "C87_lift",
    "C87_full",
    "C87_fast",
    "C87_cut",
    "C87_shadow"
   ],
   "note": "Found by an automatic wrong edit of cut_point (sign of y_ground) that all earlier theorems accepted, since arrays always have y_ground = 0."
  },
  {
   "property": "C88",
   "status": "proved",
   "theorems": [
    "C88_sky",
    "C88_ground",
    "C88_row",
    "C88_shadow",
    "C88_edge"
   ],
   "note": "Textbook definitions in SpecSight (view_factor, sky_factor, ground_factor). Rows not flat. For a row that faces no other row the ground is the modelled one (C88_edge), for a cut point within it."
  },
  {
   "property": "C89",
   "status": "proved",
   "theorems": [
    "C89_rendering",
    "C89_factors"
   ],
   "note": "textbook view factors of SpecSight; surfaces wider than the tolerance of the package; what is left of the view of a surface counts as sky, as in the code."
  },
  {
   "property": "C90",
   "status": "proved",
   "theorems": [
    "C90_ground",
    "C90_unique"
   ],
   "note": "textbook definition (sky_view) in SpecSight: the sky may be seen through any number of gaps between rows. For sides of rows see C86."
  },
  {
   "property": "C91",
   "status": "proved",
   "theorems": [
    "C91_sun",
    "C91_light"
   ],
   "note": "C91_sun: ray to the sun (sees_sky of SpecSight) against the published direct light, both sky models. C91_light: isotropic sky model only, since the circumsolar and horizon light of the hybrid model have no ray definition in the package; what is left of the view of a surface counts as sky."
  },
  {
   "property": "C92",
   "status": "proved",
   "theorems": [
    "C92_opposite_sun",
    "C92_dark",
    "C92_dark_fast",
    "C92_below",
    "C92_below_refuted"
   ],
   "note": "C92_opposite_sun and C92_dark proved; the sign of the direct light (3) is false of the code: C92_below gives its value, C92_below_refuted the counterexample (finding 31)."
  },
  {
   "property": "C93",
   "status": "proved",
   "theorems": [
    "C93_views",
    "C93_surfaces",
    "C93_run"
   ],
   "note": "C93_views, C93_surfaces and C93_run. The light reflected by the ground is left out: the split of the ground between shaded and lit depends on the shadows of all the rows."
  },
  {
   "property": "C94",
   "status": "proved",
   "theorems": [
    "C94_tiny_refuted",
    "C94_views",
    "C94_surfaces",
    "C94_run",
    "C94_sources"
   ],
   "note": "C94_views, C94_surfaces, C94_run and C94_sources. Slivers shorter than the absolute tolerance in one of the arrays are left out of the view factors, since the code then gives them no view of the rows and the ground; so is the light reflected by the ground (see C93). C94_tiny_refuted shows that the condition is needed."
  },
  {
   "property": "C95",
   "status": "proved",
   "theorems": [
    "C95_views",
    "C95_run"
   ],
   "note": "C95_views and C95_run. The first row is left out: at rotation 0 its cut point is infinite and the ground it sees has no end on the left."
  }
 ]
}