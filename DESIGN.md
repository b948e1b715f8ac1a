# Formal model of pvfactors (SunPower/pvfactors, source in /repo)

Contents: 1 approach; 2 plan per property; 3 layout of the development; 4 trusted base
(kernel, axioms per theorem, assumptions about the outside world); 5 what is modelled and
what is not, file by file; 6 findings about the code; 7 tests of the theorems.

## 1. Approach

The library is numpy code: pointwise arithmetic over time series, loops over
rows / segments / ground elements / surfaces, in-place matrix writes, and a
linear solve.  We model it *function by function* in Gallina:

* **numbers** - floats are modelled by Coq's real numbers `R` (exact
  arithmetic, no rounding).  The one place where the code relies on special
  floats (division by `tan(0)`: cut point of a flat row at +inf, `-0.0`) uses an
  explicit extended number type `xr` (finite, +inf, -inf, NaN).
* **time series** - a numpy vector of length `n` is a function `nat -> R`
  used on indices `t < n`; numpy's pointwise operators are pointwise on these
  functions.  Reductions over the time axis (`nansum` in `TsSurface.is_empty`)
  are modelled as genuine sums over `t < n`.
* **exceptions** are values (`result`, with the Python exception class in `Err`; `option`
  for the single exception of the geometry).
* **objects** - the identity of a mutable surface object is modelled by the place where it
  is created (`sid`); dictionaries are functions or association lists; in-place writes to
  a matrix are functional updates threaded through the same loops in the same order; the
  one aliasing that matters (`vf_aoi_matrix = self.vf_matrix`) is modelled explicitly
  (two attributes, one object).
* **external code** (pvlib irradiance models, erf, the AOI functions given by
  users, process pool) enters as an argument of the functions (records of oracles), never
  as an axiom, or as an explicit list of results in an arbitrary order (schedule).

Model files `Model*.v` (and `Num.v`) contain definitions only, each with a comment citing
file and lines.  `Spec*.v` hold the independent vocabulary used to state the
properties.  `Proof*.v` hold proofs; `Prop*.v` hold the property theorems, examples
that meet their hypotheses, and `Print Assumptions`.

A property that turns out to be false of the code is stated as a theorem ending in
`_refuted` that exhibits the failing case, beside the theorem for the part that holds;
these are the findings of section 6.

## 2. Plan per property

| id | modelled / how proved |
|----|----|
| C01 | ground element construction (shadow ordering, overlap fix, clipping, gaps); proved by induction on the list of shadows that the interleaved list is a contiguous chain from -100 to 100 |
| C02 | `_create_all_ts_surfaces` loop; induction over cut points, min/max algebra on `xr` |
| C03 | `surface_dict` modelled as position lists built by the same nested loop; closed form + order of cut points |
| C04 | `_calculate_interrow_shading` vs projected shadow ends; law of sines identity |
| C05 | same function; ray/row incidence as a separate geometric predicate |
| C06 | `TsSide.from_raw_inputs`; induction over segments, clamp algebra |
| C07 | `_calculate_pvrow_elements_coords`; case analysis |
| C08 | `all_ts_surfaces`, `_index_all_ts_surfaces`; counting lemma |
| C09, C10, C11 | `_calculate_full_coords`, rotation and sun vector; trigonometry |
| C12, C13, C15 | loops of `vf_pvrow_gnd_surf` / `vf_pvrow_to_pvrow` / `build_ts_vf_matrix` as folds of matrix updates; invariant of the fold |
| C14, C16, C49 | Hottel crossed strings: triangle inequality, intersection of the diagonals; telescoping |
| C17, C18 | fast mode formulas vs sums of full-mode entries; telescoping |
| C19, C22, C23, C25, C52 | engine equations; `np.linalg.inv` modelled by "the matrix X with A X = I" |
| C20, C21, C50 | finite-dimensional linear algebra by hand: max-norm argument, monotone bounded iteration |
| C24, C51 | the two matrix attributes as one object; rows of the AOI matrix |
| C26, C29, C37 | engine as a state machine over fit / run calls |
| C27, C28 | batch model with `is_empty` as a whole-series test; `np.array_split`, sort by index, merge |
| C30, C31, C47, C53 | irradiance model `fit` / `transform` arithmetic |
| C32, C33, C34 | shading fractions; derivative sign / algebra |
| C35 | recursion with its real depth, sign of the projection |
| C36, C46 | weighted sums and dictionary updates over lists |
| C38, C39 | telescoping cosines; acos range; wedge sums |
| C40-C43, C55-C57 | segments on a line, shapely predicates modelled by their real-number meaning |
| C44, C45, C58-C60 | `at` methods: the geometry built for one timestep |
| C48 | symmetry lemmas |
| C54 | report functions, merge of reports |
| C61, C62 | balance over the reciprocal, closed matrix of view factors; inverse of a symmetric system |
| C63 | dictionary as a partial map; slices of a batch as in C27 |
| C64 | flattening of `at`; order of the indices; row and segment coordinates |
| C65, C66 | updates of the objects of one timestep; invariant over sequences of operations |
| C67 | buffers and differences of GEOS on one straight line as intervals of positions |
| C68 | axes as the list of calls made on them |
| C69 | rays from a ground point to the sun; ends of each ground element in closed form |
| C70 | shaded length of the ground and lit length of the rows, summed over any number of rows |
| C71, C72 | comparison of the solutions of two balances; uniqueness of the solution |
| C73 | what a module surface sees as one chain of directions from its low end to its top; wedges telescope along it |
| C74 | relation between inputs turned by one angle, kept by every function down to the engine |
| C75 | sky column as one minus the other strings of a row of the matrix; telescoping sums of strings, convexity of distances for the comparisons |
| C76 | field by field description of the engine before fit; inversion of fit and of the runs |
| C77 | the formula for two surfaces once more in IEEE doubles (Flocq); error bounds for any rounding with relative error u and underflow h*h, then u = 2^-53; no overflow |
| C78 | fast-mode factors as sums of full-mode ones, surface by surface (C17), in the weighted sum of C25; subtracted from the balance C19 |
| C79 | a memory with addresses; each method as a change of a value together with a frame (what it may touch), then simulation of programs by values |
| C80 | largest error over the surfaces: a residual is the source of a balance for the error (`balance_upper`); perturbed coefficients as a residual; reflections by the difference of consecutive ones |
| C81 | Riemann integrals (Coquelicot): on each section the function is within L d / 2 of its value at the middle; sections that are only partly seen are at most two, of weight pi / (2 n) each |
| C82 | one simulation for any relation kept by minimum and maximum; instances: the graph of a monotone function, a predicate, a distance |
| C83 | each factor of a stretch of the back is a difference of a potential along the row; sums telescope; shaded length is cut-free |
| C84 | matrix entries times length are differences of a potential along the row (ground) or along both rows (facing sides); sums telescope; the sky is what the zones leave |
| C85 | the integrand is the derivative of half a cosine and the mean of the cosines telescopes into string lengths (fundamental theorem of calculus, twice); what is in sight is where a bilinear function of the two positions is negative, which is the condition for the string to be straight |
| C86 | the directions without a row are those between the direction of the own row and that of the upper edge of the next one, or the horizon (signs of sines of differences of angles); means by the fundamental theorem of calculus; closed forms of C75 for the matrix; bounds on string lengths by Cauchy-Schwarz |
| C87 | equality of the two grounds as records, by the definitions of the constructors (functional extensionality for the series); cut points and shadows by solving for the point on the ray |
| C88 | closed forms of the fast factors (ProofVF) against the integrals of ProofSight and ProofSkyView; for the ground plane the array is turned upside down; the part of a shadow behind the row is never in sight, so that the factor to the part is the factor to the whole |
| C89 | C85 (the matrix holds the textbook factors), C13 (rows add up to 1) and C20 (one solution), put together; surfaces without length drop out of the sums |
| C90 | from a ground point the rows cover intervals of directions, ordered and overlapping only with the next (ProofGroundSky: their union is counted row by row), whose cosines are derivatives of the strings of C84 |
| C91 | C05 and C69 (shaded surfaces are those from which a row hides the sun) rephrased as rays, C30 and the sun's direction in the plane (PropSun), then C89 |
| C92 | the fit reads the sun through tangents only, of period pi (ProofNight); no light: bounds of C21 with zero sources. The predicate `physical` of C20 and of the later run theorems takes the sun up to its direction, so they also cover night timesteps |
| C93 | every quantity of fast mode that looks at the neighbour only is invariant when the row, the neighbour and the element slide together; the edge cases of the shaded lengths are shown not to matter for the side that faces the neighbour |
| C94 | as C93 with similarities (enlargement and shift in both directions): lengths and shaded lengths scale with the width, crossed strings over the length do not |
| C95 | collinear crossed strings computed for a line inside or beside another one; no shaded part at rotation 0 (C06) |

Properties added later are described by their statement in properties.jsonl and by the
head of the file that proves them.

## 3. Layout

| files | contents |
|----|----|
| Num, ModelTs, ModelGeom | numbers; geometry/timeseries.py, base.py (angles), pvrow.py, pvground.py, pvarray.py |
| ModelVF | viewfactors/vfmethods.py, calculator.py (matrix without AOI losses; fast mode) |
| ModelLinalg | `np.linalg.inv`, matrix products |
| ModelParams | dictionaries of parameters of the timeseries objects, `get_param*`, `update_params` |
| ModelIrr | irradiance/{base,models,utils}.py |
| ModelAOI | viewfactors/aoimethods.py, `build_ts_vf_aoi_matrix` |
| ModelEngine | engine.py |
| ModelRun | run.py, report.py |
| ModelShapely | geometry/utils.py and the shapely based classes of base.py and pvrow.py |
| ModelShadow | shadows, setters and updates of the shapely based classes (GEOS on one line) |
| ModelHeap | the same classes as objects in memory, with default arguments, lists and collections that may be shared |
| ModelSnapshot | the `at` methods of timeseries.py, pvrow.py, pvground.py; PVGround |
| ModelViews | array from a dictionary, surfaces and indices at one index, arrays of coordinates |
| ModelPlot | plot.py and the `plot` methods |
| ModelFloat | distances, view factors of two surfaces and the sky column in double precision |
| Spec* | vocabulary of the statements |
| Proof*, Basics | proofs |
| Prop* | property theorems and examples |

## 4. Trusted base

### 4.1 Proof assistant
Coq 8.16.1: its kernel and the tools that call it (coqc, coq_makefile). No plugin, no
`native_compute`, no disabled check, no `Admitted`, no axiom declared here, no functor or
module type. Only the standard library is used (Reals, Lists, Lra/Nra/Lia/Psatz, String,
FunctionalExtensionality, Permutation, Sorting), except in PropErf.v, which takes the
definition of integrals from Coquelicot for one example, in PropRefine.v, which takes them for
C81, in SpecSight.v, ProofSight.v, PropSight.v, ProofSkyView.v, PropSkyView.v, PropFastSight.v,
ProofGroundSky.v and PropGroundSky.v, which take them for C85, C86, C88 and C90, and in
ModelFloat, ProofFloat and PropFloat, which take IEEE 754 arithmetic from Flocq (and PropSelect, its rounding). Neither library has axioms. Examples of
PropFloat compute doubles with the kernel's `vm_compute`.

### 4.2 Axioms used, per theorem (Print Assumptions)
All are axioms of the standard library (classical real numbers and their consequences):

* E: `FunctionalExtensionality.functional_extensionality_dep`
* F: `ClassicalDedekindReals.sig_forall_dec`
* N: `ClassicalDedekindReals.sig_not_dec`
* C: `Classical_Prop.classic`

<!-- ASSUMPTIONS BEGIN -->
* **none (closed under the global context)**: C28_processes, C32_no_neighbour_refuted,
  C37_precedence, C46_array, C46_ground_in_sync, C46_last_update, C46_untouched, C54_merge_keys,
  C64_arrays, C65_given.
* **E, F**: C09_highest_lowest, C10_rotation, C10_turns_and_flip, C20_unique_solution,
  C31_fraction, C34_band, C43_mixed, C43_segment, C43_uniform, C44_merge, C55_degenerate,
  C56_flat_refuted, C56_highest_lowest, C56_normal_given, C57_descending_refuted, C57_merge,
  C57_single, C66_added_refuted, C66_direction_refuted, C66_straight, C82_error, C82_moved,
  C82_selected.
* **E, F, N**: C01_ordered_shadows_tiling, C02_cutting, C11_sun_projection, C16_additive_free,
  C33_gaussian, C35_depth, C35_flip, C35_terminates, C35_values, C36_additive,
  C36_all_surfaces_needed, C36_collections, C37_default_refuted, C37_engine, C37_twice, C38_rho,
  C38_sections, C39_accuracy, C39_monotone, C39_sandia, C39_wedge, C40_away, C40_contains,
  C40_covering_refuted, C40_degenerate, C40_difference, C40_pieces_oriented, C41_degenerate,
  C41_parallel, C41_projection, C41_short_segment_refuted, C42_cache_refuted, C42_cut,
  C42_end_or_outside, C42_fully_shaded_refuted, C42_no_cut, C42_segment, C42_side,
  C44_pending_lost_refuted, C45_element, C45_first_timestep, C45_index_ignored_refuted,
  C55_contiguous, C55_side, C56_row, C58_flat, C60_merged_refuted, C64_element, C65_average,
  C65_no_value, C66_direction, C66_direction_merged_refuted, C66_separated, C66_setters,
  C67_again_refuted, C67_inside, C67_missed, C67_neighbour_refuted, C67_parts, C67_shadow,
  C67_side, C67_stale_refuted, C67_total, C67_touch, C67_touched, C67_untouched, C68_surface,
  C79_cut, C79_defaults, C79_isolated, C79_length, C79_list_refuted, C79_method,
  C79_shared_refuted, C79_side, C79_stale_refuted, C87_cut, C87_lift, C87_shadow.
* **E, F, N, C**: C01_ground_tiling, C01_sliver_refuted, C03_left_right, C04_flag_iff_overlap,
  C05_shade_is_geometric, C05_shaded_lengths, C06_lengths, C06_side_partition, C07_outer_rows,
  C08_indexing, C09_row_ends, C12_reciprocity, C13_closure, C14_fractions, C15_ground,
  C15_row_ground, C15_rows, C15_visibility, C16_additive_obstructed, C17_edge_row, C17_ground,
  C17_ground_gap, C17_lowest_segment_refuted, C17_shadows_and_rows, C17_surface, C18_closed_set,
  C18_defined, C18_surfaces, C18_surfaces_defined, C19_radiosity_balance, C20_only_solution,
  C20_run_succeeds, C21_bounds, C21_monotone, C22_components, C23_absorbed, C23_bounds,
  C24_no_aoi, C24_refuted, C24_with_aoi, C25_fast_qinc, C25_monotone, C25_nothing_else,
  C25_out_of_range, C25_succeeds, C26_failures, C26_last_fit, C26_last_run, C26_stale_matrices,
  C26_twice, C27_alone, C27_independent, C27_success, C28_parallel, C28_scalars_refused,
  C29_albedo, C29_scalars, C30_bounds, C30_direct, C30_one_side, C31_shaded_fraction,
  C32_circumsolar_pct, C32_continuous, C32_uniform_disk, C33_density, C33_models, C34_back,
  C34_front_ground, C36_ground, C37_used, C39_angle, C39_range, C39_symmetric, C44_array,
  C46_other_surfaces, C47_back_zero, C47_ground, C47_hybrid_front, C47_isotropic_front_refuted,
  C48_mirror, C49_row_to_ground, C49_row_to_row, C50_fit_succeeds, C51_absorbed, C51_black,
  C51_ground, C51_ground_rows, C51_rows, C51_short, C51_sky, C52_absorbed_sources,
  C53_circumsolar, C53_horizon, C53_sky, C53_total, C54_fast_mode_refuted, C54_one_row,
  C54_report, C58_ground, C58_modes, C59_indices, C59_row, C60_ground, C60_side, C61_energy,
  C61_no_gain, C61_published, C62_exchange, C63_cut, C63_missing, C63_scalars, C63_segments,
  C64_ground_element, C64_indices, C64_row_indices, C64_segment, C64_surfaces, C68_array,
  C68_array_labels, C68_labels, C68_row, C68_sides, C69_ground_surfaces, C69_lit, C69_shadow,
  C70_opaque, C70_sunlight, C70_transparent_gain, C71_albedo, C71_reflectivity, C72_fast,
  C72_scaling, C72_superposition, C73_at_least, C73_at_most, C73_refuted, C74_no_north,
  C74_report, C75_between, C75_edge, C75_gap, C75_higher, C75_off_ground, C76_defaults,
  C76_marked, C76_run, C76_unused, C77_distance, C77_reciprocity, C77_sky, C77_usual,
  C77_view_factor, C78_bounds, C78_difference, C78_one_bounce, C80_bounces, C80_perturbed,
  C80_residual, C81_between, C81_ground, C81_limit, C81_rho, C81_rows, C81_sky, C82_double,
  C83_cut_free, C83_isotropic, C83_runs, C83_segments, C83_sources, C83_surfaces, C84_cut_free,
  C84_runs, C84_side_ground, C84_sides, C85_textbook, C85_unique, C86_exact, C86_sky, C87_fast,
  C87_full, C88_edge, C88_ground, C88_row, C88_shadow, C88_sky, C89_factors, C89_rendering,
  C90_ground, C90_unique, C91_light, C91_sun, C92_below, C92_below_refuted, C92_dark,
  C92_dark_fast, C92_opposite_sun, C93_run, C93_surfaces, C93_views, C94_run, C94_sources,
  C94_surfaces, C94_tiny_refuted, C94_views, C95_run, C95_views.
<!-- ASSUMPTIONS END -->

### 4.3 What the model assumes about the rest of the world
* **Floating point.** Exact real arithmetic stands for doubles. Rounding, overflow and
  the IEEE special values are not modelled, except `xr` for shadow ends and cut points, and
  the view factors of C77 (ModelFloat.v), in doubles: numpy's `+ - * / sqrt` are correctly
  rounded, `x**2` is `x * x`.
  Where numpy would produce NaN or inf by a zero divisor, `fdiv` returns 0; the theorems
  carry a hypothesis that excludes the case, or the case is harmless. A quotient by
  `tan(pi)`, of the order of 1e16 in floats, is an infinity (Num.v, `div_tan`).
* **numpy.** Broadcasting of vectors of equal length, `where`, `maximum`, `minimum`,
  `einsum`, `tile`, boolean masks, `array_split`, `linalg.inv` (returns the inverse, raises
  `LinAlgError` if there is none; a singular matrix of a batch makes the call raise).
  Shape errors are `Err ValueError`. Vectors with 0 timesteps raise nothing.
* **pandas.** Timestamps are distinct; `DataFrame` columns are functions of the timestep.
* **pvlib.** `get_total_irradiance` (its `poa_global`) and `perez` with its components (this
  includes `get_extra_radiation` and `get_relative_airmass`) are an arbitrary record of
  functions (`pvlib`, ModelIrr.v): the theorems hold for every value that they may return,
  under hypotheses stated in the theorems. `aoi_projection`, `aoi`, `cosd` and `sind` are
  modelled by their formulas (exact, so pvlib's clipping to [-1, 1] has no effect).
* **`math.erf`**: an arbitrary function; the theorems about the Gaussian model state the
  properties of erf that they need. C33_density_case (PropErf.v)
  shows that the integral that defines erf has them.
* **shapely / GEOS** (ModelShapely). The boundary of a two point `LineString` is its two
  ends in order; it is empty when the ends are equal (unpacking it is a `ValueError`,
  indexing it an `IndexError`). Distances to an empty geometry are 0. A `LineString` with
  two equal points may be built. The distance from a point to a segment is the one of
  GEOS's `distancePointLine`. The length of a collection is the sum of the lengths.
  `bounds` and `interpolate(normalized=True)` have their usual meaning. On one straight line
  (ModelShadow): `buffer(d)` of a segment meets the line in the points at most `d` away from
  it; `intersection` of the buffer with a line string is its part inside, in its own direction,
  as a point, a line string or several ones; `difference` of two segments keeps the direction of
  the first and has no parts of length 0. `coords` of a geometry in several parts is a
  `NotImplementedError`, a `LineString` of one point a `ValueError`.
* **Objects in memory** (ModelHeap). Attributes and lists hold references; an assignment or
  `append` is seen through every reference; defaults of arguments are made once, when the
  function is defined; a call that raises keeps what it had changed. A shapely collection holds
  a copy of the coordinates that it was given. The other models use values; C79_isolated
  justifies it for segments and what they contain.
* **multiprocessing.** `Pool.map` runs each worker once and returns all the results; the
  model allows any order. A worker that raises makes the call raise. Pickling is faithful.
* **User functions.** `faoi` functions, report builders: arbitrary total functions, pure.
* **State after a failed call.** The functions of the model return no state when they raise.
  C26_failures allows any state after an engine call that raised that keeps the arguments of
  the constructors (no method assigns them).

## 5. What is modelled and what is not

| file of /repo/pvfactors | modelled | not modelled |
|----|----|----|
| config.py | the numeric constants, the colours | |
| __init__.py | `PVFactorsError` as an error value | |
| geometry/timeseries.py | `TsSurface`, `TsLineCoords`, `TsPointCoords`, `TsShadeCollection`, `at`, parameters, `_get_params_at_idx`, `as_array`, `from_array`, plotting | `__repr__` |
| geometry/base.py | angles and coordinates; `BaseSurface`, `PVSurface`, `ShadeCollection`, `PVSegment`, `BaseSide`, `BasePVArray`, plotting | `cast_shadow` with a line string that is not along the segment |
| geometry/utils.py | all | |
| geometry/pvrow.py | all timeseries and shapely classes, plotting | |
| geometry/pvground.py | all timeseries and shapely classes, plotting | `from_ordered_shadows_coords` called without overlap flags |
| geometry/pvarray.py | all | |
| geometry/plot.py | the calls made on the axes | what matplotlib does with them; line widths, text alignment |
| viewfactors/vfmethods.py, calculator.py, aoimethods.py | all | `faoi_fn_from_pvlib_sandia` calls the pvlib oracle; its database of modules is not modelled |
| irradiance/base.py, models.py, utils.py | all that is reachable | `get_full_modeling_vectors` (calls a method that does not exist) |
| engine.py, run.py, report.py | all | the progress bar, logging |

Where a definition simplifies the code its comment says so.

## 6. Findings

Theorems named `_refuted` show the failing case; the others are consequences of the model.

1. **Slivers (C01_sliver_refuted).** When the shadows of two rows overlap by less than the
   tolerance the overlap flag is not raised: the overlap is counted several times and the
   ground elements do not tile the ground.
2. **Fast mode, lowest segment (C17_lowest_segment_refuted).** For the segment that starts at
   the lower edge of a row (so for any side that is not cut) the view factor to the ground of
   the fast mode is strictly larger than the sum of the full mode entries, whatever the
   size of the modelled ground.
3. **AOI matrix (C24_refuted).** `build_ts_vf_aoi_matrix` starts from the published
   `ts_vf_matrix` object: with AOI functions, the matrix published as view factors holds the
   losses of AOI.
4. **Stale matrices (C26_stale_matrices).** After a new fit, or a run in fast mode, the array
   still publishes the matrices of an earlier full mode run.
5. **One bad timestep (C27_success).** One singular timestep makes the whole batch fail.
6. **Parallel runs and scalars (C28_scalars_refused).** `run_parallel_engine` fails on scalar
   inputs (C29: the engine itself accepts them).
7. **Default reflectivities (C37_default_refuted).** `with_rho_initialization` raises
   `AttributeError` when the calculator has no AOI method, even if the user gave both
   reflectivities; its default values are unreachable.
8. **Isotropic model, front (C47_isotropic_front_refuted).** The total for shaded front
   surfaces leaves out the direct light transmitted through the modules, which is counted in
   its components.
9. **Back circumsolar (C53).** For zeniths between 85 and 90 degrees, the back circumsolar term
   is larger than the projection of the luminance by the factor cos 85 / cos zenith.
10. **Reports (C54_one_row, C54_fast_mode_refuted).** The example report reads row 1: it fails
    with a single row; it always fails in fast mode, although its documentation names it.
11. **`utils.difference` (C40_covering_refuted)** returns the first segment unchanged when the second
    one strictly covers it.
12. **`utils.projection` (C41_short_segment_refuted)** decides that lines are parallel from an
    unscaled cross product: short segments are "parallel" to every direction.
13. **`PVSegment.cut_at_point` (C42_fully_shaded_refuted)** does nothing to a fully shaded
    segment; `all_surfaces` is cached and stale after a cut (C42_cache_refuted).
14. **`merge_surfaces` (C57_descending_refuted)** uses the bounding box: surfaces on a descending line
    are merged into a line along the other diagonal.
15. **`PVRow.highest_point` / `lowest_point` (C56_flat_refuted)** are the same end for flat rows.
16. **Non point ground surfaces (C45_index_ignored_refuted)**: the methods of the ground ignore the index.
17. **Merged shadows (C44_pending_lost_refuted, C60_merged_refuted)**: a pending surface can be lost;
    a merged surface reports the parameters of its right part only.
18. **Shadows (C67_again_refuted, C67_neighbour_refuted, C67_stale_refuted, C67_touch,
    C67_parts)**: casting the same shadow twice raises; a shadow that stops where a segment starts
    adds to it a shaded sliver outside of it; `all_surfaces` is stale after a shadow; a shadow over
    two illuminated surfaces that are apart raises.
19. **Collections (C66_direction_refuted, C66_added_refuted)**: the setters of a segment accept a
    collection in another direction, which the constructor refuses; `add_pvsurface` does not check
    the shading; after `merge_surfaces` a single surface is left but the collection still refuses
    to give its direction if the merged surfaces had several (C66_direction_merged_refuted).
20. Without theorem: `get_full_modeling_vectors` calls `get_modeling_vectors`, which does not
    exist; `skip_step` is never used;
    `TsPVRow` has no
    `get_param_weighted`; `TsGround.at` uses `x_min_max` only for the original line string and does
    not clip the surfaces; collections made by `TsShadeCollection.at` have no parameter names;
    the dictionary of fast mode view factors is not indexed by `_get_params_at_idx`.
21. Numerical limits that the hypotheses of the theorems exclude: sun exactly on the horizon or in
    the plane of a row, view factors between flat rows that overlap (gcr > 1), surfaces with a
    length between 0 and the tolerance (reciprocity fails), cut points beyond 100 m in fast mode
    (C17_edge_row).

22. **Transparent modules (C70_transparent_gain)**: the direct light that goes through the modules is
    added to the shaded surfaces but not taken from what the modules receive, so the array receives
    more direct light than falls on it (C70_sunlight: the surfaces in the sun receive all of it).

23. **AOI view factors count sections twice (C73_refuted)**: a wedge takes every section of the
    integral that it meets, whole, so a section is counted once for each surface that meets it. With
    one section and an AOI function equal to one, a surface takes twice the light that arrives, where
    `rho_from_faoi_fn` gives no reflection. C73_at_most bounds the excess: one section for each thing
    seen. C73_at_least is the bound on the other side; it needs the end of the ground to be hidden,
    since nothing stands for the directions between the end of the ground and a neighbour above it.
24. **No neighbour (C32_no_neighbour_refuted)**: `_calculate_circumsolar_shading_pct` with
    `idx_neighbor=None` raises `UnboundLocalError`; its caller guards it.
25. **The ground ends 100 m from the first row (C75_edge, C75_off_ground)**: what a side without
    neighbour sees between the end of the ground and the horizon counts as sky, so that it
    sees more sky than its tilt allows; a last row further than 100 m from the first one
    (for instance row 40 with a spacing of 3 m) sees no ground at all.
26. **No timestep is skipped (C76_unused)**: `fit` writes `skip_step` under a comment that says
    that these timesteps are skipped; nothing reads it.
27. **Labels of the ground (C68_array_labels)**: when the plot is made without the cut points,
    the ground surfaces are new ones without index, and their label is the text "None".
28. **Digits lost on narrow surfaces (C77_view_factor, C77_case_lost)**: the string formula
    subtracts lengths of the strings, so that its rounding error grows with their length over
    the width of the surface. It stays below 1e-8 for surfaces of a millimetre or more within
    a kilometre (C77_usual); just above the tolerance of 1e-8 m the
    bound is 1e-3.
29. **Shared objects (C79_shared_refuted, C79_list_refuted)**: `PVSegment` has mutable default
    arguments, so that segments made without a shaded collection share one: a shadow on one of
    them shades the others, and every `PVSegment()` made later. `from_linestring_coords` avoids
    it (C79_isolated, C79_defaults). Two `ShadeCollection` made of one list share it: a surface
    added to one is counted by the other, whose length does not change.
30. **Stale length of a segment (C79_stale_refuted)**: `merge_shaded_areas` changes the shaded
    collection and not the geometry of its segment, whose `length`, and so the average of
    `get_param_weighted`, no longer is that of its surfaces.
31. **Negative light at night (C92_below, C92_below_refuted)**: with the sun below the horizon and
    DNI > 0 the direct light of the lit ground is DNI times the negative cosine of the zenith, since
    the marked timesteps are not skipped (26); the shadows are those of the opposite sun
    (C92_opposite_sun).
32. **The tolerance is an absolute length (C94_tiny_refuted)**: elements shorter than 1e-8 see the sky
    only, whatever the scale of the array; above it the results do not depend on the scale (C94).

## 7. Tests of the theorems

`seeded/LOG.jsonl` records the edits of the model tried in a scratch copy (wrong boundary,
missed case, swapped argument, dropped update), the first proofs that fail, and what was
tightened when none did. The edits are chosen definition by definition, with the aim that each
definition of the model is pinned by at least one theorem.

How to read it: an edit counts as caught when some proof no longer compiles. `proofs_broken` has
the first proofs that fail. `theorems_failed` has the theorems of the claimed properties that no
longer compile, which may be only because a lemma or file they depend on fails; in 686 of the 937
lines the first failures are all lemmas. So a line shows that the proofs notice the edit, not that
each theorem listed is false of the edited model. Edits that do not type-check (3) are left out,
and so is one stopped for lack of time (`is_not_flat := true` in segment_coords).
