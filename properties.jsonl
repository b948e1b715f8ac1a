{"id": "C01", "title": "Shadows and sunlit gaps tile the ground exactly", "statement": "After fitting an ordered PV array, at every timestep the shadow elements and the illuminated elements of the ground, read left to right, are contiguous intervals that start at x=-100, end at x=+100, never overlap and leave no gap; so the ground length reported is exactly 200 m, whatever the sun and tracker position, except when the rows shade each other by a positive length not above the 1e-8 m tolerance (then the ground shadows overlap and the reported length exceeds 200 m by that sliver).", "quantifier": "every number of PV rows >= 1, every width, spacing and height, every sun position above the horizon, every rotation in (-180,180) outside the sliver case", "why_tests_cant": "Tests look at a few timesteps; a missed clipping case (shadow partly or totally outside the ground, overlapping shadows, touching shadows) only shows up for particular sun angles.", "anchors": ["pvfactors/geometry/pvground.py: TsGround.from_ts_pvrows_and_angles, from_ordered_shadows_coords, _shadow_elements_from_coords_and_cut_pts, _illum_elements_from_coords_and_cut_pts", "pvfactors/geometry/timeseries.py: TsLineCoords.length"]}
{"id": "C02", "title": "Cutting a ground element at cut points loses and invents nothing", "statement": "A ground element split at n cut points is replaced by n+1 surfaces lying end to end between the element's two ends: total length is preserved, every surface of non-zero length stays inside the element and every surface inside the ground bounds, whatever the positions of the cut points (unordered, outside the element, or at infinity as for flat PV rows).", "quantifier": "every element inside the ground bounds, every list of cut points, finite or infinite, sorted or not", "why_tests_cant": "The number of cut points and their order relative to the element is unbounded; the infinite cut point of flat rows is a special float value that one example cannot generalise.", "anchors": ["pvfactors/geometry/pvground.py: TsGroundElement._create_all_ts_surfaces, _coords_left_of_cut_point, _coords_right_of_cut_point"]}
{"id": "C03", "title": "Left/right lookup of ground surfaces is correct for each PV row", "statement": "For each PV row, the ground surfaces of non-zero length listed as being on the left of its cut point lie entirely at x <= cut point, those listed on the right lie entirely at x >= cut point, and each ground surface is listed on exactly one side. This is what decides which side of a row may see which ground surface.", "quantifier": "every list of cut points ordered left to right (finite or infinite), every element, every cut point index", "why_tests_cant": "Depends on an index convention inside a nested loop over cut points; a wrong boundary index only matters for surfaces that happen to be non empty.", "anchors": ["pvfactors/geometry/pvground.py: TsGroundElement._create_all_ts_surfaces, TsGround.ts_surfaces_side_of_cut_point"]}
{"id": "C04", "title": "Direct-shading flag is raised exactly when neighbouring ground shadows overlap", "statement": "The array reports direct (row to row) shading at a timestep if and only if the ground shadows of neighbouring rows overlap (up to the 1e-8 m length tolerance): shaded length > 0 on the front or the back iff the ground shadow of a row is longer than the row spacing.", "quantifier": "every sun angle above the horizon, every rotation not parallel to the sun, every width and spacing", "why_tests_cant": "The two facts are computed by unrelated formulas (a trigonometric law-of-sines expression and projected end points); agreement for all angles is a trigonometric identity that sampling cannot settle.", "anchors": ["pvfactors/geometry/pvarray.py: OrderedPVArray._calculate_interrow_shading, fit", "pvfactors/geometry/pvground.py: TsGround.from_ts_pvrows_and_angles, from_ordered_shadows_coords"]}
{"id": "C05", "title": "Inter-row shaded length is the true geometric shadow", "statement": "When a row is reported partly shaded by its neighbour, the boundary between shaded and sunlit module is exactly where the sun ray grazing the neighbour's edge meets the row; the shaded lengths are always within [0, row width], front and back are never both shaded (sun above the horizon), and a single row is never shaded.", "quantifier": "every sun angle above the horizon, every non-zero rotation (flat rows are covered by C06), width, spacing and number of rows", "why_tests_cant": "A continuous family of sun and tracker angles; sign or branch mistakes hit only some quadrants.", "anchors": ["pvfactors/geometry/pvarray.py: OrderedPVArray._calculate_interrow_shading"]}
{"id": "C06", "title": "A PV row side is exactly partitioned by its segments and their shading", "statement": "The n segments of a side are consecutive pieces of the row, each of length width/n; in each one the illuminated and shaded parts add up to the segment; and the shaded lengths of all the segments add up to the side's shaded length, the shade starting from the lower edge. Exactly flat rows get no shade.", "quantifier": "every discretisation n >= 1, every rotation in (-180,180), every shaded length in [0,width]", "why_tests_cant": "Shade boundary can fall inside, on the border of, or outside any of n segments; n is unbounded.", "anchors": ["pvfactors/geometry/pvrow.py: TsSide.from_raw_inputs, TsPVRow.from_raw_inputs", "pvfactors/geometry/timeseries.py: TsDualSegment-like lengths, TsShadeCollection.length"]}
{"id": "C07", "title": "Outer rows are not shaded on the side that has no neighbour", "statement": "In the fitted array the leftmost row has no shade on the side that faces left and the rightmost row no shade on the side that faces right, while every other row side gets the common inter-row shaded length; with a single row nothing is shaded.", "quantifier": "every number of rows, every rotation sign, every row index", "why_tests_cant": "Case analysis on row index and tilt direction (including 1-row and 2-row arrays where a row is both leftmost and rightmost).", "anchors": ["pvfactors/geometry/pvarray.py: OrderedPVArray._calculate_pvrow_elements_coords"]}
{"id": "C08", "title": "Surface indexing is a bijection", "statement": "After fit, every timeseries surface (ground first, then rows left to right, front before back) carries a distinct index, the indices are exactly 0..n-1 in iteration order, and n_ts_surfaces equals the number of surfaces, (2N+1)(N+1) ground surfaces for N rows plus two per row-side segment.", "quantifier": "every number of rows, every per-row front/back discretisation", "why_tests_cant": "The matrices are addressed by these indices; a duplicate would silently mix two surfaces for some configurations only.", "anchors": ["pvfactors/geometry/base.py: BasePVArray.n_ts_surfaces, all_ts_surfaces, _index_all_ts_surfaces", "pvfactors/geometry/pvground.py: TsGround.all_ts_surfaces, n_ts_surfaces", "pvfactors/geometry/pvrow.py: TsPVRow.all_ts_surfaces, n_ts_surfaces"]}
{"id": "C09", "title": "PV row end points realise the requested centre, width, rotation and spacing", "statement": "Each row's two end points are symmetric about its centre, at distance width, aligned with the rotation angle, at the requested height, and consecutive rows are identical up to a horizontal translation of width/gcr; the highest/lowest point accessors return the geometrically highest/lowest end.", "quantifier": "every width, height, gcr, rotation, number of rows", "why_tests_cant": "Infinite family of angles; sign errors show only for one tilt direction.", "anchors": ["pvfactors/geometry/pvrow.py: TsPVRow._calculate_full_coords", "pvfactors/geometry/pvarray.py: OrderedPVArray.fit", "pvfactors/geometry/timeseries.py: TsLineCoords.highest_point, lowest_point", "pvfactors/geometry/base.py: _coords_from_center_tilt_length"]}
{"id": "C10", "title": "Rotation sign follows the tilt/azimuth convention for every azimuth wrap", "statement": "The signed rotation used for the geometry is +tilt when the surface azimuth is more than 180 degrees clockwise from the axis azimuth and -tilt otherwise; adding any multiple of 360 degrees to either azimuth changes nothing, turning the surface around (azimuth + 180) flips the sign, and the magnitude is always the tilt.", "quantifier": "all real azimuths and tilts, all integers of turns", "why_tests_cant": "Wrap-around of azimuths is unbounded.", "anchors": ["pvfactors/geometry/base.py: _get_rotation_from_tilt_azimuth"]}
{"id": "C11", "title": "The 2D sun direction is the projection of the 3D sun direction", "statement": "The 2D sun vector points up exactly when the sun is above the horizon, has norm at most 1, is independent of full turns of the azimuths, and mirrors horizontally when the sun is mirrored about the axis.", "quantifier": "all zenith and azimuth angles", "why_tests_cant": "Trigonometric identities over all reals.", "anchors": ["pvfactors/geometry/base.py: _get_solar_2d_vectors"]}
{"id": "C12", "title": "View factor reciprocity", "statement": "For any two surfaces that are both longer than the distance tolerance, length_i * F[i][j] = length_j * F[j][i] in the full-mode view factor matrix, as written by the actual sequence of in-place updates.", "quantifier": "every array (any number of rows, any discretisation, any shading), every pair of surfaces, every timestep", "why_tests_cant": "The matrix is filled by nested loops with skips, guards and overwrites; all pairs and all configurations cannot be enumerated.", "anchors": ["pvfactors/viewfactors/vfmethods.py: VFTsMethods.vf_pvrow_gnd_surf, vf_pvrow_to_pvrow", "pvfactors/viewfactors/calculator.py: VFCalculator.build_ts_vf_matrix"]}
{"id": "C13", "title": "View factors of every surface sum to one", "statement": "Every surface longer than the tolerance has view factors (including the one to the sky) that sum to exactly 1; a surface not longer than the tolerance has only zero view factors; the sky's own row is zero; no surface sees itself.", "quantifier": "every array, surface and timestep", "why_tests_cant": "Depends on the order in which matrix cells are written.", "anchors": ["pvfactors/viewfactors/calculator.py: VFCalculator.build_ts_vf_matrix"]}
{"id": "C14", "title": "View factors are fractions", "statement": "Every entry of the full-mode view factor matrix lies between 0 and 1 (rows above the ground; horizontal rows must not overlap one another, i.e. gcr <= 1); in particular crossed strings are never shorter than uncrossed ones (also around an obstruction), and the sky view factor obtained by difference is never negative.", "quantifier": "every array geometry with ordered rows, every sun position, every surface", "why_tests_cant": "A geometric inequality (crossed strings, triangle inequality) over a continuum of configurations.", "anchors": ["pvfactors/viewfactors/vfmethods.py: _vf_surface_to_surface, _vf_hottel_gnd_surf, _hottel_string_length, vf_pvrow_surf_to_gnd_surf_obstruction_hottel, vf_pvrow_to_pvrow", "pvfactors/viewfactors/calculator.py: build_ts_vf_matrix"]}
{"id": "C15", "title": "Only surfaces that can face each other exchange radiation", "statement": "In the full-mode matrix, a front surface has a non-zero view factor only to ground on the side it faces, to the back of the neighbouring row on that side, and to the sky; surfaces of the same row never see each other, ground surfaces never see ground, and rows that are not neighbours never see each other.", "quantifier": "every array, every pair of surfaces, every rotation sign", "why_tests_cant": "Needs a claim about all the cells that are NOT written by the loops.", "anchors": ["pvfactors/viewfactors/vfmethods.py: VFTsMethods.vf_pvrow_gnd_surf, vf_pvrow_to_pvrow"]}
{"id": "C16", "title": "View factor to the ground does not depend on how the ground is cut", "statement": "The view factor from a row surface to a stretch of ground equals the sum of the view factors to the pieces into which that stretch is cut (by shadows and by cut points), with or without obstruction by the neighbouring row.", "quantifier": "every contiguous subdivision of a ground stretch, every position of row and obstruction", "why_tests_cant": "Additivity over arbitrary subdivisions.", "anchors": ["pvfactors/viewfactors/vfmethods.py: _vf_hottel_gnd_surf, _hottel_string_length, _vf_surface_to_surface"]}
{"id": "C17", "title": "Fast mode and full mode agree on view factors", "statement": "For a PV row with a neighbour on the side its back looks at, the fast-mode view factors of a back segment to each shadow, to all shadows, to the neighbouring row and to its shaded part equal the length-weighted sums of the corresponding full-mode view factors. Those to the total ground and to the sky also agree when the ground seen from the segment ends inside the modelled ground (the neighbour hides the far ground end from the segment's lower end); otherwise fast mode counts the ground beyond the modelled end, exceeds full mode by an explicit amount, and is never below it. This always happens for the segment touching the lower edge of the row. For an edge row they agree when its cut point is within the ground. The same holds surface by surface, for the lit and the shaded part of each segment.", "quantifier": "every row, every rotation sign, every segment of the back side, every discretisation of the neighbour, no surface of positive length below the tolerance", "why_tests_cant": "Two independent code paths; equality is a telescoping identity over arbitrarily many surfaces.", "anchors": ["pvfactors/viewfactors/vfmethods.py: calculate_vf_to_gnd, calculate_vf_to_pvrow", "pvfactors/viewfactors/calculator.py: get_vf_ts_pvrow_element, build_ts_vf_matrix"]}
{"id": "C18", "title": "Fast-mode view factors form a closed set", "statement": "For every PV row element the fast-mode view factors satisfy: ground = shaded ground + illuminated ground, row = shaded row + illuminated row, and sky = 1 - row - ground, and all of them are in [0,1] where the geometry is that of an ordered array.", "quantifier": "every row, side, segment, shading state", "why_tests_cant": "Edge rows, tilt direction and shading select different formulas.", "anchors": ["pvfactors/viewfactors/calculator.py: VFCalculator.get_vf_ts_pvrow_element", "pvfactors/viewfactors/vfmethods.py: calculate_vf_to_gnd, calculate_vf_to_pvrow, calculate_vf_to_shadow_obstruction_hottel"]}
{"id": "C19", "title": "Full-mode irradiance satisfies the radiosity balance", "statement": "After a full-mode run, for every surface the incident irradiance equals the irradiance received directly from the light sources, plus the sky luminance times the sky view factor, plus the sum over the other surfaces of view factor times reflectivity times their incident irradiance; the reported 'reflection' and 'isotropic' components are exactly those two last terms.", "quantifier": "every array, every irradiance input, every reflectivity in (0,1], every timestep", "why_tests_cant": "A linear system of arbitrary size.", "anchors": ["pvfactors/engine.py: PVEngine.run_full_mode"]}
{"id": "C20", "title": "The full-mode linear system always has exactly one solution", "statement": "With reflectivities strictly between 0 and 1 and view factors that are non-negative with row sums at most 1, the system solved in full mode is never singular: it has one and only one solution, whatever the number of surfaces (including zero-length ones).", "quantifier": "every number of surfaces, every such view factor matrix, every right hand side", "why_tests_cant": "Invertibility for every size and every matrix.", "anchors": ["pvfactors/engine.py: PVEngine.run_full_mode"]}
{"id": "C21", "title": "Incident irradiance is non-negative, bounded and monotone", "statement": "With non-negative light-source irradiance the solved incident irradiance is non-negative, never below the irradiance received directly from the sources, at most (max source)/(1 - max reflectivity), never decreases when any source increases, and equals the limit of the finite-bounce reflections.", "quantifier": "every number of surfaces, every non-negative source vector, every reflectivity < 1", "why_tests_cant": "Inequalities over all inputs and all sizes.", "anchors": ["pvfactors/engine.py: PVEngine.run_full_mode"]}
{"id": "C22", "title": "Irradiance components add up to the incident total", "statement": "For every surface after a full-mode run, incident irradiance = direct + circumsolar + horizon (the components of the irradiance model, weighted and shaded as published) + isotropic + reflection.", "quantifier": "every surface, timestep, irradiance model and sky condition", "why_tests_cant": "The components are published through separate dictionaries that could drift apart.", "anchors": ["pvfactors/engine.py: PVEngine.run_full_mode", "pvfactors/irradiance/models.py: transform", "pvfactors/irradiance/base.py: update_ts_surface_sky_term, get_summed_components"]}
{"id": "C23", "title": "Absorbed = incident minus reflected", "statement": "Without angle-of-incidence functions, the absorbed irradiance of every surface is exactly (1 - reflectivity) times its incident irradiance, hence never negative and never above it.", "quantifier": "every array, input and reflectivity", "why_tests_cant": "Combines three different computations (absorbed sources, absorbed matrix, solved system).", "anchors": ["pvfactors/engine.py: PVEngine.run_full_mode", "pvfactors/viewfactors/calculator.py: VFCalculator.build_ts_vf_aoi_matrix", "pvfactors/irradiance/models.py: _calculate_faoi_modifiers"]}
{"id": "C24", "title": "View factor matrices published by a run", "statement": "After a full-mode run without AOI methods, the view factor matrix published on the PV array is the one used to solve the system (rows summing to one by C13), and the absorbed matrix is another array holding (1 - reflectivity of the receiving surface) times it. With AOI methods both attributes are the same array, overwritten in place: the published view factors are no longer the view factors (refuted with a surface whose row is zero).", "quantifier": "every engine configuration and input", "why_tests_cant": "Aliasing between two attributes: depends on in-place mutation, invisible in value-level tests of the first use.", "anchors": ["pvfactors/viewfactors/calculator.py: VFCalculator.build_ts_vf_aoi_matrix", "pvfactors/engine.py: PVEngine.run_full_mode"]}
{"id": "C25", "title": "Fast-mode back irradiance is the published weighted sum", "statement": "In fast mode, a back segment's incident irradiance is albedo-reflected sky and sun seen through the shaded and illuminated ground view factors, plus front-row reflections, plus isotropic sky, plus the model's own sky terms; it never decreases with albedo, GHI or DHI-driven luminance. An index of a row or of a segment that does not exist raises IndexError.", "quantifier": "every segment, row, shading and irradiance input", "why_tests_cant": "Each term has its own weight and view factor; the combination must hold for every state.", "anchors": ["pvfactors/engine.py: PVEngine.run_fast_mode, _calculate_back_ts_segment_qinc"]}
{"id": "C26", "title": "Results depend only on the last fit", "statement": "A sequence of fits and runs on the same engine object gives, for the last run, exactly what a fresh engine fitted once with the last inputs gives; running twice in a row gives the same result. This also holds when earlier calls raised, whatever they left in the attributes they compute.", "quantifier": "every history of fit and run calls with any inputs, including calls that raise", "why_tests_cant": "Histories are unbounded and state is kept in many mutable attributes (reflectivities, matrices, AOI tables).", "anchors": ["pvfactors/engine.py: PVEngine.fit, run_full_mode, run_fast_mode", "pvfactors/irradiance/base.py: initialize_rho", "pvfactors/viewfactors/calculator.py: VFCalculator.fit, build_ts_vf_matrix"]}
{"id": "C27", "title": "Each timestep is computed independently of the others", "statement": "The result at a timestep depends only on that timestep's inputs: simulating a batch and reading off one timestep gives the same as simulating this timestep alone, provided no surface at that timestep has a length strictly between 0 and the tolerance.", "quantifier": "every batch, every position in the batch, every companion timestep", "why_tests_cant": "The companion timesteps are arbitrary; 'is this surface always empty' is decided on the whole batch.", "anchors": ["pvfactors/geometry/timeseries.py: TsSurface.is_empty", "pvfactors/viewfactors/vfmethods.py: vf_pvrow_gnd_surf, vf_pvrow_to_pvrow"]}
{"id": "C28", "title": "Parallel run equals serial run", "statement": "Running a simulation with any number of processes and merging the reports gives the same report as a single serial run, for any order in which the workers finish; timesteps stay in their original order and none is lost or duplicated.", "quantifier": "every number of timesteps and processes (more processes than timesteps included), every completion order", "why_tests_cant": "Schedules and chunkings are unbounded.", "anchors": ["pvfactors/run.py: run_parallel_engine, _run_serially, run_timeseries_engine", "pvfactors/report.py: ExampleReportBuilder.merge"]}
{"id": "C29", "title": "Scalar inputs behave like one-timestep arrays", "statement": "Fitting the engine with scalar inputs gives the same state as fitting it with arrays of one element, and a scalar albedo is equivalent to a constant albedo array.", "quantifier": "every scalar input", "why_tests_cant": "Equality of two code paths for all values.", "anchors": ["pvfactors/engine.py: PVEngine.fit", "pvfactors/run.py: run_parallel_engine"]}
{"id": "C30", "title": "Direct light reaches at most one side and is never negative", "statement": "At any timestep at most one of the front and the back of the rows receives direct (and circumsolar) light; direct irradiance values are non-negative for DNI >= 0 and never exceed DNI.", "quantifier": "every sun position, tilt and azimuth", "why_tests_cant": "Trigonometric, all angles.", "anchors": ["pvfactors/irradiance/models.py: IsotropicOrdered.fit, HybridPerezOrdered.fit"]}
{"id": "C31", "title": "Shaded modules receive between nothing and full light, ordered by transparency", "statement": "The irradiance given to shaded module surfaces is that of the illuminated ones times (spacing + (1-spacing)*transparency): between 0 and the illuminated value for fractions in [0,1], equal to 0 for opaque tight modules, equal to the illuminated value for transparent ones, and non-decreasing in both.", "quantifier": "all transparencies and spacings in [0,1], all illuminated values", "why_tests_cant": "Continuous parameters.", "anchors": ["pvfactors/irradiance/models.py: IsotropicOrdered.transform, HybridPerezOrdered.transform"]}
{"id": "C32", "title": "Uniform-disk circumsolar shading is a proper shading fraction", "statement": "The shaded percentage of the circumsolar disk is 0 when none of the disk is hidden, 100 when all of it is, always within [0,100], never decreases when more of the disk is hidden, is continuous, and gives complementary results for complementary disks. Finding: the isolated method asked about a row without a neighbour has no percentage to return and fails.", "quantifier": "every hidden fraction of the diameter, every disk angle > 0", "why_tests_cant": "Calculus facts (monotone, continuous) over an interval; branches at the half disk.", "anchors": ["pvfactors/irradiance/utils.py: uniform_circumsolar_disk_shading, calculate_circumsolar_shading"]}
{"id": "C33", "title": "Gaussian circumsolar shading is a proper shading fraction", "statement": "The gaussian circumsolar shading is 0 for nothing hidden, 100 for everything hidden, 50 for half, within [0,100], and never decreases when more is hidden; an unknown model name is rejected. The gaussian function is the density whose integral the shading is taken from.", "quantifier": "every hidden percentage, any odd increasing error function", "why_tests_cant": "Continuous range.", "anchors": ["pvfactors/irradiance/utils.py: gaussian_shading, integral_default_gaussian, calculate_circumsolar_shading"]}
{"id": "C34", "title": "Horizon band shading is a proper shading fraction", "statement": "The horizon band shading percentage is within [0,100], 0 when the neighbour's top is at or below the horizon line of the surface, 100 when above the band, linear and monotone in between; outer rows with no neighbour on the viewed side are not shaded.", "quantifier": "every elevation angle, band angle > 0, row index and tilt direction", "why_tests_cant": "Continuous range and case analysis on row index.", "anchors": ["pvfactors/irradiance/utils.py: calculate_horizon_band_shading", "pvfactors/irradiance/models.py: HybridPerezOrdered._calculate_horizon_shading_pct_ts"]}
{"id": "C35", "title": "Perez luminance recursion terminates", "statement": "When the sun hits the back of a surface the luminances are computed by calling the function again on the flipped surface; the flipped surface always has the sun in front, so the recursion never goes deeper than one level.", "quantifier": "every tilt, azimuth and sun position", "why_tests_cant": "Termination for all inputs.", "anchors": ["pvfactors/irradiance/utils.py: perez_diffuse_luminance"]}
{"id": "C36", "title": "Length-weighted averages are true averages", "statement": "The weighted value of a parameter on a collection, segment, side, ground element or ground is a convex combination of its surfaces' values (between the smallest and the largest, equal to the common value if constant), and the un-normalised version is additive over parts.", "quantifier": "every set of lengths >= 0 with positive total, every values", "why_tests_cant": "Arbitrary numbers of surfaces and values.", "anchors": ["pvfactors/geometry/timeseries.py: TsShadeCollection.get_param_weighted, get_param_ww", "pvfactors/geometry/pvrow.py: TsSide.get_param_weighted, TsSegment.get_param_weighted", "pvfactors/geometry/pvground.py: TsGround.get_param_weighted, TsGroundElement.get_param_weighted"]}
{"id": "C37", "title": "Reflectivity resolution has a fixed precedence", "statement": "The reflectivity used for a module side is the user's value when it is a number, otherwise the value derived from the AOI losses when available, otherwise the default; resolving twice changes nothing.", "quantifier": "every combination of given / missing values", "why_tests_cant": "State carried between calls.", "anchors": ["pvfactors/irradiance/base.py: BaseModel.initialize_rho", "pvfactors/engine.py: PVEngine.with_rho_initialization"]}
{"id": "C38", "title": "AOI view factor discretisation conserves energy", "statement": "The view factors of the AOI sections add up to 1 for any number of sections; the resulting diffuse reflectivity is in [0,1] whenever the AOI function is, and equals one minus the loss factor for a constant function.", "quantifier": "every number of sections, every AOI function", "why_tests_cant": "Telescoping sum of arbitrary length.", "anchors": ["pvfactors/viewfactors/aoimethods.py: AOIMethods.fit, rho_from_faoi_fn, _calculate_vf_aoi_wedge_level"]}
{"id": "C39", "title": "AOI angles are proper angles and the AOI-corrected view factor is bounded", "statement": "The angle of incidence returned for any two vectors is in [0,180] degrees and symmetric; for AOI fractions in [0,1] an AOI-corrected wedge view factor is non-negative, vanishes when the AOI function vanishes and never decreases when the AOI function increases. The Sandia AOI function takes the pvlib loss at the angle from the normal, the same on both sides of it.", "quantifier": "every pair of non-zero vectors, every AOI function, every discretisation", "why_tests_cant": "Continuous inputs and arbitrary functions.", "anchors": ["pvfactors/viewfactors/aoimethods.py: _calculate_aoi_angles, _calculate_vfaoi_wedge_level, _calculate_vf_aoi_wedge_level, faoi_fn_from_pvlib_sandia"]}
{"id": "C40", "title": "Segment difference removes exactly the overlap", "statement": "For two collinear segments, the difference returned covers exactly the points of the first that are not in the second (up to end points), whatever their orientation and relative position; its length is the length of the first minus the overlap and its pieces keep the orientation of the first. Exception (finding): when the second segment strictly covers the first on both ends, the first is returned whole.", "quantifier": "every pair of collinear segments whose end points are not within tolerance of one another without coinciding", "why_tests_cant": "Case analysis on 4 containment tests, infinite positions.", "anchors": ["pvfactors/geometry/utils.py: difference, contains"]}
{"id": "C41", "title": "Projection returns the true intersection", "statement": "Projecting a point along a vector on a segment returns the unique point that lies both on the ray's line and on the segment's line; when the point must be contained, it returns an end of the segment when the intersection is within tolerance of it and nothing when it is outside the segment; nothing when they are parallel. Finding: the test of parallelism is on the cross product, so a short enough segment counts as parallel.", "quantifier": "every point, direction and segment not near-parallel", "why_tests_cant": "Linear algebra over reals.", "anchors": ["pvfactors/geometry/utils.py: projection, are_2d_vecs_collinear"]}
{"id": "C42", "title": "Cutting and merging surfaces preserve length", "statement": "Cutting a surface collection at an interior point replaces one surface by two with the same total length and shading and leaves the others alone; cutting at an end or outside changes nothing. A side is cut in the one segment that contains the point.", "quantifier": "every collection, every point", "why_tests_cant": "Arbitrary collections.", "anchors": ["pvfactors/geometry/base.py: ShadeCollection.cut_at_point, PVSegment.cut_at_point"]}
{"id": "C43", "title": "Mixed shading is rejected", "statement": "Building a shade collection with both shaded and illuminated surfaces raises an error, and never does so for uniform or empty lists.", "quantifier": "every list of surfaces", "why_tests_cant": "Arbitrary lists.", "anchors": ["pvfactors/geometry/base.py: _check_uniform_shading, ShadeCollection._get_shading, PVSegment._check_collections"]}
{"id": "C44", "title": "Merging touching shadows for display keeps the shaded extent", "statement": "When a snapshot of the ground is built with merged shadows, surfaces that touch are merged across shadow elements: the merged surfaces cover the same stretch of ground without gaps, there is one fewer for each pair of neighbouring elements, each starts and ends where an original surface does, and each has the parameters and index of the last surface it covers. On the ground of a fitted array with overlapping shadows they cover exactly the shadows. Finding: when a shadow longer than the tolerance is cut into pieces that are not, the surface waiting to be merged is lost.", "quantifier": "every number of shadow elements and cut surfaces", "why_tests_cant": "A stateful loop with a pending surface.", "anchors": ["pvfactors/geometry/pvground.py: TsGround._merge_shadow_surfaces"]}
{"id": "C45", "title": "Counting non-point ground surfaces at a timestep looks at that timestep", "statement": "The list of ground surfaces that do not reduce to a point at timestep idx contains exactly the surfaces longer than the tolerance at timestep idx. This holds for a ground element, and for the whole ground at timestep 0. Finding: at any other timestep the methods of the whole ground ignore the index and answer for timestep 0.", "quantifier": "every timestep index", "why_tests_cant": "Needs series where emptiness changes between timesteps.", "anchors": ["pvfactors/geometry/pvground.py: TsGround.non_point_shaded_surfaces_at, non_point_illum_surfaces_at, n_non_point_surfaces_at"]}
{"id": "C46", "title": "Parameter updates stay in sync between parts and whole", "statement": "After updating parameters of the array, the ground, a row or a segment, every surface it contains reports the new value for the updated keys and keeps its previous values for the others.", "quantifier": "every part, every dictionary, every sequence of updates", "why_tests_cant": "Histories of updates.", "anchors": ["pvfactors/geometry/pvground.py: TsGround.update_params, update_illum_params, update_shaded_params", "pvfactors/geometry/pvrow.py: TsSegment.update_params, TsSide.update_params", "pvfactors/geometry/timeseries.py: TsShadeCollection.update_params", "pvfactors/geometry/base.py: BasePVArray.update_params"]}
{"id": "C47", "title": "Sky irradiance components are consistent between shaded and illuminated totals", "statement": "On the ground (either model, GHI absent or equal to DNI cos(zenith) + DHI) and on the front of the rows (hybrid model), the total sky irradiance published for the shaded part equals the illuminated total minus the illuminated beam-like components plus their shaded (transmitted) values. On the fronts of the isotropic model the transmitted light is missing from the shaded total. The total published for the back of the rows is 0.", "quantifier": "every model, input and transparency", "why_tests_cant": "Each model re-implements the bookkeeping.", "anchors": ["pvfactors/irradiance/models.py: IsotropicOrdered.transform, HybridPerezOrdered.transform"]}
{"id": "C48", "title": "Front and back views are mirror images", "statement": "Reflecting the whole scene left-right (rotation and sun angle mirrored, rows reversed) mirrors shaded lengths, ground shadows (before they are clipped to the ground) and cut points.", "quantifier": "every geometry", "why_tests_cant": "Symmetry over a continuum.", "anchors": ["pvfactors/geometry/pvarray.py: OrderedPVArray._calculate_interrow_shading", "pvfactors/geometry/pvground.py: TsGround.from_ts_pvrows_and_angles"]}
{"id": "C49", "title": "View factors are Hottel's crossed-strings values", "statement": "Each full-mode view factor between two surfaces longer than the tolerance equals the crossed-strings value computed from scratch: for ground seen from a row surface, with strings pulled tight under the lower edge of the neighbouring row when it stands in the way; for two facing rows, from the four distances between the ends; and 0 for pairs that do not face each other.", "quantifier": "every array with rows above the ground, every timestep of the fit, every pair of surfaces longer than the tolerance", "why_tests_cant": "tests compare a handful of matrices with stored numbers; the claim is an identity for every geometry, tilt direction, shading state and discretisation", "anchors": ["pvfactors/viewfactors/vfmethods.py:27-247", "pvfactors/viewfactors/vfmethods.py:473-646"]}
{"id": "C50", "title": "Fitting succeeds exactly for well-formed inputs", "statement": "Fitting the engine succeeds if and only if the inputs have matching shapes, both module reflectivities resolve to numbers and the number of AOI sections is not zero when AOI methods are given; otherwise an error is raised and nothing else can make it fail.", "quantifier": "every engine configuration and every raw input", "why_tests_cant": "An equivalence over every combination of input shapes and configuration values.", "anchors": ["pvfactors/engine.py: PVEngine.fit", "pvfactors/irradiance/models.py: fit", "pvfactors/viewfactors/calculator.py: VFCalculator.fit"]}
{"id": "C52", "title": "Absorbed part of the light coming from the sources", "statement": "For every surface, what is published as absorbed from the direct, circumsolar and horizon light is the incident value times the fraction given by the AOI function of that side (evaluated at |90 - angle between the sun and the normal of the side|, and at the tilt for the horizon), or times one minus the reflectivity when no AOI function is given; on the ground it is one minus the albedo.", "quantifier": "every engine configuration, input and surface", "why_tests_cant": "Holds for every AOI function and every sun position, on both sides and shaded or not.", "anchors": ["pvfactors/irradiance/models.py: IsotropicOrdered.transform, HybridPerezOrdered.transform", "pvfactors/irradiance/models.py: _calculate_faoi_modifiers"]}
{"id": "C51", "title": "What the AOI matrix of a run holds", "statement": "With AOI methods, the absorbed view factor matrix of a run holds for every module surface and everything it sees (ground surfaces, facing surfaces of the next row, sky opening) the AOI-weighted factor between the angles under which the ends are seen from the middle of the surface, ground points hidden by the next row being replaced by the edge hiding them; zero for what it does not see and for surfaces with no length; ground rows hold the plain view factors. The absorbed irradiance is the absorbed sources plus this matrix applied to what the surfaces and the sky send out.", "quantifier": "every array, input, AOI function and pair of surfaces", "why_tests_cant": "Any number of rows, cuts and surfaces, any rotation and any AOI function.", "anchors": ["pvfactors/viewfactors/aoimethods.py: AOIMethods.vf_aoi_pvrow_to_gnd, vf_aoi_pvrow_to_pvrow, vf_aoi_pvrow_to_sky", "pvfactors/viewfactors/calculator.py: VFCalculator.build_ts_vf_aoi_matrix", "pvfactors/engine.py: PVEngine.run_full_mode"]}
{"id": "C53", "title": "Published sky components in terms of the Perez model", "statement": "For both irradiance models, in terms of the inputs and of what pvlib returns: the circumsolar light of an unshaded front is the Perez circumsolar component when the sun is in front of it and zero otherwise; that of an unshaded back is the component for the reversed surface times max(cos zenith, cos 85)/cos zenith when the sun is behind; the ground gets the luminance that gives back these components; the horizon light is the absolute value of the Perez horizon component; the sky luminance gives back the isotropic component (or is DHI for the isotropic model); the total kept for the fast mode is GHI on the ground and the plane-of-array irradiance on the fronts.", "quantifier": "every engine, input, timestep and surface; every pvlib", "why_tests_cant": "Any function in place of pvlib's transposition model, all sun positions.", "anchors": ["pvfactors/irradiance/utils.py: perez_diffuse_luminance", "pvfactors/irradiance/models.py: HybridPerezOrdered.fit, IsotropicOrdered.fit, transform"]}
{"id": "C54", "title": "Contents of the example report", "statement": "In full mode with at least two PV rows, the report of the example builder has exactly four keys, each with one value per timestep in order, equal to the mean of the published incident or isotropic irradiance over the surfaces of the front or back of the second PV row, weighted by their lengths. With one PV row it raises IndexError. In fast mode, although the documentation allows it, it always fails because the front has no qinc. Merging reports raises KeyError exactly when one of the others lacks a key of the first, and otherwise gives a report with the keys of the first.", "quantifier": "every simulation, input and pvlib", "why_tests_cant": "Any array, any number of timesteps, any values.", "anchors": ["pvfactors/report.py: example_fn_build_report, ExampleReportBuilder.build", "pvfactors/run.py: run_timeseries_engine"]}
{"id": "C55", "title": "A side made from coordinates is cut in equal contiguous segments", "statement": "A side built from a line and a number n of segments has n segments of equal length, each holding one surface with the requested shading, the k-th one going from the fraction k/n to the fraction (k+1)/n of the line, each starting where the previous one ends; total length and shaded length are those of the line. A line without extent raises ValueError.", "quantifier": "every line, number of segments, shading, normal vector", "why_tests_cant": "Any number of segments.", "anchors": ["pvfactors/geometry/base.py: BaseSide.from_linestring_coords, PVSegment.from_linestring_coords, ShadeCollection.from_linestring_coords"]}
{"id": "C56", "title": "A PV row built from its center has two opposite sides and true extremities", "statement": "A PV row built from center, tilt, azimuths and width lies on the line through the center at the rotation angle, both sides have the requested width and cuts, the normal vectors of front and back are opposite, and the highest and lowest points are extremities bounding the height of every point of the row. Finding: for a flat row both are the same extremity.", "quantifier": "every center, tilt, azimuth, width and cut", "why_tests_cant": "Trigonometry over a continuum; any number of cuts.", "anchors": ["pvfactors/geometry/pvrow.py: PVRow.from_linestring_coords, from_center_tilt_width, highest_point, lowest_point"]}
{"id": "C57", "title": "Merging the surfaces of a collection keeps their extent", "statement": "Merging a collection of surfaces lying on a line that does not go down to the right gives a single surface from the first to the last of their ends, with the shading, normal vector and parameter names of the first; a single surface is unchanged. Finding: on a line going down to the right, the merged surface goes along the other diagonal of the bounding box.", "quantifier": "every collection of collinear surfaces", "why_tests_cant": "Any number of surfaces and any slope.", "anchors": ["pvfactors/geometry/base.py: ShadeCollection.merge_surfaces"]}
{"id": "C58", "title": "The ground at one timestep is the timeseries ground", "statement": "For a fitted array (sun up, rows above the ground, no surface narrower than the tolerance without being a point), the ground built for a timestep, with or without merging and cut points, has horizontal shaded surfaces that cover exactly the shadows and illuminated ones that cover exactly the rest, ordered from left to right, is 200 m long and has the shaded length of the timeseries ground. Without merging, its surfaces are those of the timeseries ground that are not points, with their indices and the values of their parameters at that timestep; without cut points there is one surface per element. A ground without shadows is one surface.", "quantifier": "every array, timestep, display limits and combination of options", "why_tests_cant": "Four modes, any number of shadows, surfaces that vanish at some timesteps.", "anchors": ["pvfactors/geometry/pvground.py: TsGround.at", "pvfactors/geometry/pvground.py: PVGround.from_lists_surfaces, as_flat"]}
{"id": "C59", "title": "A PV row at one timestep is the timeseries row", "statement": "The PV row built for a timestep always exists: it has the coordinates of the timeseries row, the same segments on each side with the surfaces that are not points, their shading, normal vectors, indices (position in the list of all surfaces) and values of the parameters at that timestep; the highest and lowest points are those of the timeseries row when it is not flat.", "quantifier": "every array, row and timestep", "why_tests_cant": "The collinearity and shading checks of the constructors could fail for some geometry.", "anchors": ["pvfactors/geometry/pvrow.py: TsPVRow.at, TsSide.at, TsSegment.at", "pvfactors/geometry/timeseries.py: TsSurface.at, TsShadeCollection.at, _get_params_at_idx"]}
{"id": "C60", "title": "Averages over a snapshot are the averages of the timeseries at that timestep", "statement": "When no surface is narrower than the tolerance without being a point, the length, the shaded length and the weighted average of a parameter over a side of a row at one timestep are those of the timeseries side at that timestep; the same for the ground without merging. Finding: merged shadows report the parameters of their right part only.", "quantifier": "every array, parameter, side and timestep", "why_tests_cant": "Any parameter values, any number of surfaces.", "anchors": ["pvfactors/geometry/base.py: BaseSide.get_param_weighted, ShadeCollection.get_param_ww", "pvfactors/geometry/pvrow.py: TsSide.get_param_weighted", "pvfactors/geometry/pvground.py: TsGround.get_param_weighted"]}
{"id": "C61", "title": "Energy is conserved in full mode", "statement": "After a full mode run, at every timestep, the light that the surfaces of the array receive from the sun and the sky (sum over surfaces of length times direct, circumsolar, horizon and isotropic light) equals the light they absorb (length times (1 - rho) qinc, that is qabs without AOI losses) plus the light they send back to the sky (length times sky view factor times q0). Hence the array never absorbs more than it receives.", "quantifier": "every array, input and timestep for which a full mode run succeeds, with non zero reflectivities, whatever the number of rows, cuts and the shading, provided no surface is narrower than 10 nm without being a point", "why_tests_cant": "A global balance over all surfaces that holds only if the view factor matrix is reciprocal and closed, if the solve is exact and if all the published values are consistent; tests check values for one array.", "anchors": ["pvfactors/engine.py: PVEngine.run_full_mode", "pvfactors/viewfactors/calculator.py: VFCalculator.build_ts_vf_matrix", "pvfactors/viewfactors/vfmethods.py: VFTsMethods"]}
{"id": "C62", "title": "Reciprocity of exchanges between two runs", "statement": "For two full mode runs on the same geometry with the same reflectivities, the sum over surfaces of length times rho times incident light of the first run times light received from the sources in the second run is unchanged when the two runs are exchanged: what a source over one surface brings to another surface is what the same source over the latter brings to the former.", "quantifier": "every pair of runs (any sky models, irradiances and inputs) with the same array and reflectivities at a timestep without slivers", "why_tests_cant": "Relates two runs with arbitrary irradiances.", "anchors": ["pvfactors/engine.py: PVEngine.run_full_mode", "pvfactors/viewfactors/vfmethods.py: VFTsMethods"]}
{"id": "C65", "title": "Updates of the parameters of one timestep", "statement": "update_params on a collection, a segment, a side or a row of one timestep gives each of its surfaces the values of the dictionary; the other parameters, the coordinates, normal vectors, shading and indices are unchanged. The weighted average of a value that was just given to a part is this value. An average over a surface without the value raises KeyError, or TypeError if it is None.", "quantifier": "every object of one timestep and every dictionary, any numbers of segments and surfaces", "why_tests_cant": "Quantifies over the structure of the object and over the dictionaries.", "anchors": ["pvfactors/geometry/base.py: PVSurface.update_params, ShadeCollection.update_params, PVSegment.update_params, BaseSide.update_params", "pvfactors/geometry/pvrow.py: PVRow.update_params"]}
{"id": "C66", "title": "Shaded and illuminated collections stay separated, and know their direction", "statement": "After any sequence of cuts, cast shadows, merges, updates, assignments and deletions of collections, a surface of a segment built by the constructor is in its shaded collection exactly when it is shaded, and shaded_length is the total length of the shaded surfaces. Assigning a collection of the wrong shading is refused. The normal vector of a collection made from surfaces, then extended, cut or updated, is that of its first surface when all surfaces have its direction, and asking for it is an error otherwise.", "quantifier": "every segment and every finite sequence of operations on it", "why_tests_cant": "An invariant over unbounded sequences of operations that change the segment in place.", "anchors": ["pvfactors/geometry/base.py: PVSegment, ShadeCollection"]}
{"id": "C67", "title": "Shadows cast on a segment", "statement": "cast_shadow with a line string along the line of a segment turns the part of the shadow that reaches the illuminated surfaces (within the tolerance) into one shaded surface; the illuminated surfaces are the same outside of it and none remains inside; lengths change accordingly and the total length of a single surface grows by at most twice the tolerance. A shadow out of reach changes nothing; one that reaches the surfaces in several places or in one point raises an error. A shadow on a side is a shadow on each segment. The collections keep their names of parameters.", "quantifier": "every straight line, list of illuminated surfaces on it (any directions) and shadow along it", "why_tests_cant": "Positions, directions and number of surfaces are arbitrary; the exact effect of the buffer needs a case analysis on the order of all the ends.", "anchors": ["pvfactors/geometry/base.py: PVSegment.cast_shadow, BaseSide.cast_shadow, ShadeCollection.remove_linestring, ShadeCollection.add_linestring"]}
{"id": "C63", "title": "Array fitted from a dictionary of scalars", "statement": "OrderedPVArray.fit_from_dict_of_scalars returns an array fitted to one timestep, identical (surfaces, indices, shading, coordinates, cut points) to any timestep with the same angles of a fit of the same array to series of angles. The sides have the number of segments asked for by 'cut', one where nothing is asked; parameters are there for the given names only, without value. A missing number is a KeyError, an array without rows a PVFactorsError.", "quantifier": "every dictionary of numbers, every list of parameter names, every series that contains the angles", "why_tests_cant": "The comparison is with every possible longer series and every array.", "anchors": ["pvfactors/geometry/pvarray.py: OrderedPVArray.init_from_dict, OrderedPVArray.fit_from_dict_of_scalars", "pvfactors/geometry/pvrow.py: TsPVRow.from_raw_inputs"]}
{"id": "C64", "title": "Views of a fitted array at one index", "statement": "surfaces_at_idx of a row, side or segment and surfaces_at of a ground element return the timeseries surfaces at that index, in order, less the points (for the ground element: empty geometries in their place). ts_surface_indices is 0, 1, ..., n-1; the surface indices found on the rows at an index are those of the surfaces that are not points, increasing. Segments divide their side evenly, from the left end; centroid, highest and lowest point follow. A ground element is as long as its surfaces together. Coordinates survive as_array and from_array.", "quantifier": "every fitted array, every index", "why_tests_cant": "Number of rows and segments, and which surfaces vanish at an index, are arbitrary.", "anchors": ["pvfactors/geometry/pvrow.py: surfaces_at_idx, TsSegment", "pvfactors/geometry/pvground.py: TsGroundElement", "pvfactors/geometry/base.py: ts_surface_indices, surface_indices", "pvfactors/geometry/timeseries.py: TsLineCoords, TsPointCoords"]}
{"id": "C68", "title": "What a plot of the array shows", "statement": "plot_at_idx of an array draws the ground (shadows and the rest in their own colors, covering the modelled ground exactly) and then the rows, where each surface that is not a point at that index is drawn exactly once, in the color of its shading; all end points are marked, once in grey and once in black, and nothing else; the axes leave half a row spacing on each side. With indices asked for, the texts are those of the ground surfaces, 20 cm above their middle (no index without the cut points), and the indices of the row surfaces, 20 cm away from their middle on the side their normal points to, all unless 50 m or more from the origin; without, there is no text.", "quantifier": "every fitted array, index and combination of options", "why_tests_cant": "Which surfaces exist at an index depends on continuous geometry; tests only check that plotting does not raise.", "anchors": ["pvfactors/geometry/plot.py", "pvfactors/geometry/base.py: PVSurface.plot, PVSegment.plot, BasePVArray.plot_at_idx", "pvfactors/geometry/pvrow.py: plot_at_idx", "pvfactors/geometry/pvground.py: TsGround.plot_at_idx"]}
{"id": "C69", "title": "Ground shadows are where the rows hide the sun", "statement": "After a fit, a point of the ground inside the shadow element of a row is hidden from the sun by that row (the half line from the point towards the sun meets the row), and a point inside the ground elements between the shadows is hidden by no row. After the cuts at the cut points, every ground surface is marked as shaded exactly when its inner points are hidden from the sun by some row.", "quantifier": "every array, fit and timestep with the sun above the horizon and out of the plane of the rows, rows above the ground; for the surfaces, no sliver of shade", "why_tests_cant": "The position of each shadow results from the angles of the sun, its projection, the overlap fix and the clipping to the ground; tests compare a few coordinates, for all positions only the geometry of light rays says what is right.", "anchors": ["pvfactors/geometry/pvground.py: TsGround.from_ts_pvrows_and_angles, from_ordered_shadows_coords", "pvfactors/geometry/pvarray.py: OrderedPVArray.fit"]}
{"id": "C70", "title": "Direct sunlight is conserved", "statement": "After a fit, the direct light of the illuminated surfaces (sum of length times 'direct') is DNI times cos(zenith) times the 200 m of modelled ground: what the rows stop is what the ground and the other rows lose. With opaque modules this is the direct light of the whole array. With modules that let light through the total is strictly larger, as the transmitted light is not taken from the light that the modules receive.", "quantifier": "every engine, input and timestep with the sun above the horizon and out of the plane of the rows, rows turned across their axis (surface azimuth at 90 degrees from the axis azimuth) and above the ground, shadows within the modelled ground, no sliver of shade, flat rows not wider than their spacing", "why_tests_cant": "The balance ties the shaded lengths of the rows, the ground shadows, the angles of incidence in space and the published values, for any number of rows; each test looks at one of them for given numbers.", "anchors": ["pvfactors/geometry/pvarray.py: OrderedPVArray.fit", "pvfactors/irradiance/models.py: IsotropicOrdered.fit, HybridPerezOrdered.fit, transform", "pvfactors/geometry/pvground.py: TsGround"]}
{"id": "C71", "title": "More reflective surfaces never receive less light", "statement": "In full mode, when the albedo or the reflectivities of the modules are greater and the light sources are the same or greater, every surface receives at least as much light. Changing the albedo given to the engine, and nothing else, leaves the geometry, the light sources and the sky as they were; where the albedo is greater, no qinc is smaller, and without AOI losses no PV row surface absorbs less.", "quantifier": "every pair of runs on the same geometry, every timestep with valid view factors and reflectivities in (0, 1), non-negative sources", "why_tests_cant": "A comparison of the solutions of two linear systems with different matrices, for any geometry and number of surfaces.", "anchors": ["pvfactors/engine.py: PVEngine.fit, run_full_mode", "pvfactors/irradiance/models.py: fit, transform"]}
{"id": "C72", "title": "Irradiance is linear in the light", "statement": "In full mode, when the sources and the sky luminance of a run are a linear combination of those of two other runs on the same geometry and reflectivities, so is qinc on every surface. With the isotropic model, multiplying DNI, DHI and GHI by a number multiplies qinc by it on every surface. In fast mode the light received by a surface of the back is the same linear combination, when total_perez of the surfaces, the sky and its own sources are.", "quantifier": "every three runs on the same geometry and reflectivities, every pair of coefficients; for the second part every input and every factor", "why_tests_cant": "A relation between the results of several runs, which hold for all inputs; a test compares given numbers.", "anchors": ["pvfactors/engine.py: PVEngine.fit, run_full_mode", "pvfactors/irradiance/models.py: IsotropicOrdered.fit, transform"]}
{"id": "C73", "title": "AOI view factors of a surface add up to what rho_from_faoi_fn leaves", "statement": "In a full-mode run with AOI methods, the AOI view factors published for a surface of a PV row (its row of the matrix, over all surfaces and the sky) add up to at most 1 - rho, where rho is the reflectivity rho_from_faoi_fn gives for its side, plus one section of the integral for each thing that may be seen; and to at least 1 - rho, up to the tolerance of 1e-8 degrees for each thing seen, when the line of the row meets the modelled ground and the end of the ground is hidden by the neighbour or there is no neighbour. It is not true that the sum is at most one when the AOI function is.", "quantifier": "every run with AOI methods, every AOI function with values in [0, top] and every number of sections, every geometry, row, side and surface above the tolerance", "why_tests_cant": "The excess depends on how the wedges of all surfaces fall across the sections, for every geometry and AOI function; a test evaluates given angles.", "anchors": ["pvfactors/viewfactors/aoimethods.py: _calculate_vf_aoi_wedge_level, rho_from_faoi_fn, vf_aoi_pvrow_to_gnd, vf_aoi_pvrow_to_pvrow, vf_aoi_pvrow_to_sky", "pvfactors/engine.py: run_full_mode"]}
{"id": "C74", "title": "Results do not depend on where north is", "statement": "If the rotation axis, the azimuths of the sun and the azimuths of the surfaces are all turned by the same angle (each one up to whole turns of 360 degrees), every sequence of fit, run_full_mode and run_fast_mode calls succeeds or fails as before, leaves the same geometry, view factors, irradiance components and results everywhere in the engine and array (the axis azimuth stored in the array apart), and run_timeseries_engine returns the same report for any report builder that does not read the axis azimuth.", "quantifier": "every angle and number of turns, every array, irradiance model and AOI setting, every engine state and every sequence of calls, scalar or array inputs, day or night, every pvlib whose functions use azimuths only relative to each other", "why_tests_cant": "Modulo and sign conventions for azimuths show only for some pairs of axis and surface azimuths; a test fixes a few axis azimuths, usually 0.", "anchors": ["pvfactors/geometry/base.py: _get_rotation_from_tilt_azimuth, _get_solar_2d_vectors", "pvfactors/irradiance/utils.py: perez_diffuse_luminance", "pvfactors/irradiance/models.py: IsotropicOrdered.fit, HybridPerezOrdered.fit", "pvfactors/engine.py: fit, run_full_mode, run_fast_mode", "pvfactors/run.py: run_timeseries_engine"]}
{"id": "C75", "title": "What module surfaces see of the sky", "statement": "A side without a row in front of it sees exactly the sky above the end of the modelled ground (100 m from the first row's x origin), which is strictly more than the (1 +- cos rotation)/2 above the horizon. A side with a neighbour that hides the end of the ground sees exactly the sky above the upper edge of that neighbour, strictly less than (1 +- cos rotation)/2; otherwise it sees in addition the gap under the neighbour. An edge side whose plane meets the ground line outside of the modelled ground sees nothing but sky, whatever its tilt. Of two surfaces on the same side (end of the ground hidden or no neighbour), the higher one sees at least as much sky.", "quantifier": "every array, number of rows, non-flat rotation, sun position, side, surface longer than the tolerance, at every timestep without slivers", "why_tests_cant": "Closed forms over continuous geometry with a case split on what hides what; the loss of the ground beyond 100 m shows only in wide arrays.", "anchors": ["pvfactors/viewfactors/calculator.py: build_ts_vf_matrix", "pvfactors/viewfactors/vfmethods.py: VFTsMethods", "pvfactors/config.py: MIN_X_GROUND, MAX_X_GROUND"]}
{"id": "C76", "title": "What an engine is set up with, and the timesteps it marks", "statement": "run_timeseries_engine is exactly: a fresh engine with the given array parameters, irradiance model, AOI functions (used only if both are given) and fast mode indices, fit, then run_full_mode or, if there is an index of a row, run_fast_mode for that row and segment, then the report. A PVEngine made without models uses the hybrid Perez model for opaque modules without AOI losses, with surfaces that reflect 1% in front and 3% at the back. fit marks in skip_step exactly the timesteps with the sun below the horizon, a negative DNI or DHI, or both zero; the marks have no effect on either run.", "quantifier": "every simulation, report builder, inputs and outcome; every engine state", "why_tests_cant": "An exact characterisation over all settings and inputs; tests check a few settings and never that the marks are unused.", "anchors": ["pvfactors/run.py: run_timeseries_engine", "pvfactors/engine.py: PVEngine.__init__, fit (skip_step), run_full_mode, run_fast_mode", "pvfactors/viewfactors/calculator.py: VFCalculator.__init__", "pvfactors/irradiance/models.py: HybridPerezOrdered.__init__"]}
{"id": "C77", "title": "View factors in double precision", "statement": "Computed in IEEE double precision, the distance between two points, the view factor between two surfaces with nothing in between, its reciprocal and the sky view factor are finite numbers; view factors are not negative; they are within 12 * 2^-53 * (length of the four strings) / (2 * width) of the exact ones, less than 1e-8 for surfaces of a millimetre or more within a kilometre; reciprocity holds up to 9 * 2^-53 and each row of the matrix sums to one up to 4 * n * 2^-53 * (1 + sum), in whatever order numpy adds.", "quantifier": "all segments with finite coordinates up to 1e9 m, including equal points and NaN-prone degenerate ones; all orders of summation of up to a million finite entries", "why_tests_cant": "Cancellation, underflow, overflow and the order of summation depend on the values and on the memory layout; tests see a few of them.", "anchors": ["pvfactors/viewfactors/vfmethods.py: VFTsMethods._vf_surface_to_surface, _distance, vf_pvrow_to_pvrow", "pvfactors/geometry/timeseries.py: TsLineCoords.length", "pvfactors/viewfactors/calculator.py: VFCalculator.build_ts_vf_matrix"]}
{"id": "C78", "title": "Fast mode is one bounce of light, and how far it is from full mode", "statement": "For a surface of the back whose visible ground ends inside the modelled ground, fast-mode qinc is its own sources, plus the sky luminance through the full-mode sky view factor, plus the sum over all surfaces of full-mode view factor times reflectivity times total_perez. The difference between fast-mode and full-mode qinc on the same inputs is therefore the sum of view factor times reflectivity times (total_perez - full-mode qinc). If that last difference lies in [lo, hi] (lo <= 0 <= hi) on the surfaces seen and reflectivities are at most r, fast mode differs from full mode by between r (1 - vf_sky) lo and r (1 - vf_sky) hi; the modes agree when total_perez is the light of the balance.", "quantifier": "every array, engine, inputs, history of runs before the fast run, choice of row and segment, timestep with a physical geometry and no surface of positive length below the tolerance", "why_tests_cant": "It relates two code paths with different formulas for all inputs; tests compare printed numbers of a few cases with loose tolerances.", "anchors": ["pvfactors/engine.py: PVEngine.run_full_mode, run_fast_mode, _calculate_back_ts_segment_qinc", "pvfactors/viewfactors/calculator.py: get_vf_ts_pvrow_element, build_ts_vf_matrix"]}
{"id": "C79", "title": "Segments in memory share nothing: each behaves as a value of its own", "statement": "After any program that makes PV segments with from_linestring_coords and calls cast_shadow, cut_at_point, update_params, merge_surfaces, setters and deleters of collections, on one segment or on the segments of a side in order until one raises, each segment is what it would be if only the calls on it had been made; a call that raises leaves what is seen of every segment unchanged; a side call that raises has changed exactly the segments before the one that raised; the collections report the number and length of their surfaces; without merges and cuts so does the segment; the default collections of PVSegment stay empty, so PVSegment() is empty at any time. Refuted outside of this: segments made with default arguments share a shaded collection; collections made of one list share it; the length of a segment is stale after a merge.", "quantifier": "every program (any number and order of constructions and calls, any coordinates, any parameters), calls that raise included", "why_tests_cant": "Aliasing shows only for particular sequences of constructions and calls; a test checks a few sequences and mostly looks at the object that was called.", "anchors": ["pvfactors/geometry/base.py: ShadeCollection, PVSegment, PVSegment.from_linestring_coords, BaseSide.cast_shadow, merge_shaded_areas, update_params"]}
{"id": "C80", "title": "What full mode publishes is stable", "statement": "With reflectivities at most r < 1, a vector that meets the balance of light up to eps on every surface is within eps / (1 - r) of the published qinc, whatever solver produced it. If view factors, reflectivities and sources are off, so that what a surface is sent by the others is off by at most kappa per unit of light (kappa < 1 - r) and what it receives from sources and sky by at most eta, the solution of that balance is within (eta + kappa M) / (1 - r - kappa) of the published qinc, M being its largest absolute value. Light followed over k reflections is within r^(k+1) M / (1 - r) of the published qinc, M being the largest source.", "quantifier": "every array, engine, inputs, timestep with a physical geometry, perturbed view factors, reflectivities, sources and vectors, number of reflections", "why_tests_cant": "Error bounds are for all perturbations and all arrays, whatever the number of surfaces; a test compares numbers of a few cases with a tolerance that was tried out.", "anchors": ["pvfactors/engine.py: PVEngine.run_full_mode", "pvfactors/viewfactors/calculator.py: VFCalculator.build_ts_vf_matrix"]}
{"id": "C81", "title": "AOI losses converge to the integral that they approximate", "statement": "For an AOI function of slope at most L and absolute value at most c between 0 and 180 degrees, the factor computed with n sections for what is seen between two angles is within (90 L + pi c) / n of the integral of the function times sin(theta)/2 between them (plus c * 1e-8 * pi / 360 for angles closer than the tolerance); it converges to the integral as n grows. So are the published AOI factors from a row surface to a ground surface it looks at, to the facing row and to the sky, with the angles seen from the centroid of the surface. The reflectivity made from the function is within 90 L / n of 1 minus the integral over the half circle.", "quantifier": "every Lipschitz AOI function (front and back), number of sections, pair of angles, and every array, run, timestep with a physical geometry and pair of surfaces longer than the tolerance", "why_tests_cant": "Convergence and its rate are about all numbers of sections and all functions; tests use 300 sections and one function.", "anchors": ["pvfactors/viewfactors/aoimethods.py: AOIMethods.fit, _calculate_vf_aoi_wedge_level, _calculate_vfaoi_integrand, rho_from_faoi_fn, vf_aoi_pvrow_to_gnd, vf_aoi_pvrow_to_pvrow, vf_aoi_pvrow_to_sky"]}
{"id": "C82", "title": "Ground coordinates are chosen, never computed", "statement": "Once the shadow ends and cut points are known, from_ordered_shadows_coords makes the whole ground (shadows, gaps, and their pieces at the cut points) by choosing coordinates among them and -100 and 100: whatever holds of these holds of all coordinates of the ground. A non-decreasing change of the ends and cut points that leaves -100 and 100 in place changes every coordinate in the same way and nothing else; in particular the ground made from ends and cut points rounded to doubles is the exact ground rounded, with doubles as coordinates, so that cutting makes no rounding error. Ends and cut points off by at most eps give pieces of the ground whose ends are off by at most eps.", "quantifier": "every list of shadows and cut points (finite or infinite, in any order), overlap flags, timestep, non-decreasing function, predicate and error bound", "why_tests_cant": "It says that no arithmetic at all is done, for any coordinates; a test compares a few numbers up to a tolerance.", "anchors": ["pvfactors/geometry/pvground.py: TsGround.from_ordered_shadows_coords, _shadow_elements_from_coords_and_cut_pts, _illum_elements_from_coords_and_cut_pts, TsGroundElement._create_all_ts_surfaces, _coords_left_of_cut_point, _coords_right_of_cut_point"]}
{"id": "C83", "title": "Fast mode does not depend on how the back of a row is cut", "statement": "In fast mode the length-weighted sum of each view factor (to shaded, lit and all ground, to each shadow, to the shaded and lit part and all of the row in front, to the sky) over the surfaces of the back of a row, or over its segments, is the factor of the whole uncut back times its width. The factors of an element do not depend on the cut parameter of the array at all. So two fast runs of engines that differ only in the number of segments give the same light, in W per metre of row, for isotropic and reflected light of each origin, for direct and circumsolar light on either side, and for all of qinc with the isotropic model.", "quantifier": "every array with valid parameters, cut parameters, row, segment, timestep with the rows above the ground and free of slivers, weather series, irradiance model and pvrow/segment index", "why_tests_cant": "Two runs with one and with several segments can be compared for a few arrays only; the claim is an exact identity for every cut of every row.", "anchors": ["pvfactors/viewfactors/calculator.py: VFCalculator.get_vf_ts_pvrow_element", "pvfactors/viewfactors/vfmethods.py: calculate_vf_to_gnd, calculate_vf_to_pvrow, calculate_vf_to_shadow_obstruction_hottel", "pvfactors/engine.py: PVEngine.run_fast_mode", "pvfactors/geometry/pvrow.py: TsSide.from_raw_inputs"]}
{"id": "C84", "title": "View factors of full mode between whole sides, ground and sky do not depend on how sides are cut", "statement": "In full mode the length-weighted sum of the view factors of the surfaces of a side to a ground surface is the crossed-strings factor of the whole uncut side times its width, if the side looks at that part of the ground, and 0 otherwise; the sum over the surfaces of two facing sides is the crossed-strings exchange of the two uncut rows, and 0 for other pairs of sides. So what two of these zones (sides, ground surfaces) exchange with each other and with the sky is the same for two arrays that differ only in the number of segments, and two full runs of such arrays give each zone the same isotropic light from the sky in W per metre of row.", "quantifier": "every array with valid parameters, cut parameters, pair of sides and ground surfaces, timestep with the rows above the ground and no slivers, weather series and irradiance model with nonzero reflectivities", "why_tests_cant": "Two matrices of different sizes can be compared for a few arrays only; the claim is an exact identity for every pair of zones and every cut of every row.", "anchors": ["pvfactors/viewfactors/calculator.py: VFCalculator.build_ts_vf_matrix", "pvfactors/viewfactors/vfmethods.py: VFTsMethods.vf_pvrow_gnd_surf, vf_pvrow_to_pvrow", "pvfactors/engine.py: PVEngine.run_full_mode", "pvfactors/geometry/pvrow.py: TsSide.from_raw_inputs"]}
{"id": "C85", "title": "Each view factor of full mode is the mean of the integral of Lambert's law over what is in sight", "statement": "Each entry of the full mode matrix between two surfaces longer than the tolerance (on sides of rows or on the ground, in either order) is the view factor of the definition in textbooks: the mean, over the points of the first surface, of the integral over the part of the second surface that is in sight from this point of the product of the two cosines over twice the distance. In sight means in front of both surfaces with no point of the ground or of any of the rows of the array strictly between. There is exactly one such number.", "quantifier": "every array with valid parameters, pair of surfaces longer than the tolerance, timestep with a row rotation strictly between -180 and 180 degrees, rows above the ground, no sliver of direct shading, and rows not overlapping when flat", "why_tests_cant": "Numerical integration tests would compare a few pairs up to an error; the obstruction by neighbouring and further rows has to be right for every position of both surfaces.", "anchors": ["pvfactors/viewfactors/vfmethods.py: VFTsMethods.vf_pvrow_gnd_surf, vf_pvrow_surf_to_gnd_surf_obstruction_hottel, vf_pvrow_to_pvrow", "pvfactors/viewfactors/vfmethods.py: VFTsMethods._vf_hottel_gnd_surf, _hottel_string_length, _vf_surface_to_surface", "pvfactors/viewfactors/calculator.py: VFCalculator.build_ts_vf_matrix"]}
{"id": "C86", "title": "The sky factor of a row side is the integral over unobstructed directions, up to the end of the modelled ground", "statement": "For a surface on a side of a row, the entry of the full mode matrix towards the sky lies between the view factor v of the textbook and v plus half the tangent of the angle at which the end of the modelled ground is seen. Here v is the mean over the points of the surface of half of the integral of the cosine over the upward directions, in front of the surface, in which no row lies. Where a neighbouring row hides the end of the ground, the entry is v exactly and no other number; where there is no row on this side, v is (1 + cos(tilt)) / 2 and the entry is strictly larger.", "quantifier": "every array with valid parameters, surface of a side longer than the tolerance with ends within the modelled ground, timestep with non-flat rows above the ground, no slivers, and a plane of the row that meets the ground plane within the modelled ground", "why_tests_cant": "The sky is the rest after all other factors, so that any missing or double obstruction ends up there; tests compare few values with earlier outputs of the same code, never with an independent integral for all positions.", "anchors": ["pvfactors/viewfactors/calculator.py: VFCalculator.build_ts_vf_matrix", "pvfactors/viewfactors/vfmethods.py: VFTsMethods.vf_pvrow_gnd_surf, vf_pvrow_to_pvrow", "pvfactors/config.py: MIN_X_GROUND, MAX_X_GROUND"]}
{"id": "C87", "title": "Geometry and view factors are right at any ground height", "statement": "TsGround.from_ts_pvrows_and_angles with any y_ground: moving rows and ground up by the same amount moves every ground surface up by this amount and changes nothing else (cut points, identities, flags, left and right lookups, errors), and changes no entry of the full mode matrix and no view factor of fast mode. The cut point of a row is the only point at the height of the ground on the line of the row; without overlap, the shadow of a row goes, left to right, between the points at the height of the ground on the sun rays through its two ends, limited to the modelled ground.", "quantifier": "every list of rows (any coordinates), sun angle and rotation series, ground height, overlap flags, timestep; sines of the angles nonzero for the last two claims", "why_tests_cant": "PV arrays always put the ground at the height 0, so that tests of arrays cannot see a wrong sign or a missing y_ground; other heights are only reached through the public constructor.", "anchors": ["pvfactors/geometry/pvground.py: TsGround.from_ts_pvrows_and_angles, from_ordered_shadows_coords", "pvfactors/geometry/pvground.py: TsGroundElement._create_all_ts_surfaces", "pvfactors/viewfactors/calculator.py: VFCalculator.build_ts_vf_matrix, get_vf_ts_pvrow_element"]}
{"id": "C88", "title": "The view factors of fast mode are those of the textbook, towards an unbounded ground", "statement": "For a segment or a surface of the back of a row, the fast-mode factor to each shadow on the ground is the view factor of the textbook to this shadow. If the back faces another row, the factors to the whole front of this row, to its shaded part and to its illuminated part are those of the textbook, the one to the sky is the mean of half of the integral of the cosine over the upward directions in which no row lies, and the one to the ground the same over the downward directions in which no row lies before the ground plane. The ground is here unbounded: unlike in full mode, nothing depends on where the modelled ground ends. If the back faces no other row and its cut point is on the modelled ground, the factor to the ground is the one of the textbook to the modelled ground, and those to rows are 0. Each is the only such number.", "quantifier": "every array with valid parameters, row, segment or surface of its back longer than the tolerance, timestep with non-flat rows above the ground and no sliver of direct shading, number of cuts", "why_tests_cant": "Tests compare fast mode with full mode, to a tolerance, on a few arrays; full mode itself differs from the textbook at the end of the ground.", "anchors": ["pvfactors/viewfactors/calculator.py: VFCalculator.get_vf_ts_pvrow_element", "pvfactors/viewfactors/vfmethods.py: VFTsMethods.calculate_vf_to_pvrow, calculate_vf_to_gnd, calculate_vf_to_shadow_obstruction_hottel"]}
{"id": "C89", "title": "Full mode solves the equation of light exchange with the view factors of the textbook", "statement": "Take any view factors that agree with the definition of the textbook (mean of the integral of Lambert's law over what is in sight) between the surfaces wider than the tolerance. A distribution of light over these surfaces balances the exchanges computed with them (sources, plus light reflected by the surfaces in sight, plus uniform sky for the rest of the view) if and only if it is the published qinc. Such view factors exist.", "quantifier": "every engine with valid parameters, inputs, light model, run of full mode, timestep with physical rows, reflectivities positive and below 1, no sliver surfaces", "why_tests_cant": "Tests compare qinc with recorded numbers from the same code: an error in the view factors, in the matrix or in its inversion that was there when the numbers were recorded stays. Here no matrix, inverse or crossed-strings formula appears in the statement.", "anchors": ["pvfactors/engine.py: PVEngine.run_full_mode", "pvfactors/viewfactors/calculator.py: VFCalculator.build_ts_vf_matrix"]}
{"id": "C90", "title": "The sky seen by the ground in full mode is the sky of the textbook", "statement": "For each ground surface longer than the tolerance, the last column of the full-mode view factor matrix, which the code computes as what is missing to 1, is the mean over the points of the surface of half of the integral of the cosine over the upward directions in which no row is in the way, through however many gaps between rows. It is the only such number.", "quantifier": "every array with valid parameters, any number of rows, every timestep with physical rows, no sliver surfaces, every ground surface longer than the tolerance", "why_tests_cant": "The complement to 1 hides errors of the other factors: a test that rows of the matrix add up to 1 holds whatever they are. Tests have no independent value for the sky seen from the ground between many rows.", "anchors": ["pvfactors/viewfactors/calculator.py: VFCalculator.build_ts_vf_matrix", "pvfactors/viewfactors/vfmethods.py: VFTsMethods.vf_pvrow_gnd_surf"]}
{"id": "C91", "title": "From the inputs to the light: what full mode publishes with the isotropic sky is the light of the sun where it is seen, a uniform sky, and all the reflections", "statement": "After fit and a full-mode run: (1) for both sky models the direct light published on a surface is, at each of its points, DNI times the cosine of incidence if the line from the point to the sun meets neither a row nor the ground, and DNI times the cosine (0 if the sun is behind) times what the modules let through otherwise; (2) with the isotropic model, a distribution of light over the surfaces balances sun, sky of luminance DHI and reflections with textbook view factors and the given reflectivities exactly when it is the published incident light, on all surfaces wider than the tolerance.", "quantifier": "every engine set up with valid parameters, any number of rows and cuts, every timestep with physical rows, sun above the horizon and not in the plane of the modules, modules turned about the axis of the rows; for (2) reflectivities and albedo between 0 and 1, no sliver surfaces", "why_tests_cant": "Tests compare with numbers produced by the package itself for a few arrays. None traces rays to the sun or solves the exchange of light independently, from the inputs, for arbitrary geometries.", "anchors": ["pvfactors/engine.py: PVEngine.fit, run_full_mode", "pvfactors/irradiance/models.py: IsotropicOrdered.fit, transform", "pvfactors/geometry/timeseries.py: TsGround, TsPVRow", "pvfactors/viewfactors/calculator.py: build_ts_vf_matrix"]}
{"id": "C92", "title": "Night timesteps: geometry of the opposite sun, no light without light sources, and direct light below the horizon counted as negative", "statement": "(1) The fitted geometry (rows, shaded and lit surfaces, shadows) only depends on the line of the sun: moving the sun at any timesteps to the opposite direction, below the horizon, changes nothing. (2) At a timestep with zero DNI and DHI (and, for the hybrid model, a zero sky from pvlib), after a full-mode run qinc, q0, isotropic and reflection are exactly zero on every surface, and after a fast-mode run (GHI, if given, and front irradiance from pvlib zero too) qinc, isotropic and reflection are exactly zero on the chosen back surfaces. (3) FALSE of the code: that the direct light is never negative when DNI is non-negative; with the sun below the horizon and positive DNI it is negative on all lit ground, since the timesteps marked by skip_step are not skipped.", "quantifier": "every array and every series of timesteps, any mix of day and night; (2) for both sky models and reflectivities below 1", "why_tests_cant": "No test compares the geometry for opposite suns, none feeds the engine a timestep without light and checks the result, and none checks the sign of the direct light with the sun below the horizon.", "anchors": ["pvfactors/geometry/pvarray.py: OrderedPVArray.fit", "pvfactors/geometry/pvground.py: TsGround._from_ordered_shadows_coords", "pvfactors/engine.py: PVEngine.fit (skip_step), run_full_mode", "pvfactors/irradiance/models.py: fit"]}
{"id": "C93", "title": "In fast mode, rows with a neighbour in front of their back are alike, whatever their number", "statement": "Two rows whose backs look at a neighbour (to the right when the rotation is positive, to the left otherwise), in the same array or in two arrays with the same width, gcr, height and axis but any numbers of rows, get in fast mode the same view factors to the sky, to the ground and to the shaded and lit front of the neighbour, for elements at the same place on the back; back surfaces cut the same way are at the same places (moved by the distance between the rows); and fast runs with the same inputs and irradiance model publish the same isotropic light and the same reflection from the shaded and lit fronts on them.", "quantifier": "every two arrays with such rows, every timestep with a rotation strictly between -180 and 180 degrees, every element or back surface, every sky model and every history of runs before", "why_tests_cant": "The tests compare fast mode with stored numbers of a middle row of arrays of two or three rows; no test varies the number of rows or the chosen row, and the special cases of the first and last rows only show for particular rotations.", "anchors": ["pvfactors/viewfactors/vfmethods.py: VFTsMethods.calculate_vf_to_pvrow, calculate_vf_to_gnd", "pvfactors/viewfactors/calculator.py: VFCalculator.get_vf_ts_pvrow_element", "pvfactors/geometry/pvarray.py: OrderedPVArray._calculate_pvrow_elements_coords", "pvfactors/engine.py: PVEngine.run_fast_mode"]}
{"id": "C94", "title": "In fast mode, the back of a row with a neighbour only depends on the shape of the array, not on its scale, height or number of rows", "statement": "Take two arrays with the same gcr and axis but any widths, heights and numbers of rows, fitted with the same inputs, and two rows whose backs look at a neighbour. Elements at the same place on the two backs (same offsets from the centers of the rows in units of the widths), longer than the tolerance in both arrays, get the same view factors to the sky, to the ground and to the shaded and lit front of the neighbour; back surfaces cut the same way are at the same places; and fast runs with the same inputs and irradiance model publish the same isotropic light and the same reflection from the shaded and lit fronts on them; the light sources of the irradiance model (direct, circumsolar and horizon light, the latter hidden in part by the neighbour), published as sky_term, are the same too, also on surfaces shorter than the tolerance. FALSE of the code without the condition on the lengths: the tolerance is an absolute length, so in an array with rows narrower than it everything sees the sky only.", "quantifier": "every two such arrays and rows, every timestep with a rotation strictly between -180 and 180 degrees, every element or back surface longer than the tolerance, every sky model and every history of runs before", "why_tests_cant": "The tests use a few fixed widths and heights and compare with stored numbers; none compares two scales, and an absolute length slipped into a formula (a constant, or the height) only shows when the scale changes.", "anchors": ["pvfactors/viewfactors/vfmethods.py: VFTsMethods.calculate_vf_to_pvrow, calculate_vf_to_gnd", "pvfactors/viewfactors/calculator.py: VFCalculator.get_vf_ts_pvrow_element", "pvfactors/geometry/pvarray.py: OrderedPVArray._calculate_interrow_shading, _calculate_pvrow_elements_coords", "pvfactors/geometry/pvrow.py: TsSide.from_raw_inputs", "pvfactors/engine.py: PVEngine.run_fast_mode", "pvfactors/irradiance/models.py: HybridPerezOrdered._calculate_horizon_shading_pct_ts, transform"]}
{"id": "C95", "title": "In fast mode the back of a flat row sees the ground and nothing else", "statement": "At a timestep with rotation 0, in an array whose rows do not overlap when flat, any piece of the back of a row other than the first (longer than the tolerance) has view factor 1 to the ground and 0 to the sky and to the rows, shaded or lit. After a fast run, isotropic and the reflection from the rows are exactly 0 on the back surfaces, and the reflection is the albedo times a mean of the light on the shaded and on the lit ground with weights of sum 1; qinc adds the light sources of the model only.", "quantifier": "every array with gcr at most 1, every row but the first, every piece or surface of its back longer than the tolerance, every position of the sun, both sky models and every history of runs before", "why_tests_cant": "The tests of fast mode compare the light with stored numbers for a few timesteps of one or two arrays. At rotation 0 the code takes the branch for rows turned to the right and computes degenerate, collinear crossed strings.", "anchors": ["pvfactors/viewfactors/vfmethods.py: VFTsMethods.calculate_vf_to_pvrow, calculate_vf_to_gnd, _vf_surface_to_surface", "pvfactors/geometry/pvrow.py: TsSide.from_raw_inputs", "pvfactors/geometry/timeseries.py: TsLineCoords.lowest_point", "pvfactors/engine.py: PVEngine.run_fast_mode"]}
