{"id": "C01", "title": "Material constructor accepts exactly the documented values", "statement": "Material(unit_weight, friction_angle, cohesion, depth_to_bottom, name, color) succeeds exactly when unit_weight is a number in [1, 50], friction_angle is a number >= 0, cohesion and depth_to_bottom are plain numbers and name/color are None or text; the object then has 1 <= unit_weight <= 50, friction_angle >= 0, and cohesion and depth_to_bottom equal to the absolute values of the arguments.", "quantifier": "for every combination of argument values (None, bool, int, float, str)", "why_tests_cant": "the argument space is infinite; tests sample a few values per parameter", "anchors": ["pyslope/pyslope.py:Material.__post_init__", "pyslope/data_validation.py:assert_range", "pyslope/data_validation.py:assert_positive_number", "pyslope/data_validation.py:assert_number"]}
{"id": "C02", "title": "Load constructors normalise their arguments", "statement": "Udl(magnitude, offset, length, ...) and LineLoad(magnitude, offset, ...) succeed exactly when the numbers are plain ints or floats (bool, None and str are rejected for magnitude and offset; any falsy length means 'continuous'); the stored magnitude, offset and length are the absolute values, and an invalid colour is replaced by the default one.", "quantifier": "for every combination of argument values and every colour string", "why_tests_cant": "the argument space is infinite; tests sample a few values", "anchors": ["pyslope/pyslope.py:Udl.__post_init__", "pyslope/pyslope.py:LineLoad.__post_init__", "pyslope/data_validation.py:assert_number"]}
{"id": "C03", "title": "A dimension documented as strictly positive can never be zero", "statement": "Every call that validates an argument as strictly positive (slope height, model height and length, inner limits, circle centre and radius) rejects zero, negative numbers and NaN.", "quantifier": "for every numeric argument", "why_tests_cant": "needs the whole number line including zero and NaN; the existing tests only try negative numbers", "anchors": ["pyslope/data_validation.py:assert_strictly_positive_number", "pyslope/pyslope.py:Slope.set_external_boundary"]}
{"id": "C04", "title": "Geometry of the cross-section is consistent after any history", "statement": "After constructing a slope with positive height and after any sequence of public calls, caught exceptions included: the toe is the crest moved right by the slope length and down by the slope height, both margins of the model are equal, 0 < crest x < toe x < model length, 0 <= toe y <= crest y = model height, model length >= max(5*length, 4*height, MIN_EXT_L), model height >= max(3*height, 2.5*length, MIN_EXT_H), and the gradient is height/length.", "quantifier": "for every constructor argument and every finite sequence of public calls, whether or not they raise", "why_tests_cant": "quantifies over unbounded call histories; tests follow a handful of fixed scripts", "anchors": ["pyslope/pyslope.py:Slope.set_external_boundary", "pyslope/pyslope.py:Slope.update_boundary_options", "pyslope/pyslope.py:Slope.get_top_coordinates", "pyslope/pyslope.py:Slope.get_bottom_coordinates"]}
{"id": "C05", "title": "Angle and length describe the same slope", "statement": "Slope(height, angle) produces exactly the same object as Slope(height, length=height/tan(angle)); whenever that length is at least 1 mm the face is inclined at the given angle; an angle of 90 degrees with a height up to 10^13 produces the minimum length of 1 mm; when both are given the angle is ignored. A call is accepted exactly if the height is a number that is not negative, the angle is absent or above 0 and at most 90 degrees, and the length is not negative or absent with an angle given; any other call with a height raises ValueError.", "quantifier": "for every height and every angle in (0, 90]", "why_tests_cant": "real-valued trigonometric identity over a continuum of angles", "anchors": ["pyslope/pyslope.py:Slope.__init__", "pyslope/pyslope.py:Slope.set_external_boundary"]}
{"id": "C06", "title": "A rejected edit leaves the model untouched", "statement": "If set_external_boundary, set_water_table, update_water_analysis_options, set_analysis_limits, update_boundary_options, set_udls, set_lls, set_materials, remove_material, add_single_entry_exit_plane or add_single_circular_plane raises, then no attribute of the slope and of its objects has changed.", "quantifier": "for every state and every argument for which the call raises", "why_tests_cant": "atomicity has to be checked at every raising program point from every prior state", "anchors": ["pyslope/pyslope.py:Slope.set_external_boundary", "pyslope/pyslope.py:Slope.update_boundary_options", "pyslope/pyslope.py:Slope.set_materials", "pyslope/pyslope.py:Slope.set_analysis_limits"]}
{"id": "C07", "title": "The geometry does not depend on the order of the geometry calls", "statement": "The cross-section after any interleaving of set_external_boundary and update_boundary_options calls depends only on the last height and length given and the last MIN_EXT_H and MIN_EXT_L given; repeating a call changes nothing.", "quantifier": "for every sequence of accepted geometry calls", "why_tests_cant": "unbounded interleavings of calls", "anchors": ["pyslope/pyslope.py:Slope.set_external_boundary", "pyslope/pyslope.py:Slope.update_boundary_options"]}
{"id": "C08", "title": "Ground surface lookups are inverse to each other", "statement": "get_external_y_intersection is defined exactly on [0, model length], is non-increasing, continuous at crest and toe and lies between toe and crest level; for a level strictly between toe and crest, get_external_x_intersection gives the x of the face at that level, and looking up its y gives the level back; below the toe level it gives the right edge of the model, at the two levels themselves the toe and the crest, above the crest None.", "quantifier": "for every geometry with positive height and every coordinate", "why_tests_cant": "continuum of coordinates and geometries", "anchors": ["pyslope/pyslope.py:Slope.get_external_y_intersection", "pyslope/pyslope.py:Slope.get_external_x_intersection"]}
{"id": "C09", "title": "Search limits are always ordered and inside the model", "statement": "After any history of public calls the four search limits satisfy 0 <= left_x < left_x_right <= crest x <= right_x_left < right_x <= model length.", "quantifier": "for every constructor argument and every finite sequence of public calls, whether or not they raise", "why_tests_cant": "invariant over unbounded histories of limit, load, material and boundary calls", "anchors": ["pyslope/pyslope.py:Slope.set_analysis_limits", "pyslope/pyslope.py:Slope.remove_analysis_limits", "pyslope/pyslope.py:Slope.set_external_boundary"]}
{"id": "C10", "title": "Setting limits stores the clamped request or nothing", "statement": "A set_analysis_limits call that returns stores exactly the requested values clamped to the model (omitted limits keep their value); one that raises changes nothing; remove_analysis_limits never raises and restores the default limits.", "quantifier": "for every state and every combination of the four optional arguments", "why_tests_cant": "sixteen presence patterns times a continuum of values and states", "anchors": ["pyslope/pyslope.py:Slope.set_analysis_limits", "pyslope/pyslope.py:Slope.remove_analysis_limits"]}
{"id": "C11", "title": "Each search limit can be given on its own", "statement": "Calling set_analysis_limits with any single limit whose value is in range for the current model is accepted.", "quantifier": "for every state and every in-range value of one of the four limits", "why_tests_cant": "no test calls the function with right_x_left alone; the claim is about every presence pattern", "anchors": ["pyslope/pyslope.py:Slope.set_analysis_limits"]}
{"id": "C12", "title": "The automatic search stays inside the limits", "statement": "Every trial circle of the automatic search is generated from an entry point inside [left_x, left_x_right] and an exit point inside [right_x_left, right_x], further apart than min_failure_dist.", "quantifier": "for every slope state and every iteration setting", "why_tests_cant": "the generated family depends on all parameters; tests look at final factors only", "anchors": ["pyslope/pyslope.py:Slope._set_entry_exit_planes", "pyslope/pyslope.py:Slope.set_analysis_limits"]}
{"id": "C13", "title": "The layer list is always strictly ordered by depth", "statement": "After any history of public calls on a slope, its materials are listed in strictly increasing depth (so no two have the same depth), each layer has an elevation and a colour, and no layer is listed twice.", "quantifier": "for every finite sequence of public calls, whether or not they raise", "why_tests_cant": "invariant over unbounded histories of additions and removals", "anchors": ["pyslope/pyslope.py:Slope.set_materials", "pyslope/pyslope.py:Slope.remove_material"]}
{"id": "C14", "title": "Layers can be given in any order and in any number of calls", "statement": "set_materials with a permutation of the same materials, or split over several calls, gives the same layer list, elevations, colours and geometry.", "quantifier": "for every list of materials with distinct depths, every permutation and every way of splitting it", "why_tests_cant": "factorially many permutations and splittings", "anchors": ["pyslope/pyslope.py:Slope.set_materials"]}
{"id": "C15", "title": "Layers sit at the depth below the crest that the user gave", "statement": "At any time the bottom of each layer is at elevation model height minus its depth_to_bottom, and the water table is at crest level minus the depth given to set_water_table (not below the base of the model).", "quantifier": "for every finite sequence of public calls", "why_tests_cant": "staleness needs particular interleavings of boundary and material calls", "anchors": ["pyslope/pyslope.py:Slope.set_materials", "pyslope/pyslope.py:Slope.set_water_table", "pyslope/pyslope.py:Slope.update_boundary_options"]}
{"id": "C16", "title": "Removing a material undoes adding it", "statement": "remove_material(m) after set_materials(m) restores the previous list of layers; a material with the given depth is removed and all other layers keep their order.", "quantifier": "for every slope state and every material", "why_tests_cant": "all depths including zero and all states of the list", "anchors": ["pyslope/pyslope.py:Slope.remove_material", "pyslope/pyslope.py:Slope.set_materials"]}
{"id": "C17", "title": "Neighbouring layers are distinguishable", "statement": "After set_materials the layers without a user colour take the palette colours by position, any ten consecutive such layers have different colours, and a valid user colour is always kept.", "quantifier": "for every list of materials and every notion of valid colour", "why_tests_cant": "unbounded number of layers", "anchors": ["pyslope/pyslope.py:Slope.set_materials", "pyslope/utilities.py:MATERIAL_COLORS", "pyslope/utilities.py:is_color"]}
{"id": "C18", "title": "An assigned surcharge lies completely on the crest", "statement": "As long as MIN_EXT_L is not lowered by the user and dynamic searches are only made on slopes at least 1 cm long, every assigned Udl with a length occupies exactly [crest - offset - length, crest - offset] inside [0, crest], every continuous Udl occupies [0, crest - offset], and every LineLoad is at crest - offset >= 0.", "quantifier": "for every finite sequence of public calls that does not lower MIN_EXT_L, and every load", "why_tests_cant": "the extension rule has to hold for all later boundary changes as well", "anchors": ["pyslope/pyslope.py:Slope.set_udls", "pyslope/pyslope.py:Slope.set_lls", "pyslope/pyslope.py:Slope._update_udl_coordinates", "pyslope/pyslope.py:Slope._update_ll_coordinates"]}
{"id": "C19", "title": "Removing a load removes every load with those values", "statement": "After remove_udls(u) (remove_lls(l)) no load with the same offset, magnitude and length is left, and all other loads are kept in order.", "quantifier": "for every list of assigned loads, duplicates included, and every load to remove", "why_tests_cant": "depends on multiplicity and adjacency of duplicates in a list of any length", "anchors": ["pyslope/pyslope.py:Slope.remove_udls", "pyslope/pyslope.py:Slope.remove_lls"]}
{"id": "C20", "title": "Loads are assigned in order and zero loads are ignored", "statement": "set_udls and set_lls append exactly the load objects of non-zero magnitude, in the order given, and ignore anything that is not a load of that kind; they never raise; the largest UDL magnitude recorded is the maximum over the assigned UDLs.", "quantifier": "for every state and every argument list", "why_tests_cant": "argument lists of any length and kind", "anchors": ["pyslope/pyslope.py:Slope.set_udls", "pyslope/pyslope.py:Slope.set_lls"]}
{"id": "C21", "title": "Two slopes with their own objects do not influence each other", "statement": "Any sequence of calls on one slope leaves everything observable of another slope unchanged, provided the two slopes share no material or load object.", "quantifier": "for every pair of slopes, every sequence of calls on one of them", "why_tests_cant": "frame property over all interleavings and all reachable object graphs", "anchors": ["pyslope/pyslope.py:Slope.set_materials", "pyslope/pyslope.py:Slope._update_udl_coordinates"]}
{"id": "C22", "title": "A material or load can be shared by two slopes", "statement": "Assigning an object already used by one slope to a second slope does not change the results of the first one.", "quantifier": "for every object and every pair of slopes", "why_tests_cant": "aliasing: needs two slopes of different geometry and one shared object", "anchors": ["pyslope/pyslope.py:Slope.set_materials", "pyslope/pyslope.py:Slope._update_udl_coordinates"]}
{"id": "C23", "title": "The water table stays inside the model when it is set", "statement": "set_water_table(d) with a number d >= 0 succeeds and puts the water level at max(0, crest level - d), which is between 0 and the model height; None removes it, anything else is rejected without effect.", "quantifier": "for every state and every argument", "why_tests_cant": "continuum of depths and geometries", "anchors": ["pyslope/pyslope.py:Slope.set_water_table", "pyslope/pyslope.py:Slope.remove_water_table"]}
{"id": "C24", "title": "The pore pressure factor is a fraction", "statement": "After any history of public calls the factor on water pressure is in [0, 1]; in automatic mode the value set is cos^2 of the slope angle, that is 1/(1+gradient^2); a manual value is clamped to [0, 1].", "quantifier": "for every finite sequence of public calls and every H", "why_tests_cant": "invariant over histories plus a trigonometric identity over a continuum", "anchors": ["pyslope/pyslope.py:Slope.update_water_analysis_options"]}
{"id": "C25", "title": "Water never makes the slope safer", "statement": "Removing the water table never lowers the ordinary factor of any circle, nor one Bishop turn from a given value with positive denominators m_alpha, nor the reported minimum when max_iterations <= 0; for circles that lean one way (centre not left of the lower end, below ground) through soil heavier than water it does not lower what bishop answers after any equal number of turns, and not the limit. Friction angles are at most 90 degrees and the water level at most the model height.", "quantifier": "for every geometry, layering, loads, circle, water level and factor H", "why_tests_cant": "monotonicity over a continuum of inputs", "anchors": ["pyslope/pyslope.py:Slope._analyse_circular_failure_ordinary", "pyslope/pyslope.py:Slope._analyse_circular_failure_bishop"]}
{"id": "C26", "title": "Analysis options stay in their documented ranges", "statement": "After any history of public calls 10 <= slices <= 500 and 500 <= iterations <= 100000, min_failure_dist is at most the requested value, and each option changes only when it is given.", "quantifier": "for every finite sequence of public calls and every option value", "why_tests_cant": "invariant over unbounded histories", "anchors": ["pyslope/pyslope.py:Slope.update_analysis_options"]}
{"id": "C27", "title": "Editing the model discards the results", "statement": "After any successful public call other than an analysis, and other than add_single_circular_plane with a circle that does not cut the ground twice, the result getters raise IndexError; they also do before the first analysis.", "quantifier": "for every state, every editing call and every argument", "why_tests_cant": "every method from every state", "anchors": ["pyslope/pyslope.py:Slope._reset_results", "pyslope/pyslope.py:Slope.get_min_FOS", "pyslope/pyslope.py:Slope.get_min_FOS_circle", "pyslope/pyslope.py:Slope.get_min_FOS_end_points"]}
{"id": "C28", "title": "A reported factor of safety belongs to the current model", "statement": "In any history on one slope in which no analysis raised, whenever get_min_FOS returns a value, analysing the current model again gives the same factors, circles and end points.", "quantifier": "for every finite sequence of public calls", "why_tests_cant": "result staleness needs an arbitrary interleaving of edits and analyses", "anchors": ["pyslope/pyslope.py:Slope.analyse_slope", "pyslope/pyslope.py:Slope.get_min_FOS", "pyslope/pyslope.py:Slope._reset_results"]}
{"id": "C29", "title": "A failed analysis does not report a factor of safety", "statement": "If analyse_slope raises, get_min_FOS does not afterwards return a value that is not the minimum factor of the current model.", "quantifier": "for every state in which the analysis raises, and every plane at which it raises", "why_tests_cant": "needs an exception at an arbitrary point of the loop over the circles", "anchors": ["pyslope/pyslope.py:Slope.analyse_slope", "pyslope/pyslope.py:Slope.get_min_FOS"]}
{"id": "C30", "title": "The critical circle is the minimum over all analysed circles", "statement": "After analyse_slope the stored circles are those for which a factor could be computed, in non-decreasing order of the factor (and, when max_fos is given, exactly those up to max_fos); get_min_FOS is the least factor over all analysed circles.", "quantifier": "for every state, every set of circles and every max_fos", "why_tests_cant": "optimum over an arbitrary family of circles", "anchors": ["pyslope/pyslope.py:Slope.analyse_slope", "pyslope/pyslope.py:Slope.get_min_FOS", "pyslope/pyslope.py:Slope.get_min_FOS_circle"]}
{"id": "C31", "title": "Circle and line intersection is sound and complete", "statement": "The intersection routine returns exactly the common points of the circle and the infinite line through two distinct points: every returned point is on both, every common point is returned, two points when the line is a secant, one when tangent, none when it misses.", "quantifier": "for every circle and every pair of distinct points", "why_tests_cant": "continuum of inputs, degenerate cases of measure zero", "anchors": ["pyslope/utilities.py:cirle_line_intersection"]}
{"id": "C32", "title": "Failure surfaces start and end on the ground", "statement": "Both end points stored with a circle when it is added or generated lie on the ground surface within the model and on the circle, and the left one is more than 1 cm left of the right one; a circle that does not meet the ground in two such points is not stored.", "quantifier": "for every geometry, every added circle, every entry/exit pair and every automatic search", "why_tests_cant": "continuum of circles and geometries, unbounded number of generated circles", "anchors": ["pyslope/pyslope.py:Slope._get_circle_external_intersection", "pyslope/pyslope.py:Slope._generate_planes", "pyslope/pyslope.py:Slope.add_single_circular_plane"]}
{"id": "C33", "title": "Entry/exit circles pass through the requested points", "statement": "The first circle generated for an entry and an exit point passes through both points with its centre above the chord, the list of circles is exactly the documented family (chord height growing by equal steps); and all the other circles of the pair pass through the two points too.", "quantifier": "for every geometry and every pair of points with entry left of exit", "why_tests_cant": "geometric identity over a continuum; drift appears only for some circles", "anchors": ["pyslope/pyslope.py:Slope._generate_planes", "pyslope/utilities.py:circle_centre", "pyslope/utilities.py:circle_radius_from_abcd"]}
{"id": "C34", "title": "The number of trial circles matches the requested iterations", "statement": "The grid of the automatic search without loads has at least the requested number of circles and exceeds it by less than one row; the circles stored are exactly the circles of every pair of an entry and an exit point that are farther apart than the minimum distance, so their number never exceeds the grid.", "quantifier": "for every iteration setting between 500 and 100000 and every state", "why_tests_cant": "100000 settings times all states", "anchors": ["pyslope/pyslope.py:Slope._set_entry_exit_planes", "pyslope/pyslope.py:Slope.update_analysis_options"]}
{"id": "C35", "title": "An automatic analysis of a valid model does not crash", "statement": "In exact arithmetic analyse_slope without individual circles raises no Python exception on any reachable slope without negative load offsets whose number of loads is not exactly num_points_top - 1 and whose water level is at most the model height.", "quantifier": "for every such state", "why_tests_cant": "every division, square root, index and validation on the path must be safe for all inputs", "anchors": ["pyslope/pyslope.py:Slope.analyse_slope", "pyslope/pyslope.py:Slope._set_entry_exit_planes", "pyslope/pyslope.py:Slope._generate_planes"]}
{"id": "C36", "title": "Rounding does not make a valid model crash", "statement": "In binary64 arithmetic analyse_slope without individual circles raises no exception on a freshly built slope with one material.", "quantifier": "for every height and length accepted by the constructor", "why_tests_cant": "only some dimensions round badly (about one in forty); tests use a few round numbers", "anchors": ["pyslope/pyslope.py:Slope._set_entry_exit_planes", "pyslope/pyslope.py:Slope.get_external_y_intersection"]}
{"id": "C37", "title": "The weight of a strip is the integral of the unit weight", "statement": "The soil weight of a strip of width b between two elevations is b times the integral over the height of the unit weight of the layer found at each elevation; it is additive over stacked strips, zero for an empty one and lies between the smallest and largest unit weight times the area.", "quantifier": "for every layering, every strip not above the model height", "why_tests_cant": "integral identity over a continuum", "anchors": ["pyslope/pyslope.py:Slope._calculate_strip_weights", "pyslope/pyslope.py:Slope._get_material_at_depth"]}
{"id": "C38", "title": "Surface loads are transmitted completely and once", "statement": "Over the slices of a circle, the load taken from a Udl adds up to its magnitude times the length of its overlap with the circle's horizontal extent, and a LineLoad is counted exactly once if it is inside that extent (left end included) and not at all otherwise.", "quantifier": "for every number of slices, every extent and every load", "why_tests_cant": "telescoping over any number of slices and a continuum of positions", "anchors": ["pyslope/pyslope.py:Slope._analyse_circular_failure_ordinary", "pyslope/pyslope.py:Slope._analyse_circular_failure_bishop"]}
{"id": "C39", "title": "Rounding does not lose or duplicate a line load", "statement": "In binary64 arithmetic a LineLoad strictly inside the horizontal extent of a circle is counted in exactly one slice.", "quantifier": "for every extent, number of slices and load position", "why_tests_cant": "only particular slice edges round badly", "anchors": ["pyslope/pyslope.py:Slope._analyse_circular_failure_ordinary", "pyslope/pyslope.py:Slope._analyse_circular_failure_bishop"]}
{"id": "C40", "title": "Slice base strength comes from the layer at the base", "statement": "The cohesion and friction used for a slice are those of the layer containing its base (the deepest layer below all boundaries), the same layer that the depth lookup reports.", "quantifier": "for every layering and every elevation", "why_tests_cant": "continuum of elevations and arbitrary layer lists", "anchors": ["pyslope/pyslope.py:Slope._analyse_circular_failure_ordinary", "pyslope/pyslope.py:Slope._analyse_circular_failure_bishop", "pyslope/pyslope.py:Slope._get_material_at_depth"]}
{"id": "C41", "title": "The starting factor is the ordinary method of slices", "statement": "For a circle cutting the ground, the starting value is sum(c*l + max(0, W cos a - U) tan phi) / sum(W sin a) over equal-width slices with base inclination given by the circle (sin a = (cx - x)/r), W the soil weight plus loads, U the water pressure on the base; it is undefined exactly when sum(W sin a) <= 0 or there is no material.", "quantifier": "for every slope state and every circle", "why_tests_cant": "refinement of an independent real-valued specification for all inputs", "anchors": ["pyslope/pyslope.py:Slope._analyse_circular_failure_ordinary"]}
{"id": "C42", "title": "The reported factor is an iterate of Bishop's equation", "statement": "A factor f is reported for a circle exactly when the circle cuts the ground twice, its driving moment is positive and f is the k-th iterate, 0 <= k <= max_iterations, of F -> sum((c b + (W - u b) tan phi)/(cos a + sin a tan phi/F)) / sum(W sin a) started at the ordinary factor, where no earlier change was below the tolerance and, if k < max_iterations, the last change was.", "quantifier": "for every slope state, circle, tolerance and iteration limit", "why_tests_cant": "unbounded iteration counts and a continuum of inputs", "anchors": ["pyslope/pyslope.py:Slope._analyse_circular_failure_bishop"]}
{"id": "C43", "title": "A reported factor has converged", "statement": "Whenever a factor is reported for a circle, one more Bishop iteration changes it by less than the tolerance or the reported value is within tolerance of the previous iterate.", "quantifier": "for every slope state, circle, tolerance and iteration limit", "why_tests_cant": "non-convergence within the limit happens only for some circles", "anchors": ["pyslope/pyslope.py:Slope._analyse_circular_failure_bishop"]}
{"id": "C44", "title": "Factors of safety are non-negative", "statement": "Every factor of safety stored by a successful analysis is >= 0, for all friction angles when max_iterations >= 1 and for friction angles up to 90 degrees otherwise.", "quantifier": "for every slope state and circle", "why_tests_cant": "sign argument over a continuum", "anchors": ["pyslope/pyslope.py:Slope._analyse_circular_failure_bishop", "pyslope/pyslope.py:Slope._analyse_circular_failure_ordinary"]}
{"id": "C45", "title": "The factor does not depend on the unit of force", "statement": "Without water, multiplying all unit weights, cohesions and load magnitudes by the same positive number leaves the factor of every circle unchanged.", "quantifier": "for every slope state, circle and positive number", "why_tests_cant": "metamorphic relation over a continuum, must hold through all iterations", "anchors": ["pyslope/pyslope.py:Slope._analyse_circular_failure_ordinary", "pyslope/pyslope.py:Slope._analyse_circular_failure_bishop", "pyslope/pyslope.py:Slope._calculate_strip_weights"]}
{"id": "C46", "title": "More strength never lowers the factor", "statement": "Raising cohesions and friction angles (below 90 degrees) never lowers the ordinary factor of any circle; raising cohesions alone never lowers one Bishop turn from a given value with positive denominators, and for circles that lean one way through soil heavier than water it does not lower what bishop answers after any equal number of turns, and not the limit.", "quantifier": "for every slope state, circle and pair of strengths", "why_tests_cant": "monotonicity over a continuum", "anchors": ["pyslope/pyslope.py:Slope._analyse_circular_failure_ordinary", "pyslope/pyslope.py:Slope._analyse_circular_failure_bishop"]}
{"id": "C47", "title": "A material without strength gives a number", "statement": "Analysing a slope whose material has zero cohesion and zero friction reports the factor 0.", "quantifier": "for every geometry and circle with such a material", "why_tests_cant": "0/0 inside numpy is silent; no test uses a strengthless material", "anchors": ["pyslope/pyslope.py:Slope._analyse_circular_failure_bishop"]}
{"id": "C48", "title": "The dynamic search keeps the critical offset bracketed", "statement": "During analyse_dynamic the two end offsets of the bracket have recorded factors on either side of critical_fos and every new offset lies between them, so all tried offsets lie between 0 and the first far offset; a division by zero happens only if a tried offset has exactly the factor critical_fos or the far offset is 0. The far offset is a centimetre less than the largest of the slope length and the room that any moving strip load leaves on the crest. The search goes on after a trial in the bracket, up to ten of them, exactly until one whose factor differs from that of the trial before (0 before the first), is within 0.01 of that one or of critical_fos, and rounded to three decimals is at least critical_fos.", "quantifier": "for every slope, set of dynamic loads and critical factor", "why_tests_cant": "loop invariant over an unknown function of the offset", "anchors": ["pyslope/pyslope.py:Slope.analyse_dynamic"]}
{"id": "C49", "title": "The dynamic search makes at most twelve analyses and records them faithfully", "statement": "analyse_dynamic performs at most 12 analyses and get_dynamic_results maps each tried offset to the minimum factor of the model with the dynamic loads at that offset; on a normal return after bracketing the results are sorted by factor.", "quantifier": "for every slope, set of dynamic loads and critical factor", "why_tests_cant": "depends on the whole run of the search for an arbitrary model", "anchors": ["pyslope/pyslope.py:Slope.analyse_dynamic", "pyslope/pyslope.py:Slope.get_dynamic_results", "pyslope/pyslope.py:Slope._set_dynamic_offset"]}
{"id": "C50", "title": "Any dynamic load can be searched", "statement": "analyse_dynamic returns without an exception for any set of dynamic loads on an analysable slope.", "quantifier": "for every set of dynamic loads", "why_tests_cant": "needs continuous loads, tiny slopes and equal end factors, which tests do not contain", "anchors": ["pyslope/pyslope.py:Slope.analyse_dynamic"]}
{"id": "C51", "title": "Static loads and layers are untouched by the dynamic search", "statement": "analyse_dynamic changes the offset of dynamic loads only: layers, water depth, static loads, analysis options and the order of the loads are the same afterwards.", "quantifier": "for every slope and critical factor, whether or not it raises", "why_tests_cant": "holds across up to twelve analyses with reassigned loads", "anchors": ["pyslope/pyslope.py:Slope.analyse_dynamic", "pyslope/pyslope.py:Slope._set_dynamic_offset"]}
{"id": "C52", "title": "An entry/exit pair may be given in either order and a refused pair changes nothing", "statement": "add_single_entry_exit_plane(a, b, n) leaves the same state and raises the same exception as add_single_entry_exit_plane(b, a, n); a pair with a point outside the model or with two equal points is refused and leaves the slope unchanged.", "quantifier": "for every slope state, every pair of numbers and every number of circles", "why_tests_cant": "The pairs form a continuum and equality of the two resulting states has to hold for all geometries.", "anchors": ["pyslope/pyslope.py:Slope.add_single_entry_exit_plane", "pyslope/pyslope.py:Slope._generate_planes"]}
{"id": "C53", "title": "Reported end points lie on the present ground", "statement": "After a successful analysis of individual circles the end points reported for the critical circle lie on the ground surface of the slope as it is then.", "quantifier": "for every finite sequence of public calls", "why_tests_cant": "Whether an edit between adding the circle and analysing it matters depends on all orders of calls.", "anchors": ["pyslope/pyslope.py:Slope.analyse_slope", "pyslope/pyslope.py:Slope.get_min_FOS_end_points", "pyslope/pyslope.py:Slope.set_external_boundary"]}
{"id": "C54", "title": "Reported end points lie inside the search limits", "statement": "After a successful automatic analysis of a slope without loads the end points reported for the critical circle lie inside the left and right search limits.", "quantifier": "for every slope state and every setting of the limits", "why_tests_cant": "The limits and geometries form a continuum and the drift of the later circles of a pair is small for common settings.", "anchors": ["pyslope/pyslope.py:Slope._generate_planes", "pyslope/pyslope.py:Slope.set_analysis_limits"]}
{"id": "C55", "title": "A circle that leans one way always gets a factor", "statement": "For a circle that cuts the ground, runs below it and whose centre is not left of its lower end, through layers that all have some cohesion or friction and are heavier than water (or without water), the analysis yields a factor, which is >= 0 and positive without water.", "quantifier": "for every reachable slope, layering, load set, water level and such circle", "why_tests_cant": "the failure modes (no factor, NaN, negative sums) depend on every slice at once; tests sample a few circles", "anchors": ["pyslope/pyslope.py:Slope._analyse_circular_failure_bishop"]}
{"id": "C56", "title": "Bishop's iteration converges on circles that lean one way", "statement": "For the circles of C55 with a positive starting value the iterates rise for ever or fall for ever and have a limit; when max_iterations times the tolerance is at least an explicit bound the reported factor changed by less than the tolerance in its last turn.", "quantifier": "for every reachable slope, circle, tolerance and iteration limit", "why_tests_cant": "convergence is a statement about infinitely many iterates and all parameter values", "anchors": ["pyslope/pyslope.py:Slope._analyse_circular_failure_bishop"]}
{"id": "C57", "title": "Water never raises the reported factor", "statement": "Adding a water table never raises the factor that the analysis reports for a circle.", "quantifier": "for every geometry, layering, circle and water level", "why_tests_cant": "the counterexample needs a converged iteration with negative denominators, far from the tested models", "anchors": ["pyslope/pyslope.py:Slope._analyse_circular_failure_bishop"]}
{"id": "C58", "title": "More cohesion never lowers the reported factor", "statement": "Raising the cohesion of a layer never lowers the factor that the analysis reports for a circle.", "quantifier": "for every geometry, layering, circle and cohesion", "why_tests_cant": "the counterexample needs an iteration that settles on another fixed point", "anchors": ["pyslope/pyslope.py:Slope._analyse_circular_failure_bishop"]}
{"id": "C59", "title": "Drawn layers tile the section", "statement": "The figure draws every layer once, from the top down, as a polygon inside the section; the area of each polygon is the area of the ground between its upper and lower level, and the areas add up to the whole ground.", "quantifier": "for every reachable slope with a positive height and at least one layer that can be drawn", "why_tests_cant": "areas of polygons against integrals over all geometries and any number of layers", "anchors": ["pyslope/pyslope.py:Slope.plot_boundary"]}
{"id": "C60", "title": "Colour of a factor of safety", "statement": "A factor f >= 0 gets the colour of the nearest tenth of min(f, 5); the arc and the text mark use the same colour; the key rises with the factor; the lookup fails exactly when f rounds to a negative tenth.", "quantifier": "for every real factor of safety", "why_tests_cant": "all real factors, including those between the keys of the table", "anchors": ["pyslope/utilities.py:create_fos_color_dictionary", "pyslope/pyslope.py:Slope._plot_failure_plane", "pyslope/pyslope.py:Slope._plot_annotate_FOS"]}
{"id": "C61", "title": "Drawn arcs follow the circle", "statement": "The points drawn for a circle are exactly the points at odd degrees, rounded to three decimals, that lie between its ends and not above its left end; each is within 1 mm of the circle and they run from left to right.", "quantifier": "for every centre, radius and pair of end points", "why_tests_cant": "all circles", "anchors": ["pyslope/utilities.py:generate_circle_coordinates", "pyslope/pyslope.py:Slope.plot_all_planes"]}
{"id": "C62", "title": "Every result is drawn once, the critical one included", "statement": "plot_critical draws the first result and no other; plot_all_planes draws the critical sector and one line for each result below the limit, in the order of falling factors, each with its rounded factor, colour, ends and arc.", "quantifier": "for every state and every limit", "why_tests_cant": "any number of results", "anchors": ["pyslope/pyslope.py:Slope.plot_critical", "pyslope/pyslope.py:Slope.plot_all_planes"]}
{"id": "C63", "title": "Water, loads, limits and the material table are drawn where they are", "statement": "The water line is the water level capped by the ground; loads are drawn at their places with their magnitudes and with heights in proportion; limit marks lie on the ground; the table has one row per layer with its own values.", "quantifier": "for every reachable slope that can be drawn", "why_tests_cant": "all models", "anchors": ["pyslope/pyslope.py:Slope._plot_water", "pyslope/pyslope.py:Slope._plot_udl", "pyslope/pyslope.py:Slope._plot_ll", "pyslope/pyslope.py:Slope._plot_limits", "pyslope/pyslope.py:Slope._plot_material_table"]}
{"id": "C64", "title": "Every slope can be drawn", "statement": "plot_boundary returns a figure for every slope a user can build.", "quantifier": "for every history of calls", "why_tests_cant": "needs particular histories: a load taken away while another stays, a slope made lower after its water or layers were set", "anchors": ["pyslope/pyslope.py:Slope.plot_boundary", "pyslope/pyslope.py:Slope.remove_udls"]}
{"id": "C65", "title": "Every analysed slope can be drawn", "statement": "After a successful analysis plot_critical and plot_all_planes return a figure.", "quantifier": "for every slope that can be drawn and every analysis", "why_tests_cant": "needs a circle whose arc passes between the sampled angles, a limit that leaves no result, or a negative factor", "anchors": ["pyslope/pyslope.py:Slope._plot_failure_plane", "pyslope/pyslope.py:Slope.plot_all_planes"]}
{"id": "C66", "title": "Soils without friction: closed form, always answered, water irrelevant, proportional to the cohesion", "statement": "For a slope whose layers all have friction angle 0 and positive cohesion, the factor of a leaning circle is the sum over the slices of cohesion times base length divided by the driving sum (no iteration matters), every analysis of the automatic search ends with results and no exception, and the results are the same with and without a water table. Multiplying all cohesions by the same positive number multiplies the factor of every circle, the list of results and the smallest factor by it and leaves the critical circle where it was.", "quantifier": "for every reachable slope without friction, every circle, every search", "why_tests_cant": "all geometries, slices and layerings", "anchors": ["pyslope/pyslope.py:Slope._analyse_circular_failure_bishop", "pyslope/pyslope.py:Slope.analyse_slope"]}
{"id": "C67", "title": "A submitted form becomes the model it describes", "statement": "A valid form yields a slope with the height, length, layers, loads, water level, limits and options entered, each row as typed and blank rows with the defaults; the request fails with ValueError exactly when a dimension, layer, depth, water depth or limit is not acceptable.", "quantifier": "for every form that Django validates", "why_tests_cant": "all combinations of rows, including two rows left blank", "anchors": ["slope/views.py:create_slope", "slope/forms.py", "slope/models.py"]}
{"id": "C68", "title": "A valid form is answered", "statement": "A valid form with acceptable values is analysed without an exception.", "quantifier": "for every valid form with the ordinary analysis", "why_tests_cant": "needs a number of loads that leaves one entry point, or soil for which the iteration has no number", "anchors": ["slope/views.py:create_slope", "pyslope/pyslope.py:Slope.analyse_slope"]}
{"id": "C69", "title": "The page shows the analysed circles", "statement": "The page holds every stored circle with its arc, ranked by factor, the first being the critical one drawn in the figure; it fails exactly when there is no circle or the critical arc has no sample point. Forms of weak clays without loads, with limits on the face of a slope no steeper than 2:1, do get a page. The points sent with a circle are its two ends and, between them, the 90 points of the lower half of the circle rounded to the third decimal, from left to right.", "quantifier": "for every form whose slope was analysed", "why_tests_cant": "all forms; the failing arcs are narrow", "anchors": ["slope/views.py:index"]}
{"id": "C70", "title": "Browser and report show the same circles", "statement": "For any limit the circles the browser adds to the figure and those the PDF report adds are the same: all circles with a factor below the limit, most critical on top.", "quantifier": "for every page and every limit, and every ranked list of circles", "why_tests_cant": "two implementations (JavaScript and Python) of one filter", "anchors": ["static/slope/charting.js:updateFOS", "slope/views.py:pdf"]}
{"id": "C71", "title": "A visitor sees their own last result", "statement": "Every page answers a form posted in the same visit or is the default page; the report is made from the last page shown; looking again shows the same page; the report before any page is a KeyError and after a reset a redirect. Whoever looks sees the page of the last form answered with a page since the last reset, or else the first page, which is the answer to the form as it came with 10 slices.", "quantifier": "for every sequence of requests of one visitor", "why_tests_cant": "all request sequences", "anchors": ["slope/views.py:index", "slope/views.py:pdf", "slope/views.py:reset"]}
{"id": "C72", "title": "What the dynamic analysis of a form does", "statement": "With the Decimal of the form the dynamic analysis never gets past its two end trials: the page is the state after the trial at 0, after the trial at the far end, or an ordinary analysis of the slope as the failed attempt left it.", "quantifier": "for every form with the dynamic analysis", "why_tests_cant": "the exception is swallowed; only the type of the critical factor makes it happen", "anchors": ["slope/views.py:create_slope", "pyslope/pyslope.py:Slope.analyse_dynamic"]}
{"id": "C73", "title": "Every row of the page reaches the server", "statement": "After any clicks on add and delete the server reads exactly the rows on the page, in order.", "quantifier": "for every sequence of clicks", "why_tests_cant": "needs more than ten rows", "anchors": ["static/slope/add_rows.js"]}
{"id": "C74", "title": "The report link is off while the page is out of date", "statement": "After an input was edited the link to the report stays off until the page is computed again.", "quantifier": "for every sequence of edits", "why_tests_cant": "needs two events in a certain order", "anchors": ["static/slope/update_pdf_link.js", "static/slope/button_control.js"]}
{"id": "C75", "title": "Browser and report colour a circle alike", "statement": "The colour key computed in JavaScript equals the one computed in Python.", "quantifier": "for every factor", "why_tests_cant": "differs only exactly half way between two keys", "anchors": ["static/slope/charting.js", "pyslope/pyslope.py:Slope._plot_failure_plane"]}
{"id": "C76", "title": "The decimals shown for a load lose nothing", "statement": "The number of decimals shown for a load keeps every non-zero digit of its magnitude.", "quantifier": "for every decimal text", "why_tests_cant": "needs three zeros followed by another digit", "anchors": ["pyslope/utilities.py:get_precision"]}
{"id": "C77", "title": "Limits, options and cross-section stay lawful under rounding", "statement": "Whatever the arithmetic does (rounding, overflow, NaN), after any history the analysis limits are not in the wrong order, the numbers of slices and iterations are in range, and the cross-section is the one computed from height, length and some minimum size. In binary64 limits other than NaN are strictly ordered.", "quantifier": "for every arithmetic, every constructor input and every sequence of public calls, rejected calls included", "why_tests_cant": "tests use a few benign numbers; the claim covers every rounding and every history", "anchors": ["pyslope/pyslope.py:Slope.set_analysis_limits", "pyslope/pyslope.py:Slope.set_external_boundary", "pyslope/pyslope.py:Slope.update_analysis_options"]}
{"id": "C78", "title": "The reported factor is the smallest one computed in binary64", "statement": "The results of an analysis are exactly the circles with a factor that pass the filter, each once. When no factor is NaN they are in ascending order and get_min_FOS, get_min_FOS_circle and get_min_FOS_end_points describe a circle whose binary64 factor is at most that of every circle analysed.", "quantifier": "for every slope in binary64 and every limit on the factor", "why_tests_cant": "ties, infinities, signed zeros and rounding cannot be enumerated", "anchors": ["pyslope/pyslope.py:Slope.analyse_slope", "pyslope/pyslope.py:Slope.get_min_FOS"]}
{"id": "C79", "title": "Extreme numbers do no harm", "statement": "An accepted analysis that finds a number as a factor reports a number, and a rejected set_external_boundary leaves the slope as it was, also for infinite and very large inputs.", "quantifier": "for every binary64 input", "why_tests_cant": "needs an infinite load or a product beyond the largest binary64 number", "anchors": ["pyslope/pyslope.py:Slope.set_external_boundary", "pyslope/pyslope.py:Slope.analyse_slope"]}
{"id": "C80", "title": "The legend shows the colour scale", "statement": "The legend consists of 51 adjoining cells from the top (0) to the bottom (5), one for each tenth and with the colour used for it; a factor between 0 and 5 lies, at its place on the scale, in a cell of its own colour, and the numbers 0 to 5 stand beside the cell of their value.", "quantifier": "for every factor between 0 and 5 and every label", "why_tests_cant": "factors are a continuum; only values in the second half of a cell show the shift", "anchors": ["pyslope/pyslope.py:Slope._plot_FOS_legend"]}
{"id": "C81", "title": "Moving the slider never leaves stale circles", "statement": "After the page has loaded and after any sequence of slider moves and changes of the window size (window at least 900 pixels wide) the chart shows exactly the circles of the search with a factor below the current limit, the most critical drawn last.", "quantifier": "for every search result, every starting limit and every sequence of moves", "why_tests_cant": "unbounded sequences of events; the branch taken depends on a comparison of a text with an Event object", "anchors": ["static/slope/charting.js:createPlot", "static/slope/charting.js:updateFOS"]}
{"id": "C82", "title": "The table on narrow screens matches rows and colours", "statement": "In the soil table shown below 900 pixels every row of the form is shown with the colour of its own layer in the chart. Each row holds the numbers of its own layer, blank rows included.", "quantifier": "for every valid form that gets a page", "why_tests_cant": "depends on the order in which the rows were entered, over all forms", "anchors": ["static/slope/charting.js:createPlot", "slope/views.py:create_slope"]}
{"id": "C83", "title": "Hidden inputs do not matter, shown ones do", "statement": "Two forms that agree in everything the page shows (hide_form.js hides the unused one of angle and length, the water depth without water, the limits that are off) give the same slope and the same page; and a number that is shown has an effect: an accepted form is refused when it is replaced by -1. The height and the boxes for water and limits are never hidden. After any sequence of choices the display is that of the form as it then is.", "quantifier": "for every pair of submitted forms that differ only in hidden inputs, and every shown input of every accepted form", "why_tests_cant": "The script and the view decide separately which inputs count; a test tries a few combinations of check boxes and values, not all forms.", "anchors": ["static/slope/hide_form.js", "slope/views.py:create_slope", "slope/views.py:index", "slope/models.py", "slope/forms.py"]}
{"id": "C84", "title": "A change of the form can be analysed", "statement": "After any change of the form (an input, a drop-down list, an added or deleted row) the Analyse button works and the report of the old model is not on offer.", "quantifier": "for every sequence of changes after the page was loaded", "why_tests_cant": "Depends on which elements existed when the listeners were attached, over unbounded sequences of additions, deletions and edits.", "anchors": ["static/slope/button_control.js", "static/slope/update_pdf_link.js", "static/slope/add_rows.js", "slope/templates/slope/index.html"]}
{"id": "C85", "title": "The number beside a slider is its value", "statement": "After the page was loaded and after any moves of the sliders the last text beside each slider is the value of that slider, the other texts are unchanged, and the value is the one of its last move.", "quantifier": "for every set of sliders and every sequence of moves", "why_tests_cant": "A statement about all sequences of moves on all sliders.", "anchors": ["static/slope/slider_values.js"]}
{"id": "C86", "title": "Only the listed numbers decide the analysis", "statement": "Two slopes with the same boundary, limits, options, individual circles, water level, and the same unit weights, cohesions, tangents of the friction angle and elevations of the layers and magnitudes and positions of the loads get the same outcome and the same list of analysed circles, whatever the names, colours, depths, offsets and dynamic flags of their objects are and whatever else is stored.", "quantifier": "for all pairs of states that agree in these numbers, in every arithmetic", "why_tests_cant": "An attribute that should not matter could leak into the result for a single value of it; this compares all pairs of states.", "anchors": ["pyslope/pyslope.py:Slope.analyse_slope", "pyslope/pyslope.py:Material", "pyslope/pyslope.py:Udl"]}
{"id": "C87", "title": "The printed dynamic results have three decimals", "statement": "print_dynamic_results prints one line per recorded offset, in the order of the table, with the offset and the factor rounded to the nearest thousandth and written with three decimals.", "quantifier": "for every table of dynamic results (exact arithmetic)", "why_tests_cant": "The padding depends on the length of the text before the point; only some sizes of numbers show the error.", "anchors": ["pyslope/pyslope.py:Slope.print_dynamic_results", "pyslope/pyslope.py:Slope.get_dynamic_results"]}
{"id": "C88", "title": "The version number identifies the commit", "statement": "The answer of git describe (tag, number of commits since it, hash, mark for changed files) is read back exactly, whatever hyphens the tag contains, and the long git-describe style reproduces it. In the default style two checkouts show the same version only if tag, distance and mark agree, and the hash too unless the version is the bare tag; the bare tag is shown only exactly at the tag without changes. No PEP 440 style has more than one plus sign if the tag has at most one, and every style produces a text. Each style gives exactly the text its documentation names; an unreadable answer of git describe gives \"unknown\", a style that does not exist a ValueError.", "quantifier": "all tags, distances, hashes, branches and styles; for identification: tags without a plus sign and hexadecimal hashes", "why_tests_cant": "Tags, distances and hashes are unbounded; a collision or a misread hyphen shows only for particular combinations.", "anchors": ["pyslope/_version.py:git_pieces_from_vcs", "pyslope/_version.py:render_pep440", "pyslope/_version.py:plus_or_dot", "pyslope/_version.py:render_pep440_pre", "pyslope/_version.py:pep440_split_post", "pyslope/_version.py:render_git_describe_long", "pyslope/_version.py:render"]}
{"id": "C89", "title": "Layers, loads and water stay lawful under rounding", "statement": "In every arithmetic, so also in binary64: every layer a slope holds exists, has a colour, and its elevation is one common level minus its depth; an accepted set_materials adds exactly the layers it names, measures all of them from the current ground level and changes no soil; every load a slope holds exists and has a positive magnitude. In binary64, when no depth is NaN, the layers are strictly ordered by depth without repetition, remove_material takes away exactly the layers of the given depth, and removing the layer just added restores the list; the water level is never NaN and never below zero. A NaN depth is accepted and gives a layer whose elevation is NaN.", "quantifier": "all slopes reachable by public calls in any order, in any arithmetic of the model; the order claims for all binary64 values except NaN", "why_tests_cant": "Rounding makes equality and order of floats behave differently from reals; the claims concern every sequence of calls and every bit pattern.", "anchors": ["pyslope/pyslope.py:Slope.set_materials", "pyslope/pyslope.py:Slope.remove_material", "pyslope/pyslope.py:Slope.set_udls", "pyslope/pyslope.py:Slope.set_lls", "pyslope/pyslope.py:Slope.set_water_table"]}
{"id": "C90", "title": "Similar slopes have the same factor of safety", "statement": "Take two slopes, the second with every length k times that of the first (ground, layer elevations, load offsets and lengths, water level), cohesion and strip loads k times and line loads k*k times as large, unit weights and friction angles unchanged. A circle and the same circle k times as large then have the same factor of safety, and analysing the same hand-added circles gives the same outcome, the same list at the other size and the same critical factor, provided the centimetre below which two points on the ground count as one separates the same points in both slopes. Without that condition the claim is false: at a scale of 1 to 2000 a circle with a factor has none.", "quantifier": "all scales k > 0, all pairs of similar reachable slopes, all circles", "why_tests_cant": "The claim ranges over every scale and every slope, circle, layering, load and water level at once.", "anchors": ["pyslope/pyslope.py:Slope._analyse_circular_failure_bishop", "pyslope/pyslope.py:Slope._get_circle_external_intersection", "pyslope/pyslope.py:Slope._calculate_strip_weights", "pyslope/pyslope.py:Slope.analyse_slope"]}
{"id": "C91", "title": "A higher water table never makes the slope safer", "statement": "Set the water table of the same slope at two depths below the crest, everything else equal. The claim that the higher level gives every circle the smaller or equal factor of safety is false in general: on the part of the face above the water the pressure is not reduced by the factor H, on the part below it is, so a level rising past a slice lowers the pressure in it; one centimetre more water can raise the minimum factor from 0.978 to 1.016. It is true when H is 1 and when neither level lies above the toe: then the ordinary factor, each turn of Bishop's iteration, the factor and its limit for circles leaning one way, and the reported minimum with the ordinary method never grow with the level.", "quantifier": "all reachable slopes, all pairs of depths 0 <= d <= d', all circles", "why_tests_cant": "The drop appears only when a level passes the middle of a slice, and the monotonicity ranges over all depths, slopes and circles.", "anchors": ["pyslope/pyslope.py:Slope.set_water_table", "pyslope/pyslope.py:Slope.update_water_analysis_options", "pyslope/pyslope.py:Slope._analyse_circular_failure_ordinary", "pyslope/pyslope.py:Slope._analyse_circular_failure_bishop"]}
{"id": "C92", "title": "With more slices the ordinary factor tends to the integrals along the base", "statement": "Cut a circle into n slices and let n grow. When the circle is not vertical at its ends, no line load stands at its left end and none stands over the point where the base crosses two layers, the ordinary factor tends to Q/P: P is the integral along the base of the weight above (soil plus strip loads, per metre) times sin(alpha), plus each line load inside times its sin(alpha); Q is the integral of c/cos(alpha) plus the positive part of weight times cos(alpha) minus u/cos(alpha), times tan(phi), plus each line load times cos(alpha) tan(phi). When P is positive there is a factor for every fine enough cut and it has this limit; when P is negative there is none for every fine enough cut. For circles that lean one way through dry soil with some strength P and Q are positive. Both integrals exist and the functions integrated are determined by the slope.", "quantifier": "all reachable slopes, all circles of this kind, all layerings, loads and water levels", "why_tests_cant": "The claim is about a limit in the number of slices for every slope and circle; a test sees finitely many cuts.", "anchors": ["pyslope/pyslope.py:Slope._analyse_circular_failure_ordinary", "pyslope/pyslope.py:Slope._calculate_strip_weights"]}
{"id": "C93", "title": "With more slices Bishop's factor tends to Bishop's integral equation", "statement": "Under the conditions of C92 let f(0) = Q/P and let f(k+1) be the integral of (c + (weight - u) tan(phi)) / m(f(k)) plus each line load times tan(phi)/m(f(k)), divided by P, where m(F) = cos(alpha) + sin(alpha) tan(phi)/F stays above a positive number. When the iteration of f stops after J turns by the rule of the code (tolerance, iteration limit) and no change equals the tolerance exactly, the reported factor with n slices tends to f(J). For circles that lean one way through dry soil with some strength every f(k) exists and is positive, and the factor after J turns tends to f(J) for every J.", "quantifier": "all reachable slopes, all circles of this kind, every number of turns", "why_tests_cant": "The claim is about a limit in the number of slices for every slope, circle and number of turns.", "anchors": ["pyslope/pyslope.py:Slope._analyse_circular_failure_bishop", "pyslope/pyslope.py:Slope._calculate_strip_weights"]}
{"id": "C94", "title": "In clay the resistance is cohesion times the length of the arc", "statement": "In a slope whose layers all have no friction and the same cohesion k, take a circle whose end points are seen from the centre under the angles ta and tb from the vertical, so that the arc between them is r(tb - ta) long. The ordinary and the Bishop factor are both k L / D, where D is the driving sum and L the sum of the lengths of the slice bases, and L is never longer than the arc and falls short of it by at most half a slice width times (1/cos ta + 1/cos tb - 2), so slicing never overstates the resistance. With more and more slices both factors tend to k r (tb - ta) / P with P the driving integral of C92, when P is positive; the integral of the resistance is exactly k r (tb - ta).", "quantifier": "all reachable slopes of one clay, all circles not vertical at their ends, all loads, water levels and numbers of slices", "why_tests_cant": "The bound holds for every slope, circle and number of slices, and the second part is a limit; a test sees single circles in rounded arithmetic.", "anchors": ["pyslope/pyslope.py:Slope._analyse_circular_failure_ordinary", "pyslope/pyslope.py:Slope._analyse_circular_failure_bishop"]}
{"id": "C95", "title": "A surcharge never makes the slope safer", "statement": "Putting a strip or line load on the crest, with ground, soils, water and slices unchanged, never raises the factor of safety of a circle. Each slice keeps everything but its weight, which grows by exactly the part of the new loads above it. The factor does not rise if the base of every slice that got heavier is at least as steep as the mobilised friction (tan(phi) cos(alpha) <= F sin(alpha)), and rises if it is flatter under all of them; in soils without friction it does not rise whenever the loaded bases lean towards the toe, nor does the smallest factor over circles the user gave.", "quantifier": "all reachable slopes, all loads accepted by set_udls or set_lls that leave the ground as it is, all circles (Bishop's iteration: circles that lean one way, and any circle in soils without friction)", "why_tests_cant": "Whether a load helps or harms depends on the circle, the soils and the factor itself; a test sees a handful of them and the examples in the repository all show the factor falling.", "anchors": ["pyslope/pyslope.py:Slope.set_udls", "pyslope/pyslope.py:Slope.set_lls", "pyslope/pyslope.py:Slope._analyse_circular_failure_ordinary", "pyslope/pyslope.py:Slope._analyse_circular_failure_bishop", "pyslope/pyslope.py:Slope.get_min_FOS"]}
{"id": "C96", "title": "Splitting a layer or a load changes nothing", "statement": "The results depend on which soil lies at which level and which load stands on which stretch of the crest, not on the pieces they were entered in. Two slopes with the same ground, water and settings, the same unit weight, friction angle and cohesion at every level and the same load over every stretch of the crest have the same ordinary and Bishop factor (or the same error) for every circle, and store the same results for circles the user gave; if the loads are entered in the same pieces the automatic search stores the same results too. A layer cut in two, a strip cut in two along its length or across its pressure, and a line load cut in two are such cases. The automatic search is not indifferent to cutting a strip, because the left end of every strip is one of its entry points.", "quantifier": "all pairs of reachable slopes, all circles, all ways of cutting a layer, a strip or a line load in two (and so, repeated, in any number of pieces)", "why_tests_cant": "A test compares one split of one slope; the claim is about every split, and the loops over layers and loads accumulate the pieces in an order that only an argument over all lists covers.", "anchors": ["pyslope/pyslope.py:Slope._calculate_strip_weights", "pyslope/pyslope.py:Slope._analyse_circular_failure_ordinary", "pyslope/pyslope.py:Slope._analyse_circular_failure_bishop", "pyslope/pyslope.py:Slope._set_entry_exit_planes", "pyslope/pyslope.py:Slope.analyse_slope"]}
{"id": "C97", "title": "Which of the two methods gives the lower factor", "statement": "For a circle that leans one way (its centre is not to the left of the exit and it runs below the ground) the first turn of Bishop's iteration decides for good whether the ordinary factor, with which it starts, is below or above the reported one: it is below exactly if Bishop's normal forces at the ordinary factor give more resistance than the ordinary method's. Where no base is in tension that is the sign of one sum over the slices. For soils of one friction angle without cohesion and without water, whatever their unit weights and the loads, both factors exist and the ordinary one is strictly less as soon as one turn is allowed; so the lowest factor reported for given circles is at least the ordinary factor of one of them. For soils without friction the two are equal. In layered soils, and in a single soil with cohesion and friction, Bishop's factor can be the lower one.", "quantifier": "all reachable slopes, all circles that lean one way, all tolerances and numbers of turns", "why_tests_cant": "A test compares the two factors of one circle; the difference is a sum of terms of both signs over all the slices and it goes either way by a few parts in a thousand.", "anchors": ["pyslope/pyslope.py:Slope._analyse_circular_failure_ordinary", "pyslope/pyslope.py:Slope._analyse_circular_failure_bishop", "pyslope/pyslope.py:Slope.analyse_slope"]}
{"id": "C98", "title": "How far a reported factor is from the exact solution", "statement": "For a circle that leans one way the answers for 0, 1, 2, ... permitted turns tend to a limit, which is the only positive solution of Bishop's equation for those slices (if it is not zero). With k the largest tangent of a friction angle times the slope of the circle at its entry, a turn from the value F leaves at most k / (F + k) of the distance from the limit, so the distance falls geometrically, and it is at most k / F times the change of the turn. A reported factor is therefore the value after the last permitted turn or, if k is not more than the ordinary and the reported factor, within the tolerance of the exact solution. Without that condition it need not be: on a steep cut the iteration stops at the first turn, 0.013 away from the solution with a tolerance of 0.005.", "quantifier": "all reachable slopes, all circles that lean one way, all tolerances and numbers of turns", "why_tests_cant": "The exact solution is not available to a test; the tolerance only bounds the last change, and how that relates to the remaining distance needs the shape of the iterated function.", "anchors": ["pyslope/pyslope.py:Slope._analyse_circular_failure_bishop", "pyslope/pyslope.py:Slope._analyse_circular_failure_ordinary", "pyslope/pyslope.py:Slope.update_analysis_options"]}
{"id": "C99", "title": "More slices and more turns tend to the solution of one integral equation", "statement": "For a circle that leans one way through dry soil and is cut into n slices, let F(n, J) be Bishop's answer after J turns. For every n the answers tend to the exact solution for those slices as J grows, and these solutions tend to a number f as n grows. For every J the answers tend to a limit as n grows, and these limits tend to the same f as J grows. f is positive and it is the one positive solution of Bishop's equation written with integrals along the base of the circle in place of sums over slices, line loads as separate terms.", "quantifier": "all reachable dry slopes in which every material has cohesion or friction, all circles that lean one way below the ground and have no line load exactly at the entry or above a point where the base changes layer, all numbers of slices and turns", "why_tests_cant": "Neither the exact solution for n slices nor the solution of the integral equation is a number the code ever computes, and exchanging two limits cannot be observed from finitely many runs.", "anchors": ["pyslope/pyslope.py:Slope._analyse_circular_failure_bishop", "pyslope/pyslope.py:Slope._analyse_circular_failure_ordinary", "pyslope/pyslope.py:Slope.update_analysis_options"]}
{"id": "C100", "title": "What bringing the database up to date does to stored rows", "statement": "Running the thirteen migrations of the web app on an empty database makes exactly the tables of slope/models.py, by way of the stages written out one by one. On a database that stands at any stage k and holds any rows its tables allow, the run stops exactly if k < 8 and a material is stored, or k = 8 and a stored material has no colour; it then stands at stage 8, and otherwise at 13 with rows the models allow. In both cases every row is still there in the same order with every value, except that a missing name of a material may have become \"Fill\" and that, for k < 7, colours of materials may be gone. A run that stops from k < 8 has taken away the colour of every material, and running again stops at once and changes nothing.", "quantifier": "for all stages k, all databases that conform to the schema of that stage, all numbers of rows and all values, every arithmetic", "why_tests_cant": "Migrations are normally tested on an empty database, where nothing can go wrong; the failure needs stored rows of an earlier stage.", "anchors": ["slope/models.py:MaterialModel", "slope/models.py:LineLoadModel", "slope/models.py:LimitsModel", "slope/migrations/0001_initial.py:Migration", "slope/migrations/0007_auto_20220411_0856.py:Migration", "slope/migrations/0008_materialmodel_color.py:Migration", "slope/migrations/0009_auto_20220415_1142.py:Migration", "slope/migrations/0013_rename_pointloadmodel_lineloadmodel.py:Migration"]}
{"id": "C101", "title": "Order does not matter, and a circle more can only lower the factor", "statement": "Giving the circles or the loads in another order stores the same circles with the same factors and reports the same factor. Adding a circle to circles the user gave reports the smaller of the old factor and the factor of the new circle (nothing changes if the circle misses the ground or has no factor; if the new circle raises, so does the analysis). The automatic search does not have the second property: more circles, wider limits, or giving the first circle can raise the reported factor, because the grid of entry and exit points moves or is dropped.", "quantifier": "all pairs of reachable slopes that differ in the order of circles and loads, all reachable slopes with given circles and all further circles", "why_tests_cant": "A test compares one order with one other; the claim is about every permutation of every list of circles and loads, and about every circle added to every list.", "anchors": ["pyslope/pyslope.py:Slope.analyse_slope", "pyslope/pyslope.py:Slope.add_single_circular_plane", "pyslope/pyslope.py:Slope._set_entry_exit_planes", "pyslope/pyslope.py:Slope.get_min_FOS"]}
{"id": "C102", "title": "Where the version comes from", "statement": "In an archive made by git the version is the least name, in the order of texts, that is marked as a tag (or, if none is, holds a digit) and starts with a digit, and git is not asked; without such a name it is \"0+unknown\" with an error. In a checkout it is the tag and the distance that git describe reports, on whatever branch, or \"0+untagged.N\" without tags. Without git it is \"0+unknown\". An answer without an error knows the commit; an answer with one names no version. Importing the package does not fail because of the version as long as git can count the commits and date them; otherwise it can, although there is an answer for this case.", "quantifier": "all lists of names, hashes and dates in an archive, all answers of git", "why_tests_cant": "A test sees the one checkout or archive it runs in; the claim covers every list of names and every combination of answers and failures of git.", "anchors": ["pyslope/_version.py:git_versions_from_keywords", "pyslope/_version.py:git_pieces_from_vcs", "pyslope/_version.py:get_versions", "pyslope/_version.py:run_command", "pyslope/_version.py:render"]}
{"id": "C103", "title": "Which calls are accepted, and how the others fail", "statement": "For every call that builds or changes a model there is a condition on its arguments under which it is accepted, and it is accepted only then; otherwise it raises ValueError, except that a text argument of a material raises AssertionError, a missing height TypeError, a right limit that is no number TypeError, an entry or exit point outside the model TypeError, equal ones ZeroDivisionError, set_materials() without any layer IndexError. Removing things, the options of the analysis and a given circle never fail.", "quantifier": "all reachable slopes, all calls other than the analyses, all arguments", "why_tests_cant": "A test tries a few bad arguments on one slope; the claim decides every argument of every kind on every slope that can be built.", "anchors": ["pyslope/data_validation.py:assert_number", "pyslope/data_validation.py:assert_positive_number", "pyslope/data_validation.py:assert_range", "pyslope/pyslope.py:Slope.set_external_boundary", "pyslope/pyslope.py:Slope.update_boundary_options", "pyslope/pyslope.py:Slope.set_materials", "pyslope/pyslope.py:Slope.set_analysis_limits", "pyslope/pyslope.py:Slope.add_single_entry_exit_plane"]}
{"id": "C104", "title": "Undoing a call restores the results; the last setting counts", "statement": "A call that names everything its topic consists of (water table, its factor, limits, analysis options, given circles) has the same effect after any number of other calls on the topic. Assigning a load or a layer and removing it again gives back a slope that is accepted, raises and answers as before, if the model was large enough for it, it has no equal in the slope and, for a layer, its depth is not zero and the elevations of the layers are up to date; removing it and assigning it again gives back the same factors under the same conditions. A load or layer that widens the model is not undone by its removal: the factor of a given circle stays changed.", "quantifier": "all reachable slopes, all loads and layers, all sequences of calls on a topic, all later analyses", "why_tests_cant": "The tests of the removals compare the stored lists after one fixed sequence; the claim compares every later analysis of every slope.", "anchors": ["pyslope/pyslope.py:Slope.set_udls", "pyslope/pyslope.py:Slope.remove_udls", "pyslope/pyslope.py:Slope.set_lls", "pyslope/pyslope.py:Slope.remove_lls", "pyslope/pyslope.py:Slope.set_materials", "pyslope/pyslope.py:Slope.remove_material", "pyslope/pyslope.py:Slope.remove_water_table", "pyslope/pyslope.py:Slope.remove_analysis_limits", "pyslope/pyslope.py:Slope.remove_individual_planes", "pyslope/tests/test_slope.py:test_remove_udl"]}
{"id": "C105", "title": "Rounding moves the cross-section by at most 2^-50 of the model", "statement": "For every accepted call of set_external_boundary in binary64 whose height, length and minimum sizes are ordinary finite numbers, every coordinate of the cross-section is finite and differs from the exact one by at most 2^-50 of the width or the depth of the model, and the gradient by at most 2^-50 of itself. Every layer set by set_materials lies within half a unit in the last place of ground level minus depth. The ground beside the slope is the stored coordinate; on the slope its elevation differs from the exact line by at most 2^-50 of the two numbers it is the difference of.", "quantifier": "all binary64 heights from 10^-6, lengths from 0.0005, sizes and depths up to 2^900, all states, all places x", "why_tests_cant": "The tests compare a few coordinates that happen to be exact; the bound holds for every binary64 input.", "anchors": ["pyslope/pyslope.py:Slope.set_external_boundary", "pyslope/pyslope.py:Slope.set_materials", "pyslope/pyslope.py:Slope.get_external_y_intersection", "pyslope/pyslope.py:Slope.update_boundary_options"]}
{"id": "C106", "title": "Rounding moves the weight of a slice by a few units in the last place per layer and load", "statement": "The binary64 weight of a slice of given borders, top and base differs from the exact sum of layer thickness times unit weight times width, strip loads over the common width and line loads on the strip by at most (2n + 5) * 2^-53 of that weight (plus (2n + 1) * 2^-500 for underflow), where n counts the layers and loads.", "quantifier": "all views with finite non-negative weights, any number of layers and loads up to 10^12, all slices", "why_tests_cant": "The order of the sum and the number of layers are fixed in each test; the bound is for every number of layers and loads.", "anchors": ["pyslope/pyslope.py:Slope._calculate_strip_weights", "pyslope/pyslope.py:Slope._analyse_circular_failure_ordinary"]}
{"id": "C107", "title": "The ordinary factor of safety is stable under rounding unless the pull cancels", "statement": "For given binary64 slices the computed ordinary factor of safety exists and differs from the quotient of the exact sums by at most 3 (e1 + F e2) / D plus 2^-1075, where e1 and e2 are (2n + 9) * 2^-53 of the gross resistance and of the gross pull (plus 2n * 2^-500), F is the exact factor and D the exact pull, provided D exceeds 2 e2 and e1. If the exact pull is below -e2 the circle is discarded, as in exact arithmetic.", "quantifier": "all lists of slices, of any length up to 10^12, with finite weights, strengths and pressures up to 2^100 and cosines from 2^-100", "why_tests_cant": "Tests compare a factor with a reference to a few decimals for a few circles; they do not relate the error to the cancellation in the pull.", "anchors": ["pyslope/pyslope.py:Slope._analyse_circular_failure_ordinary"]}
{"id": "C108", "title": "Rounding moves the slices of a circle by a few units in the last place, and their bases by little except where the circle is steep", "statement": "Whenever the slices of a circle between two ground points are computed in binary64, there are as many as set, the width of a slice differs from (xr - xl) / n by at most 2^-50 (|xl| + |xr|), and the centre of slice i from xl + (i + 1/2)(xr - xl) / n by at most 2^-46 (|xl| + |xr|) (plus 2^-450 for underflow). The base of a slice differs from the circle below its centre line by at most 2^-48 r^2 / h plus 2^-53 |cy|, h being the height of the centre over the base, and in every case by at most 2^-24 r plus 2^-53 |cy|.", "quantifier": "all circles of radius 2^-100 to 2^400 and centres up to 2^400, all end points up to 2^397, 2 to 1000 slices, all views", "why_tests_cant": "The tests compare the factor of safety of a few circles to a few decimals; they cannot tell how much of the difference comes from the places of the slices nor bound it for other circles.", "anchors": ["pyslope/pyslope.py:Slope._analyse_circular_failure_ordinary", "pyslope/pyslope.py:Slope._analyse_circular_failure_bishop"]}
{"id": "C109", "title": "A Bishop iteration is stable under rounding unless the pull or a denominator cancels", "statement": "For given binary64 slices and a previous factor p, one computed Bishop iteration gives a factor that differs from the quotient of the exact sums by at most 3 (e1 + F e2) / D plus 2^-1075, where e1 is (2n + 30) * 2^-53 of the gross resistance, e2 is (2n + 9) * 2^-53 of the gross pull (each plus 2n * 2^-500), F the exact quotient and D the exact pull, provided D exceeds 2 e2 and e1, the resistance is at least e1 and no denominator is below 2^-48 of its gross value. If the pull or the resistance is clearly negative the circle is discarded. The answer of the whole iteration is the value of its last step; that step started closer than the tolerance, or all allowed steps were taken and none had.", "quantifier": "all lists of slices, of any length up to 10^12, with finite weights, strengths and pressures up to 2^100 and cosines from 2^-100, all previous factors from 2^-100 to 2^100, all tolerances and numbers of steps", "why_tests_cant": "Tests compare a converged factor with a reference to a few decimals for a few circles; they do not bound the error of a step nor relate it to cancellation.", "anchors": ["pyslope/pyslope.py:Slope._analyse_circular_failure_bishop"]}
{"id": "C110", "title": "Rounding moves the water pressure at a base by at most seven roundings", "statement": "The binary64 water pressure at the base of a slice differs from the exact one, head times 9.81 times the reduction under the slope, by at most 7 * 2^-53 of it plus 2^-1000, where 9.81 is the exact decimal and the head is the depth of the base below the lower of the water table and the ground, or zero.", "quantifier": "all water levels, ground and base elevations up to 2^400, all places, all reduction factors from 0 to 2", "why_tests_cant": "The head is a difference and may cancel; tests cannot show that the relative error stays small for every level.", "anchors": ["pyslope/pyslope.py:Slope._analyse_circular_failure_ordinary"]}
{"id": "C111", "title": "A slice of a circle is stable under rounding at its place", "statement": "For every slice of a circle the computed base and top elevations differ from the exact ones at the computed place x by at most e, where e is 2^-48 r^2 / h (or 2^-24 r where the circle is nearly vertical) plus 2^-53 of the centre's elevation plus 2^-49 of the crest's; h is the depth of the base below the centre. The weight of the slice, soil and loads on its strip, differs from the exact weight by at most (2n + 5) roundings of it plus 3 G b e, with G the sum of the unit weights, b the width and n the number of layers and loads. The strength used is that of the layer at the exact base unless a boundary between layers lies within e of it. The water pressure differs by at most 7 roundings plus 40 e; without a water table it is 0.", "quantifier": "all cross-sections, layers, loads and water levels of finite sizes, all circles with radius from 2^-100 to 2^300, all end points, 2 to 1000 slices, every slice", "why_tests_cant": "The error of the base grows without a fixed bound towards the ends of the circle and then feeds weight, strength and water; tests see a few slices only.", "anchors": ["pyslope/pyslope.py:Slope._analyse_circular_failure_ordinary", "pyslope/pyslope.py:Slope._calculate_strip_weights", "pyslope/pyslope.py:Slope._get_material_at_depth"]}
{"id": "C112", "title": "The angles of an analysis are stable under rounding", "statement": "The arctangent, sine, cosine and tangent used at binary64 are within one rounding plus 2^-60 of the functions of the real numbers, for every finite argument of the arctangent, for angles up to 1.99 of sine and cosine and up to 1.3 of the tangent; the constant pi is within two roundings. For every slice of a circle whose base lies at least 8 e below the centre, e being the error of the base's elevation, the computed cosine differs from h / r and the computed sine from (cx - x) / r by at most 7 roundings plus 5 e / r, although both go through a division, an arctangent and a sine. The coefficient of friction of a material made with a friction angle of at most 74 degrees differs from the tangent of that angle by at most 80 roundings of it plus 2^-59.", "quantifier": "all finite arguments of the functions in the stated ranges; all cross-sections and circles of C111 and every slice; all materials the constructor accepts with friction angle up to 74 degrees", "why_tests_cant": "Near the ends of a circle the quotient fed to the arctangent grows without bound and its error with it; that the angle stays accurate is a statement about all circles and all places.", "anchors": ["pyslope/pyslope.py:Slope._analyse_circular_failure_ordinary", "pyslope/pyslope.py:Material.__post_init__"]}
{"id": "C113", "title": "The ordinary factor of a circle is stable under rounding from the cross-section to the answer", "statement": "Take any circle through a stored cross-section that yields slices. Let e bound the error of the elevation of each base as in C111, let every base lie at least 16 e below the centre and no boundary between layers within e of a base. Then, with the weight, cohesion, friction, water pressure, cosine and sine of each slice replaced by the exact ones at the place of the slice, the computed ordinary factor differs from the exact sum of resistances over the exact sum of pulls by at most 3 (e1 + F e2) / P, where P is the exact pull, F the exact factor, and e1 and e2 are sums over the slices of explicit error terms that are linear in e and in the rounding unit. If the exact pull is clearly positive there is an answer; if it is clearly negative there is none. The same holds for any list of slices whose numbers are near exact ones.", "quantifier": "all cross-sections with any number of layers, strip and line loads, with or without water, and all circles in the stated ranges; all lists of slices near exact ones", "why_tests_cant": "The error of an answer is the sum of errors of hundreds of operations whose size depends on the circle; a test can compare with another program at one circle but not bound the error at all of them.", "anchors": ["pyslope/pyslope.py:Slope._analyse_circular_failure_ordinary", "pyslope/pyslope.py:Slope._calculate_strip_weights"]}
{"id": "C114", "title": "The Bishop factor of a circle is stable under rounding from the cross-section to the answer", "statement": "If the Bishop analysis of a circle answers F, then F is the value of its last iteration, from some p, on the slices of the circle; either F and p are closer than the tolerance as the program computes it, or the greatest number of iterations was made and none of them was. Under the hypotheses of C113 on the circle, and if no denominator of the iteration is lost in cancellation, the iteration from p gives a number that differs from the exact step by at most 3 (e1 + G e2) / P: the exact step G is the sum of the exact terms over the exact pull P, and e1 and e2 are sums over the slices of explicit error terms linear in the error of the bases and in the rounding unit. If the exact pull or the exact sum is clearly negative there is no answer. If the iteration stopped because of the tolerance, q solves the exact equation and the exact step from p and q differ by m |p - q| with m < 1, then |F - q| is at most the rounding error plus m times the tolerance, divided by 1 - m.", "quantifier": "all cross-sections with any number of layers, strip and line loads, with or without water, all circles and all previous factors in the stated ranges; all lists of slices near exact ones", "why_tests_cant": "The program reports no error bound; a test compares F with another program at one circle and cannot tell tolerance, rounding and slope of the iteration apart at all of them.", "anchors": ["pyslope/pyslope.py:Slope._analyse_circular_failure_bishop", "pyslope/pyslope.py:Slope._analyse_circular_failure_ordinary"]}
{"id": "C115", "title": "The crossings of a circle with the ground are stable under rounding", "statement": "Let S bound the coordinates, relative to the centre, and the radius. If the squared distance L of the two points of the line is at least 1000 u S^2 and Q = r^2 L - (twice the area of the triangle of the centre and the two points)^2 is at least 1000 u S^4, the program returns exactly two points, and they lie within 2^-40 S^5 / (L sqrt Q) of the two common points of the circle and the line, each of them near a different one. If Q is below -500 u S^4 it returns none. If each of the three lines of the ground clearly cuts or clearly misses the circle in this sense, every point that the program returns for the ground lies over its stretch of the ground (crest, face or toe) and within the stated distance of a common point of the circle and the line of that stretch.", "quantifier": "all lines, circles and cross-sections whose numbers are finite binary64 numbers with S between 2^-50 and 2^100", "why_tests_cant": "The points of a test are compared with a tolerance chosen by hand; nothing in a test says how the error grows when the line is nearly tangent.", "anchors": ["pyslope/utilities.py:cirle_line_intersection", "pyslope/pyslope.py:Slope._get_circle_external_intersection"]}
{"id": "C116", "title": "The keywords read out of a version file are those of its last fitting lines", "statement": "The lines of a file make up its text. Each of the three keywords has the value of the last line that begins, after blanks, with its name and ' =' and fits the pattern; without such a line it has none; the value is unique. A line fits the pattern with the text between the first quote after the leftmost sign of equality that only blanks and a quoted text follow and the last quote of the line. A file that cannot be opened gives no keywords and the method is not used. The file of the module with three assignments of texts without an end of line, the other lines being no lines of a keyword, is read back to these texts. A registered handler is found under its names and no other handler changes.", "quantifier": "all texts, all files, all registries of handlers", "why_tests_cant": "The function is not called by the package itself and has no test; a test would read one file.", "anchors": ["pyslope/_version.py:git_get_keywords", "pyslope/_version.py:git_versions_from_keywords", "pyslope/_version.py:register_vcs_handler", "pyslope/_version.py:get_keywords"]}
{"id": "C117", "title": "The command line starts the three commands in order and goes on whatever their codes", "statement": "run_django_server starts migrate, collectstatic and runserver in this order, each after the one before has ended, with whatever code; Ctrl-C ends the row with a message and a normal return, any other failure to run a command ends it with an exception, and no later command is started. cli makes exactly one such row when the module is not the main one; under the name __main__ the function never returns normally and starts the rows again and again. main of manage.py keeps the settings module that the environment names, names engineering.settings otherwise and changes no other variable.", "quantifier": "all ways in which the commands can end, in any number of turns; all environments", "why_tests_cant": "The commands start a server and have no tests; the recursion under __main__ cannot be run to its end.", "anchors": ["pyslope/cli.py:run_django_server", "pyslope/cli.py:cli", "manage.py:main"]}
{"id": "C118", "title": "A circle that clearly cuts the ground at two points is analysed between these two", "statement": "Let the numbers of the cross-section and of the circle be finite, bounded by S, and let the circle cut the ground, over the reals, at A and B with more than 0.02 and the error bounds of C115 between them: at the crest and the toe, at the crest and the face, at the face and the toe, or twice at the face; the two points lie over their stretches by more than the error bound, the other common points of the circle with the lines of these stretches lie on the far side (crest, toe) or off the stretch (face), and the third line has no common point over its stretch within the error bound. Then the program finds exactly two points, takes them as the ends of the failure surface in the order from left to right, and each coordinate is within the error bound of C115 of the coordinate of A and of B.", "quantifier": "all cross-sections and circles whose numbers are finite binary64 numbers with S between 2^-50 and 2^100", "why_tests_cant": "Which points are kept depends on comparisons of rounded numbers; tests see single circles and cannot show that rounding never makes the program take the wrong pair.", "anchors": ["pyslope/pyslope.py:Slope._get_circle_external_intersection", "pyslope/utilities.py:cirle_line_intersection", "pyslope/pyslope.py:Slope._analyse_circular_failure_bishop"]}
{"id": "C119", "title": "The circle laid through two points of the ground passes through both, up to rounding", "statement": "Let two points (left before right) and the distance t from their chord to the arc be finite binary64 numbers, coordinates bounded by S, and let the program get as far as the angle of the chord and half its length without an exception. Over the reals there is a circle through both points whose arc lies t below the chord, with radius R. The radius the program computes is within 1850*2^-53*R of R, each coordinate of the centre it computes is within 1900*2^-53*(S+3R) of the exact centre, and the distance of each of the two points from the computed centre is the computed radius up to 2^-39*(S+R). The first circle generated for a pair of points is of this kind, and if it cuts the ground twice it is the first that is analysed.", "quantifier": "all pairs of points and distances of finite binary64 numbers with S at most 2^100, the points at least 2^-100 apart in x and t between 2^-100 and 2^100", "why_tests_cant": "The centre comes from an arctangent, a sine, a cosine, a root and a quotient of rounded numbers; tests see single pairs of points and cannot bound the error for all of them.", "anchors": ["pyslope/pyslope.py:Slope._generate_planes", "pyslope/utilities.py:circle_radius_from_abcd", "pyslope/utilities.py:circle_centre", "pyslope/utilities.py:mid_coord"]}
{"id": "C120", "title": "The circles tried for two points of the ground have the radii they should have, up to rounding", "statement": "Let two points (left before right) have finite binary64 coordinates bounded by S, on a chord of length D that is at most 1024 times its horizontal extent. The start of the search over the circles of these points never fails; half the chord is found up to 300*2^-53 of it, and the distance from the chord to the first arc up to 2^-30 of the first radius P = 1.1*(D/2)/cos(beta). Every circle analysed comes from a turn k of the n turns, later circles from later turns; the distance t of that turn is k/n of the exact first distance up to 2^-30*P*k/n, and the radius is ((D/2)^2+t^2)/(2t) up to 1850*2^-53 of it. The first circle passes through both points as in C119, and it is the first analysed if it cuts the ground twice.", "quantifier": "all pairs of points with S at most 2^89 and a horizontal extent of at least 2^-39, all cross-sections, all n up to 2^30", "why_tests_cant": "The first distance is a difference of two close numbers, so its error depends on the chord; tests see single pairs of points and cannot bound it for all.", "anchors": ["pyslope/pyslope.py:Slope._generate_planes", "pyslope/utilities.py:circle_radius_from_abcd"]}
{"id": "C121", "title": "The first circle tried for two points is analysed from the one on the crest and to the one on the toe, up to rounding", "statement": "Let l be a point on the crest and r a point on the toe as in C120, and let the circle of the first turn, as computed, clearly cut the crest and the toe and pass the face as in C118, its centre lying between l and r. Then it is the first circle analysed for the pair, and the end points of its failure surface are l and r: the levels up to the error bound of C115, the horizontal coordinates up to this bound plus 2^-38*(S+rad)*(2*rad+2^-38*(S+rad))/m, where rad is the computed radius and m the horizontal distance of the point from the centre. If the exit is on the face instead (the circle cuts crest and face and passes the toe) the same holds of the point on the crest where the surface begins; if the entry is on the face (the circle cuts face and toe and passes the crest) it holds of the point on the toe where the surface ends. In both cases the other end is the crossing with the face up to the error bound of C115.", "quantifier": "all cross-sections and pairs of points of finite binary64 numbers with the bounds of C118 and C120, all numbers of circles up to 2^30", "why_tests_cant": "The end points are found by cutting a rounded circle with the ground; tests see single pairs and cannot bound how far the ends move for all.", "anchors": ["pyslope/pyslope.py:Slope._generate_planes", "pyslope/pyslope.py:Slope._get_circle_external_intersection", "pyslope/utilities.py:cirle_line_intersection"]}
{"id": "C122", "title": "The texts of materials, loads and slopes tell their numbers", "statement": "Two materials have equal texts exactly when they have the same name, whatever characters it contains, and the same texts of unit weight, friction angle, cohesion and depth; two strip loads exactly when the texts of magnitude, offset and length are the same and both or none have a length; two line loads exactly when the texts of magnitude and offset are the same; two slopes exactly when height and length rounded to three decimals have the same texts. Objects of different kinds never have the same text. Colour, movability and the other properties of a slope are not told. Each number stands after its own label and ends at the next separator.", "quantifier": "all materials, loads and slopes of any numeric type, all ways to write a number without parentheses, commas, blanks and the letters V and H", "why_tests_cant": "The doctests show single texts; that a name can contain any text makes it necessary to show that the parts can always be told apart.", "anchors": ["pyslope/pyslope.py:Material.__repr__", "pyslope/pyslope.py:Udl.__repr__", "pyslope/pyslope.py:LineLoad.__repr__", "pyslope/pyslope.py:Slope.__repr__"]}
