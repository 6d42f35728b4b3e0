{
 "claims": [
  {
   "property": "C01",
   "status": "proved",
   "theorems": [
    "C01_material_constructor"
   ],
   "note": ""
  },
  {
   "property": "C02",
   "status": "proved",
   "theorems": [
    "C02_udl_constructor",
    "C02_line_load_constructor"
   ],
   "note": ""
  },
  {
   "property": "C03",
   "status": "partial",
   "theorems": [
    "C03_zero_height_refuted",
    "C03_nan_height_refuted",
    "C03_not_positive_partial",
    "C03_accepted",
    "C03_circle_partial"
   ],
   "note": "False as stated: zero height is accepted at the reals and NaN at binary64 (C03_*_refuted). Proved: negative numbers and non-numbers are rejected without effect, exactly what the check lets through (C03_accepted), and that a circle with a negative centre or radius, which the API stores unchecked, never gets a factor."
  },
  {
   "property": "C04",
   "status": "partial",
   "theorems": [
    "C04_geometry_consistent",
    "C04_min_height_refuted",
    "C04_min_height_after_options",
    "C04_section_partial"
   ],
   "note": "All parts proved for every history except model height >= MIN_EXT_H, which a rejected update_boundary_options call breaks (C04_min_height_refuted); it holds after every accepted one, and the exact size of the section is proved for histories without a rejected one (C04_section_partial)."
  },
  {
   "property": "C05",
   "status": "proved",
   "theorems": [
    "C05_angle_as_length",
    "C05_face_angle",
    "C05_right_angle",
    "C05_angle_ignored",
    "C05_accepted"
   ],
   "note": ""
  },
  {
   "property": "C06",
   "status": "partial",
   "theorems": [
    "C06_rejected_unchanged",
    "C06_boundary_options_refuted",
    "C06_set_materials_refuted",
    "C06_rest_partial"
   ],
   "note": "Proved for every method except update_boundary_options and set_materials, which are not atomic (witnesses). For those two the extent of the change is bounded by C06_rest_partial."
  },
  {
   "property": "C07",
   "status": "proved",
   "theorems": [
    "C07_geometry_calls",
    "C07_same_numbers_same_section",
    "C07_repeat"
   ],
   "note": ""
  },
  {
   "property": "C08",
   "status": "proved",
   "theorems": [
    "C08_surface_defined",
    "C08_surface_value",
    "C08_surface_shape",
    "C08_face_lookup",
    "C08_other_levels"
   ],
   "note": ""
  },
  {
   "property": "C09",
   "status": "proved",
   "theorems": [
    "C09_limits_ordered"
   ],
   "note": ""
  },
  {
   "property": "C10",
   "status": "proved",
   "theorems": [
    "C10_limits_stored",
    "C10_limits_rejected",
    "C10_limits_restored"
   ],
   "note": ""
  },
  {
   "property": "C11",
   "status": "partial",
   "theorems": [
    "C11_left_x_partial",
    "C11_left_x_right_partial",
    "C11_right_x_partial",
    "C11_right_x_left_refuted"
   ],
   "note": "Proved for left_x, left_x_right and right_x; right_x_left alone is always rejected because the wrong variable is validated (C11_right_x_left_refuted)."
  },
  {
   "property": "C12",
   "status": "partial",
   "theorems": [
    "C12_without_loads_partial",
    "C12_with_loads_partial",
    "C12_entry_refuted"
   ],
   "note": "False when there are loads: each load adds an entry point 1 mm left of it, inside the limits or not (C12_entry_refuted). Proved without loads, and with loads for the exact set of entry points."
  },
  {
   "property": "C13",
   "status": "proved",
   "theorems": [
    "C13_layers_ordered"
   ],
   "note": ""
  },
  {
   "property": "C14",
   "status": "proved",
   "theorems": [
    "C14_any_order",
    "C14_any_splitting"
   ],
   "note": ""
  },
  {
   "property": "C15",
   "status": "partial",
   "theorems": [
    "C15_elevations_refuted",
    "C15_elevations_partial",
    "C15_spacing_partial"
   ],
   "note": "False over histories (C15_elevations_refuted); proved for the state right after set_materials, and for every history that all layers hang below one common level."
  },
  {
   "property": "C16",
   "status": "partial",
   "theorems": [
    "C16_removed_by_depth",
    "C16_removed_object",
    "C16_remove_undoes_add",
    "C16_zero_depth_refuted"
   ],
   "note": "Proved for non-zero depths; a layer of depth 0 is not removed (C16_zero_depth_refuted)."
  },
  {
   "property": "C17",
   "status": "proved",
   "theorems": [
    "C17_colours",
    "C17_neighbours_differ"
   ],
   "note": ""
  },
  {
   "property": "C18",
   "status": "proved",
   "theorems": [
    "C18_loads_on_crest"
   ],
   "note": "Histories may contain everything except lowering MIN_EXT_L; the dynamic search is allowed on slopes of at least 1 cm length, because it tries offsets down to length - 1 cm."
  },
  {
   "property": "C19",
   "status": "partial",
   "theorems": [
    "C19_udls_refuted",
    "C19_lls_refuted",
    "C19_udls_partial",
    "C19_lls_partial"
   ],
   "note": "False when equal loads are neighbours in the list (the list is changed while it is iterated; witnesses). Proved: other loads always keep their order, and all equal loads go when no two are neighbours."
  },
  {
   "property": "C20",
   "status": "proved",
   "theorems": [
    "C20_udls_assigned",
    "C20_lls_assigned"
   ],
   "note": ""
  },
  {
   "property": "C21",
   "status": "proved",
   "theorems": [
    "C21_independent"
   ],
   "note": ""
  },
  {
   "property": "C22",
   "status": "partial",
   "theorems": [
    "C22_shared_refuted",
    "C22_kept_partial",
    "C22_same_section_partial"
   ],
   "note": "False: the elevation of a layer is stored in the shared Material, so assigning it to a second slope changes the factor of the first (witness by computation at binary64). Proved instead: no call changes strength, weight, depth, name, length, magnitude of any object or the offset of a static load (C22_kept_partial), and assigning shared objects to a slope with the same crest and top level changes no result of the other slope (C22_same_section_partial). Missing: slopes of different sections, where it is false."
  },
  {
   "property": "C23",
   "status": "proved",
   "theorems": [
    "C23_water_set",
    "C23_water_none",
    "C23_water_rejected"
   ],
   "note": ""
  },
  {
   "property": "C24",
   "status": "proved",
   "theorems": [
    "C24_factor_range",
    "C24_factor_auto",
    "C24_factor_manual",
    "C24_factor_rejected"
   ],
   "note": ""
  },
  {
   "property": "C25",
   "status": "proved",
   "theorems": [
    "C25_ordinary",
    "C25_step",
    "C25_leaning",
    "C25_minimum"
   ],
   "note": ""
  },
  {
   "property": "C26",
   "status": "proved",
   "theorems": [
    "C26_options_range",
    "C26_options_set",
    "C26_options_kept"
   ],
   "note": ""
  },
  {
   "property": "C27",
   "status": "proved",
   "theorems": [
    "C27_edit_discards",
    "C27_circle_discards",
    "C27_new_no_results"
   ],
   "note": ""
  },
  {
   "property": "C28",
   "status": "proved",
   "theorems": [
    "C28_results_current"
   ],
   "note": ""
  },
  {
   "property": "C29",
   "status": "partial",
   "theorems": [
    "C29_not_minimum_refuted",
    "C29_stale_refuted",
    "C29_reported_partial"
   ],
   "note": "False: a raised analysis leaves the untidied list, so get_min_FOS reports the factor of the first circle (C29_not_minimum_refuted) or even the factor of an older model (C29_stale_refuted). Proved for every numeric type: which circle's record is reported."
  },
  {
   "property": "C30",
   "status": "proved",
   "theorems": [
    "C30_search",
    "C30_minimum"
   ],
   "note": ""
  },
  {
   "property": "C31",
   "status": "proved",
   "theorems": [
    "C31_intersection",
    "C31_any_radius"
   ],
   "note": ""
  },
  {
   "property": "C32",
   "status": "proved",
   "theorems": [
    "C32_end_points",
    "C32_ground",
    "C32_added_circle",
    "C32_added_pair",
    "C32_search"
   ],
   "note": ""
  },
  {
   "property": "C33",
   "status": "partial",
   "theorems": [
    "C33_pair_partial",
    "C33_family",
    "C33_face_partial",
    "C33_toe_partial",
    "C33_drift_refuted"
   ],
   "note": "False beyond the first circle: the end points are overwritten by those of the previous circle (C33_drift_refuted, an exit beyond the toe). Proved: the whole family, every circle through both points, for exits on the face and for exits beyond the toe whose flattest circle stays below the ground (C33_face_partial, C33_toe_partial); otherwise for every circle whose predecessors met the ground at the requested points."
  },
  {
   "property": "C34",
   "status": "proved",
   "theorems": [
    "C34_grid",
    "C34_top",
    "C34_exact",
    "C34_stored"
   ],
   "note": ""
  },
  {
   "property": "C35",
   "status": "proved",
   "theorems": [
    "C35_no_exception",
    "C35_one_point"
   ],
   "note": "NanProduced is the model's marker for a NaN factor; numpy only warns and carries on, so it is not a Python exception. C35_one_point proves that the excluded number of loads does raise."
  },
  {
   "property": "C36",
   "status": "partial",
   "theorems": [
    "C36_rounding_refuted",
    "C36_kinds_partial"
   ],
   "note": "False: a 1 m high, 2.73 m long slope raises TypeError because the last exit point is rounded beyond the model (computed at binary64). C36_kinds_partial: in any arithmetic an analysis stops only with one of four exceptions and leaves objects and model as they were."
  },
  {
   "property": "C37",
   "status": "proved",
   "theorems": [
    "C37_layering",
    "C37_unit_weight",
    "C37_integral",
    "C37_additive",
    "C37_empty",
    "C37_bounds"
   ],
   "note": ""
  },
  {
   "property": "C38",
   "status": "proved",
   "theorems": [
    "C38_udl",
    "C38_line_load",
    "C38_total"
   ],
   "note": ""
  },
  {
   "property": "C39",
   "status": "partial",
   "theorems": [
    "C39_shared_partial",
    "C39_added_partial",
    "C39_doubled_refuted",
    "C39_lost_refuted"
   ],
   "note": "False: a load can be counted twice or not at all (computed at binary64); exact arithmetic is C38. C39_shared_partial, C39_added_partial: at binary64 exactly one slice carries a load as long as neighbouring slices compute the same border, and it is added to nothing but that slice's weight."
  },
  {
   "property": "C40",
   "status": "proved",
   "theorems": [
    "C40_base",
    "C40_lookup",
    "C40_one_layer",
    "C40_slices"
   ],
   "note": ""
  },
  {
   "property": "C41",
   "status": "proved",
   "theorems": [
    "C41_ordinary"
   ],
   "note": ""
  },
  {
   "property": "C42",
   "status": "proved",
   "theorems": [
    "C42_bishop"
   ],
   "note": ""
  },
  {
   "property": "C43",
   "status": "partial",
   "theorems": [
    "C43_no_convergence_refuted",
    "C43_converged_partial"
   ],
   "note": "False: the iteration can alternate between two values for ever (C43_no_convergence_refuted, default settings, binary64). Proved: the factor has converged or all turns were used; for circles that lean one way see C56."
  },
  {
   "property": "C44",
   "status": "proved",
   "theorems": [
    "C44_nonnegative"
   ],
   "note": ""
  },
  {
   "property": "C45",
   "status": "proved",
   "theorems": [
    "C45_factor",
    "C45_analysis"
   ],
   "note": ""
  },
  {
   "property": "C46",
   "status": "proved",
   "theorems": [
    "C46_ordinary",
    "C46_step",
    "C46_leaning"
   ],
   "note": ""
  },
  {
   "property": "C47",
   "status": "partial",
   "theorems": [
    "C47_nan_refuted",
    "C47_factor_partial",
    "C47_soft_partial"
   ],
   "note": "False: numpy divides 0 by 0 and the factor is NaN (C47_nan_refuted). Proved for every reachable slope and every leaning circle: exactly when the factor is NaN; it is 0 when max_iterations <= 0."
  },
  {
   "property": "C48",
   "status": "proved",
   "theorems": [
    "C48_search",
    "C48_offsets",
    "C48_between",
    "C48_division"
   ],
   "note": ""
  },
  {
   "property": "C49",
   "status": "proved",
   "theorems": [
    "C49_results"
   ],
   "note": ""
  },
  {
   "property": "C50",
   "status": "partial",
   "theorems": [
    "C50_continuous_refuted",
    "C50_decimal_refuted",
    "C50_raises_partial",
    "C50_trial"
   ],
   "note": "False: a continuous dynamic UDL and a Decimal critical factor (as the web form passes) raise TypeError (witnesses). Proved: the complete list of causes of an exception."
  },
  {
   "property": "C51",
   "status": "proved",
   "theorems": [
    "C51_kept"
   ],
   "note": ""
  },
  {
   "property": "C52",
   "status": "proved",
   "theorems": [
    "C52_either_order",
    "C52_outside",
    "C52_equal"
   ],
   "note": ""
  },
  {
   "property": "C53",
   "status": "partial",
   "theorems": [
    "C53_stale_refuted",
    "C53_unmoved_partial"
   ],
   "note": "False: stored end points are not updated when the boundary is edited (computed at binary64). Proved instead for every run of calls during which the ground does not move. Missing: runs that move the ground after a circle was added, where it is false."
  },
  {
   "property": "C54",
   "status": "partial",
   "theorems": [
    "C54_face_partial",
    "C54_outside_refuted"
   ],
   "note": "False: the later circles of a pair drift away from the requested end points (computed at binary64, exits beyond the toe). Proved when the exits of the search lie on the face (C54_face_partial)."
  },
  {
   "property": "C55",
   "status": "proved",
   "theorems": [
    "C55_factor"
   ],
   "note": ""
  },
  {
   "property": "C56",
   "status": "proved",
   "theorems": [
    "C56_answers",
    "C56_converges"
   ],
   "note": ""
  },
  {
   "property": "C57",
   "status": "partial",
   "theorems": [
    "C57_water_raises_refuted",
    "C57_leaning_partial",
    "C57_meaning_partial"
   ],
   "note": "False for the reported factor (0.755 dry, 0.857 with water, both converged, computed at binary64). True, and proved for the reported factor of every circle and for the minimum, when the circles were added by hand and lean one way, every layer has weight and some strength, the table is on the model and the tolerance is not positive; C25 states what is true of the iterates and their limits."
  },
  {
   "property": "C58",
   "status": "partial",
   "theorems": [
    "C58_cohesion_lowers_refuted",
    "C58_leaning_partial"
   ],
   "note": "False for the reported factor (3.446 against 0.331 with 10 kPa more cohesion, both converged, computed at binary64). True, and proved for the reported factor of every circle and for the minimum, when the circles were added by hand and lean one way, every layer has weight and some strength, friction is the same and the tolerance is not positive; C46 states what is true of the iterates and their limits."
  },
  {
   "property": "C59",
   "status": "proved",
   "theorems": [
    "C59_layers",
    "C59_outline"
   ],
   "note": ""
  },
  {
   "property": "C60",
   "status": "proved",
   "theorems": [
    "C60_found",
    "C60_circle",
    "C60_nearest",
    "C60_monotone"
   ],
   "note": ""
  },
  {
   "property": "C61",
   "status": "proved",
   "theorems": [
    "C61_points",
    "C61_near",
    "C61_sorted"
   ],
   "note": ""
  },
  {
   "property": "C62",
   "status": "proved",
   "theorems": [
    "C62_critical",
    "C62_all",
    "C62_order"
   ],
   "note": ""
  },
  {
   "property": "C63",
   "status": "proved",
   "theorems": [
    "C63_contents",
    "C63_table"
   ],
   "note": "The water line is stated for slopes of positive height; a water level of exactly 0 is not drawn."
  },
  {
   "property": "C64",
   "status": "partial",
   "theorems": [
    "C64_outcome",
    "C64_drawn",
    "C64_deeper",
    "C64_load",
    "C64_load_refuted",
    "C64_water_refuted",
    "C64_layer_refuted"
   ],
   "note": "False: TypeError after remove_udls leaves a load (C64_load, for every such state; C64_load_refuted), and after making the slope lower below a water or layer level. Proved: the exact condition, and that histories which never take single loads away and never make the model lower are always drawn."
  },
  {
   "property": "C65",
   "status": "partial",
   "theorems": [
    "C65_outcome",
    "C65_face_partial",
    "C65_found",
    "C65_cohesive_partial",
    "C65_arc_refuted",
    "C65_none_refuted",
    "C65_key_refuted"
   ],
   "note": "False: IndexError when the arc of the critical circle holds no sampled point or no circle is left, KeyError for a negative factor (max_iterations = 0, friction above 90). Proved: the exact outcome for max_iterations >= 1; and that the figures exist for searches with exits on a face no steeper than 2:1."
  },
  {
   "property": "C66",
   "status": "proved",
   "theorems": [
    "C66_closed_form",
    "C66_answers",
    "C66_water",
    "C66_linear",
    "C66_linear_search",
    "C66_linear_min"
   ],
   "note": ""
  },
  {
   "property": "C67",
   "status": "partial",
   "theorems": [
    "C67_model",
    "C67_valid",
    "C67_blank",
    "C67_blank_refuted"
   ],
   "note": "Exact outcome proved. Two material rows left blank are both given depth 5 and the request fails (C67_blank, C67_blank_refuted)."
  },
  {
   "property": "C68",
   "status": "partial",
   "theorems": [
    "C68_answered",
    "C68_cohesive",
    "C68_loads_refuted"
   ],
   "note": "False: nine loads with 500 iterations leave one entry point and the spacing divides by zero (C68_loads_refuted). Proved: the outcome is refused limits, that division, an answer, or numpy NaN with some soil that has friction; without friction always an answer."
  },
  {
   "property": "C69",
   "status": "proved",
   "theorems": [
    "C69_page",
    "C69_ranked",
    "C69_shown",
    "C69_arc",
    "C69_arc_near"
   ],
   "note": ""
  },
  {
   "property": "C70",
   "status": "proved",
   "theorems": [
    "C70_same",
    "C70_lists"
   ],
   "note": ""
  },
  {
   "property": "C71",
   "status": "proved",
   "theorems": [
    "C71_report",
    "C71_origin",
    "C71_again",
    "C71_look",
    "C71_post",
    "C71_number",
    "C71_first"
   ],
   "note": ""
  },
  {
   "property": "C72",
   "status": "proved",
   "theorems": [
    "C72_decimal",
    "C72_answer",
    "C72_endless"
   ],
   "note": ""
  },
  {
   "property": "C73",
   "status": "partial",
   "theorems": [
    "C73_rows",
    "C73_loses",
    "C73_loses_refuted"
   ],
   "note": "False beyond ten rows, where the pattern for the row number matches one digit only (C73_loses for every such deletion). Proved for up to ten rows and for deletions of the last row."
  },
  {
   "property": "C74",
   "status": "partial",
   "theorems": [
    "C74_link",
    "C74_link_refuted"
   ],
   "note": "False: an assignment stands where a comparison was meant, so changing the display limit switches the link on again (C74_link_refuted). C74_link is the exact behaviour."
  },
  {
   "property": "C75",
   "status": "partial",
   "theorems": [
    "C75_keys",
    "C75_tie_refuted"
   ],
   "note": "False exactly half way (1.25): Math.round against round-half-even. Equal everywhere else, and the two values half way are given."
  },
  {
   "property": "C76",
   "status": "partial",
   "theorems": [
    "C76_decimals",
    "C76_keeps",
    "C76_whole",
    "C76_lost_refuted"
   ],
   "note": "False for digits after three zeros (1.0005 is shown as 1). Proved: the exact rule, and nothing is lost when there are no three zeros in a row."
  },
  {
   "property": "C77",
   "status": "proved",
   "theorems": [
    "C77_limits",
    "C77_limits_binary64",
    "C77_options",
    "C77_geometry"
   ],
   "note": "For every arithmetic instance; strict order in binary64 unless a limit is NaN (which is accepted)."
  },
  {
   "property": "C78",
   "status": "proved",
   "theorems": [
    "C78_kept",
    "C78_minimum"
   ],
   "note": "Which circles are kept: every arithmetic. Order and minimum: binary64 factors other than NaN."
  },
  {
   "property": "C79",
   "status": "partial",
   "theorems": [
    "C79_nan_refuted",
    "C79_overflow_refuted",
    "C79_rejected_partial"
   ],
   "note": "False: an infinite line load makes the reported factor NaN, and a height of 1e308 is rejected after the cross-section was moved. Proved: a rejected call changed nothing or the cross-section and load coordinates only."
  },
  {
   "property": "C80",
   "status": "partial",
   "theorems": [
    "C80_cells",
    "C80_reads",
    "C80_place_refuted",
    "C80_labels",
    "C80_labels_refuted"
   ],
   "note": "Cells and labels are given exactly. False: the colour of a factor is found half a cell below its place (C80_reads; 1.27 lies in the cell of 1.2 but has the colour of 1.3), and the numbers 0, 1, 2 stand above their cells."
  },
  {
   "property": "C81",
   "status": "proved",
   "theorems": [
    "C81_slider",
    "C81_fresh"
   ],
   "note": "Every move draws anew, because the text of a number is never greater than the stored Event object (C81_fresh, every arithmetic)."
  },
  {
   "property": "C82",
   "status": "partial",
   "theorems": [
    "C82_table",
    "C82_in_order",
    "C82_layers",
    "C82_more_rows",
    "C82_swapped_refuted"
   ],
   "note": "False when the rows are not entered from the top down: row i gets the colour of the i-th layer by depth (C82_table, exact). Proved for rows in order (C82_in_order)."
  },
  {
   "property": "C83",
   "status": "partial",
   "theorems": [
    "C83_hidden",
    "C83_shown",
    "C83_rows",
    "C83_follows",
    "C83_blank_refuted"
   ],
   "note": "Hidden and shown inputs proved; but an emptied hidden input still makes the form invalid and throws the visitor back to the defaults (C83_blank_refuted)."
  },
  {
   "property": "C84",
   "status": "partial",
   "theorems": [
    "C84_button_partial",
    "C84_unnoticed",
    "C84_stale_refuted"
   ],
   "note": "False: listeners are attached once, to the input elements present at load time; drop-down lists, added rows and adding or deleting rows are not noticed (C84_unnoticed, C84_stale_refuted)."
  },
  {
   "property": "C85",
   "status": "proved",
   "theorems": [
    "C85_text",
    "C85_value"
   ],
   "note": ""
  },
  {
   "property": "C86",
   "status": "proved",
   "theorems": [
    "C86_only_numbers"
   ],
   "note": ""
  },
  {
   "property": "C87",
   "status": "partial",
   "theorems": [
    "C87_decimals_refuted",
    "C87_values_partial",
    "C87_three_partial"
   ],
   "note": "False: texts are padded to five characters, so 12.5 is printed as 12.50 and 100 as 100.0. Proved: one line per result, both numbers rounded to the nearest thousandth, with three decimals for values from 0 to 9.999. Missing: three decimals for other values, where it is false."
  },
  {
   "property": "C88",
   "status": "partial",
   "theorems": [
    "C88_tagged",
    "C88_untagged",
    "C88_described",
    "C88_read",
    "C88_text_release",
    "C88_text_moved",
    "C88_text_untagged",
    "C88_text_pre",
    "C88_text_other",
    "C88_identifies",
    "C88_release",
    "C88_one_plus",
    "C88_text_refuted",
    "C88_text_partial"
   ],
   "note": "All of it holds except that the style pep440-pre, which the project does not select, raises on a tag whose post-release part is not a number (C88_text_refuted); C88_text_partial gives the styles and tags for which a text is produced."
  },
  {
   "property": "C89",
   "status": "proved",
   "theorems": [
    "C89_levels",
    "C89_laid",
    "C89_loads",
    "C89_order",
    "C89_removed",
    "C89_undone",
    "C89_water",
    "C89_nan_accepted"
   ],
   "note": "NaN is modelled as one value; Python compares the same NaN object by identity in set(), so nothing is claimed about several NaN depths."
  },
  {
   "property": "C90",
   "status": "partial",
   "theorems": [
    "C90_factor_partial",
    "C90_analysis_partial",
    "C90_small_refuted"
   ],
   "note": "The unconditional claim is refuted by the one-centimetre rule; the condition in the partial theorems is exactly that the rule separates the same points in both slopes. The automatic search is not covered: it offsets entries next to loads by a fixed millimetre."
  },
  {
   "property": "C91",
   "status": "partial",
   "theorems": [
    "C91_ordinary_partial",
    "C91_step_partial",
    "C91_leaning_partial",
    "C91_minimum_partial",
    "C91_raises_refuted"
   ],
   "note": "The unconditional claim is refuted. The partial theorems need H = 1 or both levels at or below the toe; the minimum is covered for the ordinary method, Bishop for circles leaning one way and for single turns."
  },
  {
   "property": "C92",
   "status": "proved",
   "theorems": [
    "C92_limit",
    "C92_along",
    "C92_leaning"
   ],
   "note": "The number of slices is any natural number in the theorem; the setter takes 10 to 500. Reals, no rounding. Not covered: circles vertical at an end, a line load at the left end or above a layer boundary of the base."
  },
  {
   "property": "C93",
   "status": "proved",
   "theorems": [
    "C93_limit",
    "C93_leaning"
   ],
   "note": "As C92. C93_limit asks that no change of the limiting iterates equals the tolerance; C93_leaning needs no such condition and fixes the number of turns."
  },
  {
   "property": "C94",
   "status": "proved",
   "theorems": [
    "C94_length",
    "C94_limit",
    "C94_integral"
   ],
   "note": "Over the reals. The limit has the conditions of C92 (no line load at the left end)."
  },
  {
   "property": "C95",
   "status": "partial",
   "theorems": [
    "C95_strips",
    "C95_lines",
    "C95_slices",
    "C95_ordinary_partial",
    "C95_bishop_partial",
    "C95_clay_partial",
    "C95_minimum_partial",
    "C95_safer_refuted",
    "C95_binary_refuted"
   ],
   "note": "The literal claim is refuted, over the reals and in binary64. The partial theorems compare the base under the load with the mobilised friction. The load setters widen the section when a load needs room; the theorems ask that the ground stayed as it was. The smallest factor is covered for circles the user gave, in soils without friction."
  },
  {
   "property": "C96",
   "status": "partial",
   "theorems": [
    "C96_circle_partial",
    "C96_given_partial",
    "C96_search_partial",
    "C96_layer",
    "C96_load",
    "C96_same_soil_refl",
    "C96_automatic_refuted"
   ],
   "note": "Holds for every circle, for circles the user gave, and for the automatic search when only layers are cut. For the automatic search of a load cut in two it is refuted in binary64: the left end of every strip is an entry point."
  },
  {
   "property": "C97",
   "status": "proved",
   "theorems": [
    "C97_first_turn",
    "C97_criterion",
    "C97_sand",
    "C97_sand_minimum",
    "C97_clay",
    "C97_lower_layers",
    "C97_lower_float"
   ],
   "note": "C97_lower_layers (two soils, exact arithmetic) and C97_lower_float (one soil, binary64) are the cases in which Bishop's factor is the lower one."
  },
  {
   "property": "C98",
   "status": "proved",
   "theorems": [
    "C98_rate",
    "C98_reported",
    "C98_early_stop"
   ],
   "note": "C98_early_stop is the binary64 case in which the condition on k fails and the reported factor is 0.013 off with a tolerance of 0.005."
  },
  {
   "property": "C99",
   "status": "proved",
   "theorems": [
    "C99_exact"
   ],
   "note": "bishop_equation is the integral form of the equation, stated without the model's slices."
  },
  {
   "property": "C100",
   "status": "proved",
   "theorems": [
    "C100_fresh",
    "C100_stages",
    "C100_outcome",
    "C100_kept",
    "C100_stuck"
   ],
   "note": "The run stops at the ninth migration for any database with a material stored before the eighth, after the seventh has dropped the colours. Assumes what Django 3.2 does on SQLite (DESIGN.md)."
  },
  {
   "property": "C101",
   "status": "proved",
   "theorems": [
    "C101_order",
    "C101_more",
    "C101_add",
    "C101_automatic"
   ],
   "note": "More circles never raise the factor when they are added to circles the user gave; C101_automatic is the binary64 witness that the automatic search can get worse."
  },
  {
   "property": "C102",
   "status": "partial",
   "theorems": [
    "C102_archive",
    "C102_blanks",
    "C102_date",
    "C102_tagged",
    "C102_untagged",
    "C102_branch",
    "C102_neither",
    "C102_error",
    "C102_import_partial",
    "C102_raises",
    "C102_import_refuted",
    "C102_import_archive_refuted"
   ],
   "note": "That the import never fails because of the version is refuted (C102_import_refuted, C102_import_archive_refuted); it holds when git counts and dates the commits."
  },
  {
   "property": "C103",
   "status": "proved",
   "theorems": [
    "C103_accepted",
    "C103_raises",
    "C103_never"
   ],
   "note": ""
  },
  {
   "property": "C104",
   "status": "proved",
   "theorems": [
    "C104_last",
    "C104_strip",
    "C104_line",
    "C104_layer",
    "C104_layer_again",
    "C104_strip_again",
    "C104_line_again",
    "C104_wide"
   ],
   "note": "The conditions are part of the statement; C104_wide shows that they are needed."
  },
  {
   "property": "C105",
   "status": "proved",
   "theorems": [
    "C105_section",
    "C105_layers",
    "C105_ground"
   ],
   "note": "The angle form is covered through the stored length; the error of tan itself is not bounded."
  },
  {
   "property": "C106",
   "status": "proved",
   "theorems": [
    "C106_weight"
   ],
   "note": "The sum of the layers is the left-to-right sum of the model; numpy's own order of summation over a vector of strips does not matter here, each strip being summed layer by layer."
  },
  {
   "property": "C107",
   "status": "proved",
   "theorems": [
    "C107_factor",
    "C107_none"
   ],
   "note": "The slice data (cosine, sine, weight, strength, pressure) are taken as given binary64 numbers; the error of the library's atan, cos and sin is not part of the claim. numpy sums pairwise, the model left to right: the stated bound is that of the left-to-right sum."
  },
  {
   "property": "C108",
   "status": "proved",
   "theorems": [
    "C108_places",
    "C108_bases"
   ],
   "note": "The end points are given binary64 numbers; numpy's linspace is modelled as i * step + start with the last entry set to the end."
  },
  {
   "property": "C109",
   "status": "proved",
   "theorems": [
    "C109_step",
    "C109_none",
    "C109_answer"
   ],
   "note": "The slice data are taken as given binary64 numbers. That the exact iteration has a limit, and how far the answer is from it, is not part of this claim (see C43 and C56 for the exact iteration)."
  },
  {
   "property": "C110",
   "status": "proved",
   "theorems": [
    "C110_water"
   ],
   "note": ""
  },
  {
   "property": "C111",
   "status": "proved",
   "theorems": [
    "C111_slice"
   ],
   "note": "The exact slice is taken at the computed place, whose distance from the exact place is C108; sines and cosines are not part of the claim."
  },
  {
   "property": "C112",
   "status": "proved",
   "theorems": [
    "C112_functions",
    "C112_slice",
    "C112_friction"
   ],
   "note": "The C library's functions are not specified by IEEE-754; the theorem is about the functions the model uses in their place, and bounds how far any of them can be from the exact ones."
  },
  {
   "property": "C113",
   "status": "proved",
   "theorems": [
    "C113_sums",
    "C113_circle"
   ],
   "note": "Discontinuities stay hypotheses: a base within e of a boundary between layers, and a line load on the edge of a slice (the computed edges are used)."
  },
  {
   "property": "C114",
   "status": "proved",
   "theorems": [
    "C114_answer",
    "C114_sums",
    "C114_root",
    "C114_circle"
   ],
   "note": "That the denominators are not lost in cancellation, and that the exact step is a contraction between p and q, are hypotheses: both can fail at a steep base."
  },
  {
   "property": "C115",
   "status": "proved",
   "theorems": [
    "C115_cross",
    "C115_none",
    "C115_external"
   ],
   "note": "Lines that are nearly tangent are left out: there the number of points itself depends on rounding."
  },
  {
   "property": "C116",
   "status": "proved",
   "theorems": [
    "C116_lines",
    "C116_pattern",
    "C116_reads",
    "C116_value",
    "C116_missing",
    "C116_module",
    "C116_register"
   ],
   "note": ""
  },
  {
   "property": "C117",
   "status": "proved",
   "theorems": [
    "C117_commands",
    "C117_codes",
    "C117_once",
    "C117_main",
    "C117_settings"
   ],
   "note": "What the commands do is not modelled. The call of cli in cli.py stands inside the function itself, so running the file as a script starts nothing."
  },
  {
   "property": "C118",
   "status": "proved",
   "theorems": [
    "C118_crest_toe",
    "C118_crest_face",
    "C118_face_toe",
    "C118_face_face"
   ],
   "note": ""
  },
  {
   "property": "C119",
   "status": "proved",
   "theorems": [
    "C119_circle",
    "C119_first"
   ],
   "note": ""
  },
  {
   "property": "C120",
   "status": "proved",
   "theorems": [
    "C120_start",
    "C120_turns",
    "C120_first"
   ],
   "note": ""
  },
  {
   "property": "C121",
   "status": "proved",
   "theorems": [
    "C121_crest_toe",
    "C121_crest_face",
    "C121_face_toe"
   ],
   "note": ""
  },
  {
   "property": "C122",
   "status": "proved",
   "theorems": [
    "C122_material",
    "C122_udl",
    "C122_lload",
    "C122_slope",
    "C122_kinds",
    "C122_labels"
   ],
   "note": ""
  }
 ]
}