{
 "claims": [
  {
   "property": "C01",
   "status": "proved",
   "theorems": [
    "C01_failed_conversion_writes_nothing"
   ],
   "note": ""
  },
  {
   "property": "C02",
   "status": "proved",
   "theorems": [
    "C02_output_is_header_and_numbered_pages"
   ],
   "note": ""
  },
  {
   "property": "C03",
   "status": "proved",
   "theorems": [
    "C03_items_do_not_influence_each_other"
   ],
   "note": ""
  },
  {
   "property": "C04",
   "status": "partial",
   "theorems": [
    "C04_generating_twice_refuted",
    "C04_generating_twice_partial"
   ],
   "note": "False as stated: the points of dimensions are rotated in place, so a second generation rotates them again (witness: a dim in view X+). Proved when every triple is left alone by the view of its draw."
  },
  {
   "property": "C05",
   "status": "proved",
   "theorems": [
    "C05_triples_rotated_at_most_once",
    "C05_used_values_rotated_once"
   ],
   "note": "Failing generations rotate each triple at most once; successful ones exactly once."
  },
  {
   "property": "C06",
   "status": "proved",
   "theorems": [
    "C06_duplicate_properties_rejected"
   ],
   "note": ""
  },
  {
   "property": "C07",
   "status": "proved",
   "theorems": [
    "C07_unknown_properties_rejected"
   ],
   "note": ""
  },
  {
   "property": "C08",
   "status": "proved",
   "theorems": [
    "C08_incomplete_dimensions_rejected"
   ],
   "note": ""
  },
  {
   "property": "C09",
   "status": "proved",
   "theorems": [
    "C09_duplicate_model_rejected",
    "C09_unreadable_model_rejected",
    "C09_unknown_model_rejected",
    "C09_unknown_view_rejected"
   ],
   "note": ""
  },
  {
   "property": "C10",
   "status": "proved",
   "theorems": [
    "C10_place_is_always_a_location",
    "C10_no_script_trips_the_assertion"
   ],
   "note": ""
  },
  {
   "property": "C11",
   "status": "proved",
   "theorems": [
    "C11_models_are_what_their_sources_resolve_to",
    "C11_only_the_resolved_files_matter",
    "C11_resolution_is_unique"
   ],
   "note": ""
  },
  {
   "property": "C12",
   "status": "partial",
   "theorems": [
    "C12_relative_names_stay_inside_refuted",
    "C12_relative_names_stay_inside_partial"
   ],
   "note": "False as stated: the default --load_path is empty and its one entry makes '/name' a candidate, and '..' leaves the directories. Proved when no entry is empty and no name has a '..' component."
  },
  {
   "property": "C13",
   "status": "proved",
   "theorems": [
    "C13_exactly_the_supported_lines_are_read"
   ],
   "note": "For arithmetics whose comparisons are those of numbers; numerals never read as NaN. Earlier facets must have three vertices (see C15)."
  },
  {
   "property": "C14",
   "status": "proved",
   "theorems": [
    "C14_one_facet_per_block_in_order"
   ],
   "note": ""
  },
  {
   "property": "C15",
   "status": "partial",
   "theorems": [
    "C15_reads_in_bounds_refuted",
    "C15_out_of_bounds_only_for_short_facets_partial"
   ],
   "note": "False as stated: 'facet normal 0 0 1' followed by 'endfacet' indexes an empty vector (witness). Proved: reading leaves bounds exactly when a facet with a non-zero normal is closed before its third vertex, and the text up to there is supported."
  },
  {
   "property": "C16",
   "status": "proved",
   "theorems": [
    "C16_facet_normal_and_plane"
   ],
   "note": ""
  },
  {
   "property": "C17",
   "status": "proved",
   "theorems": [
    "C17_named_views_are_rotations",
    "C17_angle_views_are_rotations"
   ],
   "note": ""
  },
  {
   "property": "C18",
   "status": "proved",
   "theorems": [
    "C18_rotating_keeps_facets_proper"
   ],
   "note": ""
  },
  {
   "property": "C19",
   "status": "proved",
   "theorems": [
    "C19_culling_keeps_exactly_the_front_facets"
   ],
   "note": "Any arithmetic, NaN normals included."
  },
  {
   "property": "C20",
   "status": "proved",
   "theorems": [
    "C20_limits_is_the_tight_box"
   ],
   "note": "Any arithmetic with ordered comparisons (proved for binary64 and for exact reals), vertices without NaN."
  },
  {
   "property": "C21",
   "status": "proved",
   "theorems": [
    "C21_place_is_the_centre"
   ],
   "note": "Exact arithmetic. The box is that of the facets not turned away from the viewer (the ones shown), not of all facets."
  },
  {
   "property": "C22",
   "status": "proved",
   "theorems": [
    "C22_points_is_the_vertex_set"
   ],
   "note": "As C20. 'No point twice' up to numerical equality (signed zeros coincide)."
  },
  {
   "property": "C23",
   "status": "proved",
   "theorems": [
    "C23_every_side_is_indexed_once"
   ],
   "note": "Any ordered arithmetic; edges are compared as undirected segments up to numerical equality."
  },
  {
   "property": "C24",
   "status": "proved",
   "theorems": [
    "C24_smooth_edges_are_suppressed"
   ],
   "note": "Same hypotheses as C23; stated separately for any result of index."
  },
  {
   "property": "C25",
   "status": "proved",
   "theorems": [
    "C25_crossings_are_recorded_once"
   ],
   "note": "Any arithmetic. Also says exactly which pairs are recorded and with which point."
  },
  {
   "property": "C26",
   "status": "proved",
   "theorems": [
    "C26_at_most_five_hidden_points",
    "C26_indices_stay_in_range"
   ],
   "note": "Any arithmetic. Second theorem: indexing ends the process exactly when the order given to std::map is not a strict weak order on the sides; line generation only by the two CHECKs or by a std::sort without a strict weak order, never by an out of range access."
  },
  {
   "property": "C27",
   "status": "proved",
   "theorems": [
    "C27_line_generation_never_aborts"
   ],
   "note": "binary64 with rounding, any libm, either association of three term sums. Normals and plane offsets are unrestricted (NaN allowed)."
  },
  {
   "property": "C28",
   "status": "proved",
   "theorems": [
    "C28_lines_are_the_edge_minus_its_hidden_spans"
   ],
   "note": ""
  },
  {
   "property": "C29",
   "status": "proved",
   "theorems": [
    "C29_only_covered_points_are_erased"
   ],
   "note": ""
  },
  {
   "property": "C30",
   "status": "proved",
   "theorems": [
    "C30_everything_behind_a_facet_is_erased"
   ],
   "note": ""
  },
  {
   "property": "C31",
   "status": "proved",
   "theorems": [
    "C31_comparisons_are_strict_weak_orders",
    "C31_doubles_are_ordered"
   ],
   "note": "Any ordered arithmetic; binary64 is shown to be one, with ok = not NaN."
  },
  {
   "property": "C32",
   "status": "partial",
   "theorems": [
    "C32_near_is_nearest_refuted",
    "C32_near_of_a_vertex",
    "C32_near_is_nearest_partial",
    "C32_near_fails_only_then",
    "C32_near_uses_its_argument"
   ],
   "note": "False as stated: when every squared distance reaches DBL_MAX the result is the origin (witness: vertices at 1e200). Proved: a vertex is returned unchanged; otherwise the nearest projection when no distance is NaN and one is below DBL_MAX. Failure is characterised exactly."
  },
  {
   "property": "C33",
   "status": "partial",
   "theorems": [
    "C33_closest_returns_count_points_refuted",
    "C33_closest_returns_count_points_partial",
    "C33_number_of_points_partial"
   ],
   "note": "False as stated: a point farther than the last kept one is dropped even when the list is not full (witness: [1,0],[2,0], count 2). Proved for lists sorted far to near without coinciding points. Also proved: for points none of which coincide, exactly min(count, number of points not farther than the first vertex) points are returned."
  },
  {
   "property": "C34",
   "status": "proved",
   "theorems": [
    "C34_closest_never_prefers_a_farther_point"
   ],
   "note": "Any ordered arithmetic (binary64 and exact)."
  },
  {
   "property": "C35",
   "status": "proved",
   "theorems": [
    "C35_between_is_the_open_ring",
    "C35_in_ring_means_strictly_between"
   ],
   "note": "Exact arithmetic."
  },
  {
   "property": "C36",
   "status": "proved",
   "theorems": [
    "C36_fit_is_exact_on_circles",
    "C36_few_points_fail",
    "C36_fit_is_the_least_squares_circle"
   ],
   "note": "Exact arithmetic; also characterises the result as the unique least-squares circle."
  },
  {
   "property": "C37",
   "status": "proved",
   "theorems": [
    "C37_fit_follows_translation",
    "C37_fit_follows_scaling",
    "C37_fit_follows_every_rigid_motion"
   ],
   "note": "Exact arithmetic; also for every rigid motion."
  },
  {
   "property": "C38",
   "status": "proved",
   "theorems": [
    "C38_dia_and_rad_need_a_finite_first_fit",
    "C38_center_needs_a_finite_first_fit",
    "C38_vertices_on_a_line_are_rejected"
   ],
   "note": "In binary64, with any math library; the third theorem says in exact arithmetic which point sets are rejected."
  },
  {
   "property": "C39",
   "status": "proved",
   "theorems": [
    "C39_dim_prints_the_length_along_its_direction"
   ],
   "note": "Exact arithmetic."
  },
  {
   "property": "C40",
   "status": "proved",
   "theorems": [
    "C40_angle_prints_the_angle_between_its_sides",
    "C40_exchanging_the_sides_changes_nothing"
   ],
   "note": "Exact arithmetic; degrees use the program's 3.1415926535897932."
  },
  {
   "property": "C41",
   "status": "proved",
   "theorems": [
    "C41_dimension_adds_all_parts_or_nothing"
   ],
   "note": ""
  },
  {
   "property": "C42",
   "status": "proved",
   "theorems": [
    "C42_drawing_is_scaled_and_shifted"
   ],
   "note": ""
  },
  {
   "property": "C43",
   "status": "partial",
   "theorems": [
    "C43_text_survives_quoting_refuted",
    "C43_quoted_strings_read_back_partial",
    "C43_text_survives_quoting_partial",
    "C43_whole_output_reads_back_partial"
   ],
   "note": "False for a carriage return, which PostScript reads as a line feed inside a string; proved for every other string, for one item amid any program and for whole outputs."
  },
  {
   "property": "C44",
   "status": "partial",
   "theorems": [
    "C44_diameter_labels_are_well_formed_refuted",
    "C44_diameter_labels_are_well_formed_partial"
   ],
   "note": "False when fmt has an unbalanced parenthesis or a trailing backslash (the label is written raw); proved: the label is a well formed string exactly when the formatted number is."
  },
  {
   "property": "C45",
   "status": "partial",
   "theorems": [
    "C45_names_stay_in_comments_refuted",
    "C45_names_stay_in_comments_partial"
   ],
   "note": "False for names with a line end; proved for all other names."
  },
  {
   "property": "C46",
   "status": "proved",
   "theorems": [
    "C46_lines_of_a_text"
   ],
   "note": "Exact arithmetic."
  },
  {
   "property": "C47",
   "status": "proved",
   "theorems": [
    "C47_title_and_its_box_come_last"
   ],
   "note": "Double arithmetic; 161 is the largest such length."
  },
  {
   "property": "C48",
   "status": "partial",
   "theorems": [
    "C48_only_finite_numbers_partial",
    "C48_finite_doubles_partial",
    "C48_lengths_in_doubles_partial",
    "C48_dims_in_doubles_partial",
    "C48_negative_scale_refuted",
    "C48_only_finite_numbers_refuted"
   ],
   "note": "False: scale = 1:0, and a dia or rad whose direction is the viewing direction, print nan. Proved in exact arithmetic for positive scales and directions not seen end on: every number of every page is a real number and every number written is the print of one. Proved in doubles, with overflow and rounding, for drawings without dimensions at any scale a:b with b not 0, with vertices up to 2^500. Proved in doubles for drawings with linear dimensions at positive scales, vertices up to 2^400 and points not given by center (C48_lengths_in_doubles_partial), and with dimensions of every kind and center when the circles used are within 2^390, the directions of angles, dias and rads are not below 2^-390 on every axis, and atan2 of bounded numbers is bounded (C48_dims_in_doubles_partial). The remaining case, dimensions at negative scales, is false: a dim seen end on at scale -1:1 prints nan (C48_negative_scale_refuted)."
  },
  {
   "property": "C49",
   "status": "proved",
   "theorems": [
    "C49_spelled_strings_are_read_back",
    "C49_decoding_stays_inside",
    "C49_scanning_never_fails"
   ],
   "note": ""
  },
  {
   "property": "C50",
   "status": "partial",
   "theorems": [
    "C50_no_part_is_lost_refuted",
    "C50_no_part_is_lost_partial"
   ],
   "note": "False as stated: a NUL byte inside a literal makes NewQuote (called with yytext as a C string) lose the text. Proved for every literal without NUL bytes."
  },
  {
   "property": "C51",
   "status": "proved",
   "theorems": [
    "C51_every_byte_once",
    "C51_tokens_are_the_pieces_that_are_not_skipped"
   ],
   "note": ""
  },
  {
   "property": "C52",
   "status": "proved",
   "theorems": [
    "C52_keywords_are_whole_words",
    "C52_identifiers_are_not_keywords"
   ],
   "note": ""
  },
  {
   "property": "C53",
   "status": "proved",
   "theorems": [
    "C53_accepted_iff_derivable",
    "C53_token_sequences",
    "C53_unambiguous"
   ],
   "note": ""
  },
  {
   "property": "C54",
   "status": "proved",
   "theorems": [
    "C54_layout_does_not_matter",
    "C54_accepted_scripts_are_arranged_tokens",
    "C54_layout_does_not_change_the_output"
   ],
   "note": ""
  },
  {
   "property": "C55",
   "status": "proved",
   "theorems": [
    "C55_printed_documents_parse_back",
    "C55_separated_by_spaces",
    "C55_parsed_documents_can_be_printed"
   ],
   "note": "Spelling of numbers is a parameter: a document is printable if its numbers have a spelling that the environment's stof reads back, its names are non-keyword words and its strings have no NUL. Every document the parser produces is printable whenever numbers can be spelled back."
  },
  {
   "property": "C56",
   "status": "partial",
   "theorems": [
    "C56_parsing_returns_refuted",
    "C56_parsing_returns_partial"
   ],
   "note": "False as stated: std::stof throws on a number beyond float range and a scale beyond int range is an undefined float to int conversion; both witnesses are evaluated. Proved for scripts all of whose numbers fit."
  },
  {
   "property": "C57",
   "status": "partial",
   "theorems": [
    "C57_scale_magnifies_refuted",
    "C57_scale_as_written_partial",
    "C57_scale_magnifies_partial",
    "C57_scale_in_floats_partial"
   ],
   "note": "False as stated: the numbers of a scale are converted to int, so 1.5:1 draws like 1:1. Proved with the integer parts: the numbers stored are the conversions of the numbers written; in exact arithmetic all lines, strokes and texts of the drawing are the view's lines scaled by 72*a/b plus one offset; in the program's own arithmetic the factor used is within 2^-23 of 72*a/b, relative, and equal to it when that is a float."
  },
  {
   "property": "C58",
   "status": "partial",
   "theorems": [
    "C58_failures_are_explained_refuted",
    "C58_failures_are_explained_partial",
    "C58_only_functions_are_mute_partial"
   ],
   "note": "False as stated: near() on an empty model and center() that cannot fit fail without a message. Proved: a failed conversion has a located diagnostic or uses such a function."
  },
  {
   "property": "C59",
   "status": "proved",
   "theorems": [
    "C59_diagnostics_of_all_pages_in_order",
    "C59_success_means_every_item_succeeded"
   ],
   "note": ""
  },
  {
   "property": "C60",
   "status": "proved",
   "theorems": [
    "C60_exit_status_and_output_file"
   ],
   "note": ""
  },
  {
   "property": "C61",
   "status": "proved",
   "theorems": [
    "C61_rotation_gives_no_nan",
    "C61_finite_models_can_be_rotated",
    "C61_views_have_entries_up_to_one"
   ],
   "note": "Angle views assume |sin|,|cos| <= 1 on finite numbers and angles up to 2^1000."
  },
  {
   "property": "C62",
   "status": "partial",
   "theorems": [
    "C62_omitted_place_refuted",
    "C62_omitted_place_of_text_partial"
   ],
   "note": "False for draw (no @ puts it at the page corner, @[0,0] at the page centre); proved for text."
  },
  {
   "property": "C63",
   "status": "proved",
   "theorems": [
    "C63_reasons_to_end",
    "C63_complete_list"
   ],
   "note": "The theorem with causes needs comparisons to be an order (proved for doubles in C31); the list of nine reasons holds for every arithmetic. Second example: a model whose coordinates overflow when turned trips a CHECK."
  },
  {
   "property": "C64",
   "status": "proved",
   "theorems": [
    "C64_conversions_end"
   ],
   "note": "In double arithmetic, for every libm record meeting the two stated conditions."
  },
  {
   "property": "C65",
   "status": "proved",
   "theorems": [
    "C65_dia_prints_twice_the_radius",
    "C65_rad_prints_the_radius",
    "C65_center_is_the_centre"
   ],
   "note": "Exact arithmetic."
  },
  {
   "property": "C66",
   "status": "proved",
   "theorems": [
    "C66_where_a_dim_is_drawn",
    "C66_extension_lines_are_upright"
   ],
   "note": "Exact arithmetic."
  },
  {
   "property": "C67",
   "status": "partial",
   "theorems": [
    "C67_where_a_dia_is_drawn",
    "C67_where_a_rad_is_drawn",
    "C67_leader_reaches_the_rim_refuted",
    "C67_dia_leader_reaches_the_rim_partial",
    "C67_rad_leader_reaches_the_rim_partial"
   ],
   "note": "Exact arithmetic. The last sentence is false when the label is inside the circle and more than the scale (not the radius) away from the centre: the leader then stops at the label (witness). Proved when every crossing of the label's height farther than the scale is outside the circle."
  },
  {
   "property": "C68",
   "status": "partial",
   "theorems": [
    "C68_where_an_angle_is_drawn",
    "C68_arrow_heads_end_the_arc_refuted",
    "C68_arrow_heads_end_the_arc_partial"
   ],
   "note": "Exact arithmetic. The last clause is false for sides that are not parallel to the page: the heads are then placed at foreshortened radius, inside the arc (witness). Proved for sides in the page, where all six lines are given explicitly."
  },
  {
   "property": "C69",
   "status": "proved",
   "theorems": [
    "C69_exactly_the_valid_scripts_convert"
   ],
   "note": "Any arithmetic and environment. Validity includes that turning the model and generating its lines do not end the process and that the points of the model can be put in a std::set (C29, C61, C63, C64 say when)."
  },
  {
   "property": "C70",
   "status": "partial",
   "theorems": [
    "C70_inputs_are_never_changed_refuted",
    "C70_inputs_are_never_changed_partial"
   ],
   "note": "False when the output path is also the script path; proved for every other file."
  },
  {
   "property": "C71",
   "status": "partial",
   "theorems": [
    "C71_a_missing_script_keeps_the_output_refuted",
    "C71_a_missing_script_keeps_the_output_partial"
   ],
   "note": "False: the output is truncated before the script is opened; proved when the output cannot be opened."
  },
  {
   "property": "C72",
   "status": "proved",
   "theorems": [
    "C72_order_of_loads_and_properties"
   ],
   "note": "Proved for every arithmetic and environment."
  },
  {
   "property": "C73",
   "status": "proved",
   "theorems": [
    "C73_the_picture_is_exact",
    "C73_there_is_one_picture"
   ],
   "note": "Exact arithmetic; models in which no side is shared by three visible facets. Proved with uniqueness of the picture."
  },
  {
   "property": "C74",
   "status": "partial",
   "theorems": [
    "C74_nothing_behind_a_facet_is_drawn_refuted",
    "C74_nothing_behind_a_facet_is_drawn_partial"
   ],
   "note": "False: an edge that pierces a facet from the front is drawn behind it as well (witness). Proved for edges that do not meet the inside of the facet."
  },
  {
   "property": "C75",
   "status": "proved",
   "theorems": [
    "C75_facet_order_does_not_matter",
    "C75_order_matters_where_three_facets_meet"
   ],
   "note": "Exact arithmetic; models in which no side is shared by three visible facets."
  },
  {
   "property": "C76",
   "status": "proved",
   "theorems": [
    "C76_views_move_with_the_model",
    "C76_position_and_unit_do_not_matter"
   ],
   "note": "Exact arithmetic; models in which no side is shared by three visible facets; draws without dimensions."
  },
  {
   "property": "C77",
   "status": "proved",
   "theorems": [
    "C77_drawings_stay_in_their_box"
   ],
   "note": "Exact arithmetic. Lines of the view only, not the marks of dimensions."
  },
  {
   "property": "C78",
   "status": "proved",
   "theorems": [
    "C78_named_views_turn_exactly",
    "C78_named_views_show_their_side",
    "C78_opposite_views_share_the_facets"
   ],
   "note": "binary64, any libm, models with finite coordinates."
  },
  {
   "property": "C79",
   "status": "proved",
   "theorems": [
    "C79_angles_spin_then_tilt"
   ],
   "note": "Exact arithmetic, with the program's decimal value of pi for degrees."
  },
  {
   "property": "C80",
   "status": "proved",
   "theorems": [
    "C80_names_and_paths_do_not_matter"
   ],
   "note": "Every arithmetic and environment. Two scripts with corresponding pages (properties may be reordered too)."
  },
  {
   "property": "C81",
   "status": "proved",
   "theorems": [
    "C81_pages_stand_alone"
   ],
   "note": "Every arithmetic and environment. Pages of two different scripts, at different positions; hd is the opening of a page, fixed by its number and the number of pages."
  },
  {
   "property": "C82",
   "status": "proved",
   "theorems": [
    "C82_errors_at_the_first_wrong_token",
    "C82_what_a_wrong_script_prints"
   ],
   "note": "Every arithmetic and environment. The grammar is that of token kinds; numbers out of range end in the thrown exception (C63) and are not parse errors."
  },
  {
   "property": "C83",
   "status": "partial",
   "theorems": [
    "C83_text_duplicates_are_miscalled_refuted",
    "C83_missing_directions_are_called_zero_refuted",
    "C83_messages_are_true_partial",
    "C83_messages_only_about_parsed_scripts",
    "C83_messages_name_the_line"
   ],
   "note": "Every arithmetic and environment. Two messages can be false (both refuted with witnesses): a repeated property of a text block is called a draw property, and a dir that has no value is called the zero vector in addition to the true message. The partial theorem says every message is true or one of these two."
  },
  {
   "property": "C84",
   "status": "proved",
   "theorems": [
    "C84_defects_are_reported",
    "C84_files_with_defects_are_not_converted"
   ],
   "note": "Every arithmetic and environment. Which check of a block hides which later one is part of the specification (SaySpec.v): a repeated property of a draw or text block hides the rest of that block, and so on; unknown functions, bad formats and degenerate circles are covered by C58 and C83 only."
  },
  {
   "property": "C85",
   "status": "proved",
   "theorems": [
    "C85_script_numbers_are_singles",
    "C85_scales_are_truncated",
    "C85_single_precision",
    "C85_whole_numbers_are_kept",
    "C85_ordinary_numbers_are_read",
    "C85_model_numbers_are_doubles",
    "C85_double_precision"
   ],
   "note": "Binary64, any libm. Rules for stof and RE2's double are hypotheses (TextSpec.v, text_std), met by the environment of ExText.v. Numerals that stof rejects are C56/C63."
  },
  {
   "property": "C86",
   "status": "proved",
   "theorems": [
    "C86_output_has_six_figures",
    "C86_exact_output_has_six_figures"
   ],
   "note": "Binary64 and exact arithmetic. The rule for absl's six-figure printing is a hypothesis (TextSpec.v). Numbers that are not finite are not covered (C48)."
  },
  {
   "property": "C87",
   "status": "proved",
   "theorems": [
    "C87_dim_labels",
    "C87_angle_labels",
    "C87_dia_labels",
    "C87_rad_labels"
   ],
   "note": "Exact arithmetic and points given as coordinates, as in C39, C40 and C65. The rule for %.nf is a hypothesis (TextSpec.v). Other formats are covered by C42 and C44 only."
  },
  {
   "property": "C88",
   "status": "proved",
   "theorems": [
    "C88_dim_labels_in_doubles"
   ],
   "note": "Doubles (Flocq binary64), both associations of the sums. The accuracy of sine and cosine and the rule for %.nf are hypotheses (ErrSpec.v, TextSpec.v), met by a correctly rounding library in the example."
  },
  {
   "property": "C89",
   "status": "partial",
   "theorems": [
    "C89_angle_labels_in_doubles_partial",
    "C89_parallel_sides_refuted"
   ],
   "note": "Doubles, both associations. Partial: sides within about 2^-13 of one direction are left out, since the arc cosine loses all precision there; the claim that sides in one direction are never labelled is refuted (from_dir [27 10 1], to_dir [270 100 10] in view Z+ give a label with a NaN)."
  },
  {
   "property": "C90",
   "status": "proved",
   "theorems": [
    "C90_ties_in_sorting_do_not_matter"
   ],
   "note": "Exact arithmetic. All theorems over F64 hold for every implementation of std::sort, which is a field of libm."
  },
  {
   "property": "C91",
   "status": "proved",
   "theorems": [
    "C91_views_in_doubles"
   ],
   "note": "Doubles (Flocq binary64), both associations of the sums. The accuracy of sine and cosine is a hypothesis (ErrSpec.v trig_close), met by a correctly rounding library in the example."
  },
  {
   "property": "C92",
   "status": "proved",
   "theorems": [
    "C92_lines_follow_the_sides"
   ],
   "note": "Doubles, every implementation of std::sort. That each line belongs to one edge holds in any arithmetic (P_Follow.v lines_on); which parts are hidden is not claimed here (C28 to C30 do, in exact arithmetic)."
  },
  {
   "property": "C93",
   "status": "proved",
   "theorems": [
    "C93_no_conflicts",
    "C93_tables_accept_the_grammar",
    "C93_tables_always_end",
    "C93_tables_stop_at_the_first_wrong_token",
    "C93_reasons_to_die",
    "C93_same_as_the_model",
    "C93_symbols_read",
    "C93_states",
    "C93_lookaheads"
   ],
   "note": "Lalr.v builds the tables from parser.y (95 states), LrParser.v runs them as lalr1.cc does; the proof simulates the predictive parser of Parser.v. The tables are also compared with the textbook definition of LALR(1) by valid items (LalrSpec.v): the symbols that can be read, the states and the lookaheads. Trusted: that bison computes LALR(1) tables, and that the rejected token 256 goes straight to error recovery (bison 3.6 or later)."
  },
  {
   "property": "C94",
   "status": "proved",
   "theorems": [
    "C94_objects_do_not_matter",
    "C94_deleted_once_or_kept",
    "C94_one_owner_at_every_moment",
    "C94_the_document_has_its_objects"
   ],
   "note": "LrHeap.v: the fate of each $i in each action, read off parser.y and the constructors of ast.h; containers' own memory, allocation failure and the flex buffer (not released when std::stof throws) are not counted. Excluded: the undefined conversion of a scale out of the range of int."
  },
  {
   "property": "C95",
   "status": "proved",
   "theorems": [
    "C95_lines_on_the_page",
    "C95_lines_in_the_output"
   ],
   "note": "Bounds: 2^(k+j-21)+2^-33 points, 2^(k+j-40)+2^-33 if 72a/b has at most 24 binary digits; the printed words add the rounding to six figures. Assumes sin, cos and sqrt of libm within their stated bounds (trig_close) and the printing of doubles as std::ostream does (std64)."
  },
  {
   "property": "C96",
   "status": "partial",
   "theorems": [
    "C96_success_means_complete_output_refuted",
    "C96_output_is_a_beginning_partial"
   ],
   "note": "Refuted (witness: the example script with room for 100 bytes): main never looks at the state of the stream. Partial: status and messages do not depend on the device, the file is the beginning of the drawing that fits, and is complete exactly if it fits. The device is modelled as a number of bytes that reach the file (MainIo.v)."
  },
  {
   "property": "C97",
   "status": "partial",
   "theorems": [
    "C97_cut_models_are_rejected_refuted",
    "C97_cut_models_are_beginnings_partial"
   ],
   "note": "Refuted (witness: a text cut after its fifth line is read as a model without facets). Partial: whatever the cut, the rest is refused or read as a beginning of the facets and messages of the complete text; no out-of-bounds access."
  },
  {
   "property": "C98",
   "status": "partial",
   "theorems": [
    "C98_every_lookup_is_ordered_refuted",
    "C98_checks_only_end_partial",
    "C98_exact_lookups_are_ordered_partial",
    "C98_moderate_lookups_are_ordered_partial",
    "C98_known_circles_are_ordered_partial",
    "C98_what_is_checked",
    "C98_fits_are_checked"
   ],
   "note": "Refuted (witness: two triangles near (48000000, 48000000); near(center(...)) looks up a point whose coordinates are not numbers). Partial: with the checks added the program behaves as without them or ends at a check, for every arithmetic; in exact arithmetic no check ends it; nor in doubles when models and points are of moderate size and near() is not applied to a center(), or when it is and no circle fitted to a drawn model has a center that is not a number. Missing: which models give such centers in doubles. C98_what_is_checked and C98_fits_are_checked: the checks are exactly that every lookup and insertion is ordered (specification ordered_lookups in LookSpec.v)."
  },
  {
   "property": "C99",
   "status": "proved",
   "theorems": [
    "C99_inputs_are_found",
    "C99_roots_do_not_matter",
    "C99_only_the_output_is_written"
   ],
   "note": ""
  },
  {
   "property": "C100",
   "status": "proved",
   "theorems": [
    "C100_lines_of_a_view",
    "C100_pages_are_bounded",
    "C100_output_is_bounded"
   ],
   "note": ""
  },
  {
   "property": "C101",
   "status": "partial",
   "theorems": [
    "C101_found_radius_refuted",
    "C101_rad_label_refuted",
    "C101_fit_is_close_partial",
    "C101_measured_circle_partial",
    "C101_the_order_of_the_model",
    "C101_rad_labels_partial",
    "C101_dia_labels_partial"
   ],
   "note": "Doubles, both associations, sums in any order. The full claim is refuted: 20 points exactly on a circle of radius 25 around (5000, 5000) give a radius below 24.9 whatever the order, and the label of rad says less than 24.91. Partial: the error is bounded by how well the points fix the circle (sum of the squared areas of their triangles), for points none of which is between a sixteenth and an eighth of the radius off the first circle."
  },
  {
   "property": "C102",
   "status": "proved",
   "theorems": [
    "C102_stack_follows_parentheses",
    "C102_stack_of_scripts",
    "C102_nesting_takes_stack"
   ],
   "note": "Proved for the parser driven by the LALR(1) tables (LrParser.v). The bound is attained by the example."
  },
  {
   "property": "C103",
   "status": "proved",
   "theorems": [
    "C103_two_steps_per_token",
    "C103_two_steps_per_byte",
    "C103_some_scripts_take_two"
   ],
   "note": "Proved for the parser driven by the LALR(1) tables (LrParser.v); a step is one shift or one reduction. The time of the scanner and of the actions is not counted. The factor two is reached by accepted scripts of every length from 7 tokens on (C103_some_scripts_take_two)."
  },
  {
   "property": "C104",
   "status": "proved",
   "theorems": [
    "C104_document_fits_its_script",
    "C104_bound_is_reached"
   ],
   "note": "Proved by induction over the derivations of the grammar, which C53 shows are exactly the accepted scripts. Counts parts, not the bytes of names and strings."
  }
 ]
}