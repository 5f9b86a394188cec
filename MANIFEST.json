{
 "claims": [
  {
   "property": "C01",
   "status": "proved",
   "theorems": [
    "C01_quadkey_round_trip_iff",
    "C01_world_tile_refuted"
   ],
   "note": "Exact domain as an iff over all int64/uint64 field values; the world tile is the refutation witness."
  },
  {
   "property": "C02",
   "status": "proved",
   "theorems": [
    "C02_digits_are_quadkeys",
    "C02_children_extend_quadkey"
   ],
   "note": ""
  },
  {
   "property": "C03",
   "status": "proved",
   "theorems": [
    "C03_tilestr_round_trip"
   ],
   "note": ""
  },
  {
   "property": "C04",
   "status": "proved",
   "theorems": [
    "C04_file_round_trip_iff",
    "C04_every_delimiter",
    "C04_no_delimiter_panics"
   ],
   "note": "Exact domain as an iff; a '_' inside a number is treated as a syntax error by the ParseInt model."
  },
  {
   "property": "C05",
   "status": "proved",
   "theorems": [
    "C05_tile_iff_inside",
    "C05_unique_tile",
    "C05_bounds_adjacent",
    "C05_world_bounds"
   ],
   "note": ""
  },
  {
   "property": "C06",
   "status": "proved",
   "theorems": [
    "C06_children_partition",
    "C06_children_distinct"
   ],
   "note": ""
  },
  {
   "property": "C07",
   "status": "proved",
   "theorems": [
    "C07_parent_halves",
    "C07_parent_of_child",
    "C07_center_strictly_inside",
    "C07_parent_of_world_refuted"
   ],
   "note": ""
  },
  {
   "property": "C08",
   "status": "proved",
   "theorems": [
    "C08_tile_on_map",
    "C08_antimeridian_refuted",
    "C08_binary64_column",
    "C08_binary64_off_map_refuted"
   ],
   "note": ""
  },
  {
   "property": "C09",
   "status": "proved",
   "theorems": [
    "C09_encoded_parameter_is_zigzag",
    "C09_parameter_round_trip",
    "C09_parameter_bijection"
   ],
   "note": ""
  },
  {
   "property": "C10",
   "status": "proved",
   "theorems": [
    "C10_command_decodes",
    "C10_named_commands",
    "C10_count_overflow_refuted"
   ],
   "note": ""
  },
  {
   "property": "C11",
   "status": "proved",
   "theorems": [
    "C11_line_round_trip",
    "C11_float_line_round_trip",
    "C11_int32_overflow_refuted"
   ],
   "note": ""
  },
  {
   "property": "C12",
   "status": "proved",
   "theorems": [
    "C12_multiline_round_trip",
    "C12_int_multiline_round_trip"
   ],
   "note": ""
  },
  {
   "property": "C13",
   "status": "proved",
   "theorems": [
    "C13_multipolygon_round_trip",
    "C13_polygon_round_trip",
    "C13_seen_orientation",
    "C13_large_extent_refuted"
   ],
   "note": ""
  },
  {
   "property": "C14",
   "status": "proved",
   "theorems": [
    "C14_int_polygon_holes_become_polygons",
    "C14_orientations_opposite"
   ],
   "note": ""
  },
  {
   "property": "C15",
   "status": "proved",
   "theorems": [
    "C15_point_round_trip_iff",
    "C15_origin_refuted",
    "C15_multipoint_unreadable_refuted"
   ],
   "note": ""
  },
  {
   "property": "C16",
   "status": "proved",
   "theorems": [
    "C16_clamped_to_extent",
    "C16_inside_unchanged",
    "C16_outside_goes_to_edge"
   ],
   "note": ""
  },
  {
   "property": "C17",
   "status": "proved",
   "theorems": [
    "C17_unproject_project",
    "C17_round_trip_error",
    "C17_regrid_identity"
   ],
   "note": ""
  },
  {
   "property": "C18",
   "status": "proved",
   "theorems": [
    "C18_dictionary",
    "C18_values_stored_once",
    "C18_fails_iff"
   ],
   "note": ""
  },
  {
   "property": "C19",
   "status": "proved",
   "theorems": [
    "C19_lazy_round_trip",
    "C19_line_read_back",
    "C19_raw_round_trip"
   ],
   "note": ""
  },
  {
   "property": "C20",
   "status": "proved",
   "theorems": [
    "C20_properties",
    "C20_read_tile_round_trip",
    "C20_read_raw_tile_round_trip",
    "C20_own_geometry",
    "C20_ids_faithful_iff",
    "C20_id_leak_refuted"
   ],
   "note": ""
  },
  {
   "property": "C21",
   "status": "proved",
   "theorems": [
    "C21_unknown_field_never_ends",
    "C21_truncated_never_ends",
    "C21_extended_layer_never_ends",
    "C21_negative_size_never_ends",
    "C21_written_ends"
   ],
   "note": ""
  },
  {
   "property": "C22",
   "status": "proved",
   "theorems": [
    "C22_panics_become_errors",
    "C22_silent_failures_refuted",
    "C22_overlong_name"
   ],
   "note": ""
  },
  {
   "property": "C23",
   "status": "proved",
   "theorems": [
    "C23_render_reparses",
    "C23_lk_render_refuted"
   ],
   "note": ""
  },
  {
   "property": "C24",
   "status": "proved",
   "theorems": [
    "C24_tags_distinct",
    "C24_tag_decodes",
    "C24_unknown_dialect"
   ],
   "note": ""
  },
  {
   "property": "C25",
   "status": "proved",
   "theorems": [
    "C25_in_band",
    "C25_in_band_binary64"
   ],
   "note": ""
  },
  {
   "property": "C26",
   "status": "proved",
   "theorems": [
    "C26_line_clip_exact",
    "C26_empty_line_panics"
   ],
   "note": ""
  },
  {
   "property": "C27",
   "status": "proved",
   "theorems": [
    "C27_ring_repair",
    "C27_polygon"
   ],
   "note": ""
  },
  {
   "property": "C28",
   "status": "proved",
   "theorems": [
    "C28_single_piece_exact",
    "C28_other_pieces_lost",
    "C28_multiline_lost"
   ],
   "note": ""
  },
  {
   "property": "C29",
   "status": "proved",
   "theorems": [
    "C29_outside_panics",
    "C29_panic_iff_nothing_left",
    "C29_inside_survives"
   ],
   "note": ""
  },
  {
   "property": "C30",
   "status": "proved",
   "theorems": [
    "C30_partition",
    "C30_partition_tiles"
   ],
   "note": ""
  },
  {
   "property": "C31",
   "status": "proved",
   "theorems": [
    "C31_shared_tileid",
    "C31_wrong_for_the_others"
   ],
   "note": ""
  },
  {
   "property": "C32",
   "status": "proved",
   "theorems": [
    "C32_first_zoom",
    "C32_outside_world"
   ],
   "note": ""
  },
  {
   "property": "C33",
   "status": "proved",
   "theorems": [
    "C33_tolerance_respected"
   ],
   "note": ""
  },
  {
   "property": "C34",
   "status": "proved",
   "theorems": [
    "C34_only_flags_written"
   ],
   "note": ""
  },
  {
   "property": "C35",
   "status": "proved",
   "theorems": [
    "C35_distance_is_minimum"
   ],
   "note": ""
  },
  {
   "property": "C36",
   "status": "proved",
   "theorems": [
    "C36_one_point_per_cell"
   ],
   "note": ""
  },
  {
   "property": "C37",
   "status": "proved",
   "theorems": [
    "C37_fill_vals",
    "C37_get_dif"
   ],
   "note": ""
  },
  {
   "property": "C38",
   "status": "proved",
   "theorems": [
    "C38_closed_ring_box",
    "C38_open_list_refuted"
   ],
   "note": ""
  },
  {
   "property": "C39",
   "status": "proved",
   "theorems": [
    "C39_ray_parity",
    "C39_empty_ring_panics",
    "C39_representation_independent",
    "C39_rectangle"
   ],
   "note": ""
  },
  {
   "property": "C40",
   "status": "proved",
   "theorems": [
    "C40_line_cover",
    "C40_empty_line_panics"
   ],
   "note": ""
  },
  {
   "property": "C41",
   "status": "proved",
   "theorems": [
    "C41_polygon_cover_exact",
    "C41_thin_polygon_refuted"
   ],
   "note": ""
  },
  {
   "property": "C42",
   "status": "proved",
   "theorems": [
    "C42_multiline_union",
    "C42_multipolygon_union",
    "C42_multipoint_panics"
   ],
   "note": ""
  },
  {
   "property": "C43",
   "status": "proved",
   "theorems": [
    "C43_no_overlap",
    "C43_sprites_disjoint",
    "C43_duplicate_names_refuted",
    "C43_drawing_faithful"
   ],
   "note": ""
  },
  {
   "property": "C44",
   "status": "proved",
   "theorems": [
    "C44_inside_sheet"
   ],
   "note": ""
  },
  {
   "property": "C45",
   "status": "proved",
   "theorems": [
    "C45_no_panic_first_largest",
    "C45_generate_never_panics",
    "C45_unsorted_refuted"
   ],
   "note": ""
  },
  {
   "property": "C46",
   "status": "proved",
   "theorems": [
    "C46_parse",
    "C46_round_trip",
    "C46_drops_text_refuted"
   ],
   "note": ""
  },
  {
   "property": "C47",
   "status": "proved",
   "theorems": [
    "C47_between_stops",
    "C47_after_last",
    "C47_before_first",
    "C47_at_stop",
    "C47_rising_and_falling",
    "C47_falling_refuted"
   ],
   "note": ""
  },
  {
   "property": "C48",
   "status": "proved",
   "theorems": [
    "C48_between_stops",
    "C48_other_colours_panic",
    "C48_ends",
    "C48_at_stop"
   ],
   "note": ""
  },
  {
   "property": "C49",
   "status": "proved",
   "theorems": [
    "C49_validate"
   ],
   "note": ""
  },
  {
   "property": "C50",
   "status": "proved",
   "theorems": [
    "C50_new_style_set"
   ],
   "note": ""
  },
  {
   "property": "C51",
   "status": "proved",
   "theorems": [
    "C51_reads",
    "C51_panics",
    "C51_round_trip"
   ],
   "note": ""
  },
  {
   "property": "C52",
   "status": "proved",
   "theorems": [
    "C52_hex"
   ],
   "note": ""
  },
  {
   "property": "C53",
   "status": "proved",
   "theorems": [
    "C53_accepts",
    "C53_channels",
    "C53_greys"
   ],
   "note": ""
  },
  {
   "property": "C54",
   "status": "proved",
   "theorems": [
    "C54_mapbox_pack_decode",
    "C54_mapbox_decode_pack",
    "C54_mapbox_wraps"
   ],
   "note": ""
  },
  {
   "property": "C55",
   "status": "proved",
   "theorems": [
    "C55_terrarium_within_a_metre",
    "C55_terrarium_exact_iff",
    "C55_terrarium_exact_refuted"
   ],
   "note": ""
  },
  {
   "property": "C56",
   "status": "proved",
   "theorems": [
    "C56_replicated_border",
    "C56_odd_rejected"
   ],
   "note": ""
  },
  {
   "property": "C57",
   "status": "proved",
   "theorems": [
    "C57_same_size_unchanged",
    "C57_other_size",
    "C57_backfill_refuted"
   ],
   "note": ""
  },
  {
   "property": "C58",
   "status": "proved",
   "theorems": [
    "C58_bulk_read",
    "C58_transposed",
    "C58_reads_wrap"
   ],
   "note": ""
  },
  {
   "property": "C59",
   "status": "proved",
   "theorems": [
    "C59_edt1d_exact",
    "C59_short_buffer_panics"
   ],
   "note": ""
  },
  {
   "property": "C60",
   "status": "proved",
   "theorems": [
    "C60_edt_exact"
   ],
   "note": ""
  },
  {
   "property": "C61",
   "status": "proved",
   "theorems": [
    "C61_sdf_formula",
    "C61_bilevel_separates",
    "C61_thin_image_panics"
   ],
   "note": ""
  },
  {
   "property": "C62",
   "status": "proved",
   "theorems": [
    "C62_coverage",
    "C62_order_irrelevant"
   ],
   "note": ""
  },
  {
   "property": "C63",
   "status": "proved",
   "theorems": [
    "C63_glyph_range",
    "C63_range_wraps",
    "C63_no_margin_panics"
   ],
   "note": ""
  },
  {
   "property": "C64",
   "status": "proved",
   "theorems": [
    "C64_map",
    "C64_rows"
   ],
   "note": ""
  },
  {
   "property": "C65",
   "status": "proved",
   "theorems": [
    "C65_outcomes",
    "C65_atomic_refuted"
   ],
   "note": ""
  },
  {
   "property": "C66",
   "status": "proved",
   "theorems": [
    "C66_round_trip",
    "C66_identity",
    "C66_stable",
    "C66_refuted"
   ],
   "note": ""
  },
  {
   "property": "C67",
   "status": "proved",
   "theorems": [
    "C67_round_trip",
    "C67_names",
    "C67_names_refuted",
    "C67_unknown",
    "C67_content_types",
    "C67_media_types"
   ],
   "note": ""
  },
  {
   "property": "C68",
   "status": "proved",
   "theorems": [
    "C68_mesh_fields",
    "C68_detects",
    "C68_webp",
    "C68_mesh_refuted",
    "C68_open"
   ],
   "note": ""
  },
  {
   "property": "C69",
   "status": "proved",
   "theorems": [
    "C69_round_trip",
    "C69_rounding",
    "C69_panics",
    "C69_values",
    "C69_errors_refuted"
   ],
   "note": ""
  },
  {
   "property": "C70",
   "status": "proved",
   "theorems": [
    "C70_complete",
    "C70_failures",
    "C70_truncated_refuted",
    "C70_first_request"
   ],
   "note": ""
  },
  {
   "property": "C71",
   "status": "proved",
   "theorems": [
    "C71_extracts",
    "C71_single",
    "C71_several_refuted",
    "C71_relation_refuted"
   ],
   "note": ""
  },
  {
   "property": "C72",
   "status": "proved",
   "theorems": [
    "C72_tags",
    "C72_bad_key",
    "C72_fields",
    "C72_properties",
    "C72_agree",
    "C72_shadow_refuted"
   ],
   "note": ""
  },
  {
   "property": "C73",
   "status": "proved",
   "theorems": [
    "C73_IsEqual_iff"
   ],
   "note": ""
  },
  {
   "property": "C74",
   "status": "proved",
   "theorems": [
    "C74_decoder_terminates",
    "C74_decoded_polygons_wellformed",
    "C74_no_invented_points"
   ],
   "note": ""
  },
  {
   "property": "C75",
   "status": "proved",
   "theorems": [
    "C75_polygon_band",
    "C75_clip_tile",
    "C75_clipped_rings_closed",
    "C75_triangle_tip_open_refuted"
   ],
   "note": ""
  },
  {
   "property": "C76",
   "status": "proved",
   "theorems": [
    "C76_children_entries",
    "C76_polygon_membership"
   ],
   "note": ""
  },
  {
   "property": "C77",
   "status": "proved",
   "theorems": [
    "C77_point_clip_consistent"
   ],
   "note": ""
  },
  {
   "property": "C78",
   "status": "proved",
   "theorems": [
    "C78_adjacent_only_ends",
    "C78_line_cover_gap_refuted",
    "C78_between_sound",
    "C78_every_column",
    "C78_every_row",
    "C78_line_every_column",
    "C78_line_every_row"
   ],
   "note": ""
  },
  {
   "property": "C79",
   "status": "proved",
   "theorems": [
    "C79_multipolygon_band"
   ],
   "note": ""
  },
  {
   "property": "C80",
   "status": "proved",
   "theorems": [
    "C80_raw_tile_field_after_geometry_refuted",
    "C80_skip_distance"
   ],
   "note": ""
  },
  {
   "property": "C81",
   "status": "proved",
   "theorems": [
    "C81_next_layer_read_as_key"
   ],
   "note": ""
  },
  {
   "property": "C82",
   "status": "proved",
   "theorems": [
    "C82_signed_value",
    "C82_signed_value_refuted",
    "C82_unknown_value_skipped"
   ],
   "note": ""
  },
  {
   "property": "C83",
   "status": "proved",
   "theorems": [
    "C83_tags"
   ],
   "note": ""
  },
  {
   "property": "C84",
   "status": "proved",
   "theorems": [
    "C84_last_layer_of_a_name"
   ],
   "note": ""
  },
  {
   "property": "C85",
   "status": "proved",
   "theorems": [
    "C85_draw_glyph",
    "C85_margin"
   ],
   "note": ""
  },
  {
   "property": "C86",
   "status": "proved",
   "theorems": [
    "C86_edge_ramp",
    "C86_first_edge_ignored",
    "C86_bilevel_picture"
   ],
   "note": ""
  },
  {
   "property": "C87",
   "status": "proved",
   "theorems": [
    "C87_builder_options"
   ],
   "note": ""
  },
  {
   "property": "C88",
   "status": "proved",
   "theorems": [
    "C88_premultiplied",
    "C88_encode_load_read",
    "C88_save_load",
    "C88_load_outcomes"
   ],
   "note": ""
  },
  {
   "property": "C89",
   "status": "proved",
   "theorems": [
    "C89_pack_binary64",
    "C89_get_binary64",
    "C89_repack_drift",
    "C89_repack_refuted"
   ],
   "note": ""
  },
  {
   "property": "C90",
   "status": "proved",
   "theorems": [
    "C90_hsl",
    "C90_two_equal",
    "C90_round_trip_refuted",
    "C90_hsv"
   ],
   "note": ""
  },
  {
   "property": "C91",
   "status": "proved",
   "theorems": [
    "C91_parse",
    "C91_whole",
    "C91_alpha",
    "C91_alpha_monotone_refuted",
    "C91_names",
    "C91_anchored_refuted"
   ],
   "note": ""
  },
  {
   "property": "C92",
   "status": "proved",
   "theorems": [
    "C92_round_trip",
    "C92_escape",
    "C92_auth",
    "C92_once_refuted",
    "C92_deterministic"
   ],
   "note": ""
  },
  {
   "property": "C93",
   "status": "proved",
   "theorems": [
    "C93_paths",
    "C93_injective",
    "C93_confined_refuted"
   ],
   "note": ""
  },
  {
   "property": "C94",
   "status": "proved",
   "theorems": [
    "C94_covers",
    "C94_entries",
    "C94_small",
    "C94_deeper_refuted",
    "C94_point_refuted",
    "C94_multiline_refuted"
   ],
   "note": ""
  },
  {
   "property": "C95",
   "status": "proved",
   "theorems": [
    "C95_membership",
    "C95_triangle_refuted"
   ],
   "note": ""
  },
  {
   "property": "C96",
   "status": "proved",
   "theorems": [
    "C96_visits_each_once",
    "C96_end_and_reset",
    "C96_written_layer",
    "C96_stuck_feature_refuted"
   ],
   "note": ""
  },
  {
   "property": "C97",
   "status": "proved",
   "theorems": [
    "C97_pointwise",
    "C97_accuracy",
    "C97_rings_closed",
    "C97_empty_iff",
    "C97_collapse_refuted"
   ],
   "note": ""
  },
  {
   "property": "C98",
   "status": "proved",
   "theorems": [
    "C98_open",
    "C98_null_grid_refuted"
   ],
   "note": ""
  },
  {
   "property": "C99",
   "status": "proved",
   "theorems": [
    "C99_round_trip",
    "C99_accepts",
    "C99_by_value_refuted"
   ],
   "note": ""
  },
  {
   "property": "C100",
   "status": "proved",
   "theorems": [
    "C100_reads",
    "C100_outcomes",
    "C100_evaluates",
    "C100_type_ignored_refuted"
   ],
   "note": ""
  },
  {
   "property": "C101",
   "status": "proved",
   "theorems": [
    "C101_reads",
    "C101_outcomes",
    "C101_evaluates"
   ],
   "note": ""
  },
  {
   "property": "C102",
   "status": "proved",
   "theorems": [
    "C102_background",
    "C102_by_type_refuted"
   ],
   "note": ""
  },
  {
   "property": "C103",
   "status": "proved",
   "theorems": [
    "C103_outcome",
    "C103_light",
    "C103_expressions",
    "C103_panics_refuted"
   ],
   "note": ""
  },
  {
   "property": "C104",
   "status": "proved",
   "theorems": [
    "C104_layers",
    "C104_keys",
    "C104_version"
   ],
   "note": ""
  },
  {
   "property": "C105",
   "status": "proved",
   "theorems": [
    "C105_sides",
    "C105_exact",
    "C105_small_ratios",
    "C105_texture",
    "C105_round_trip",
    "C105_no_ratio",
    "C105_exact_refuted"
   ],
   "note": ""
  },
  {
   "property": "C106",
   "status": "proved",
   "theorems": [
    "C106_arc",
    "C106_panics",
    "C106_metric"
   ],
   "note": ""
  },
  {
   "property": "C107",
   "status": "proved",
   "theorems": [
    "C107_tiles",
    "C107_tile_known",
    "C107_single"
   ],
   "note": ""
  },
  {
   "property": "C108",
   "status": "proved",
   "theorems": [
    "C108_read",
    "C108_round_trip",
    "C108_failed_write"
   ],
   "note": ""
  },
  {
   "property": "C109",
   "status": "proved",
   "theorems": [
    "C109_round_trip",
    "C109_identity",
    "C109_reads",
    "C109_metadata",
    "C109_written"
   ],
   "note": ""
  },
  {
   "property": "C110",
   "status": "proved",
   "theorems": [
    "C110_round_trip",
    "C110_reads",
    "C110_values",
    "C110_identity",
    "C110_written"
   ],
   "note": ""
  },
  {
   "property": "C111",
   "status": "proved",
   "theorems": [
    "C111_tilejson",
    "C111_style",
    "C111_message",
    "C111_status_refuted",
    "C111_pages",
    "C111_page_values",
    "C111_listing"
   ],
   "note": ""
  },
  {
   "property": "C112",
   "status": "proved",
   "theorems": [
    "C112_languages",
    "C112_coverage"
   ],
   "note": ""
  },
  {
   "property": "C113",
   "status": "proved",
   "theorems": [
    "C113_create",
    "C113_tiles",
    "C113_reopen",
    "C113_metadata",
    "C113_format_refuted",
    "C113_timestamp",
    "C113_accessors",
    "C113_missing",
    "C113_answers"
   ],
   "note": ""
  },
  {
   "property": "C114",
   "status": "proved",
   "theorems": [
    "C114_accuracy",
    "C114_geometry",
    "C114_lazy",
    "C114_read_tile_some",
    "C114_read_tile",
    "C114_again",
    "C114_new_layer",
    "C114_corner_refuted",
    "C114_again_refuted"
   ],
   "note": ""
  },
  {
   "property": "C115",
   "status": "proved",
   "theorems": [
    "C115_closed",
    "C115_panic",
    "C115_twice",
    "C115_nan_refuted",
    "C115_adjacent_refuted",
    "C115_moved",
    "C115_multi",
    "C115_written"
   ],
   "note": ""
  },
  {
   "property": "C116",
   "status": "proved",
   "theorems": [
    "C116_range",
    "C116_legal",
    "C116_channels",
    "C116_back",
    "C116_two_equal",
    "C116_round_trip_refuted"
   ],
   "note": ""
  },
  {
   "property": "C117",
   "status": "proved",
   "theorems": [
    "C117_transform",
    "C117_sdf",
    "C117_bilevel_separates",
    "C117_thin_refuted"
   ],
   "note": ""
  },
  {
   "property": "C118",
   "status": "proved",
   "theorems": [
    "C118_edges",
    "C118_column",
    "C118_locate",
    "C118_neighbours",
    "C118_center",
    "C118_parent",
    "C118_parent_of_child"
   ],
   "note": ""
  },
  {
   "property": "C119",
   "status": "proved",
   "theorems": [
    "C119_panic",
    "C119_kept",
    "C119_off",
    "C119_budget",
    "C119_mean",
    "C119_nan"
   ],
   "note": ""
  },
  {
   "property": "C120",
   "status": "proved",
   "theorems": [
    "C120_regrid",
    "C120_off_map_refuted"
   ],
   "note": ""
  },
  {
   "property": "C121",
   "status": "proved",
   "theorems": [
    "C121_same_pieces",
    "C121_line",
    "C121_ring",
    "C121_tile",
    "C121_tile_refuted"
   ],
   "note": ""
  },
  {
   "property": "C122",
   "status": "proved",
   "theorems": [
    "C122_simplify",
    "C122_kept_exact",
    "C122_exact_refuted"
   ],
   "note": ""
  },
  {
   "property": "C123",
   "status": "proved",
   "theorems": [
    "C123_decode",
    "C123_tile",
    "C123_encode",
    "C123_large_refuted"
   ],
   "note": ""
  },
  {
   "property": "C124",
   "status": "proved",
   "theorems": [
    "C124_pip",
    "C124_panic",
    "C124_near_edge_refuted"
   ],
   "note": ""
  },
  {
   "property": "C125",
   "status": "proved",
   "theorems": [
    "C125_range",
    "C125_upper_refuted",
    "C125_at_stop",
    "C125_flat_power_refuted",
    "C125_near",
    "C125_monotone",
    "C125_panic"
   ],
   "note": ""
  },
  {
   "property": "C126",
   "status": "proved",
   "theorems": [
    "C126_between",
    "C126_exact_refuted",
    "C126_panic"
   ],
   "note": ""
  },
  {
   "property": "C127",
   "status": "proved",
   "theorems": [
    "C127_to_string_injective",
    "C127_to_string_unread_refuted",
    "C127_geohash"
   ],
   "note": ""
  },
  {
   "property": "C128",
   "status": "proved",
   "theorems": [
    "C128_text",
    "C128_error"
   ],
   "note": ""
  },
  {
   "property": "C129",
   "status": "proved",
   "theorems": [
    "C129_band",
    "C129_tile",
    "C129_outline_refuted"
   ],
   "note": ""
  },
  {
   "property": "C130",
   "status": "proved",
   "theorems": [
    "C130_lazy_any_order",
    "C130_read_tile_any_order",
    "C130_type_last_refuted",
    "C130_other_type_refuted"
   ],
   "note": ""
  },
  {
   "property": "C131",
   "status": "proved",
   "theorems": [
    "C131_written_lines",
    "C131_written_polygons",
    "C131_any_list_bound",
    "C131_input_bound_refuted",
    "C131_room_for_points"
   ],
   "note": ""
  },
  {
   "property": "C132",
   "status": "proved",
   "theorems": [
    "C132_rewrite",
    "C132_flat_ring_refuted"
   ],
   "note": ""
  },
  {
   "property": "C133",
   "status": "proved",
   "theorems": [
    "C133_get_exact",
    "C133_terrarium_binary64",
    "C133_grid",
    "C133_top_refuted"
   ],
   "note": ""
  },
  {
   "property": "C134",
   "status": "proved",
   "theorems": [
    "C134_near_square",
    "C134_clip_tile",
    "C134_clip_down",
    "C134_square",
    "C134_multipolygon",
    "C134_sliver_refuted"
   ],
   "note": ""
  },
  {
   "property": "C135",
   "status": "proved",
   "theorems": [
    "C135_first_zoom",
    "C135_result",
    "C135_hang_refuted"
   ],
   "note": ""
  },
  {
   "property": "C136",
   "status": "proved",
   "theorems": [
    "C136_geometry",
    "C136_accuracy",
    "C136_lazy",
    "C136_new_layer",
    "C136_corner_refuted"
   ],
   "note": ""
  },
  {
   "property": "C137",
   "status": "proved",
   "theorems": [
    "C137_between_sound",
    "C137_every_column",
    "C137_every_row",
    "C137_line",
    "C137_column_refuted",
    "C137_row_refuted",
    "C137_overshoot_refuted"
   ],
   "note": ""
  },
  {
   "property": "C138",
   "status": "proved",
   "theorems": [
    "C138_polygon",
    "C138_thin_refuted"
   ],
   "note": ""
  },
  {
   "property": "C139",
   "status": "proved",
   "theorems": [
    "C139_accuracy",
    "C139_near",
    "C139_same",
    "C139_symmetric",
    "C139_panics",
    "C139_opposite_refuted"
   ],
   "note": ""
  },
  {
   "property": "C140",
   "status": "proved",
   "theorems": [
    "C140_partition",
    "C140_agree",
    "C140_refines",
    "C140_margin_refuted"
   ],
   "note": ""
  },
  {
   "property": "C141",
   "status": "proved",
   "theorems": [
    "C141_panic",
    "C141_kept",
    "C141_off",
    "C141_budget",
    "C141_mean",
    "C141_mean_refuted"
   ],
   "note": ""
  },
  {
   "property": "C142",
   "status": "proved",
   "theorems": [
    "C142_union",
    "C142_lines",
    "C142_polygons",
    "C142_small_refuted",
    "C142_multipoint_refuted"
   ],
   "note": ""
  },
  {
   "property": "C143",
   "status": "proved",
   "theorems": [
    "C143_tile",
    "C143_down",
    "C143_feature",
    "C143_back_refuted",
    "C143_ghost_refuted"
   ],
   "note": ""
  },
  {
   "property": "C144",
   "status": "proved",
   "theorems": [
    "C144_total",
    "C144_keep",
    "C144_small",
    "C144_small_holds",
    "C144_point_refuted"
   ],
   "note": ""
  },
  {
   "property": "C145",
   "status": "proved",
   "theorems": [
    "C145_read_tile",
    "C145_same",
    "C145_corners",
    "C145_raw"
   ],
   "note": ""
  },
  {
   "property": "C146",
   "status": "proved",
   "theorems": [
    "C146_tile",
    "C146_feature"
   ],
   "note": ""
  },
  {
   "property": "C147",
   "status": "proved",
   "theorems": [
    "C147_point",
    "C147_points"
   ],
   "note": ""
  },
  {
   "property": "C148",
   "status": "proved",
   "theorems": [
    "C148_polygon",
    "C148_multipolygon"
   ],
   "note": ""
  },
  {
   "property": "C149",
   "status": "proved",
   "theorems": [
    "C149_kept",
    "C149_polygon"
   ],
   "note": ""
  },
  {
   "property": "C150",
   "status": "proved",
   "theorems": [
    "C150_polygon"
   ],
   "note": ""
  },
  {
   "property": "C151",
   "status": "proved",
   "theorems": [
    "C151_area",
    "C151_multipolygon"
   ],
   "note": ""
  },
  {
   "property": "C152",
   "status": "proved",
   "theorems": [
    "C152_any",
    "C152_polygon",
    "C152_multipolygon",
    "C152_read_refuted"
   ],
   "note": ""
  },
  {
   "property": "C153",
   "status": "proved",
   "theorems": [
    "C153_any",
    "C153_unique",
    "C153_areas",
    "C153_count",
    "C153_one",
    "C153_polygon"
   ],
   "note": ""
  },
  {
   "property": "C154",
   "status": "proved",
   "theorems": [
    "C154_fewer_refuted",
    "C154_layer_refuted"
   ],
   "note": ""
  },
  {
   "property": "C155",
   "status": "proved",
   "theorems": [
    "C155_float",
    "C155_int",
    "C155_ring"
   ],
   "note": ""
  },
  {
   "property": "C156",
   "status": "proved",
   "theorems": [
    "C156_lines",
    "C156_unique",
    "C156_exact",
    "C156_line"
   ],
   "note": ""
  },
  {
   "property": "C157",
   "status": "proved",
   "theorems": [
    "C157_lines",
    "C157_rings",
    "C157_polygons",
    "C157_point",
    "C157_points_refuted"
   ],
   "note": ""
  },
  {
   "property": "C158",
   "status": "proved",
   "theorems": [
    "C158_lines",
    "C158_line_conforms",
    "C158_polygons",
    "C158_rings_refuted",
    "C158_points",
    "C158_point"
   ],
   "note": ""
  },
  {
   "property": "C159",
   "status": "proved",
   "theorems": [
    "C159_lines",
    "C159_polygons",
    "C159_polygons_any",
    "C159_far_refuted"
   ],
   "note": ""
  },
  {
   "property": "C160",
   "status": "proved",
   "theorems": [
    "C160_rings",
    "C160_int_refuted",
    "C160_float"
   ],
   "note": ""
  },
  {
   "property": "C161",
   "status": "proved",
   "theorems": [
    "C161_polygons",
    "C161_bytes",
    "C161_lines"
   ],
   "note": ""
  },
  {
   "property": "C162",
   "status": "proved",
   "theorems": [
    "C162_feature",
    "C162_polygons",
    "C162_lines",
    "C162_points_refuted",
    "C162_any_order",
    "C162_tags"
   ],
   "note": ""
  },
  {
   "property": "C163",
   "status": "proved",
   "theorems": [
    "C163_fields",
    "C163_parts_refuted"
   ],
   "note": ""
  }
 ]
}