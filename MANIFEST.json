{
 "claims": [
  {
   "property": "C01",
   "status": "proved",
   "theorems": [
    "C01_pareto_history",
    "C01_pareto_add_result"
   ],
   "note": ""
  },
  {
   "property": "C02",
   "status": "proved",
   "theorems": [
    "C02_dominance_meaning",
    "C02_dominance_preorder",
    "C02_journey_result_set",
    "C02_zero_length_backward_refuted"
   ],
   "note": ""
  },
  {
   "property": "C03",
   "status": "proved",
   "theorems": [
    "C03_overlaps",
    "C03_intersect",
    "C03_contains",
    "C03_contains_interval",
    "C03_clamp_nearest",
    "C03_shift",
    "C03_overlaps_empty_refuted"
   ],
   "note": ""
  },
  {
   "property": "C04",
   "status": "proved",
   "theorems": [
    "C04_roundtrip",
    "C04_parts",
    "C04_equality",
    "C04_same_day_order",
    "C04_order",
    "C04_chronological_order_refuted",
    "C04_offset_roundtrip"
   ],
   "note": ""
  },
  {
   "property": "C05",
   "status": "proved",
   "theorems": [
    "C05_stop_roundtrip",
    "C05_stop_distinct",
    "C05_cancelled",
    "C05_footpath",
    "C05_footpath_order",
    "C05_last_location_refuted"
   ],
   "note": ""
  },
  {
   "property": "C06",
   "status": "proved",
   "theorems": [
    "C06_roundtrip",
    "C06_roundtrip_back",
    "C06_saturation",
    "C06_monotone",
    "C06_day_minutes_agree",
    "C06_split",
    "C06_day_idx_mam",
    "C06_split_negative_refuted"
   ],
   "note": ""
  },
  {
   "property": "C07",
   "status": "proved",
   "theorems": [
    "C07_mam_dist"
   ],
   "note": ""
  },
  {
   "property": "C08",
   "status": "proved",
   "theorems": [
    "C08_dial_is_priority_queue"
   ],
   "note": ""
  },
  {
   "property": "C09",
   "status": "proved",
   "theorems": [
    "C09_bijection",
    "C09_store"
   ],
   "note": ""
  },
  {
   "property": "C10",
   "status": "proved",
   "theorems": [
    "C10_calendar_exact_days"
   ],
   "note": ""
  },
  {
   "property": "C11",
   "status": "proved",
   "theorems": [
    "C11_exceptions_override_last_wins"
   ],
   "note": ""
  },
  {
   "property": "C12",
   "status": "proved",
   "theorems": [
    "C12_codec_roundtrip",
    "C12_compact_forms_unambiguous"
   ],
   "note": ""
  },
  {
   "property": "C13",
   "status": "proved",
   "theorems": [
    "C13_forward_earliest_start",
    "C13_backward_latest_departure",
    "C13_for_each_footpath_per_target"
   ],
   "note": ""
  },
  {
   "property": "C14",
   "status": "proved",
   "theorems": [
    "C14_routes_sorted_and_complete",
    "C14_split_only_if_needed",
    "C14_loaded_timetable_ok"
   ],
   "note": ""
  },
  {
   "property": "C15",
   "status": "proved",
   "theorems": [
    "C15_no_overtaking",
    "C15_fifo_refuted"
   ],
   "note": ""
  },
  {
   "property": "C16",
   "status": "proved",
   "theorems": [
    "C16_first_catchable_vehicle"
   ],
   "note": ""
  },
  {
   "property": "C17",
   "status": "proved",
   "theorems": [
    "C17_reported_journeys_are_feasible"
   ],
   "note": ""
  },
  {
   "property": "C18",
   "status": "proved",
   "theorems": [
    "C18_search_is_optimal",
    "C18_far_start_refuted"
   ],
   "note": ""
  },
  {
   "property": "C19",
   "status": "proved",
   "theorems": [
    "C19_transfer_limit",
    "C19_one_journey_per_transfer_count"
   ],
   "note": ""
  },
  {
   "property": "C20",
   "status": "proved",
   "theorems": [
    "C20_filters_never_violated"
   ],
   "note": ""
  },
  {
   "property": "C21",
   "status": "proved",
   "theorems": [
    "C21_exact_bounded_distances"
   ],
   "note": ""
  },
  {
   "property": "C22",
   "status": "proved",
   "theorems": [
    "C22_bounds_never_exceed_travel_time",
    "C22_search_with_computed_bounds_is_optimal"
   ],
   "note": ""
  },
  {
   "property": "C23",
   "status": "proved",
   "theorems": [
    "C23_local_to_utc_exact"
   ],
   "note": ""
  },
  {
   "property": "C24",
   "status": "proved",
   "theorems": [
    "C24_frequency_departures",
    "C24_exact_if_divisible",
    "C24_last_departure_refuted",
    "C24_through_running_refuted",
    "C24_offsets_agree"
   ],
   "note": ""
  },
  {
   "property": "C25",
   "status": "proved",
   "theorems": [
    "C25_block_partition"
   ],
   "note": ""
  },
  {
   "property": "C26",
   "status": "proved",
   "theorems": [
    "C26_via_stops",
    "C26_sanitize_twice",
    "C26_sanitized_query"
   ],
   "note": ""
  },
  {
   "property": "C27",
   "status": "proved",
   "theorems": [
    "C27_flip_twice",
    "C27_flip_exchanges_ends",
    "C27_flip_of_sanitized"
   ],
   "note": ""
  },
  {
   "property": "C28",
   "status": "proved",
   "theorems": [
    "C28_adjusted_transfer_time",
    "C28_stop_transfer_truncated_refuted",
    "C28_settings_equality_refuted"
   ],
   "note": ""
  },
  {
   "property": "C29",
   "status": "proved",
   "theorems": [
    "C29_interval_starts_sound",
    "C29_interval_starts_complete",
    "C29_ontrip_starts",
    "C29_shortest_offset",
    "C29_extension_loses_start_refuted",
    "C29_offset_511_refuted",
    "C29_rt_unavailable_offset_refuted"
   ],
   "note": ""
  },
  {
   "property": "C30",
   "status": "proved",
   "theorems": [
    "C30_search_window",
    "C30_extension_grows_within_limits",
    "C30_initial_interval",
    "C30_search_terminates",
    "C30_results_within_limits",
    "C30_slow_direct_never_returned",
    "C30_requested_interval_cut_refuted",
    "C30_fixed_interval_overflow_refuted"
   ],
   "note": ""
  },
  {
   "property": "C31",
   "status": "proved",
   "theorems": [
    "C31_merge_pair",
    "C31_no_service_lost",
    "C31_trips_keep_days_nested",
    "C31_partial_overlap_loses_trip_refuted",
    "C31_chain_loses_trip_refuted",
    "C31_permissions_ignored_refuted"
   ],
   "note": ""
  },
  {
   "property": "C32",
   "status": "proved",
   "theorems": [
    "C32_route_days_cover_events",
    "C32_route_days_tight",
    "C32_vehicle_days_unchanged"
   ],
   "note": ""
  },
  {
   "property": "C33",
   "status": "proved",
   "theorems": [
    "C33_vehicles_run_forward_in_time",
    "C33_one_update"
   ],
   "note": ""
  },
  {
   "property": "C34",
   "status": "proved",
   "theorems": [
    "C34_delays_by_stop_sequence",
    "C34_delays_by_stop_id",
    "C34_before_first_entry_unchanged",
    "C34_failed_assignment_loses_delay_refuted",
    "C34_failed_assignment_gap_refuted",
    "C34_message_by_stop_sequence"
   ],
   "note": ""
  },
  {
   "property": "C35",
   "status": "proved",
   "theorems": [
    "C35_only_the_addressed_vehicle_and_day",
    "C35_partial_cancellation_refuted"
   ],
   "note": ""
  },
  {
   "property": "C36",
   "status": "proved",
   "theorems": [
    "C36_twins_resolve_to_each_other",
    "C36_twin_is_stable",
    "C36_read_after_write",
    "C36_added_trip_is_found_again",
    "C36_added_trip_stays",
    "C36_added_trips_are_distinct",
    "C36_renamed_added_trip_refuted"
   ],
   "note": ""
  },
  {
   "property": "C37",
   "status": "proved",
   "theorems": [
    "C37_query_returns_best_recorded_segment",
    "C37_large_route_refuted"
   ],
   "note": ""
  },
  {
   "property": "C38",
   "status": "proved",
   "theorems": [
    "C38_table_keeps_minimum_of_every_day",
    "C38_reported_improvement",
    "C38_other_locations_unchanged"
   ],
   "note": ""
  },
  {
   "property": "C39",
   "status": "proved",
   "theorems": [
    "C39_footpaths_are_shortest_walks",
    "C39_only_reachable_and_transitive",
    "C39_one_way_footpaths_refuted",
    "C39_one_way_duration_refuted",
    "C39_long_walks_wrap_refuted"
   ],
   "note": ""
  },
  {
   "property": "C40",
   "status": "proved",
   "theorems": [
    "C40_accepted_iff_ends_given",
    "C40_complete_and_monotone",
    "C40_linear"
   ],
   "note": ""
  },
  {
   "property": "C41",
   "status": "proved",
   "theorems": [
    "C41_layout_reads_back"
   ],
   "note": ""
  },
  {
   "property": "C42",
   "status": "proved",
   "theorems": [
    "C42_section_flags"
   ],
   "note": ""
  },
  {
   "property": "C43",
   "status": "proved",
   "theorems": [
    "C43_assistance",
    "C43_day_offset_refuted"
   ],
   "note": ""
  },
  {
   "property": "C44",
   "status": "proved",
   "theorems": [
    "C44_vehicles_fit_routes",
    "C44_shared_stop"
   ],
   "note": ""
  },
  {
   "property": "C45",
   "status": "proved",
   "theorems": [
    "C45_root_is_topmost_ancestor",
    "C45_same_hierarchy_same_root",
    "C45_root_of_cycle",
    "C45_enumerated_locations",
    "C45_matching_agrees_with_enumeration",
    "C45_stations_match_across_tracks",
    "C45_lower_bounds_use_the_same_matching"
   ],
   "note": ""
  },
  {
   "property": "C46",
   "status": "proved",
   "theorems": [
    "C46_transfers_are_feasible"
   ],
   "note": ""
  },
  {
   "property": "C47",
   "status": "proved",
   "theorems": [
    "C47_trip_based_journeys_are_feasible",
    "C47_reused_state_loses_journeys",
    "C47_reused_state_reports_infeasible_journeys",
    "C47_alighting_forbidden_refuted"
   ],
   "note": ""
  },
  {
   "property": "C48",
   "status": "proved",
   "theorems": [
    "C48_reconstruction_is_an_itinerary",
    "C48_reconstruction_with_optimization",
    "C48_optimization_ignores_wheelchair_refuted",
    "C48_optimization_ignores_section_flags_refuted"
   ],
   "note": ""
  },
  {
   "property": "C49",
   "status": "proved",
   "theorems": [
    "C49_kept_journeys_are_reconstructed",
    "C49_long_destination_offset_refuted",
    "C49_station_start_offset_refuted"
   ],
   "note": ""
  },
  {
   "property": "C50",
   "status": "proved",
   "theorems": [
    "C50_returned_journeys_are_itineraries",
    "C50_no_connection_is_missed"
   ],
   "note": ""
  },
  {
   "property": "C51",
   "status": "proved",
   "theorems": [
    "C51_loading_succeeds",
    "C51_rides_are_input_vehicles",
    "C51_input_vehicles_are_rides",
    "C51_route_index_exact",
    "C51_loaded_timetable_ok",
    "C51_no_connection_is_missed",
    "C51_night_train_missed_refuted"
   ],
   "note": ""
  },
  {
   "property": "C52",
   "status": "proved",
   "theorems": [
    "C52_rides_are_possible_now",
    "C52_event_times",
    "C52_messages_keep_timetable_ok",
    "C52_reported_journeys_are_possible_now",
    "C52_search_is_optimal_now",
    "C52_cancelled_vehicle_refuted",
    "C52_break_refuted",
    "C52_other_profile_refuted"
   ],
   "note": ""
  },
  {
   "property": "C53",
   "status": "proved",
   "theorems": [
    "C53_reported_times_are_possible",
    "C53_nothing_missed",
    "C53_more_rides_are_faster",
    "C53_fastest_offset_is_optimal",
    "C53_bound_refuted",
    "C53_fastest_beyond_bound_refuted"
   ],
   "note": ""
  },
  {
   "property": "C54",
   "status": "proved",
   "theorems": [
    "C54_fastest_direct_is_shortest_walk",
    "C54_given_value_is_used",
    "C54_factor",
    "C54_one_footpath_suffices",
    "C54_direction_independent",
    "C54_destination_matching_refuted",
    "C54_start_beyond_limit_undefined"
   ],
   "note": ""
  },
  {
   "property": "C55",
   "status": "proved",
   "theorems": [
    "C55_starts_are_the_possible_exits",
    "C55_exit_permission_refuted"
   ],
   "note": ""
  },
  {
   "property": "C56",
   "status": "proved",
   "theorems": [
    "C56_reported_journeys_visit_all_vias",
    "C56_reported_journeys_are_via_connections"
   ],
   "note": ""
  },
  {
   "property": "C57",
   "status": "proved",
   "theorems": [
    "C57_via_search_is_optimal",
    "C57_best_arrival_is_exact",
    "C57_tie_refuted",
    "C57_later_stay_refuted"
   ],
   "note": ""
  },
  {
   "property": "C58",
   "status": "proved",
   "theorems": [
    "C58_same_trips",
    "C58_way_back"
   ],
   "note": ""
  },
  {
   "property": "C59",
   "status": "proved",
   "theorems": [
    "C59_no_exception",
    "C59_results_are_best_trips",
    "C59_no_duplicates",
    "C59_every_best_trip_is_returned",
    "C59_interval_covered",
    "C59_day_query_exact",
    "C59_late_walk_refuted",
    "C59_gap_refuted"
   ],
   "note": ""
  },
  {
   "property": "C60",
   "status": "proved",
   "theorems": [
    "C60_sound",
    "C60_sorted",
    "C60_no_duplicates",
    "C60_complete",
    "C60_complete_simple_route",
    "C60_stream_exists",
    "C60_later_boarding_stop_refuted",
    "C60_later_section_refuted",
    "C60_exact_walk_refuted"
   ],
   "note": ""
  },
  {
   "property": "C61",
   "status": "proved",
   "theorems": [
    "C61_sound",
    "C61_complete",
    "C61_overtaken_refuted",
    "C61_erased_by_search_refuted",
    "C61_backward_refuted"
   ],
   "note": ""
  },
  {
   "property": "C62",
   "status": "proved",
   "theorems": [
    "C62_alternatives_fit",
    "C62_number",
    "C62_interior_replacement",
    "C62_complete",
    "C62_added_trips_refuted",
    "C62_backward_refuted"
   ],
   "note": ""
  },
  {
   "property": "C63",
   "status": "proved",
   "theorems": [
    "C63_keeps_journey",
    "C63_total",
    "C63_earliest_refuted"
   ],
   "note": ""
  },
  {
   "property": "C64",
   "status": "proved",
   "theorems": [
    "C64_sound",
    "C64_terminates",
    "C64_exact",
    "C64_sorted",
    "C64_deterministic",
    "C64_cyclic_rules_hang",
    "C64_ring_lost",
    "C64_variants_lost",
    "C64_unsorted_times",
    "C64_boarding_lost",
    "C64_netex_twice"
   ],
   "note": ""
  },
  {
   "property": "C65",
   "status": "proved",
   "theorems": [
    "C65_exact",
    "C65_departure",
    "C65_lookup",
    "C65_roundtrip",
    "C65_start_date",
    "C65_local_day",
    "C65_west_refuted",
    "C65_first_run",
    "C65_seated_wrong_day_refuted"
   ],
   "note": ""
  },
  {
   "property": "C66",
   "status": "proved",
   "theorems": [
    "C66_vehicles_run_forward_in_time",
    "C66_position",
    "C66_observed_time",
    "C66_not_at_a_stop",
    "C66_idempotent",
    "C66_second_visit_refuted"
   ],
   "note": ""
  },
  {
   "property": "C67",
   "status": "proved",
   "theorems": [
    "C67_roundtrip",
    "C67_markers",
    "C67_rejected",
    "C67_digits",
    "C67_pieces_sound",
    "C67_split_exact",
    "C67_begin_to_end",
    "C67_split_lost_refuted",
    "C67_split_prefix_refuted",
    "C67_split_gap_refuted"
   ],
   "note": ""
  },
  {
   "property": "C68",
   "status": "proved",
   "theorems": [
    "C68_conversion",
    "C68_exact",
    "C68_days_apart",
    "C68_service",
    "C68_stops",
    "C68_season_start_refuted",
    "C68_split_track_refuted"
   ],
   "note": ""
  },
  {
   "property": "C69",
   "status": "proved",
   "theorems": [
    "C69_legs_partition",
    "C69_legs_joined",
    "C69_legs_split",
    "C69_rules_iff",
    "C69_rules_sorted",
    "C69_unscheduled",
    "C69_rules_iff_disjoint_frames",
    "C69_rule_once_refuted",
    "C69_overlapping_frames_refuted"
   ],
   "note": ""
  },
  {
   "property": "C70",
   "status": "proved",
   "theorems": [
    "C70_tickets",
    "C70_order",
    "C70_all_billed",
    "C70_billed_once",
    "C70_total",
    "C70_get_fares",
    "C70_loaded_count",
    "C70_billed_once_refuted",
    "C70_count_256_hangs"
   ],
   "note": ""
  },
  {
   "property": "C71",
   "status": "proved",
   "theorems": [
    "C71_alerts_of_a_place",
    "C71_alerts_change_no_vehicle",
    "C71_cancelled_trip_refuted",
    "C71_overlooked_refuted"
   ],
   "note": ""
  },
  {
   "property": "C72",
   "status": "proved",
   "theorems": [
    "C72_update",
    "C72_forward_in_time",
    "C72_cancellation_after_delay_refuted",
    "C72_alighting_only_refuted"
   ],
   "note": ""
  },
  {
   "property": "C73",
   "status": "proved",
   "theorems": [
    "C73_matched_runs",
    "C73_exact_run_is_found"
   ],
   "note": ""
  },
  {
   "property": "C74",
   "status": "proved",
   "theorems": [
    "C74_footpaths",
    "C74_both_ways",
    "C74_equivalences",
    "C74_transfer_times",
    "C74_stations",
    "C74_stay_seated",
    "C74_forbidden_transfer_refuted",
    "C74_equivalence_one_way_refuted"
   ],
   "note": ""
  },
  {
   "property": "C75",
   "status": "proved",
   "theorems": [
    "C75_only_the_ends",
    "C75_first_leg",
    "C75_first_leg_walkable",
    "C75_last_leg",
    "C75_stays_connected"
   ],
   "note": ""
  },
  {
   "property": "C76",
   "status": "proved",
   "theorems": [
    "C76_nearby_links",
    "C76_nearby_links_mirrored",
    "C76_links_symmetric",
    "C76_stop_groups"
   ],
   "note": ""
  },
  {
   "property": "C77",
   "status": "proved",
   "theorems": [
    "C77_counts",
    "C77_first_last"
   ],
   "note": ""
  },
  {
   "property": "C78",
   "status": "proved",
   "theorems": [
    "C78_shown_in_preferred_language",
    "C78_lookups_extend"
   ],
   "note": ""
  },
  {
   "property": "C79",
   "status": "proved",
   "theorems": [
    "C79_shape_in_sequence_order",
    "C79_offsets_by_stops",
    "C79_offsets_by_distance",
    "C79_first_point_reaching",
    "C79_shape_of_trip",
    "C79_parts_join",
    "C79_whole_shape",
    "C79_own_distances_refuted"
   ],
   "note": ""
  },
  {
   "property": "C80",
   "status": "proved",
   "theorems": [
    "C80_boxes"
   ],
   "note": ""
  },
  {
   "property": "C81",
   "status": "proved",
   "theorems": [
    "C81_trips",
    "C81_polyline",
    "C81_from_stop_to_stop",
    "C81_short_range",
    "C81_routed_ends_refuted"
   ],
   "note": ""
  },
  {
   "property": "C82",
   "status": "proved",
   "theorems": [
    "C82_agency_lookup",
    "C82_lookup_while_loading_refuted",
    "C82_identifiers",
    "C82_links"
   ],
   "note": ""
  }
 ]
}