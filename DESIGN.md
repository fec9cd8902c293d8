# Formal model of motis-project/nigiri in Rocq (Coq 8.16.1)

## 1 Architecture
* `rocq/theories/X_Model.v` -- Gallina transcription of the C++ code of area X, function by function. Every definition
  cites the file and lines in `/repo` it models; simplifications are stated in that comment.
* `rocq/theories/X_Spec.v`, or the definitions at the top of the `P_X.v` file -- a small specification in the user's
  vocabulary that uses the data types of the model but none of its functions.
* `rocq/theories/X_Proofs.v`, `X_Base.v`, ... -- lemmas.
* `rocq/theories/P_X.v` -- the property theorems, named `Cnn_...`, each followed by an `Example` (or `Cnn_example`) in
  which a concrete, non-trivial input meets the hypotheses, and by `Print Assumptions`.
* A theorem whose name ends in `_refuted` is a *machine-checked counterexample*: it shows that a stronger reading of the
  property is false of the code (a bug or an undocumented limit). The positive theorems of the same property state the
  hypotheses under which the claim does hold.
* `MANIFEST.json` maps property ids to theorem names; `seeded/LOG.jsonl` records the wrong programs the theorems were
  tested against.

## 2 Modelling conventions
* C++ integers are `Z`; wherever a width matters, the wrap, truncation or saturation is explicit in the model
  (`to_i16`, `to_u16`, `mod 256`, `clamp16`, ...). C++ division is `Z.quot`/`Z.rem`.
* `bitfield` (512 days) is `Z -> bool` together with the operations of `bitset`; a bit outside `[0, 512)` is false.
* Vectors are lists, arrays indexed by location/route are total functions, hash maps are association lists or functions
  (iteration order is not observable in the modelled code unless a comment says so).
* Loops are structural recursions or `fold_left`; loops without a syntactic bound carry fuel and a lemma or theorem shows
  that the fuel given is never exhausted (e.g. Dijkstra, interval search, footpath components).
* `utl::verify`/exceptions are explicit failure outcomes (`option`), debug assertions are not modelled.
* Float arithmetic (transfer time factor, interpolated stop times) uses Flocq's binary32/binary64 rounding operators on
  real numbers.

## 3 Properties: what is modelled and how it is proved

| Id | Model | Theorems | Method |
|----|-------|----------|--------|
| C01 | `Pareto_Model.add`: pareto_set.h in-place compaction with the index arithmetic | `C01_*` | invariant (antichain, covers the history) over all histories, for any preorder |
| C02 | `Time_Model.journey_dominates` | `C02_*` | order proofs; composition with C01; refutation for zero-length backward journeys |
| C03 | `Time_Model` interval functions | `C03_*` | set semantics by lia; refutation: an empty interval "overlaps" |
| C04 | `delta` packed word | `C04_*` | round trips, order; refutation: `operator<` is not chronological |
| C05 | `stop`, `footpath` packed words | `C05_*` | bit-level round trips; refutation: the last valid location cannot be a footpath target |
| C06 | delta_t.h, day/minute conversions | `C06_*` | arithmetic with explicit saturation; refutation for negative times |
| C07 | `mam_dist` | `C07_*` | case analysis |
| C08 | `Dial_Model`: bucket queue with cursor | `C08_dial_is_priority_queue` | refinement to a multiset over all operation histories |
| C09 | string_store (vector + index set) | `C09_*` | invariant over histories |
| C10, C11 | `Calendar_Model` | `C10_*`, `C11_*` | loop invariants over days; last-wins fold |
| C12 | `Seq_Model` stop sequence codec | `C12_*` | decoder/encoder round trip for all lists |
| C13 | time dependent footpaths | `C13_*` | walk over sorted interval lists |
| C14, C15 | `Routes_Model`: insertion of vehicles into routes | `C14_*`, `C15_*` | sortedness invariant over all insertion histories; overtaking refuted for differing day offsets |
| C16 | `Raptor_Model.get_earliest_transport` | `C16_first_catchable_vehicle` | scan over days and vehicles, both directions |
| C17 | `Raptor_Model` (whole one-to-one search) | `C17_reported_journeys_are_feasible` | label invariant: every label is an inductive connection of `Raptor_Spec` |
| C18 | same | `C18_search_is_optimal`, `C18_far_start_refuted` | round-based optimality invariant with pruning, lower bounds and range search (labels persist over start times) |
| C19 | same | `C19_*` | bounds on rounds; uniqueness per transfer count |
| C20 | same | `C20_filters_never_violated` | itineraries carry their rides; class/bike/car/wheelchair/reservation filters hold on every section used |
| C21 | `Dijkstra_Model` on `Dial_Model` | `C21_exact_bounded_distances` | settled-node invariant, bounded distances |
| C22 | `Dijkstra_Model` lower bound graph | `C22_*` | edge weights below travel times; composition with C18: the search using the bounds computed by the code is optimal |
| C23, C24, C43, C44 | `Utc_Model`: local time to UTC, frequencies, assistance times | `C23_*`, `C24_*`, `C43_*`, `C44_*` | days grouped by shift; partition of vehicle-days |
| C25 | `Block_Model` | `C25_block_partition` | every trip-day in exactly one chain |
| C26, C27 | `Query_Model` sanitize/flip | `C26_*`, `C27_*` | idempotence, involution |
| C28 | `Query_Model` transfer time settings (binary32) | `C28_*` | Flocq rounding; two refutations |
| C29 | `Start_Model` | `C29_*` | sound/complete start times; three refutations |
| C30 | `Search_Model`: interval search driver | `C30_*` | termination measure, limits; refutations |
| C31, C32 | `Finish_Model`: duplicate merging, route traffic days | `C31_*`, `C32_*` | per-day invariants; three refutations |
| C33-C36 | `Rt_Model`: real-time timetable and GTFS-RT updates | `C33_*`..`C36_*` | invariants over arbitrary message histories; delay propagation against an independent specification |
| C37, C38 | `Tb_Model`: reached and reduction tables | `C37_*`, `C38_*` | history = minimum; refuted for 4096+ vehicles per route |
| C39 | `Foot_Model`: components, Floyd-Warshall, closure | `C39_*` | shortest walks; refuted for one-way footpaths and walks over 255 minutes |
| C40 | `Interp_Model` | `C40_*` | gaps, monotonicity under binary64 rounding |
| C41, C42 | `Routes_Model` layout, section flags | `C41_*`, `C42_*` | index arithmetic of the transposed layout |
| C45 | `Query_Model` matching and roots | `C45_*` | set equality per mode; parent chains by induction |

Properties C46 and later were added after the first round; the same table continues at the end of the section.

| Property | Model | Theorems | Method |
|---|---|---|---|
| C46 | `Tbp_Model` (preprocess.cc) | `C46_*` | invariant over the line based pruning loop; the reduction only removes days |
| C47 | `Tbq_Model` (query_engine.cc, queue.h, get_earliest_transport.h) | `C47_*` | invariant: a queue entry of round k is a vehicle that can be boarded after k rides; refutations for used states and for stops without alighting |
| C48 | `Rec_Model` (reconstruct.cc, optimize_footpaths.cc) | `C48_*` | labels of the search stay inside the 16 bit range; induction over the rounds walked back; each clean-up step keeps the itinerary; refutations for queries with required flags |
| C49 | `Rec_Model`, `Raptor_Model` | `C49_*` | every label of the last start time is supported by a label, start or walk of an earlier round; if the walk back took another branch the journey would be dominated in the result set (C18); refutations for long destination offsets and station start offsets |
| C50 | `Full_Model` = `Start_Model` + `Search_Model` + `Raptor_Model` + `Rec_Model` (no vias, no real-time data, fixed interval) | `C50_*` | invariant over the groups of start times: state of the driver = translated state of the search, every kept journey of the interval is reconstructed (C48, C49); completeness: the first ride of a connection gives a start label (C29), optimality of its start time (C18/C22), no 16 bit overflow (bound on all labels, `Raptor_Bound`) |
| C51 | `Loaded_Model` = `Routes_Model` + `Finish_Model` + `Foot_Model` + route index, registration of bit fields (one data set) | `C51_*` | the models of the single loader steps composed; `offered` (spec: a ride on an input vehicle) against `ride_ok` of the finished timetable in both directions; the timetable invariants assumed by C16-C22, C48-C50 derived from conditions on the input; composition with C50; refutation for overtaking across midnight |
| C52 | `RtSearch_Model` (real-time timetable as seen by the search, `update_lbs`) over `Raptor_Model` (route scan with `scan_rt_stop`) and `Rt_Model` | `C52_*` | spec `possible_now`/`connection_now` of rides after the messages; the search's timetable offers exactly those (iff); messages preserve every hypothesis of C17/C18 (via C33, C35); the static lower bound graph extended by `update_lbs` still gives lower bounds; refutations without `update_lbs`, with another profile, and for cancelled real-time vehicles |
| C53 | `Ota_Model` (whole of one_to_all.cc over `Raptor_Model` without destination, lower bounds 0) | `C53_*` | spec `can_be_at` (unix minutes) from `Raptor_Spec.ready`; soundness from the label invariant `gsinv` (no destination: no taint), completeness from `run_group_ginv`/`closed_reach` with the trivial lower bound 0, and a new invariant `imp`: labels within the bound improve strictly from round to round. Refuted: labels beyond the maximal travel time (F54) |
| C54 | `Fd_Model` (whole of get_fastest_direct.cc; hash map order as a parameter; factor as binary64) | `C54_*` | spec `on_foot`/`direct_connection` over the query; invariant proof of the bucket-queue search as in C21 but with the default distance 32767 and the running end distance; Flocq for the factor. Refuted: destination match mode (F55), start beyond the limit (F56) |
| C55 | `P_OnTrip` (whole of ontrip_train.cc) | `C55_*` | spec `alight`; induction over the stops. Refuted: alighting permission (F57) |
| C56 | `Via_Model` (raptor.h instance with `Vias`: update_route with via states, update_transfers, update_footpaths, update_intermodal_footpaths, add_start, rounds, reporting; no real-time transports, no time-dependent offsets), `Via_Spec`, `Via_Expand` (the via search is a search in an expanded network: location x via state, one route per boarding stop and state), `Via_Sound`, `Via_Genuine`, `P_Via` | `C56_*` | spec `trip`/`visits` know nothing about via states; invariant over the label arrays (`sinv` of the expanded network), induction over rounds and groups |
| C57 | as C56, plus `Via_Opt` (the scan of one route, the phases and rounds reach every label of the expanded network), `Via_Final` (over all start times), `P_Via` | `C57_*` | closure of the labels in the expanded network (invariants `rinv`/`ginv` of Raptor_Opt instantiated there), scan invariant over the triangular table of vehicles; needs `via_once` (refuted without: `C57_tie_refuted`); the eager visiting rule of `Via_Spec` is a real restriction (`C57_later_stay_refuted`) |
| C58 | `Raptor_Model` in both directions, `Pong_Inst.end_starts` | `C58_*` | spec `Pong_Spec` (`opposite`, `end_matches`, `trip`); reversal of trips by induction over the rides (`Pong_Dual`), C17 for one direction, C18 for the other |
| C59 | `Pong_Model` (the loop of pong.cc: continue condition, sort, domination filter, match, reconstruct flag, next start time, final filter, interval), `Prune_Model` (raptor.h with `within_bounds`/`set_bounds`), `Pong_Inst` (both together) | `C59_*` | spec `best_door_to_door`; `Prune_Sound/Genuine/Opt`: soundness and closure of the pruned search relative to the bounds; `Pong_Search`: bounds of the ping never cut a trip at least as good as its result (chain argument joining a forward prefix with a backward suffix); `Pong_Loop`: loop invariant for any two searches meeting the contract. Termination by the external interval. Refuted without `pg_settled` (`C59_late_walk_refuted`) and without the gap condition (`C59_gap_refuted`). Not modelled: legs, special stations, `enrich_with_slow_direct`, replacement of interior legs, final sort |
| C60 | `Direct_Model` (direct.cc:21-583: access lookups, location sets, stop pairs, per-route and per-transport generators, merge by priority queue as the relation `merged`: any head to which no other is preferred) | `C60_*` | spec `Direct_Spec` (`access`, `direct`, `rides_on`, `filters_ok`) on top of `ride_leg` (C48) and `metas` (C26). Soundness per generator entry; order by the FIFO property of a route and a merge lemma; completeness via the first stop pair of the route. Not modelled: time-dependent offsets/footpaths. Refuted: later boarding stops, later sections, exact matching with several locations |
| C61 | `Direct_Model.enriched` (direct.cc:508-560, `std::sort`+`erase_duplicates` as set equality), `search_results` (search.h:318-336) | `C61_*` | by induction over the sorted stream; refuted: overtaken journeys, the erasure in search.h, backward queries |
| C62 | `Alt_Model.leg_alternatives` (leg_alternatives.cc: all; optimize_footpaths.cc as in C48; run.h:39-41), on top of the stream of direct journeys of C60 | `C62_*` | the stream is a sorted merge; take-while, filter and firstn over it; neighbours by `ride_before`/`ride_after`; refuted: added trips, backward queries |
| C63 | `Alt_Model.improved` (pong.cc:36-63, 440-490) as a relation over the windows of a leg list | `C63_*` | induction over the replacement relation with `rides` as invariant; refuted: "earliest" |
| C64 | `Seated_Model.build_seated_trips` (seated.cc:14-289) with arbitrary hash map order, `netex_seated` | `C64_*` | component search invariant (offsets are positions on the calendar, shrinking days), DFS = all maximal walks, measure = number of remaining trip days; refuted: cycles, several variants a day, boarding at junctions, NeTEx |
| C65 | `Resolve_Model.resolve_trip`, `resolve_static_trip_id`, `first_run`, `get_trip_start`, `schedule_transport` (gtfsrt_resolve_run.h, get_transport.cc, frun.cc:58-100) on what `loaded` writes (load_timetable.cc:422-478) | `C65_*` | inversion of the UTC variant on each service day (C23's `expand_trip`), permutation algebra over vehicles and parts; lower_bound on a sorted index; roundtrip; refuted: western zones in get_transport, seated transports over midnight, several trips of one id |
| C66 | `Vp_Model.handle_vehicle_position` on `Rt_Model` (gtfsrt_update.cc:517-617), histories of entities of both kinds | `C66_*` | invariant of C33/C34 extended to positions; loop specifications: events from m on are moved, m minimal; idempotence; refuted: second visit of a stop |
| C67 | `Hrd_Model.hex_str_to_bitset`, `expand_traffic_days` (bitfield.cc:38-88, expand_traffic_days.h) | `C67_*` | loop invariant of the marker search; invariant of the splitting loop (what is left at step i = days that begin at i or later), exactness as an iff; refuted: lost days, exception |
| C68 | `Hrd_Model.local_to_utc`, `to_utc`, `expand_service` (timezone.h, expand_local_to_utc.h, expand_repetitions.h, ref_service.h) | `C68_*` | offset in force defined on instants, conversion exact; per service day iff, hash map as association list, no duplicates; stop sequence per stop; refuted: 03:00 at season start, split services with several train numbers |
| C69 | `Fares_Model.join_legs`, `match_leg_rule`, `load_rules` (fares.cc:206-563, loader/gtfs/fares.cc:161-272) | `C69_*` | ranges as maximal runs; hash table of groups = filter of the rules by key; nested loops = existential over the fields; sort + filter; refuted: overlapping timeframes, duplicates |
| C70 | `Fares_Model.walk`, `extend`, `join_transfers`, `get_fares` (fares.cc:565-747) | `C70_*` | loop = inductive billing relation, int8 counter modulo 256; tickets as infixes of the legs, order by induction over feeds; termination measure; refuted: double billing, hang |
| C71 | `Alert_Model.handle_alert`, `resolve_entity`, `push`, `get_alerts` (gtfsrt_alert.cc:77-300, service_alert.h:82-168) | `C71_*` | relation Names/NamesAll/Kept; lists hold exactly (selector, index) pairs by induction over the history; added twins: loop of add_rt_transport writes all scheduled times; refuted: overlooked kinds, cancelled trips |
| C72 | `Vdv_Model.vdv_step`, `vdv_update_run`, `mono_down`, `first_last`, `apply_vdv` (vdv_aus.cc:452-640, 681-748) | `C72_*` | relations Greedy/Says/Lowered/DropsOut; loop invariant over the stops with the cursor and the delay; suffix minimum of the backward pass; weak state invariant (ordered unless cancelled) over mixed histories; which runs a message is for: C73; refuted: cancellation after a delay, stops only for alighting |
| C73 | `VdvMatch_Model.match_run`, `match_stop`, `try_time`, `hit`, `get_event` (vdv_aus.cc:219-228, 279-430) | `C73_*` | relations FitsStop/Planned/TakesPlace/Begins/Points/Score; the nested loops as one list of hits, candidate of a vehicle = first hit + maximum of the hits from its stop on, induction over the message stops; sorting as permutation + sortedness, take-while of a sorted list; the run id lookup (C65) is an argument |
| C74 | `Stops_Model.add_row`, `add_transfer`, `get_metas`, `closure`, `read_stops` (stop.cc:25-416) | `C74_*` | relations LastOf/FirstOf over rows, Linked/Reach/Near/Given/Foot; invariant over the rows; worklist closure with done/todo invariant and termination by counting; footpath phases as one list of insertions where the first of a pair wins, in-lists as the mirrored list; geometry as functions of abstract coordinates; dropped stops (scripts) not modelled; refuted: forbidden transfers, symmetric equivalence |
| C75 | `TdLeg_Model.specify_td_offsets` (specify_td_offsets.cc) over `Seq_Model.get_td_duration` | `C75_*` | EarliestWalk/LatestWalk defined by the offset in force at a moment (C13), legs compared position by position; refuted: every leg shown is possible |
| C76 | `Link_Model.link_nearby_stations`, `add_stop_groups` (link_nearby_stations.cc:30-84, stop_group.cc) | `C76_*` | Linked/LinkTime/Member; the nested loops as one duplicate free list of pairs; geometry abstract and possibly asymmetric; refuted: links in both directions |
| C77 | `Link_Model.get_metrics` (timetable_metrics.cc:20-75) | `C77_*` | Operates as a relation on trips and days; folds as sums and as minima/maxima; counters do not wrap; `to_str` not modelled |
| C78 | `I18n_Model.read_translations`, `build`, `get`, `translate` (translations.cc:12-195, timetable.cc:42-99) | `C78_*` | Names/Applies/Text/Shown as relations on rows; invariant over lookups (cache entries decode to the texts of their key), any sort that puts the default language first; strings as numbers, field names after parsing; refuted: second value of a record, booking rules |
| C79 | `Shapes_Model.parse_shapes`, `bisect`, `offsets_by_dist`, `trip_offsets`, `get_shape` (shape.cc, shape_prepare.cc:28-253, shapes_storage.cc:53-122, sort_by.h) | `C79_*` | points abstract, doubles as integers (order only); any sorting permutation; nearest segment abstract (its index is in range), comparison of its ends modelled; invariant of the bisection: as many points as stops left, offsets strictly ascending; binary search = first reaching element; first trip alike wins in the sorted tasks (utl::insert_sorted keeps the first of equals: by its use, utl is not in the repository). Refuted: own distances |
| C80 | `Bbox_Model.task_boxes`, `add_segments`, `route_boxes`, `segment_box` (shape_prepare.cc:184-211, 255-316, shapes_storage.cc:163-180) over `Shapes_Model` | `C80_*` | spec `Hull` (contains all points, inside every box that does); invariant over the trips; dropped trivial boxes are absorbed because a hull contains the box of two of its points; `at()` as failure, shown not to happen; the loops over stops and segments are written by index; antimeridian and empty geo::box as None |
| C81 | `Polyline_Model.for_each_trip`, `shape_points` (frun.cc:656-750) | `C81_*` | specs `TripRuns`, `Piece`, `Squeezed`; loop invariant for the trips; induction over the trips for the ends; shapes as an arbitrary function of trip and stretch (C79 for the loaded ones); added real-time runs (no transport) not modelled. Refuted: ends for routed shapes |
| C82 | `Ticket_Model.get_provider_idx`, `register_agency`, `read_identifiers`, `read_links` (timetable.cc:169-186, register.cc:722-729, init_finish.cc:214-221, ticketing.cc:20-112) | `C82_*` | binary search correct on any ascending permutation; string store by induction over the registrations; any sort; trip ticketing ids and ticketing_unavailable flags not modelled. Refuted: lookup while loading |
<!-- MORE -->

## 4 Trusted base
* Coq 8.16.1's kernel (including its `vm_compute` bytecode machine, used in examples and refutations) and the standard library.
* Flocq as a library of *definitions and proved lemmas* in `Query_Model`/`P_Query` (C26-C28) and `Interp_Model`/`P_Interp` (C40).
* The transcription of C++ into Gallina (section 2, the comments in the `_Model` files) -- this is by hand and not checked.
* What `Print Assumptions` lists: **"Closed under the global context"** for every theorem except `C28_*` and `C40_*`, which
  rest on the standard library's axioms for the real numbers: `ClassicalDedekindReals.sig_not_dec`,
  `ClassicalDedekindReals.sig_forall_dec`, `FunctionalExtensionality.functional_extensionality_dep` and
  `Classical_Prop.classic`. No axiom is declared in this development; there are no functors, module types, `Admitted`,
  section-less variables or disabled checks.

## 5 Not modelled
CSV/XML/protobuf/NeTEx/SIRI text parsing (of HRD: the bit fields, the times and the expansion of services are modelled, the
fixed-column parser is not), zip access, string interning details, memory layout and serialisation of cista containers, GPU
search, geo computations (distances, r-trees, shapes), logging, statistics, tracing, multi-threading (parallel loops are
modelled as sequential ones), Lua user scripts, flexible transport. Pieces modelled as stand-alone functions rather than
inside one model of the search: via stops (C56, C57), real-time transports (C52), ping/pong (C58, C59), time-dependent offsets.

## 6 Findings
Behaviour of the code at the pinned commit that contradicts a natural reading of a property. Those with a theorem name are
machine-checked on the model; the others were found while reading.

* `C02_zero_length_backward_refuted`: `journey::dominates` picks the direction by comparing its own start and destination time.
* `C03_overlaps_empty_refuted`: an empty interval overlaps an interval around it.
* `C04_chronological_order_refuted`: `delta::operator<` compares the packed word whose low bits are the days.
* `C05_last_location_refuted`: `register_location` allows an index the footpath type rejects.
* `C06_split_negative_refuted`: splitting a time before the base day yields negative minutes.
* `C15_fifo_refuted`: vehicles of one route can overtake each other when their day offsets differ (ordering compares minutes after midnight only).
* `C18_far_start_refuted`: `update_route` stops scanning a route (`break`) at the first marked stop from which the destination is unreachable.
* `C24_last_departure_refuted`, `C24_through_running_refuted`: the last departure of a frequency is lost; `headways_match` is inverted.
* `C28_*_refuted`: stop transfer times are truncated to 8 bits; `transfer_time_settings::operator==` compares two different non-default settings as equal.
* `C29_*_refuted`: interval extension drops starts at other stops with equal times; an offset of exactly 511 minutes; real-time starts ignore unavailable offsets.
* `C30_*_refuted`: the requested interval may be cut or overflow; slow direct connections are never returned.
* `C31_*_refuted`: duplicate merging can drop trips that overlap only partially or in chains, and ignores boarding permissions.
* `C34_failed_assignment_loses_delay_refuted`, `C35_partial_cancellation_refuted`, `C36_renamed_added_trip_refuted`.
* `C37_large_route_refuted`: more than 4095 vehicles per route mix up days in the trip based search.
* `C39_one_way_*_refuted`, `C39_long_walks_wrap_refuted`: directed footpath components, durations modulo 256.
* `C43_day_offset_refuted`: assistance times are looked up on the wrong day for trips starting on another UTC day.
* `C47_reused_state_*`, `C47_alighting_forbidden_refuted`: a trip based search on a used `query_state` keeps best arrival times and destination
  offsets of the earlier query; the transfer reduction counts stops without alighting as reached. `max_transfers` and all filters are ignored,
  the reduction always uses profile 0.
* F48 `C48_optimization_ignores_wheelchair_refuted`, `C48_optimization_ignores_section_flags_refuted`: the clean-up of the footpaths of a
  reconstructed journey tests `in_allowed()` / `out_allowed()` of a stop without the query's wheelchair requirement and does not look at the
  section flags (bikes, cars, reservation), so a journey of a query with such a requirement can be moved to a stop or section that violates it.
  It also offers the offsets of the query only at stops with exactly the same id, keeps `dest_time_` of the journey although the optimized
  journey may arrive earlier, and compares the duration of the first footpath after applying the transfer time factor twice
  (`find_start_footpath` stores the adjusted duration, `optimize_initial_start_footpath` adjusts it again).
* F49 `C49_long_destination_offset_refuted`, `C49_station_start_offset_refuted`: destination offsets of 511 minutes and more are used by the
  search but rejected by the reconstruction (`find_dest_leg`), and the walk from a start with a non-zero offset (or with an intermodal start plus start
  footpaths) is added to the offset by `get_starts`, while `find_start_footpath` only expects the walk; in both cases the kept journey is dropped
  (search.h:457-475 catches the exception).
* F50 `C51_night_train_missed_refuted`: a slow train 22:00-01:00 and a fast train 23:00-23:50 with the same stops become one route, because
  `get_index` (get_index.h:15-24) compares minutes of the day only (01:00 < 23:50); a query at 21:55 boards the slow train and misses an arrival
  more than an hour earlier.
* F51 `C52_break_refuted`: the scan of a real-time vehicle stops at the first stop whose lower bound is "unreachable", even if nobody could
  board there (raptor.h:1149-1151; the scan of scheduled routes only stops at such a stop if it was reached). Nothing in the library calls
  `rt_timetable::update_lbs`, so an added trip whose first stop has no scheduled service is not found from any of its later stops.
* F52 `C52_other_profile_refuted`: `update_lbs` compares with the static graph of the default profile only and drops edges that are not faster
  there; queries with another profile (cars, bikes, wheelchair) then use bounds that exceed the travel time and lose journeys.
* F53 `C52_cancelled_vehicle_refuted`: `cancel_run` of a vehicle that already has a real-time copy only sets a flag the search never reads; the
  cancelled vehicle is still offered at its last known times.
* F54 `C53_bound_refuted`, `C53_fastest_beyond_bound_refuted`: the one-to-all search writes a label before comparing it with the travel time bound
  (raptor.h:705-716, :795-806), so stops are reported beyond `max_travel_time_` although the comment in one_to_all.cc:39-41 excludes it; the
  bound is not applied to start offsets at all; and for such stops `get_fastest_one_to_all_offsets` (last valid round) can return a slower
  offset than `for_each_one_to_all_round_time` lists.  For backward searches the former returns negative durations, the latter positive ones
  (`ExampleOta.backward_signs`).
* F55 `C54_destination_matching_refuted`: get_fastest_direct.cc:39-48 uses the destination's locations as they are, ignoring `dest_match_mode_`, while the
  start side honours its match mode: for station queries the direct walk from a platform is found in one direction and not in the other.
* F56 `C54_start_beyond_limit_undefined`: get_fastest_direct.cc:27-37 allocates exactly `max_dist` buckets and pushes every start without a check, so a
  start offset ≥ `max_dist` (the query generator passes a small limit) writes outside the array; dial.h only asserts.
* F57 `C55_exit_permission_refuted`: ontrip_train.cc:25-37 offers stops at which alighting is not allowed as starts, and uses the raw transfer time
  (the query's transfer time settings are not applied).
* F58 raptor.h:1221-1243 (`C57_tie_refuted`): on an arrival tie at a crossed via the vehicle already in the target state is kept although the crossing one may be ahead at later stops; with a route that calls twice at the via the better journey is lost
* F59 start_times.cc:257-262 adds the stay of the first via only if the start *is* the via location, while add_start (raptor.h:185-199) counts every location equivalent to it as visited: starting at an equivalent stop skips the stay (by reading; the specification's `Start` presence therefore has no duration)
* F60 update_td_offsets (raptor.h:934) lacks the `target_v == Vias` condition of the other phases: a walk to a destination with vias missing lowers the destination bound (by reading, time-dependent offsets are not modelled)
* F61 raptor.h:676-745 (`C57_later_stay_refuted`): changing at any stop equivalent to a via imposes its minimal stay there (the label without the stay is dropped), so a journey that changes quickly at one stop of the via and stays at another one is not found
* F62 pong.cc:257-260,354-371 (`C59_gap_refuted`): the next start time is the earliest departure found within the look-ahead of the current one plus a minute; a trip that departs before it but arrives behind the look-ahead is skipped for good, although it lies in the returned interval and is shorter than the maximal travel time. Needs a gap of more than a day without departures
* F63 pong.cc:319-333, raptor.h:787-796 (`C59_late_walk_refuted`): `update_footpaths` writes a round time even if it is later than the worst admissible arrival (needed for the bounds), so the ping can report an arrival after the look-ahead while an earlier arrival, also after it, was cut off; the pong then finds the latter only and `pong` throws "no pong". Needs a lower bound below the real walking time (transfer time factor) and no vehicle in time
* F64 pong.cc:266-281 (`Pong_Loop.filter_noop`): the removal of ping results dominated by results compares journeys of opposite orientation; it never removes anything
* F65 pong.cc:266-287 (third case of `C59_interval_covered`): a start time without any arrival within the look-ahead ends the search, also if departures exist later in the requested interval
* F66 direct.cc:414-437 (`C60_later_boarding_stop_refuted`): of several stops of a vehicle at which it can be boarded only the first one is tried; a vehicle that left it before the query time is lost although it can be caught at a later stop
* F67 direct.cc:414-437 (`C60_later_section_refuted`): the same for sections that do not carry bikes/cars/...: if the first pair of stops violates the filter, the shorter valid pair is not tried
* F68 direct.cc:93-104 (`C60_exact_walk_refuted`): with exact matching the transfer time is added after the comparison, so a longer way can replace a shorter one; raptor does not charge it at the ends of the journey at all
* F69 direct.cc:523-530 (`C61_overtaken_refuted`): the stream is sorted by arrival, but the loop over it stops at the first departure behind the interval: a slow journey overtaken by an express that departs after the interval is lost
* F70 search.h:326-336 (`C61_erased_by_search_refuted`): slow direct journeys never carry `is_reconstructed_`, so search.h erases all of them right after adding them; the option has no effect with that search
* F71 search.h:326, pong.cc:418 (`C61_backward_refuted`): backward queries are not flipped before the search for direct journeys (reconstruct.cc:864-867 flips them), so slow direct journeys lead from the destination to the start
* F72 run.h:39-41, leg_alternatives.cc:70-75 (`C62_added_trips_refuted`): `run::operator==` ignores the real-time transport, so two different ADDED trips with the same stop range count as equal and a valid alternative is dropped
* F73 leg_alternatives.cc:135-149 (`C62_backward_refuted`): the query of a backward search is not flipped; alternatives to the first/last ride lead from the query's start to its destination, i.e. in the opposite direction of the journey
* F74 pong.cc:36-63 (`C63_earliest_refuted`): because only the first boardable stop is tried (F66), the "earliest alternative" can be later than the ride it replaces
* F75 seated.cc:215-258 (`C64_cyclic_rules_hang`): the DFS follows every rule inside the component without checking dwell times, so rules a→b→c→b (c back to b the next morning) never end
* F76 seated.cc:184-204 (`C64_ring_lost`): trips in a cycle of rules without entry are in a component without start: they vanish from the timetable
* F77 seated.cc:168-175 (`C64_variants_lost`): only one UTC variant per trip and component is used; a trip that runs several times a day (frequencies.txt) loses all other runs, their days are cleared nevertheless
* F78 seated.cc:215-231 (`C64_unsorted_times`): dwell times are checked when the component is collected, not when trips are appended: a transport can depart before it arrived (only asserted/logged)
* F79 seated.cc:229-231 (`C64_boarding_lost`): the first stop of a following trip is dropped with its in_allowed flag; if the last stop of the previous trip forbids boarding (pickup_type=1, usual), nobody can board the following trip at its first stop. block_id joining (local_to_utc.h:259-266) merges the flags
* F80 netex/load_timetable.cc:1655-1668 (`C64_netex_twice`): a journey that is only the target of a meeting is added on its own and again as part of the joined transport
* F81 gtfsrt_resolve_run.h:27-65 with seated.cc (`C65_seated_wrong_day_refuted`): a stay-seated transport keeps the day offset of its first trip; a trip joined after midnight is found for the date before its own when no start_time is given (and not for its own date)
* F82 get_transport.cc:53-56 (`C65_west_refuted`): the day shift of a local departure is computed with a truncating division; a departure that is on the previous local day (negative sum, zones west of Greenwich) is found for the wrong day
* F83 gtfsrt_resolve_run.cc:18-29, gtfsrt_resolve_run.h:91 (`C65_first_run`): `kBreak` only ends `resolve_trip`, not the loop over the trips with that id: with several trips of one id the run of the last one wins
* F84 gtfsrt_update.cc:548-555 (`C66_second_visit_refuted`): the stop of a vehicle position is the first near stop of the whole vehicle: on loop lines and on blocks/stay-seated chains that return to a stop, a vehicle at a later visit is taken to be at the first one and its whole journey is moved behind its end; the stop range of the trip in the message is ignored
* F85 gtfsrt_update.cc:551-553: the distance test compares the squared distance with 10, i.e. positions must be within 3.2 m of the stop's coordinate (by reading)
* F86 timezone.h:50 (`C68_season_start_refuted`): the first minute of daylight saving time (03:00 for a shift at 02:00) is rejected (`>` instead of `>=`): services with an event at exactly that time lose the service day
* F87 expand_traffic_days.h:73-75 (`C67_split_lost_refuted`): the loop returns at the first section without days of its own left: for a service running on its first two sections on day 1 and on its third on day 2, day 2 is lost without a message
* F88 expand_traffic_days.h:59-69 (`C67_split_prefix_refuted`, `C67_split_gap_refuted`): every start section is split once, so days ending earlier than others that begin at the same section are lost; a service that skips a section on some day raises an exception after its first pieces have already been handed to the consumer
* F89 expand_local_to_utc.h:21-28 (`C68_split_track_refuted`): `section_idx` counts from the start of the service but indexes the range that already begins at the piece: pieces after the first take train number and provider of sections further on, or read past the end
* F90 read_services.h:76-79 (by reading): the last service of a file is expanded outside the try block: an exception there (e.g. F88) ends the whole load, whereas for all others it is logged; service_builder.cc:205-214/231-246: a service whose registration throws is skipped as a transport but its times are still written, so the route's stop times no longer match its transports; service.cc:253-330: partial ranges of an information are ignored when a line for the whole service exists, whatever their order
* F91 fares.cc:720-725 (`C70_billed_once_refuted`): after a ticket with a rule the loop restarts at the last leg of the ticket; if no rule connects it to the next leg, that leg is billed again as a ticket of its own
* F92 loader/gtfs/fares.cc:517-534 (`C70_count_256_hangs`): transfer_count is checked for 0 before it is narrowed to int8_t: 256 becomes 0, and join_transfers loops forever (growing its result) on the first pair of legs the rule fits; -1 (no limit) counts down to 0 after 255 transfers
* F93 fares.cc:322-353 (`C69_overlapping_frames_refuted`): only the first timeframe group that covers the time is used for the lookup: rules of an overlapping group (peak within all-day) never apply
* F94 fares.cc:482-532 (`C69_rule_once_refuted`): a rule with an empty area field is reported once per area of the stop
* F95 loader/gtfs/fares.cc (by reading): area ids that do not exist in areas.txt (likewise networks, timeframes, area sets, leg groups) load as "empty", i.e. the rule applies everywhere instead of nowhere; parse_areas numbers areas per feed while tt.areas_ is shared, so names of a second feed's areas are taken from the first; a repeated area_id shifts all later ones
* F96 service_alert.h:82-146 (`C71_overlooked_refuted`): `route_type_` is written (gtfsrt_alert.cc:162-163) but never read: alerts for all trips of a route type are never returned; the resize before the write also discards entries of higher route types
* F97 service_alert.h:135-146 (`C71_overlooked_refuted`): stop-only alerts are looked up for the stop and its parent, not for the grandparent, unlike the stops of route and trip alerts
* F98 gtfsrt_alert.cc:126-128 (`C71_cancelled_trip_refuted`): a cancelled trip has no real-time twin, so an alert about it (naturally, "trip cancelled") creates a twin that runs as scheduled and is not cancelled; vdv_aus.cc:768-772 does the same
* F99 gtfsrt_alert.cc:19-26 (`C71_example`): a period without end becomes [start, 1970): it contains no time at all; the 64-bit seconds are cast to 32-bit minutes
* F100 vdv_aus.cc:839-842 (by reading): the validity period is stored as communication period and the publication window as impact period, the other way round than the names and the GTFS-RT loader have it
* F101 vdv_aus.cc:734-736 (`C72_cancellation_after_delay_refuted`): cancel_run gets the cached run without its real-time vehicle: once a delay message has created a twin, a later cancellation only switches off the static day (already off) and the twin keeps running
* F102 vdv_aus.cc:488-503 (`C72_alighting_only_refuted`): the first stop of a trip that continues another one in the same vehicle is cancelled if boarding is forbidden there, although through passengers may alight (and the other way round at the last stop); the same happens at the first stop of the message if it omits the earlier stops of the vehicle, as match_run lets the run begin there (vdv_aus.cc:383-388)
* F103 loader/assistance.cc:27-36 (by reading): a row with an unparsable time adds a name and a position but no rule: the rules of all later rows belong to the wrong place, and the last ones are read out of range
* F104 vdv_aus.cc:413-415 (by reading): message stops without a known place give no points but count in the threshold, so a run that fits perfectly at all known stops is not matched if half (30 %) of its stops are unknown; n * 230 * 0.7 is a double that is just below 161 n for some n (3, 6, ...), where exactly 70 % suffice
* F105 stop.cc:86-90 (by reading): get_metas inserts into the hash set it iterates over; a children set with stops that the distance filter removed grows the vector behind the ankerl set, and the loop goes on with dangling iterators
* F106 stop.cc:142-144 (`C74_forbidden_transfer_refuted`): a transfer of type 3 is skipped, so a generated or mirrored footpath may connect the two stops; rows with trips or routes count for all trips
* F107 stop.cc:42-93 (`C74_equivalence_one_way_refuted`): equivalences are computed per stop: the platforms of a namesake within 500 m are equivalent to the stop, but not the other way round
* F108 stop.cc:176, timetable.h: a min_transfer_time of more than 255 minutes at a stop is stored modulo 256
* F109 specify_td_offsets.cc:17-41 (`C75_waiting_dropped_refuted`, `C75_late_walk_closed_refuted`): the leg gets the bare duration of the variant, the waiting or slack in the first component of get_td_duration is dropped; a first leg that has to wait is shown as walked while the offset is closed, a last leg is moved to the end of the period and may then lie in a closed one
* F110 link_nearby_stations.cc:38-40 (`C76_both_directions_refuted`): only the first stop of a link is checked for being near the origin, so a link across that border (2 degrees) exists in one direction
* F111 timetable_metrics.cc:46-59 (`C77_days_counted_twice_refuted`): merged trips and shared transports are counted once per trip id (the TODO in the code); a feed without traffic reports its first day as day 65535 after the begin of the timetable
* F112 translations.cc:68-83 (`C78_booking_rules_refuted`): parse_table has no name for kBookingRules and kLocationGroups, which flex.cc looks up; their translations are skipped silently
* F113 translations.cc:17-36 (`C78_second_value_refuted`): the cache of a record keeps the value of the first lookup; stop_times.txt with a repeated stop_sequence shows the headsign of the first row
* F114 shape_prepare.cc:145-160, 236-239 (`C79_own_distances_refuted`): tasks are keyed by stop sequence only; a trip with other shape_dist_traveled values than the first trip with the same shape and stops gets the offsets of that trip
* F115 ticketing.cc:38 (`C82_lookup_while_loading_refuted`): get_provider_idx does a binary search over provider_id_to_idx_, which is sorted only in finalize (init_finish.cc:216); identifiers read while loading a later feed whose agency id was stored before can get the invalid provider
* Not formalised: netex/load_timetable.cc:1550-1551 moves direction and attributes into the first UTC variant, later variants of the journey (DST) get none
* Not formalised: `agency::set_fare_url` sets the url; `route::set_url` sets the long name; `register_route` with a duplicate id
  misaligns rows; `to_color` reads past its view; `string_store::operator=` has no return; children's lower bounds are
  propagated in index order; `encode_seq_numbers`' result is unused; frequencies with end before start loop for very long; blocks
  are chained by departure only; on-trip queries can return journeys above the maximal travel time; duplicate footpaths with
  different durations keep an arbitrary one.
